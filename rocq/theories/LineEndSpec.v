(** Line-ending normalisation as a relation: the text is cut into pieces; a CR LF piece becomes LF,
    every other byte, not part of such a pair, is kept. *)
From Coq Require Import List NArith.
Import ListNotations.
Local Open Scope N_scope.

Inductive normalized : list N -> list N -> Prop :=
| nz_nil : normalized [] []
| nz_pair s t : normalized s t -> normalized (13 :: 10 :: s) (10 :: t)
| nz_byte c s t : (forall tl, ~ (c = 13 /\ s = 10 :: tl)) -> normalized s t -> normalized (c :: s) (c :: t).

Definition has_crlf (s : list N) : Prop := exists a b, s = a ++ 13 :: 10 :: b.
