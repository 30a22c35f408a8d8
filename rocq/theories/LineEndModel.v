(** Model of LineEndings::normalize, crates/sourcepawn_lsp/src/line_index.rs:31-77, on bytes. *)
From Coq Require Import List NArith Bool.
Import ListNotations.
Local Open Scope N_scope.

Inductive endings := Unix | Dos.

Definition cr : N := 13.
Definition lf : N := 10.

(** line_index.rs:44: position of the first "\r\n" *)
Fixpoint find_crlf (src : list N) : option nat :=
  match src with
  | a :: (b :: _) as tl =>
      if (a =? cr) && (b =? lf) then Some 0%nat else option_map S (find_crlf tl)
  | _ => None
  end.

(** [tail.copy_within(gap..idx, 0)] *)
Definition copy_within (tail : list N) (gap idx : nat) : list N :=
  firstn (idx - gap) (skipn gap tail) ++ skipn (idx - gap) tail.

(** line_index.rs:46-76. [done] is the part of [buf] before [tail]; one unit of fuel per iteration;
    None: out of fuel. *)
Fixpoint norm_loop (fuel : nat) (done tail : list N) (gap : nat) (seen : bool) : option (list N * endings) :=
  match fuel with
  | O => None
  | S fuel =>
      let go idx :=
        let tail := copy_within tail gap idx in
        let done := done ++ firstn (idx - gap) tail in
        let tail := skipn (idx - gap) tail in
        if Nat.eqb (List.length tail) gap
        then let buf := done ++ tail in Some (firstn (List.length buf - gap) buf, Dos)
        else norm_loop fuel done tail (S gap) true in
      match find_crlf (skipn gap tail) with
      | None => if seen then go (List.length tail) else Some (done ++ tail, Unix)
      | Some i => go (i + gap)%nat
      end
  end.

(** The fuel covers every iteration: each one but the last finds another pair. *)
Definition normalize (src : list N) : option (list N * endings) :=
  norm_loop (S (S (List.length src))) [] src 0 false.
