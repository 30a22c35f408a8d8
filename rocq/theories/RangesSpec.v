(** Positions and the ranges of positions. *)
From Coq Require Import ZArith.
From Verif Require Import PreTypes.
Local Open Scope Z_scope.

(** document order *)
Definition before (p q : pos) : Prop := pline p < pline q \/ pline p = pline q /\ pcol p <= pcol q.
(** both ends belong to a range, as for [intersect] *)
Definition inside (p : pos) (r : range) : Prop := before (rstart r) p /\ before p (rend r).
(** positions that exist *)
Definition u32_pos (p : pos) : Prop := 0 <= pline p < 4294967296 /\ 0 <= pcol p < 4294967296.
Definition u32_range (r : range) : Prop := u32_pos (rstart r) /\ u32_pos (rend r).
