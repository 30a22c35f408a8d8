(** Model of [intersect], crates/syntax/src/utils.rs:35-64. u32 components are Z. *)
From Coq Require Import ZArith Bool.
From Verif Require Import PreTypes.
Local Open Scope Z_scope.

(** utils.rs:40-64 *)
Definition intersect (a b : range) : option range :=
  let start :=
    if (pline (rstart b) <? pline (rstart a))
       || ((pline (rstart a) =? pline (rstart b)) && (pcol (rstart b) <? pcol (rstart a)))
    then rstart a else rstart b in
  let end_ :=
    if (pline (rend a) <? pline (rend b))
       || ((pline (rend a) =? pline (rend b)) && (pcol (rend a) <? pcol (rend b)))
    then rend a else rend b in
  if (pline end_ <? pline start) || ((pline start =? pline end_) && (pcol end_ <? pcol start))
  then None else Some (Rng start end_).
