(** Model of the mapping between editor positions and positions in the preprocessed text:
    crates/ide/src/lib.rs:221-297, crates/preprocessor/src/offset.rs, crates/syntax/src/lib.rs:65-77
    and the slice of crates/ide/src/hover.rs:113-164. The maps from a line to its entries are lists of
    (line, entry) in push order, as in PreModel. *)
From Coq Require Import List ZArith Bool String Ascii.
From Verif Require Import PreTypes.
Import ListNotations.
Local Open Scope Z_scope.

(** [map.get(&line)]; a line without entries is absent, and both uses below treat an absent line as
    one without entries. *)
Definition on_line {A} (l : list (Z * A)) (line : Z) : list A :=
  map snd (filter (fun p => fst p =? line) l).

(** syntax/src/lib.rs:65-77 *)
Definition range_contains_pos (r : range) (p : pos) : bool :=
  if (pline p <? pline (rstart r)) || (pline (rend r) <? pline p) then false
  else if (pline (rstart r) =? pline p) && (pcol p <? pcol (rstart r)) then false
  else if (pline (rend r) =? pline p) && (pcol (rend r) <? pcol p) then false
  else true.

(** offset.rs:32-44 *)
Definition offset_contains (o : offset) (p : pos) : bool :=
  if (pline p <? pline (rstart (o_range o))) || (pline (rend (o_range o)) <? pline p) then false
  else if ((pline (rstart (o_range o)) =? pline p) && (pcol p <? pcol (rstart (o_range o))))
       || ((pline (rend (o_range o)) =? pline p) && (pcol (rend (o_range o)) <? pcol p)) then false
  else true.

(** i32::saturating_sub_unsigned *)
Definition i32_min : Z := - 2 ^ 31.
Definition sub_unsigned (a b : Z) : Z := Z.max i32_min (a - b).
(** u32::saturating_add_signed *)
Definition u32_max : Z := 2 ^ 32 - 1.
Definition add_signed (a d : Z) : Z := Z.min u32_max (Z.max 0 (a + d)).

(** [offset.diff.saturating_sub_unsigned(offset.args_diff)] *)
Definition change (o : offset) : Z := sub_unsigned (o_diff o) (o_args_diff o).
Definition total (l : list offset) : Z := fold_right Z.add 0 (map change l).

(** ide/src/lib.rs:236-268; the result is the mapped range found, if any, and the new position. The
    overflow of the i32 sum is not modelled. *)
Definition u_pos_to_s_pos (args : list (Z * (range * range))) (offs : list (Z * offset)) (p : pos)
  : option range * pos :=
  match find (fun a => range_contains_pos (fst a) p) (on_line args (pline p)) with
  | Some (u, s) => (Some u, rstart s)
  | None =>
      (None, Pos (pline p) (add_signed (pcol p)
        (total (filter (fun o => pcol (rend (o_range o)) <=? pcol p) (on_line offs (pline p))))))
  end.

(** One of the two loops of ide/src/lib.rs:276-293. The negation of i32::MIN is not modelled. *)
Fixpoint unshift (offs : list offset) (c : Z) : Z :=
  match offs with
  | [] => c
  | o :: tl =>
      unshift tl (if pcol (rstart (o_range o)) <? c then add_signed c (- change o) else c)
  end.

(** ide/src/lib.rs:271-297 *)
Definition s_range_to_u_range (offs : list (Z * offset)) (r : range) : range :=
  let l := on_line offs (pline (rstart r)) in
  Rng (Pos (pline (rstart r)) (unshift l (pcol (rstart r))))
      (Pos (pline (rend r)) (unshift l (pcol (rend r)))).

(** goto_definition.rs:106-113: the macro use at a position (the lookup of the macro itself is not
    modelled). *)
Definition find_use (offs : list (Z * offset)) (p : pos) : option offset :=
  find (fun o => offset_contains o p) (on_line offs (pline p)).

(** hover.rs:127-154: the columns of the preprocessed line shown for a use. *)
Definition hover_slice (offs : list (Z * offset)) (line : Z) (o : offset) : Z * Z :=
  let prev := filter (fun x => pcol (rstart (o_range x)) <? pcol (rstart (o_range o))) (on_line offs line) in
  let move c := fold_left (fun c x => add_signed c (change x)) prev c in
  (move (pcol (rstart (o_range o))), add_signed (move (pcol (rend (o_range o)))) (o_diff o)).
