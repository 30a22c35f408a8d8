(** Which lines are inactive code. *)
From Coq Require Import List ZArith Bool String.
From Verif Require Import PreTypes PreModel CondSpec.
Import ListNotations.
Local Open Scope Z_scope.

Definition covers (rs : list range) (line : Z) : Prop :=
  exists r, In r rs /\ pline (rstart r) <= line <= pline (rend r).

(** Whole lines, in order, with at least one line left out between two of them: disjoint, ordered
    and maximal. *)
Fixpoint apart (rs : list range) : Prop :=
  match rs with
  | [] => True
  | r :: tl =>
      pcol (rstart r) = 0 /\ pline (rstart r) <= pline (rend r) /\
      match tl with [] => True | r' :: _ => pline (rend r) + 1 < pline (rstart r') end /\ apart tl
  end.

Definition single_line (r : range) : Prop := pline (rstart r) = pline (rend r).
Definition line (r : range) : Z := pline (rstart r).
Fixpoint increasing (l : list Z) : Prop :=
  match l with
  | [] => True
  | x :: tl => match tl with [] => True | y :: _ => x < y end /\ increasing tl
  end.

(** The end of line [e] was read in inactive code. *)
Definition skipped_newline (e : event) : bool :=
  negb (kept e) && kind_eqb (s_kind (e_sym e)) KNewline.
(** [e] is an #endif that closes a chain inside inactive code. *)
Definition inner_endif (e : event) : bool :=
  kind_eqb (s_kind (e_sym e)) (KDir MEndif) &&
  match conds (e_after e) with Activated :: _ | NotActivated :: _ => true | _ => false end.
Definition event_line (e : event) : Z := pline (rstart (s_range (e_sym e))).
(** Where the text of the line ends, or the #endif. *)
Definition event_end (e : event) : pos :=
  Pos (event_line e)
      (if kind_eqb (s_kind (e_sym e)) KNewline then pcol (rstart (s_range (e_sym e))) else pcol (rend (s_range (e_sym e)))).
(** The lines of a file that were skipped. *)
Definition skipped_lines (tr : list event) : list Z := map event_line (filter skipped_newline tr).
