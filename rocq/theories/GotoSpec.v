(** What "go to definition" and "hover" should show. *)
From Coq Require Import List ZArith Bool String Ascii Arith.
From Verif Require Import PreTypes PosModel PosSpec PosProofs AstIdModel AstIdSpec TypeRefModel ItemTreeModel ItemTreeSpec FindDefModel FindDefSpec GotoModel.
Import ListNotations.
Local Open Scope string_scope.
Local Open Scope Z_scope.
Local Open Scope list_scope.

Definition le (a b : pos) : Prop := pline a < pline b \/ (pline a = pline b /\ pcol a <= pcol b).
Definition lt (a b : pos) : Prop := pline a < pline b \/ (pline a = pline b /\ pcol a < pcol b).
Definition inside (a b : range) : Prop := le (rstart b) (rstart a) /\ le (rend a) (rend b).

(** The lines of a file, cut into code and macro uses (PosSpec), are those the entries were made from. *)
Definition written (s : source) (lines : Z -> list piece) : Prop :=
  forall k, Forall PosSpec.proper (lines k) /\ short (lines k) /\ on_line (so_offsets s) k = entries k 0 (lines k).

(** A place of the editor and a place of the preprocessed text are the same place of the code. *)
Definition same (lines : Z -> list piece) (u s : pos) : Prop := pline u = pline s /\ seen (lines (pline u)) (pcol u) (pcol s).
Definition no_uses (l : list piece) : Prop := Forall (fun p => is_use p = false) l.

(** [u] is where the editor shows the range [r] of the preprocessed text; the range is in one line, or there are no macro
    uses in its first and last line. *)
Definition shown (lines : Z -> list piece) (r u : range) : Prop :=
  same lines (rstart u) (rstart r) /\ same lines (rend u) (rend r) /\
  (pline (rstart r) = pline (rend r) \/ (no_uses (lines (pline (rstart r))) /\ no_uses (lines (pline (rend r))))).

(** The place touches the name of a macro use: it is in the name or right behind it. *)
Definition touches (lines : Z -> list piece) (u : pos) (before : list piece) (name : Z) : Prop :=
  exists args width info after, lines (pline u) = before ++ Use name args width info :: after /\
    edit_end before <= pcol u <= edit_end before + name.
Definition in_code (lines : Z -> list piece) (u : pos) : Prop := forall before name, ~ touches lines u before name.
(** The first use that is touched, and its entry. *)
Definition first_touched (lines : Z -> list piece) (u : pos) (o : offset) : Prop :=
  exists before name args width info after, lines (pline u) = before ++ Use name args width info :: after /\
    edit_end before <= pcol u <= edit_end before + name /\
    (forall b n, touches lines u b n -> edit_end before <= edit_end b) /\
    o = Offset (Rng (Pos (pline u) (edit_end before)) (Pos (pline u) (edit_end before + name))) (width - name) args (fst info) (snd info).

(** The place is not in an argument of a macro use. *)
Definition outside_arguments (s : source) (u : pos) : Prop :=
  Forall (fun a => range_contains_pos (fst a) u = false) (on_line (so_args s) (pline u)).

(** The smallest node at a place: it holds the place, and none of its children does. *)
Definition holds (text : string) (n : syn) (p : pos) : Prop := le (rstart (node_range text n)) p /\ lt p (rend (node_range text n)).
Definition smallest (text : string) (root : syn) (p : pos) (s : spot) : Prop :=
  spot_in root s /\ holds text (sp_node s) p /\ forall c, In c (children (sp_node s)) -> ~ holds text c p.
