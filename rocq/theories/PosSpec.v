(** What the mapping of positions must do, for C27: a line of the editor and the same line of the
    preprocessed text are cut into pieces which correspond. *)
From Coq Require Import List ZArith Bool String Ascii.
From Verif Require Import PreTypes.
Import ListNotations.
Local Open Scope Z_scope.

(** [Code n]: n characters which are the same in both texts. [Use name args width info]: in the
    editor a macro's name of [name] characters followed by [args] characters of arguments; in the
    preprocessed text an expansion of [width] characters. *)
Inductive piece := Code (n : Z) | Use (name args width : Z) (info : Z * Z).

Definition edit_width (p : piece) : Z := match p with Code n => n | Use n a _ _ => n + a end.
Definition text_width (p : piece) : Z := match p with Code n => n | Use _ _ w _ => w end.
Definition edit_end (l : list piece) : Z := fold_right Z.add 0 (map edit_width l).
Definition text_end (l : list piece) : Z := fold_right Z.add 0 (map text_width l).

Definition proper (p : piece) : Prop :=
  match p with Code n => 0 <= n | Use n a w _ => 0 < n /\ 0 <= a /\ 0 <= w end.
Definition is_use (p : piece) : bool := match p with Use _ _ _ _ => true | _ => false end.

(** The entries for a line made of these pieces, beginning at column [c]. *)
Fixpoint entries (line c : Z) (l : list piece) : list offset :=
  match l with
  | [] => []
  | Code n :: tl => entries line (c + n) tl
  | Use n a w (i, f) :: tl =>
      Offset (Rng (Pos line c) (Pos line (c + n))) (w - n) a i f :: entries line (c + n + a) tl
  end.

(** [same_place l u s]: column u of the editor and column s of the preprocessed text lie at the same
    place of a piece of code. *)
Definition same_place (l : list piece) (u s : Z) : Prop :=
  exists before n after i, l = before ++ Code n :: after /\ 0 <= i <= n /\
    u = edit_end before + i /\ s = text_end before + i.

(** Everything before the place that follows a macro use, including the use, is visible. *)
Fixpoint uses_visible (l : list piece) (rest : Z) : Prop :=
  match l with
  | [] => True
  | Use _ _ w _ :: tl => 0 < w + text_end tl + rest /\ uses_visible tl rest
  | _ :: tl => uses_visible tl rest
  end.
