(** What documents a declaration, for C54. *)
From Coq Require Import List Bool Arith String Ascii.
From Verif Require Import DocModel.
Import ListNotations.
Local Open Scope string_scope.
Local Open Scope nat_scope.
Local Open Scope list_scope.

(** Nodes in the order of the file, each beginning in the row after the one the previous ends in. *)
Fixpoint stacked (l : list node) : Prop :=
  match l with
  | [] => True
  | a :: l' => match l' with [] => True | b :: _ => start_row b = S (end_row a) end /\ stacked l'
  end.
Definition one_row (n : node) : Prop := start_row n = end_row n.
Definition comments (l : list node) : list node := filter (fun n => kind_eqb (k n) Comment) l.
Definition pragmas (l : list node) : nat := List.length (filter (fun n => kind_eqb (k n) Pragma) l).

(** [block] can stand above the declaration [d] as its documentation: comments and at most one pragma, without a free row,
    up to the declaration; a comment of several rows can only be the first. *)
Definition documents (block : list node) (d : node) : Prop :=
  stacked (block ++ [d]) /\
  (forall n, In n block -> k n = Comment \/ k n = Pragma) /\
  pragmas block <= 1 /\
  (forall n rest, block = n :: rest -> forall c, In c rest -> k c = Comment -> one_row c).

(** ** What a comment says *)
Definition spaces (s : string) : Prop := forall c, In c (list_ascii_of_string s) -> is_space c = true.
Definition stars (s : string) : Prop := forall c, In c (list_ascii_of_string s) -> c = "*"%char.
Definition begins_with (f : ascii -> bool) (s : string) : Prop :=
  exists c s', s = String c s' /\ f c = true.
Definition ends_with (e s : string) : Prop := exists s', s = (s' ++ e)%string.

(** ** How Markdown is read: a backslash takes the meaning from the bracket or backslash after it. *)
Inductive sign := Plain (c : ascii) | Tag (c : ascii).
Definition bracket (c : ascii) : bool := Ascii.eqb c "<" || Ascii.eqb c ">".
Fixpoint signs (s : string) (escaped : bool) : list sign :=
  match s with
  | EmptyString => if escaped then [Plain "\"] else []
  | String c s' =>
      if escaped then
        if bracket c || Ascii.eqb c "\" then Plain c :: signs s' false else Plain "\" :: Plain c :: signs s' false
      else if Ascii.eqb c "\" then signs s' true
      else (if bracket c then Tag c else Plain c) :: signs s' false
  end.
Definition markdown (s : string) : list sign := signs s false.
