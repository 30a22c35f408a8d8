(** What going to the definition of a member of an enum struct should do, said with positions in the
    source only. *)
From Coq Require Import List String.
From Verif Require Import EnumStructModel.
Import ListNotations.

(** A child that declares a member called [n]. *)
Definition is_field (c : child) (n : name) (t : type_ref) : Prop :=
  c_kind c = KField /\ c_name c = Some n /\ c_type c = Some t.
Definition is_method (c : child) (n : name) : Prop := c_kind c = KMethod /\ c_name c = Some n.
Definition is_member (c : child) (n : name) : Prop := (exists t, is_field c n t) \/ is_method c n.

(** [c] declares the member [n]: it is called so, and nothing behind it is. *)
Definition declares (l : list child) (n : name) (before : list child) (c : child) (after : list child) : Prop :=
  l = before ++ c :: after /\ is_member c n /\ forall c', In c' after -> ~ is_member c' n.

(** Every field has a name and a type, as in source without syntax errors. *)
Definition complete (l : list child) : Prop :=
  forall c, In c l -> c_kind c = KField -> exists n t, is_field c n t.
(** Different children have different nodes. *)
Definition distinct (l : list child) : Prop := NoDup (map c_ptr l).

Definition no_methods (l : list child) : Prop := forall c n, In c l -> ~ is_method c n.

(** The nodes of the fields, in order, and the number of methods. *)
Fixpoint field_nodes (l : list child) : list nat :=
  match l with
  | [] => []
  | c :: r => match c_kind c with KField => c_ptr c :: field_nodes r | _ => field_nodes r end
  end.
Fixpoint count_methods (l : list child) : nat :=
  match l with
  | [] => 0
  | c :: r => match c_kind c, c_name c with KMethod, Some _ => S (count_methods r) | _, _ => count_methods r end
  end.
