(** Which node declares which member of a methodmap. *)
From Coq Require Import List String.
From Verif Require Import MethodmapModel MethodmapSpec MapSourceModel.
Import ListNotations.

Section spec.
Variables (w : world) (s : sources).

(** The functions and properties a member consists of. *)
Definition fn_in (x : member) (f : nat) : Prop :=
  match x with
  | Property _ acc => In (Getter f) acc \/ In (Setter f) acc
  | Method g | Constructor g | Destructor g => f = g
  end.
Definition prop_in (x : member) (p : nat) : Prop := match x with Property id _ => p = id | _ => False end.

(** [id] itself declares the function or property. *)
Definition declares_fn (id f : nat) : Prop := exists n x, In (n, x) (d_items (decl_of w id)) /\ fn_in x f.
Definition declares_prop (id p : nat) : Prop := exists n x, In (n, x) (d_items (decl_of w id)) /\ prop_in x p.

(** Its node, in the file of [id]. *)
Definition fn_node (id f node : nat) : Prop := nth_error (nodes s (d_file (decl_of w id))) (fn_ast s f) = Some node.
Definition prop_node (id p node : nat) : Prop := nth_error (nodes s (d_file (decl_of w id))) (prop_ast s p) = Some node.

(** What holds of item trees: everything a methodmap declares has a node in its file, and
    different things have different ones. *)
Definition well_placed (id : nat) : Prop :=
  (forall f, declares_fn id f -> exists node, fn_node id f node) /\
  (forall p, declares_prop id p -> exists node, prop_node id p node) /\
  (forall f g node, declares_fn id f -> declares_fn id g -> fn_node id f node -> fn_node id g node -> f = g) /\
  (forall p q node, declares_prop id p -> declares_prop id q -> prop_node id p node -> prop_node id q node -> p = q).

(** Some member [id] inherits is numbered beyond the nodes of the file of [id]. *)
Definition number_too_big (id : nat) : Prop :=
  exists p n x, parent w id p /\ member_of w p n x /\
    ((exists f, fn_in x f /\ List.length (nodes s (d_file (decl_of w id))) <= fn_ast s f) \/
     (exists q, prop_in x q /\ List.length (nodes s (d_file (decl_of w id))) <= prop_ast s q)).
End spec.
