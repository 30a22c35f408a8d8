(** Which of the declarations of a file a name means that is declared nowhere else. *)
From Coq Require Import List String Bool.
From Verif Require Import ItemTreeSpec FindDefModel FindDefSpec AstIdModel TypeRefModel ItemTreeModel.
From Verif Require HirModel.
Import ListNotations.

(** The declarations of the name, in the order of the file. *)
Definition declarations (root : syn) (nm : string) : list view :=
  filter (fun v => match view_name v with Some n => String.eqb n nm | None => false end) (outline root).
(** The only one; of several the first methodmap (for an enum with methods there are two), or else the first function (for a
    forward declaration and its definition there are two). *)
Definition of_key (k : key) (v : view) : bool := key_eqb (view_key v) k.
Definition chosen (l : list view) : option view :=
  match l with
  | [v] => Some v
  | _ => match find (of_key KMethodmap) l with Some v => Some v | None => find (of_key KFunction) l end
  end.
(** Another file does not declare the name. *)
Definition silent (nm : string) (g : HirModel.def_map) : Prop := ~ In nm (map fst (HirModel.dm_values g)).
