(** From the declaration of a methodmap's member to the member: crates/hir-def/src/child_by_source.rs. *)
From Coq Require Import List Bool Arith.
From Verif Require Import MethodmapModel.
Import ListNotations.

(** [items] of the item trees, by interned id: the [ast_id] recorded for a function
    (item_tree/lower.rs:231) and for a property (lower.rs:434); for an accessor of a property it is that of
    the surrounding [methodmap_property_method] node (lower.rs:467,505). [nodes f] is the arena of
    the [AstIdMap] of file [f] (ast_id_map.rs:15-19): the node for each id, a node being known by a number. *)
Record sources := Sources { fn_ast : nat -> nat; prop_ast : nat -> nat; nodes : nat -> list nat }.

(** The parts [keys::FUNCTION] and [keys::PROPERTY] of the [DynMap], latest insertion first. *)
Record dyn_map := DynMap { m_fns : list (nat * nat); m_props : list (nat * nat) }.
Fixpoint find (p : nat) (m : list (nat * nat)) : option nat :=
  match m with [] => None | (k, i) :: r => if Nat.eqb k p then Some i else find p r end.

Definition accessor_fn (a : accessor) : nat := match a with Getter f => f | Setter f => f end.

(** What is inserted for one member, in order: functions ([true]) and properties, with their ids. *)
Definition inserted (x : member) : list (bool * nat) :=
  match x with
  | Property id acc => map (fun a => (true, accessor_fn a)) acc ++ [(false, id)]
  | Method f | Constructor f | Destructor f => [(true, f)]
  end.

Section source.
Variable s : sources.
(** The file the declaration was looked for in: that of the methodmap whose members are listed. *)
Variable file : nat.

Definition ast_of (e : bool * nat) : nat := if fst e then fn_ast s (snd e) else prop_ast s (snd e).
(** [ast_id_map.get_raw(item.ast_id)] with the map of [file] (child_by_source.rs:130), whatever file the item
    is in; an id out of range panics ([None]). *)
Definition put (m : option dyn_map) (e : bool * nat) : option dyn_map :=
  match m with
  | None => None
  | Some m =>
      match nth_error (nodes s file) (ast_of e) with
      | None => None
      | Some p => Some (if fst e then DynMap ((p, snd e) :: m_fns m) (m_props m) else DynMap (m_fns m) ((p, snd e) :: m_props m))
      end
  end.
(** child_by_source.rs:127-156 [MethodmapId::child_by_source_to]. *)
Definition child_by_source (d : mm_data) : option dyn_map :=
  fold_left put (flat_map inserted (m_items d)) (Some (DynMap [] [])).

(** source_to_def.rs:27-29,39-41,78-84: the function or property declared by node [p] inside the methodmap;
    [None] on the outside is a panic. *)
Definition fn_to_def (d : mm_data) (p : nat) : option (option nat) := option_map (fun m => find p (m_fns m)) (child_by_source d).
Definition property_to_def (d : mm_data) (p : nat) : option (option nat) := option_map (fun m => find p (m_props m)) (child_by_source d).
End source.
