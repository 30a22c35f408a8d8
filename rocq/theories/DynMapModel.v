(** The map from nodes to definitions: a hash map for each kind of definition, found by its type.

    Source: crates/hir-def/src/dyn_map.rs, crates/hir-def/src/dyn_map/keys.rs and
    crates/stdx/src/anymap.rs.

    A hash map is a list without two entries of the same key; a type is a number. Reading a box as another
    type than that of its contents is undefined behaviour, here [Undefined].
    [KeyMap] (dyn_map.rs:93-125) is the same map under another type and is left out. *)

From Coq Require Import List Arith Bool.
From Verif Require Import AstIdModel FindDefModel.
Import ListNotations.

Inductive outcome (A : Type) := Fine (a : A) | Undefined.
Arguments Fine {A} a.
Arguments Undefined {A}.

(** [HashMap::insert] and [HashMap::get]. *)
Fixpoint hash_insert {K V} (eqb : K -> K -> bool) (k : K) (v : V) (m : list (K * V)) : list (K * V) :=
  match m with
  | [] => [(k, v)]
  | (k', v') :: r => if eqb k' k then (k', v) :: r else (k', v') :: hash_insert eqb k v r
  end.
Fixpoint hash_get {K V} (eqb : K -> K -> bool) (k : K) (m : list (K * V)) : option V :=
  match m with
  | [] => None
  | (k', v) :: r => if eqb k' k then Some v else hash_get eqb k r
  end.

(** keys.rs:10-22: the type of the hash maps of a key, by the type of the ids in them. *)
Definition type_of (k : key) : nat :=
  match k with
  | KFunction => 0 | KMacro => 1 | KGlobal => 2 | KEnumStruct => 3 | KMethodmap => 4 | KProperty => 5 | KEnum => 6
  | KVariant => 7 | KTypedef => 8 | KTypeset => 9 | KFunctag => 10 | KFuncenum => 11 | KField => 12
  end.

(** [Box<dyn Any>]: the type of the contents and the contents. *)
Definition sub_map : Type := list (ptr * def).
Record any := Any { a_type : nat; a_value : sub_map }.

(** anymap.rs:64, [RawMap]; dyn_map.rs:83-91, [DynMap]. *)
Definition dyn_map : Type := list (nat * any).
Definition empty_map : dyn_map := [].

(** anymap.rs:353-361, [downcast_ref_unchecked] and [downcast_mut_unchecked]. *)
Definition downcast (t : nat) (a : any) : outcome sub_map :=
  if a_type a =? t then Fine (a_value a) else Undefined.

(** anymap.rs:128-132, [Map::get]. *)
Definition any_get (t : nat) (m : dyn_map) : outcome (option sub_map) :=
  match hash_get Nat.eqb t m with
  | None => Fine None
  | Some a => match downcast t a with Fine s => Fine (Some s) | Undefined => Undefined end
  end.

(** anymap.rs:136-198 and dyn_map.rs:67-72, [entry], [or_insert_with] and [insert]. *)
Definition insert (k : key) (p : ptr) (d : def) (m : dyn_map) : outcome dyn_map :=
  let t := type_of k in
  match hash_get Nat.eqb t m with
  | Some a =>
      match downcast t a with
      | Fine s => Fine (hash_insert Nat.eqb t (Any (a_type a) (hash_insert ptr_eqb p d s)) m)
      | Undefined => Undefined
      end
  | None => Fine (hash_insert Nat.eqb t (Any t (hash_insert ptr_eqb p d [])) m)
  end.

(** dyn_map.rs:73-75, [get]. *)
Definition get (k : key) (p : ptr) (m : dyn_map) : outcome (option def) :=
  match any_get (type_of k) m with
  | Fine (Some s) => Fine (hash_get ptr_eqb p s)
  | Fine None => Fine None
  | Undefined => Undefined
  end.

(** dyn_map.rs:76-80, [is_empty]. *)
Definition is_empty (k : key) (m : dyn_map) : outcome bool :=
  match any_get (type_of k) m with
  | Fine (Some s) => Fine (match s with [] => true | _ => false end)
  | Fine None => Fine true
  | Undefined => Undefined
  end.

(** A map into which rows are put one after the other, as in child_by_source.rs. *)
Fixpoint insert_rows (rows : list row) (m : dyn_map) : outcome dyn_map :=
  match rows with
  | [] => Fine m
  | (k, p, d) :: r => match insert k p d m with Fine m => insert_rows r m | Undefined => Undefined end
  end.
