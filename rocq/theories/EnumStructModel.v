(** Members of enum structs: how they are numbered, and how references and declarations are taken to
    their places in the source. *)
From Coq Require Import List String Bool Arith.
Import ListNotations.

Definition name := string.
(** Types are not looked into: any identification will do. *)
Definition type_ref := nat.

(** A child of the [enum_struct] node as tree-sitter gives it. [c_ptr] stands for the [NodePtr]
    (kind and byte range) of the child. [c_name]: text of the child in the field "name"; [c_type]:
    [TypeRef::from_returntype_node(.., "type", ..)] (type_ref.rs:91-119), for fields only. *)
Inductive child_kind := KField | KMethod | KOther.
Record child := Child { c_kind : child_kind; c_ptr : nat; c_name : option name; c_type : option type_ref }.

(** The entries of [EnumStruct::items] in the item tree (item_tree.rs:291-310). A method's identifier is
    interned from its position in the tree (data.rs:455-463) and the position determines the node
    ([ast_id_of] then [get_raw], C40), so the node stands for the identifier. *)
Inductive item := Field (n : name) (ty : type_ref) | Method (n : name) (node : nat).
Definition item_name (i : item) : name := match i with Field n _ => n | Method n _ => n end.

(** item_tree/lower.rs:514-550 [lower_enum_struct], one child. A field without name or type, and a
    method without name (lower.rs:218, [lower_function_]), is left out. *)
Definition lower_child (c : child) : list item :=
  match c_kind c, c_name c, c_type c with
  | KField, Some n, Some t => [Field n t]
  | KMethod, Some n, _ => [Method n (c_ptr c)]
  | _, _, _ => []
  end.
Definition lower_enum_struct (l : list child) : list item := flat_map lower_child l.

(** data.rs:422-477 [EnumStructData]: an arena of members and a table from names to places in it. *)
Record data := Data { d_items : list item; d_map : list (name * nat) }.
Fixpoint get (n : name) (m : list (name * nat)) : option nat :=
  match m with [] => None | (k, i) :: r => if String.eqb k n then Some i else get n r end.
(** [FxHashMap::insert]: the value of a present key is replaced. *)
Fixpoint insert (n : name) (i : nat) (m : list (name * nat)) : list (name * nat) :=
  match m with
  | [] => [(n, i)]
  | (k, j) :: r => if String.eqb k n then (k, i) :: r else (k, j) :: insert n i r
  end.
Definition add (d : data) (i : item) : data :=
  Data (d_items d ++ [i]) (insert (item_name i) (List.length (d_items d)) (d_map d)).
Definition enum_struct_data (l : list child) : data :=
  fold_left add (lower_enum_struct l) (Data [] []).

(** What a computation may come to: [Panic] is an [unwrap] of [None] or an index out of range. *)
Inductive outcome (A : Type) := Ok (a : A) | Panic.
Arguments Ok {A} a.
Arguments Panic {A}.

(** data.rs:501-530 [EnumStructId::child_source]: the nodes of the fields, numbered from 0 among the fields. *)
Fixpoint child_source (l : list child) : outcome (list nat) :=
  match l with
  | [] => Ok []
  | c :: r =>
      match c_kind c with
      | KField =>
          match c_name c, c_type c with
          | Some _, Some _ => match child_source r with Ok s => Ok (c_ptr c :: s) | Panic => Panic end
          | _, _ => Panic
          end
      | _ => child_source r
      end
  end.

(** child_by_source.rs:86-125. [m_fields] and [m_functions] are the parts [keys::FIELD] and
    [keys::FUNCTION] of the [DynMap], latest insertion first. *)
Record dyn_map := DynMap { m_fields : list (nat * nat); m_functions : list (nat * nat) }.
Fixpoint find (p : nat) (m : list (nat * nat)) : option nat :=
  match m with [] => None | (k, i) :: r => if Nat.eqb k p then Some i else find p r end.
(** lines 97-117: [idx] runs over all members, [field_idx] over the fields. *)
Fixpoint first_loop (src : list nat) (items : list item) (idx field_idx : nat) (m : dyn_map) : outcome dyn_map :=
  match items with
  | [] => Ok m
  | Field _ _ :: r =>
      match nth_error src field_idx with
      | Some p => first_loop src r (S idx) (S field_idx) (DynMap ((p, idx) :: m_fields m) (m_functions m))
      | None => Panic
      end
  | Method _ p :: r => first_loop src r (S idx) field_idx (DynMap (m_fields m) ((p, p) :: m_functions m))
  end.
(** lines 118-124 *)
Fixpoint second_loop (src : list nat) (local_id : nat) (m : dyn_map) : dyn_map :=
  match src with
  | [] => m
  | p :: r => second_loop r (S local_id) (DynMap ((p, local_id) :: m_fields m) (m_functions m))
  end.
Definition child_by_source (l : list child) : outcome dyn_map :=
  match child_source l with
  | Panic => Panic
  | Ok src =>
      match first_loop src (d_items (enum_struct_data l)) 0 0 (DynMap [] []) with
      | Ok m => Ok (second_loop src 0 m)
      | Panic => Panic
      end
  end.

(** hir/src/has_source.rs:51-65 [Field::source]: the node of the field with the given number.
    [ArenaMap]'s index panics on a missing key. *)
Definition field_source (l : list child) (id : nat) : outcome nat :=
  match child_source l with
  | Panic => Panic
  | Ok src => match nth_error src id with Some p => Ok p | None => Panic end
  end.

(** infer.rs:503-516 with data.rs:479-497: the number and the type found for [x.n] where [x] is of the enum
    struct's type. *)
Definition attribute (l : list child) (n : name) : option (nat * type_ref) :=
  let d := enum_struct_data l in
  match get n (d_map d) with
  | None => None
  | Some i => match nth_error (d_items d) i with Some (Field _ t) => Some (i, t) | _ => None end
  end.
(** infer.rs:585-612, the method found for [x.n(..)]. *)
Definition method (l : list child) (n : name) : option nat :=
  let d := enum_struct_data l in
  match get n (d_map d) with
  | None => None
  | Some i => match nth_error (d_items d) i with Some (Method _ p) => Some p | _ => None end
  end.

(** ide/src/goto_definition.rs:54-63 for a use [x.n]: [find_def] comes to [resolve_attribute]
    (semantics.rs:362-379), whose field is taken to its node. *)
Definition goto_reference (l : list child) (n : name) : outcome (option nat) :=
  match attribute l n with
  | None => Ok None
  | Some (i, _) => match field_source l i with Ok p => Ok (Some p) | Panic => Panic end
  end.
(** The same for the name in a field's own declaration: semantics.rs:98-101 with source_to_def.rs:54-56,78-84. *)
Definition goto_declaration (l : list child) (p : nat) : outcome (option nat) :=
  match child_by_source l with
  | Panic => Panic
  | Ok m =>
      match find p (m_fields m) with
      | None => Ok None
      | Some id => match field_source l id with Ok q => Ok (Some q) | Panic => Panic end
      end
  end.
(** The same for the name in a method's own declaration: semantics.rs:81-94. A function's node is
    the one its identifier was made from. *)
Definition goto_method_declaration (l : list child) (p : nat) : outcome (option nat) :=
  match child_by_source l with
  | Panic => Panic
  | Ok m => Ok (find p (m_functions m))
  end.
