(** Model of crates/hir-def/src/ast_id_map.rs.

    A tree-sitter tree is given as data: each node has its kind number (the discriminants of
    [TSKind], crates/syntax/src/generated.rs:1), its start and end byte and its children in order.
    The salsa query [from_tree] (lines 100-103) only passes the root of the parsed file on. *)
From Coq Require Import List Arith Bool PeanoNat.
Import ListNotations.

Inductive node := Node (kind start stop : nat) (kids : list node).

Definition kind_of (n : node) := let 'Node k _ _ _ := n in k.
Definition start_of (n : node) := let 'Node _ s _ _ := n in s.
Definition stop_of (n : node) := let 'Node _ _ e _ := n in e.
Definition kids_of (n : node) := let 'Node _ _ _ c := n in c.

(** [NodePtr] (lines 16-30) and its construction from a node (32-40). *)
Definition ptr := (nat * nat * nat)%type.
Definition ptr_of (n : node) : ptr := (kind_of n, start_of n, stop_of n).
Definition ptr_eqb (a b : ptr) : bool :=
  let '(k, s, e) := a in let '(k', s', e') := b in (k =? k') && (s =? s') && (e =? e').

(** [NodePtr::to_node] (lines 43-65): walk down from the root into the first child whose range
    contains the pointer's range.  [None] is the panic of line 62. *)
Definition covers (p : ptr) (c : node) : bool :=
  let '(_, s, e) := p in (start_of c <=? s) && (e <=? stop_of c).

Fixpoint to_node (p : ptr) (n : node) : option node :=
  if ptr_eqb (ptr_of n) p then Some n
  else
    match n with
    | Node _ _ _ cs =>
        (fix first (l : list node) : option node :=
           match l with
           | [] => None
           | c :: r => if covers p c then to_node p c else first r
           end) cs
    end.

(** The kinds of lines 111-119 and 133-168, by discriminant (generated.rs:1). *)
Definition source_file := 130.
Definition is_var_stmt (k : nat) : bool :=
  existsb (Nat.eqb k) [152; 160; 153; 161].
Definition is_var_decl (k : nat) : bool := existsb (Nat.eqb k) [156; 162].
Definition is_container (k : nat) : bool :=
  existsb (Nat.eqb k)
    [144; 175; 183; 184; 185; 186; 187; 188; 177; 178; 179; 180; 181; 182; 145; 163; 164; 147; 201;
     202; 207; 204; 208; 209; 203; 166; 168; 169; 171; 170; 174; 172; 173].

(** The allocations of one call of the closure (lines 110-132), in order. *)
Definition emit (n : node) : list ptr :=
  if kind_of n =? source_file then []
  else if is_var_stmt (kind_of n) then
    map ptr_of (filter (fun c => is_var_decl (kind_of c)) (kids_of n))
  else [ptr_of n].

(** [bdfs] (lines 190-201): the nodes on which the closure is called, in order.  All children of a
    node come before anything below them. *)
Fixpoint bdfs (n : node) : list node :=
  match n with
  | Node _ _ _ cs =>
      cs ++ (fix below (l : list node) : list node :=
               match l with
               | [] => []
               | c :: r => (if is_container (kind_of c) then bdfs c else []) ++ below r
               end) cs
  end.

(** [from_source] (lines 105-171): the arena is the list of allocated pointers; an id is an index
    into it.  The assertion that the root has no parent holds by construction. *)
Definition arena (root : node) : list ptr := flat_map emit (bdfs root).

(** The hash map pointer -> id: one insertion per allocation, a later one replaces an earlier one of
    the same key (lines 123 and 130). *)
Fixpoint insert_all (i : nat) (l : list ptr) (p : ptr) (found : option nat) : option nat :=
  match l with
  | [] => found
  | q :: r => insert_all (S i) r p (if ptr_eqb q p then Some i else found)
  end.

(** [ast_id_of] (lines 173-183); [None] is the panic of line 180. *)
Definition ast_id_of (root n : node) : option nat := insert_all 0 (arena root) (ptr_of n) None.

(** [get_raw] and the [Index] instance (lines 185-187, 203-208). *)
Definition get_raw (root : node) (id : nat) : option ptr := nth_error (arena root) id.
