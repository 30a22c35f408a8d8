(** What the member accesses, method calls and constructor calls of a function body refer to, for C55. *)
From Coq Require Import List String Bool Arith.
From Verif Require Import TypeRefModel HirModel HirSpec.
Import ListNotations.

Section place.
Variable db : database.
(** What the names of types mean; types are declared in files only. *)
Variable type_named : name -> option value_ns.
(** What names mean at the place looked at. *)
Variable look : name -> option value_ns.

(** ** Members of types *)
(** [a]: the enum struct or the property, as [AttributeId] has them. *)
Inductive attribute_of (t n : name) : nat -> type_ref -> Prop :=
| field_of s ty : type_named t = Some (VDef (DEnumStruct, s)) -> struct_item_of db s n = Some (IField ty) -> attribute_of t n s ty
| property_of m p ty : type_named t = Some (VDef (DMethodmap, m)) -> map_item_of db m n = Some (IProperty p ty) -> attribute_of t n p ty.
Inductive method_of (t n : name) : nat -> Prop :=
| struct_method_of s f : type_named t = Some (VDef (DEnumStruct, s)) -> struct_item_of db s n = Some (IStructMethod f) -> method_of t n f
| map_method_of m f : type_named t = Some (VDef (DMethodmap, m)) -> map_item_of db m n = Some (IMapMethod f) -> method_of t n f.
Definition constructor_of (t : name) (f : nat) : Prop :=
  exists m, type_named t = Some (VDef (DMethodmap, m)) /\ map_constructor db m = Some f.

(** ** Types of expressions *)
(** Kinds of definitions whose name stands for a value of the type it declares: types, and [this]. *)
Definition is_type (k : def_kind) : Prop :=
  match k with DMethodmap | DEnumStruct | DTypedef | DTypeset | DFunctag | DFuncenum => True | _ => False end.
(** The type of the elements: dimensions behind the name of a variable are not part of its type. *)
Inductive element : type_ref -> type_ref -> Prop :=
| element_inner t n : element (TArray t (S (S n))) (TArray t (S n))
| element_last t : element (TArray t 1) t
| element_other t : (forall e n, t <> TArray e n) -> element t t.
(** Operators: the type of the right operand, as infer.rs:283 says it assumes. A name of functions has the type its
    last definition returns. *)
Inductive typed : expr -> type_ref -> Prop :=
| typed_local i n o e t : look n = Some (VLocal o e) -> binding_type db e = Some t -> typed (Ident i n) t
| typed_global i n g t : look n = Some (VDef (DGlobal, g)) -> global_type db g = Some t -> typed (Ident i n) t
| typed_function i n fs f t : look n = Some (VFunctions (fs ++ [f])) -> fd_type (function_of db f) = Some t -> typed (Ident i n) t
| typed_type i n k d m : look n = Some (VDef (k, d)) -> is_type k -> def_name db (k, d) = Some m -> typed (Ident i n) (TName m)
| typed_comma i l e t : typed e t -> typed (CommaExpr i (l ++ [e])) t
| typed_array i l e t : typed e t -> typed (ArrayLiteral i (l ++ [e])) t
| typed_named i x v t : typed v t -> typed (NamedArg i x v) t
| typed_new i n l f : constructor_of n f -> typed (New i n l) (TName n)
| typed_view i x t : typed (ViewAs i x t) t
| typed_field i x n t a ty : typed x (TName t) -> attribute_of t n a ty -> typed (FieldAccess i x n) ty
| typed_scope i x n t a ty : typed x (TName t) -> attribute_of t n a ty -> typed (ScopeAccess i x n) ty
| typed_index i a b t u : typed a t -> element t u -> typed (ArrayIndexedAccess i a b) u
| typed_unary i x t : typed x t -> typed (UnaryOp i x) t
| typed_binary i a b t : typed b t -> typed (BinaryOp i a b) t
| typed_ternary i a b d t : typed d t -> typed (TernaryOp i a b d) t
| typed_call i f l t : typed f t -> typed (Call i f l) t
| typed_method i x n l t f ty : typed x (TName t) -> method_of t n f -> fd_type (function_of db f) = Some ty -> typed (MethodCall i x n l) ty
| typed_literal i t : typed (Literal i t) t.

(** ** What is to be recorded or reported *)
Inductive event := Attribute (e a : nat) | Method (e f : nat) | Problem (d : diagnostic).
Inductive accesses : expr -> nat -> expr -> name -> Prop :=
| by_dot i x n : accesses (FieldAccess i x n) i x n
| by_colons i x n : accesses (ScopeAccess i x n) i x n.
Definition tells (b : bool) (P : Prop) : Prop := b = true <-> P.
(** What is found at an expression. Nothing is said about a type that is not known. *)
Inductive found : expr -> event -> Prop :=
| attribute_found e i x n t a ty : accesses e i x n -> typed x (TName t) -> attribute_of t n a ty -> found e (Attribute i a)
| attribute_missing e i x n t m : accesses e i x n -> typed x (TName t) -> type_named t <> None ->
    (forall a ty, ~ attribute_of t n a ty) -> tells m (exists f, method_of t n f) ->
    found e (Problem (UnresolvedField i t n m))
| method_found i x n l t f : typed x (TName t) -> method_of t n f -> found (MethodCall i x n l) (Method i f)
| method_missing i x n l t m : typed x (TName t) -> type_named t <> None ->
    (forall f, ~ method_of t n f) -> tells m (exists a ty, attribute_of t n a ty) ->
    found (MethodCall i x n l) (Problem (UnresolvedMethodCall i t n m))
| constructor_found i n l f : constructor_of n f -> found (New i n l) (Method i f)
| constructor_missing i n l m : type_named n = Some (VDef (DMethodmap, m)) -> (forall f, ~ constructor_of n f) ->
    found (New i n l) (Problem (UnresolvedConstructor i n (Some true)))
| constructor_struct i n l s : type_named n = Some (VDef (DEnumStruct, s)) ->
    found (New i n l) (Problem (UnresolvedConstructor i n (Some false)))
| constructor_unknown i n l : (forall m, type_named n <> Some (VDef (DMethodmap, m))) -> (forall s, type_named n <> Some (VDef (DEnumStruct, s))) ->
    found (New i n l) (Problem (UnresolvedConstructor i n None)).

(** ** Places *)
(** The expressions directly within one; the name of a named argument is not one. *)
Definition parts (e : expr) : list expr :=
  match e with
  | Ident _ _ | Missing _ | Literal _ _ => []
  | CommaExpr _ l | ArrayLiteral _ l | New _ _ l => l
  | NamedArg _ _ v => [v]
  | ViewAs _ x _ | FieldAccess _ x _ | ScopeAccess _ x _ | UnaryOp _ x => [x]
  | ArrayIndexedAccess _ a b | BinaryOp _ a b => [a; b]
  | TernaryOp _ a b c => [a; b; c]
  | Control _ x => match x with Some y => [y] | None => [] end
  | Call _ f l => f :: l
  | MethodCall _ t _ l => t :: l
  end.
Inductive within : expr -> expr -> Prop :=
| within_itself e : within e e
| within_part e p w : In p (parts w) -> within e p -> within e w.

(** Named arguments stand only in calls of functions by name. *)
Fixpoint named_ok (here : bool) (e : expr) : bool :=
  match e with
  | Ident _ _ | Missing _ | Literal _ _ => true
  | CommaExpr _ l | ArrayLiteral _ l | New _ _ l => forallb (named_ok false) l
  | NamedArg _ x v => here && match x with Ident _ _ => true | _ => false end && named_ok false v
  | ViewAs _ x _ | FieldAccess _ x _ | ScopeAccess _ x _ | UnaryOp _ x => named_ok false x
  | ArrayIndexedAccess _ a b | BinaryOp _ a b => named_ok false a && named_ok false b
  | TernaryOp _ a b c => named_ok false a && named_ok false b && named_ok false c
  | Control _ x => match x with Some y => named_ok false y | None => true end
  | Call _ f l =>
      named_ok false f &&
      forallb (named_ok match f with Ident _ n => match look n with Some (VFunctions (_ :: _)) => true | _ => false end | _ => false end) l
  | MethodCall _ t _ l => named_ok false t && forallb (named_ok false) l
  end.
(** No local variable hides a type that the expression needs, and no array of one dimension written before the name
    ([T[] a]) is indexed. *)
Definition types_seen (e : expr) : Prop :=
  (forall i x n t, accesses e i x n -> typed x (TName t) -> look t = type_named t) /\
  (forall i x n l t, e = MethodCall i x n l -> typed x (TName t) -> look t = type_named t) /\
  (forall i n l, e = New i n l -> look n = type_named n) /\
  (forall i a b t n, e = ArrayIndexedAccess i a b -> typed a (TArray t n) -> 2 <= n).
Definition regular (e : expr) : Prop := named_ok false e = true /\ forall w, within w e -> types_seen w.
End place.

(** The expressions of a statement that are not part of another, each with what the blocks around it declare. *)
Definition one (dcl : list (list decl)) (e : option expr) : list (list (list decl) * expr) :=
  match e with Some x => [(dcl, x)] | None => [] end.
Fixpoint places (dcl : list (list decl)) (s : stmt) : list (list (list decl) * expr) :=
  match s with
  | SExpr e => [(dcl, e)]
  | SDecl _ l => flat_map (fun b => one dcl (b_init b)) l
  | SBlock _ l => flat_map (places (flat_map level l :: dcl)) l
  | SLoop _ init c i b => flat_map (places dcl) init ++ [(dcl, c)] ++ one dcl i ++ places dcl b
  | SCondition _ c t e => [(dcl, c)] ++ places dcl t ++ match e with Some x => places dcl x | None => [] end
  | SSwitch _ c cases =>
      [(dcl, c)] ++ flat_map (fun k => match k with (vs, x) => map (pair dcl) vs ++ places dcl x end) cases
  end.

Definition member_problem (d : diagnostic) : bool :=
  match d with UnresolvedField _ _ _ _ | UnresolvedMethodCall _ _ _ _ | UnresolvedConstructor _ _ _ => true | _ => false end.
Definition about_members (ev : event) : Prop := match ev with Problem d => member_problem d = true | _ => True end.
Definition recorded (res : result) (ev : event) : Prop :=
  match ev with
  | Attribute e a => In (e, a) (attributes res)
  | Method e f => In (e, f) (methods res)
  | Problem d => In d (diagnostics res)
  end.

(** Ids of the expressions within one. *)
Fixpoint expr_ids (e : expr) : list nat :=
  expr_id e ::
  match e with
  | Ident _ _ | Missing _ | Literal _ _ => []
  | CommaExpr _ l | ArrayLiteral _ l | New _ _ l => flat_map expr_ids l
  | NamedArg _ _ v => expr_ids v
  | ViewAs _ x _ | FieldAccess _ x _ | ScopeAccess _ x _ | UnaryOp _ x => expr_ids x
  | ArrayIndexedAccess _ a b | BinaryOp _ a b => expr_ids a ++ expr_ids b
  | TernaryOp _ a b c => expr_ids a ++ expr_ids b ++ expr_ids c
  | Control _ x => match x with Some y => expr_ids y | None => [] end
  | Call _ f l => expr_ids f ++ flat_map expr_ids l
  | MethodCall _ t _ l => expr_ids t ++ flat_map expr_ids l
  end.
