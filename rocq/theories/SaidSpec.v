(** The expressions of a function as they are written: which expression of the analysed body a node of
    the syntax tree is. Only the tree is looked at, not how it is walked. *)
From Coq Require Import List String Bool Arith.
From Verif Require Import TypeRefModel LowerModel LowerSpec WrittenSpec.
From Verif Require HirModel.
Import ListNotations.
Local Open Scope string_scope.
Local Open Scope nat_scope.
Local Open Scope list_scope.

Section says.
Variable e : env.
(** The node an expression of the body is recorded for. *)
Variable src : nat -> option nat.

(** Literals that can be read, and their types. *)
Inductive literal_says : kind -> type_ref -> Prop :=
| lit_int : literal_says int_literal TInt
| lit_float : literal_says float_literal TFloat
| lit_char : literal_says char_literal TChar
| lit_string : literal_says string_literal TOldString
| lit_bool : literal_says bool_literal TBool
| lit_null : literal_says null TVoid.

(** [says n x]: the node [n] is the expression [x]. A name is recorded for its own node, a member for the
    node of its name and [new] for the node of the class; the other numbers do not matter. A node that is no
    expression, or lacks a part, is a missing one; as an argument it is left out ([counted]: C48_arguments). *)
Inductive says : ts -> HirModel.expr -> Prop :=
| says_nothing n i : counted e n = false -> says n (HirModel.Missing i)
| says_statement n i : is_statement (kind_of n) = true -> says n (HirModel.Missing i)
| says_name k p t l i : k = identifier \/ k = this -> src i = Some p -> says (T k p t l) (HirModel.Ident i t)
| says_literal k p t l i ty : literal_says k ty -> counted e (T k p t l) = true -> says (T k p t l) (HirModel.Literal i ty)
| says_paren p t l c x : field "expression" l = Some c -> says c x -> says (T parenthesized_expression p t l) x
| says_expression p t f c l x : says c x -> says (T expression_statement p t ((f, c) :: l)) x
| says_comma p t l i xs : Forall2 says (map snd l) xs -> says (T comma_expression p t l) (HirModel.CommaExpr i xs)
| says_array p t l i xs : Forall2 says (filter (counted e) (map snd l)) xs -> says (T array_literal p t l) (HirModel.ArrayLiteral i xs)
| says_named p t l i a b x v : field "arg_name" l = Some a -> field "value" l = Some b -> says a x -> says b v ->
    says (T named_arg p t l) (HirModel.NamedArg i x v)
| says_new p t l i c args xs : src i = Some (ptr_of c) -> field "class" l = Some c -> field "arguments" l = Some args ->
    Forall2 says (filter (counted e) (map snd (kids_of args))) xs -> says (T new_expression p t l) (HirModel.New i (text_of c) xs)
| says_cast k p t l i c ty x : k = view_as \/ k = old_type_cast -> field "value" l = Some c -> type_of e p = Some ty -> says c x ->
    says (T k p t l) (HirModel.ViewAs i x ty)
| says_field p t l i c y x : src i = Some (ptr_of y) -> field "target" l = Some c -> field "field" l = Some y -> says c x ->
    says (T field_access p t l) (HirModel.FieldAccess i x (text_of y))
| says_scope k p t l i c y x : k = array_scope_access \/ k = scope_access -> field "scope" l = Some c -> field "field" l = Some y -> says c x ->
    says (T k p t l) (HirModel.ScopeAccess i x (text_of y))
| says_index p t l i a b x z : field "array" l = Some a -> field "index" l = Some b -> says a x -> says b z ->
    says (T array_indexed_access p t l) (HirModel.ArrayIndexedAccess i x z)
| says_unary k f p t l i c x : (k = unary_expression \/ k = update_expression) /\ f = "argument" \/ k = sizeof_expression /\ f = "type" ->
    field f l = Some c -> says c x -> says (T k p t l) (HirModel.UnaryOp i x)
| says_binary k p t l i a b x z : k = assignment_expression \/ k = binary_expression -> field "left" l = Some a -> field "right" l = Some b ->
    says a x -> says b z -> says (T k p t l) (HirModel.BinaryOp i x z)
| says_ternary p t l i c a b w x z : field "condition" l = Some c -> field "consequence" l = Some a -> field "alternative" l = Some b ->
    says c w -> says a x -> says b z -> says (T ternary_expression p t l) (HirModel.TernaryOp i w x z)
| says_leave k p t l i : k = break_statement \/ k = continue_statement -> says (T k p t l) (HirModel.Control i None)
| says_control k f p t l i c x : k = return_statement /\ f = "expression" \/ k = delete_statement /\ f = "free" -> field f l = Some c ->
    both says (if counted e c then Some c else None) x -> says (T k p t l) (HirModel.Control i x)
| says_call p t l i c args x xs : field "function" l = Some c -> kind_of c = identifier -> field "arguments" l = Some args -> says c x ->
    Forall2 says (filter (counted e) (map snd (kids_of args))) xs -> says (T call_expression p t l) (HirModel.Call i x xs)
| says_method p t l i c args o y x xs : src i = Some (ptr_of y) -> field "function" l = Some c -> kind_of c = field_access -> field "arguments" l = Some args ->
    field "target" (kids_of c) = Some o -> field "field" (kids_of c) = Some y -> says o x ->
    Forall2 says (filter (counted e) (map snd (kids_of args))) xs -> says (T call_expression p t l) (HirModel.MethodCall i x (text_of y) xs).

(** A declaration of a name with the type [ty]; its number is recorded for the declaration. *)
Definition says_binding (ty : option type_ref) (c : ts) (b : HirModel.binding) : Prop :=
  exists nm, field "name" (kids_of c) = Some nm /\ HirModel.b_name b = text_of nm /\ HirModel.b_type b = ty /\
    src (HirModel.b_id b) = Some (ptr_of c) /\ both says (field "initialValue" (kids_of c)) (HirModel.b_init b).
Definition named (c : ts) : bool := has "name" (kids_of c).
Definition with_body (c : ts) : bool := has "body" (kids_of c).

(** [tells n x]: the node [n] is the statement [x]. *)
Inductive tells : ts -> HirModel.stmt -> Prop :=
| tells_expr n x : is_statement (kind_of n) = false \/ counted e n = false -> says n x -> tells n (HirModel.SExpr x)
| tells_block p t l i xs : Forall2 tells (filter (fun c => negb (is_brace (kind_of c))) (map snd l)) xs -> tells (T block p t l) (HirModel.SBlock i xs)
| tells_decl p t l i bs : Forall2 (says_binding (type_of e p)) (filter named (of_kind variable_declaration l)) bs ->
    tells (T variable_declaration_statement p t l) (HirModel.SDecl i bs)
| tells_old_decl p t l i bs : Forall2 (fun c => says_binding (type_of e (ptr_of c)) c) (filter named (of_kind old_variable_declaration l)) bs ->
    tells (T old_variable_declaration_statement p t l) (HirModel.SDecl i bs)
| tells_for p t l i xs c w r z b y : Forall2 tells (fields "initialization" l) xs -> field "condition" l = Some c -> says c w ->
    field "iteration" l = Some r -> both says (if counted e r then Some r else None) z -> field "body" l = Some b -> tells b y ->
    tells (T for_statement p t l) (HirModel.SLoop i xs w z y)
| tells_while k p t l i c w b y : k = while_statement \/ k = do_while_statement -> field "condition" l = Some c -> says c w ->
    field "body" l = Some b -> tells b y -> tells (T k p t l) (HirModel.SLoop i [] w None y)
| tells_if p t l i c w b y z : field "condition" l = Some c -> says c w -> field "truePath" l = Some b -> tells b y ->
    both tells (field "falsePath" l) z -> tells (T condition_statement p t l) (HirModel.SCondition i w y z)
| tells_switch p t l i c w xs : field "condition" l = Some c -> says c w ->
    Forall2 (fun k x => Forall2 says (fields "value" (kids_of k)) (fst x) /\ exists b, field "body" (kids_of k) = Some b /\ tells b (snd x))
      (filter with_body (of_kind switch_case l)) xs ->
    tells (T switch_statement p t l) (HirModel.SSwitch i w xs).
End says.

(** ** Where an expression is in a function *)
Section sub.
Variable e : env.
Definition arguments (n : ts) : list ts :=
  match field "arguments" (kids_of n) with Some a => filter (counted e) (map snd (kids_of a)) | None => [] end.
(** The expressions directly within one: the arguments of a call and what it is called on, the values of
    named arguments, and the operands of the others. *)
Definition subs (n : ts) : list ts :=
  let l := kids_of n in
  match kind_of n with
  | parenthesized_expression => opt (field "expression" l)
  | expression_statement => match l with (_, c) :: _ => [c] | [] => [] end
  | comma_expression => map snd l
  | array_literal => filter (counted e) (map snd l)
  | named_arg | view_as | old_type_cast => opt (field "value" l)
  | new_expression => arguments n
  | field_access => opt (field "target" l)
  | array_scope_access | scope_access => opt (field "scope" l)
  | array_indexed_access => opt (field "array" l) ++ opt (field "index" l)
  | unary_expression | update_expression => opt (field "argument" l)
  | sizeof_expression => opt (field "type" l)
  | assignment_expression | binary_expression => opt (field "left" l) ++ opt (field "right" l)
  | ternary_expression => opt (field "condition" l) ++ opt (field "consequence" l) ++ opt (field "alternative" l)
  | return_statement => filter (counted e) (opt (field "expression" l))
  | delete_statement => filter (counted e) (opt (field "free" l))
  | call_expression =>
      match field "function" l with
      | Some c => match kind_of c with field_access => opt (field "target" (kids_of c)) | _ => [c] end
      | None => []
      end ++ arguments n
  | _ => []
  end.
Inductive sub (f : ts) : ts -> Prop :=
| sub_here : sub f f
| sub_part n c : counted e n = true -> In c (subs n) -> sub f c -> sub f n.

(** The expressions directly in a statement; another statement is one itself. *)
Definition own_exprs (n : ts) : list ts :=
  let l := kids_of n in
  match kind_of n with
  | block => []
  | variable_declaration_statement => flat_map (fun c => opt (field "initialValue" (kids_of c))) (filter named (of_kind variable_declaration l))
  | old_variable_declaration_statement => flat_map (fun c => opt (field "initialValue" (kids_of c))) (filter named (of_kind old_variable_declaration l))
  | for_statement => opt (field "condition" l) ++ filter (counted e) (opt (field "iteration" l))
  | while_statement | do_while_statement | condition_statement => opt (field "condition" l)
  | switch_statement => opt (field "condition" l) ++ flat_map (fun c => fields "value" (kids_of c)) (filter with_body (of_kind switch_case l))
  | _ => [n]
  end.
(** [under f dcl n dcl']: the expression [f] is in the statement [n]; the blocks around [n] declare [dcl],
    innermost first, and those around [f] declare [dcl']. *)
Inductive under (f : ts) : list (list written_decl) -> ts -> list (list written_decl) -> Prop :=
| under_expr dcl n c : In c (own_exprs n) -> sub f c -> under f dcl n dcl
| under_part dcl n y dcl' : In y (statements n) -> under f (enters n dcl) y dcl' -> under f dcl n dcl'.
End sub.

(** Nodes of the parameters and of the body. *)
Definition all_nodes (pl : option ts) (b : ts) : list ts := match pl with Some n => nodes n | None => [] end ++ nodes b.
(** [reads dcl look]: names mean what they are declared as in the text where the blocks around declare [dcl];
    other names mean what [types] says. *)
Definition reads (src : nat -> option nat) (owner : nat) (ps : list written_decl) (types : HirModel.name -> option HirModel.value_ns)
    (dcl : list (list written_decl)) (look : HirModel.name -> option HirModel.value_ns) : Prop :=
  forall x, match declaration ps dcl x with
            | Some q => exists j, src j = Some q /\ look x = Some (HirModel.VLocal owner j)
            | None => look x = types x
            end.
