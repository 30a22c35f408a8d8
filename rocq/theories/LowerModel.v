(** From the syntax tree of a function to its body: crates/hir-def/src/body/lower.rs. *)
From Coq Require Import List String Ascii Bool Arith ZArith.
From Verif Require Import TypeRefModel.
Import ListNotations.
Local Open Scope string_scope.

(** The kinds of nodes that are told apart, crates/syntax/src/generated.rs:1; every other kind is
    [other] with its number. *)
Inductive kind :=
| named_arg | block | variable_declaration_statement | old_variable_declaration_statement
| variable_declaration | old_variable_declaration
| for_statement | while_statement | do_while_statement | break_statement | continue_statement
| condition_statement | switch_statement | switch_case | return_statement | delete_statement
| expression_statement | assignment_expression | binary_expression | call_expression
| array_indexed_access | ternary_expression | field_access | array_scope_access | scope_access
| unary_expression | update_expression | sizeof_expression | view_as | old_type_cast
| identifier | this | int_literal | float_literal | char_literal | string_literal | bool_literal
| null | parenthesized_expression | new_expression | array_literal | comma_expression
| comment | anon_LBRACE | anon_RBRACE | anon_LBRACK | anon_RBRACK | anon_LPAREN | anon_RPAREN | anon_COMMA
| anon_break | anon_continue | anon_return | anon_delete
| parameter_declarations | parameter_declaration
| other (n : nat).
Definition kind_eq_dec : forall a b : kind, {a = b} + {a <> b}.
Proof. decide equality; apply Nat.eq_dec. Defined.
Definition is_kind (k k' : kind) : bool := if kind_eq_dec k k' then true else false.

(** A tree-sitter node: its kind, its [NodePtr] (ast_id_map.rs:15-40), its text, and its children with
    the fields they stand in. *)
Inductive ts := T (k : kind) (p : nat) (s : string) (kids : list (option string * ts)).
Definition kind_of (n : ts) : kind := match n with T k _ _ _ => k end.
Definition ptr_of (n : ts) : nat := match n with T _ p _ _ => p end.
Definition text_of (n : ts) : string := match n with T _ _ s _ => s end.
Definition kids_of (n : ts) : list (option string * ts) := match n with T _ _ _ l => l end.

(** hir.rs:28-110 [Expr] and 132-144 [Literal], over the types of references to identifiers and to other
    expressions. *)
Inductive literal := LString (s : string) | LChar (c : ascii) | LBool (b : bool) | LInt (z : Z) | LNull | LFloat (bits : nat).
Inductive expr (I X : Type) :=
| EMissing
| EIdent (n : string)
| EBlock (id : nat) (statements : list X)
| EComma (l : list X)
| ENamedArg (n value : X)
| ENew (n : string) (args : list X)
| EViewAs (operand : X) (ty : type_ref)
| EField (target : X) (n : string)
| EScope (scope : X) (n : string)
| EIndex (array index : X)
| EUnary (operand : X) (op : option kind)
| EBinary (lhs rhs : X) (op : option kind)
| ETernary (condition then_branch else_branch : X)
| ELoop (initialization : list X) (condition : X) (iteration : option X) (body : X)
| ESwitch (condition : X) (cases : list (list X * X))
| ECondition (condition then_branch : X) (else_branch : option X)
| EControl (keyword : kind) (operand : option X)
| ECall (callee : X) (args : list X)
| EMethodCall (target : X) (n : string) (args : list X)
| EDecl (l : list X)
| EBinding (ident : I) (ty : option type_ref) (initializer : option X)
| ELiteral (l : literal)
| EArray (l : list X).
Arguments EMissing {I X}. Arguments EIdent {I X}. Arguments EBlock {I X}. Arguments EComma {I X}. Arguments ENamedArg {I X}.
Arguments ENew {I X}. Arguments EViewAs {I X}. Arguments EField {I X}. Arguments EScope {I X}. Arguments EIndex {I X}.
Arguments EUnary {I X}. Arguments EBinary {I X}. Arguments ETernary {I X}. Arguments ELoop {I X}. Arguments ESwitch {I X}.
Arguments ECondition {I X}. Arguments EControl {I X}. Arguments ECall {I X}. Arguments EMethodCall {I X}. Arguments EDecl {I X}.
Arguments EBinding {I X}. Arguments ELiteral {I X}. Arguments EArray {I X}.

(** body.rs:19-26 [Body] and 28-35 [BodySourceMap]; the arenas are lists, the newest entry of a map is
    in front. *)
Record state := State {
  exprs : list (expr nat nat); idents : list string; params : list (nat * nat);
  expr_map_back : list (nat * nat); expr_map : list (nat * nat) }.
Definition empty_state : state := State [] [] [] [] [].
Definition lookup (k : nat) (l : list (nat * nat)) : option nat :=
  match find (fun e => Nat.eqb (fst e) k) l with Some (_, v) => Some v | None => None end.
(** body.rs:38-40 [expr_source], 47-49 [node_ptr_expr]. *)
Definition expr_source (s : state) (i : nat) : option nat := lookup i (expr_map_back s).
Definition node_expr (s : state) (p : nat) : option nat := lookup p (expr_map s).

(** Inputs: [f64::from_str]; the interned id of a block, whose [ast_id_of] panics for nodes that have no
    id (C40); [TypeRef::from_returntype_node] of a node's "type" (TypeRefModel). *)
Record env := Env { parse_f64 : string -> option nat; block_id : nat -> option nat; type_of : nat -> option type_ref }.

(** [i64::from_str]: an optional sign and decimal digits, in range. *)
Definition digit (c : ascii) : option Z :=
  let n := Z.of_nat (nat_of_ascii c) in if ((48 <=? n) && (n <=? 57))%Z then Some (n - 48)%Z else None.
Fixpoint digits (s : string) (acc : Z) : option Z :=
  match s with
  | "" => Some acc
  | String c tl => match digit c with Some d => digits tl (10 * acc + d)%Z | None => None end
  end.
Definition unsigned (s : string) : option Z := match s with "" => None | _ => digits s 0%Z end.
Definition parse_i64 (s : string) : option Z :=
  let v := match s with
           | String "-" tl => option_map Z.opp (unsigned tl)
           | String "+" tl => unsigned tl
           | _ => unsigned s
           end in
  match v with
  | Some z => if ((- 2 ^ 63 <=? z) && (z <? 2 ^ 63))%Z then Some z else None
  | None => None
  end.
(** [bool::from_str]. *)
Definition parse_bool (s : string) : option bool :=
  if String.eqb s "true" then Some true else if String.eqb s "false" then Some false else None.

(** Computations that may panic and change the collector. *)
Inductive res (A : Type) := Panic | Ret (a : A) (s : state).
Arguments Panic {A}. Arguments Ret {A}.
Definition M (A : Type) := state -> res A.
Definition ret {A} (a : A) : M A := fun s => Ret a s.
Definition bind {A B} (m : M A) (f : A -> M B) : M B :=
  fun s => match m s with Panic => Panic | Ret a s' => f a s' end.
Notation "x <- m ;; f" := (bind m (fun x => f)) (at level 61, m at next level, right associativity).
Definition panic {A} : M A := fun _ => Panic.

(** lower.rs:479-494. *)
Definition alloc_desugared (e : expr nat nat) : M nat :=
  fun s => Ret (List.length (exprs s)) (State (exprs s ++ [e]) (idents s) (params s) (expr_map_back s) (expr_map s)).
Definition missing : M nat := alloc_desugared EMissing.
Definition alloc (e : expr nat nat) (p : nat) : M nat :=
  fun s => let id := List.length (exprs s) in
           Ret id (State (exprs s ++ [e]) (idents s) (params s) ((id, p) :: expr_map_back s) ((p, id) :: expr_map s)).
Definition alloc_ident (n : string) : M nat :=
  fun s => Ret (List.length (idents s)) (State (exprs s) (idents s ++ [n]) (params s) (expr_map_back s) (expr_map s)).
Definition push_param (x : nat * nat) : M unit :=
  fun s => Ret tt (State (exprs s) (idents s) (params s ++ [x]) (expr_map_back s) (expr_map s)).

(** A node whose children have been given the computation that lowers them ([maybe_collect_expr]). *)
Inductive node := N (k : kind) (p : nat) (s : string) (run : M (option nat)) (kids : list (option string * node)).
Definition nkind (n : node) : kind := match n with N k _ _ _ _ => k end.
Definition nptr (n : node) : nat := match n with N _ p _ _ _ => p end.
Definition ntext (n : node) : string := match n with N _ _ s _ _ => s end.
Definition nkids (n : node) : list (option string * node) := match n with N _ _ _ _ l => l end.
Definition maybe_collect (n : node) : M (option nat) := match n with N _ _ _ r _ => r end.

(** tree-sitter: [child_by_field_name], [children_by_field_name]. *)
Definition has_field {A} (f : string) (c : option string * A) : bool :=
  match fst c with Some g => String.eqb g f | None => false end.
Definition fields {A} (f : string) (l : list (option string * A)) : list A := map snd (filter (has_field f) l).
Definition field {A} (f : string) (l : list (option string * A)) : option A :=
  match fields f l with c :: _ => Some c | [] => None end.

(** lower.rs:145-148. *)
Definition collect (n : node) : M nat :=
  r <- maybe_collect n ;; match r with Some i => ret i | None => missing end.
Fixpoint collect_all (l : list node) : M (list nat) :=
  match l with
  | [] => ret []
  | n :: tl => i <- collect n ;; r <- collect_all tl ;; ret (i :: r)
  end.
(** [filter_map(|arg| self.maybe_collect_expr(arg))]. *)
Fixpoint collect_some (l : list node) : M (list nat) :=
  match l with
  | [] => ret []
  | n :: tl => i <- maybe_collect n ;; r <- collect_some tl ;;
               ret (match i with Some i => i :: r | None => r end)
  end.
Definition collect_opt (n : option node) : M (option nat) :=
  match n with Some n => i <- collect n ;; ret (Some i) | None => ret None end.

(** lower.rs:98-112, 125-139 and 74-87: a declared name. *)
Definition collect_binding (ty : option type_ref) (c : node) : M (option (nat * nat)) :=
  match field "name" (nkids c) with
  | Some name => ident <- alloc_ident (ntext name) ;;
                 init <- collect_opt (field "initialValue" (nkids c)) ;;
                 i <- alloc (EBinding ident ty init) (nptr c) ;;
                 ret (Some (ident, i))
  | None => ret None
  end.
Fixpoint collect_bindings (ty : node -> option type_ref) (l : list node) : M (list nat) :=
  match l with
  | [] => ret []
  | c :: tl => b <- collect_binding (ty c) c ;; r <- collect_bindings ty tl ;;
               ret (match b with Some (_, i) => i :: r | None => r end)
  end.
Definition children_of_kind (k : kind) (l : list (option string * node)) : list node :=
  filter (fun n => is_kind (nkind n) k) (map snd l).

(** lower.rs:244-256: a switch case; it is left out if it has no body. *)
Definition collect_case (c : node) : M (option (list nat * nat)) :=
  values <- collect_all (fields "value" (nkids c)) ;;
  match field "body" (nkids c) with
  | Some b => i <- collect b ;; ret (Some (values, i))
  | None => ret None
  end.
Fixpoint collect_cases (l : list node) : M (list (list nat * nat)) :=
  match l with
  | [] => ret []
  | c :: tl => x <- collect_case c ;; r <- collect_cases tl ;; ret (match x with Some x => x :: r | None => r end)
  end.

(** The operator [?] on a missing child. *)
Definition with_field {A} (f : string) (kids : list (option string * A)) (k : A -> M (option nat)) : M (option nat) :=
  match field f kids with Some c => k c | None => ret None end.
Definition some_alloc (e : expr nat nat) (p : nat) : M (option nat) := i <- alloc e p ;; ret (Some i).
Definition or_none {A} (x : option A) (k : A -> M (option nat)) : M (option nat) :=
  match x with Some a => k a | None => ret None end.

Section lower.
Variable e : env.

(** lower.rs:150-477 [maybe_collect_expr] on a node of kind [k] with pointer [p] and text [s]. The
    text of a node is taken to be ASCII where [chars] is used (line 407). *)
Definition step (k : kind) (p : nat) (s : string) (kids : list (option string * node)) : M (option nat) :=
  match k with
  | named_arg =>
      with_field "arg_name" kids (fun name => with_field "value" kids (fun value =>
      a <- collect name ;; b <- collect value ;; some_alloc (ENamedArg a b) p))
  | block =>
      match block_id e p with
      | None => panic
      | Some b =>
          l <- collect_all (filter (fun c => negb (is_kind (nkind c) anon_LBRACE || is_kind (nkind c) anon_RBRACE)) (map snd kids)) ;;
          some_alloc (EBlock b l) p
      end
  | variable_declaration_statement =>
      l <- collect_bindings (fun _ => type_of e p) (children_of_kind variable_declaration kids) ;;
      some_alloc (EDecl l) p
  | old_variable_declaration_statement =>
      l <- collect_bindings (fun c => type_of e (nptr c)) (children_of_kind old_variable_declaration kids) ;;
      some_alloc (EDecl l) p
  | for_statement =>
      init <- collect_all (fields "initialization" kids) ;;
      with_field "condition" kids (fun condition => with_field "iteration" kids (fun iteration =>
      with_field "body" kids (fun body =>
      c <- collect condition ;; i <- maybe_collect iteration ;; b <- collect body ;;
      some_alloc (ELoop init c i b) p)))
  | while_statement | do_while_statement =>
      with_field "condition" kids (fun condition => with_field "body" kids (fun body =>
      c <- collect condition ;; b <- collect body ;; some_alloc (ELoop [] c None b) p))
  | break_statement => some_alloc (EControl anon_break None) p
  | continue_statement => some_alloc (EControl anon_continue None) p
  | condition_statement =>
      with_field "condition" kids (fun condition => with_field "truePath" kids (fun then_branch =>
      f <- collect_opt (field "falsePath" kids) ;; c <- collect condition ;; t <- collect then_branch ;;
      some_alloc (ECondition c t f) p))
  | switch_statement =>
      with_field "condition" kids (fun condition =>
      l <- collect_cases (children_of_kind switch_case kids) ;; c <- collect condition ;;
      some_alloc (ESwitch c l) p)
  | return_statement =>
      with_field "expression" kids (fun x => i <- maybe_collect x ;; some_alloc (EControl anon_return i) (nptr x))
  | delete_statement =>
      with_field "free" kids (fun x => i <- maybe_collect x ;; some_alloc (EControl anon_delete i) (nptr x))
  | expression_statement =>
      match kids with (_, c) :: _ => i <- collect c ;; ret (Some i) | [] => ret None end
  | assignment_expression | binary_expression =>
      with_field "left" kids (fun l => a <- collect l ;;
      with_field "right" kids (fun r => b <- collect r ;;
      some_alloc (EBinary a b (option_map nkind (field "operator" kids))) p))
  | call_expression =>
      with_field "function" kids (fun f => with_field "arguments" kids (fun args =>
      match nkind f with
      | identifier =>
          c <- collect f ;; l <- collect_some (map snd (nkids args)) ;; some_alloc (ECall c l) p
      | field_access =>
          with_field "target" (nkids f) (fun target => with_field "field" (nkids f) (fun m =>
          l <- collect_some (map snd (nkids args)) ;; t <- collect target ;;
          some_alloc (EMethodCall t (ntext m) l) (nptr m)))
      | _ => panic
      end))
  | array_indexed_access =>
      with_field "array" kids (fun a => with_field "index" kids (fun i =>
      x <- collect a ;; y <- collect i ;; some_alloc (EIndex x y) p))
  | ternary_expression =>
      with_field "condition" kids (fun c => x <- collect c ;;
      with_field "consequence" kids (fun t => y <- collect t ;;
      with_field "alternative" kids (fun f => z <- collect f ;; some_alloc (ETernary x y z) p)))
  | field_access =>
      with_field "field" kids (fun f => with_field "target" kids (fun t =>
      i <- collect t ;; some_alloc (EField i (ntext f)) (nptr f)))
  | array_scope_access | scope_access =>
      with_field "field" kids (fun f => with_field "scope" kids (fun t =>
      i <- collect t ;; some_alloc (EScope i (ntext f)) p))
  | unary_expression | update_expression =>
      with_field "argument" kids (fun x =>
      i <- collect x ;; some_alloc (EUnary i (option_map nkind (field "operator" (nkids x)))) (nptr x))
  | sizeof_expression =>
      with_field "type" kids (fun x => i <- collect x ;; some_alloc (EUnary i (Some sizeof_expression)) p)
  | view_as | old_type_cast =>
      with_field "value" kids (fun x => or_none (type_of e p) (fun ty => i <- collect x ;; some_alloc (EViewAs i ty) p))
  | identifier | this => some_alloc (EIdent s) p
  | int_literal => or_none (parse_i64 s) (fun z => some_alloc (ELiteral (LInt z)) p)
  | float_literal => or_none (parse_f64 e s) (fun b => some_alloc (ELiteral (LFloat b)) p)
  | char_literal => or_none (String.get 1 s) (fun c => some_alloc (ELiteral (LChar c)) p)
  | string_literal => some_alloc (ELiteral (LString s)) p
  | bool_literal => or_none (parse_bool s) (fun b => some_alloc (ELiteral (LBool b)) p)
  | null => some_alloc (ELiteral LNull) p
  | parenthesized_expression => with_field "expression" kids maybe_collect
  | new_expression =>
      with_field "class" kids (fun c => with_field "arguments" kids (fun args =>
      l <- collect_some (map snd (nkids args)) ;; some_alloc (ENew (ntext c) l) (nptr c)))
  | array_literal => l <- collect_some (map snd kids) ;; some_alloc (EArray l) p
  | comma_expression => l <- collect_all (map snd kids) ;; some_alloc (EComma l) p
  | _ => ret None
  end.

(** The recursion of [maybe_collect_expr]: the computations of the children first. *)
Fixpoint annotate (n : ts) : node :=
  match n with
  | T k p s kids =>
      let l := map (fun c => match c with (f, x) => (f, annotate x) end) kids in
      N k p s (step k p s l) l
  end.

(** lower.rs:73-89 [collect_parameter_declaration]. *)
Definition collect_parameter (n : node) : M unit :=
  b <- collect_binding (type_of e (nptr n)) n ;;
  match b with Some x => push_param x | None => ret tt end.
Fixpoint collect_parameters (l : list node) : M unit :=
  match l with [] => ret tt | n :: tl => _ <- collect_parameter n ;; collect_parameters tl end.

(** lower.rs:50-71 [collect]; [todo!] is a panic. *)
Definition collect_params (l : option ts) : M unit :=
  match option_map annotate l with
  | None => ret tt
  | Some n => match nkind n with
              | parameter_declarations => collect_parameters (children_of_kind parameter_declaration (nkids n))
              | parameter_declaration => collect_parameter n
              | _ => panic
              end
  end.
Definition lower (params_list body : option ts) : res (option nat) :=
  (_ <- collect_params params_list ;;
   match body with Some b => i <- collect (annotate b) ;; ret (Some i) | None => ret None end) empty_state.
End lower.
