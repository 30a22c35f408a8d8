(** What the body of a function is: an independent reading of the syntax tree. *)
From Coq Require Import List String Ascii Bool Arith ZArith.
From Verif Require Import TypeRefModel LowerModel.
Import ListNotations.
Local Open Scope string_scope.

(** ** Bodies as trees *)
(** A body read from its arena. The operator of a unary expression is left out: it is never used
    (infer.rs:273), and what is recorded is not it (see C48_operator_refuted). *)
Inductive tree := Tr (e : expr string tree).
Definition none : tree := Tr EMissing.
Definition emap {I J X Y} (g : I -> J) (f : X -> Y) (e : expr I X) : expr J Y :=
  match e with
  | EMissing => EMissing
  | EIdent n => EIdent n
  | EBlock id l => EBlock id (map f l)
  | EComma l => EComma (map f l)
  | ENamedArg a b => ENamedArg (f a) (f b)
  | ENew n l => ENew n (map f l)
  | EViewAs a ty => EViewAs (f a) ty
  | EField a n => EField (f a) n
  | EScope a n => EScope (f a) n
  | EIndex a b => EIndex (f a) (f b)
  | EUnary a _ => EUnary (f a) None
  | EBinary a b op => EBinary (f a) (f b) op
  | ETernary a b c => ETernary (f a) (f b) (f c)
  | ELoop l c i b => ELoop (map f l) (f c) (option_map f i) (f b)
  | ESwitch c l => ESwitch (f c) (map (fun x => (map f (fst x), f (snd x))) l)
  | ECondition c t x => ECondition (f c) (f t) (option_map f x)
  | EControl k x => EControl k (option_map f x)
  | ECall c l => ECall (f c) (map f l)
  | EMethodCall t n l => EMethodCall (f t) n (map f l)
  | EDecl l => EDecl (map f l)
  | EBinding i ty x => EBinding (g i) ty (option_map f x)
  | ELiteral l => ELiteral l
  | EArray l => EArray (map f l)
  end.
(** The trees of an arena, in order: each expression refers to earlier ones. *)
Definition trees (ids : list string) (arena : list (expr nat nat)) : list tree :=
  fold_left (fun ts x => ts ++ [Tr (emap (fun i => nth i ids "") (fun j => nth j ts none) x)])%list arena [].
Definition tree_at (s : state) (i : nat) : tree := nth i (trees (idents s) (exprs s)) none.

(** ** What a piece of syntax stands for *)
(** Punctuation and comments stand for nothing. *)
Definition blank (k : kind) : bool :=
  match k with
  | comment | anon_LBRACE | anon_RBRACE | anon_LBRACK | anon_RBRACK | anon_LPAREN | anon_RPAREN | anon_COMMA => true
  | _ => false
  end.
Definition written (l : list (option string * ts)) : list ts := filter (fun n => negb (blank (kind_of n))) (map snd l).
Definition of_kind (k : kind) (l : list (option string * ts)) : list ts := filter (fun n => is_kind (kind_of n) k) (map snd l).

(** The value of an integer literal of the language: decimal, hexadecimal, octal or binary, with
    underscores between digits. *)
Definition base_digit (base : Z) (c : ascii) : option Z :=
  let n := Z.of_nat (nat_of_ascii c) in
  let d := if ((48 <=? n) && (n <=? 57))%Z then (n - 48)%Z
           else if ((97 <=? n) && (n <=? 102))%Z then (n - 87)%Z
           else if ((65 <=? n) && (n <=? 70))%Z then (n - 55)%Z else 99%Z in
  if (d <? base)%Z then Some d else None.
Fixpoint based (base : Z) (s : string) (acc : Z) : option Z :=
  match s with
  | "" => Some acc
  | String "_" tl => based base tl acc
  | String c tl => match base_digit base c with Some d => based base tl (base * acc + d)%Z | None => None end
  end.
Definition int_value (s : string) : option Z :=
  match s with
  | "" => None
  | String "0" (String "x" tl) => based 16 tl 0
  | String "0" (String "o" tl) => based 8 tl 0
  | String "0" (String "b" tl) => based 2 tl 0
  | _ => based 10 s 0
  end.

Inductive both {A B} (R : A -> B -> Prop) : option A -> option B -> Prop :=
| both_none : both R None None
| both_some a b : R a b -> both R (Some a) (Some b).

Section means.
Variable e : env.

(** [means n t]: the node [n] is the syntax of [t]. A statement without condition, a comment among
    statements and a comma between expressions are [none]. *)
Inductive means : ts -> tree -> Prop :=
| m_named_arg p s l a b ta tb : field "arg_name" l = Some a -> field "value" l = Some b -> means a ta -> means b tb ->
    means (T named_arg p s l) (Tr (ENamedArg ta tb))
| m_block p s l id us : block_id e p = Some id ->
    Forall2 (fun c u => (kind_of c = comment /\ u = none) \/ means c u)
            (filter (fun c => negb (is_kind (kind_of c) anon_LBRACE || is_kind (kind_of c) anon_RBRACE)) (map snd l)) us ->
    means (T block p s l) (Tr (EBlock id us))
| m_declaration p s l us :
    Forall2 (fun c u => exists nm i, field "name" (kids_of c) = Some nm /\ both means (field "initialValue" (kids_of c)) i /\
                                     u = Tr (EBinding (text_of nm) (type_of e p) i))
            (of_kind variable_declaration l) us ->
    means (T variable_declaration_statement p s l) (Tr (EDecl us))
| m_old_declaration p s l us :
    Forall2 (fun c u => exists nm i, field "name" (kids_of c) = Some nm /\ both means (field "initialValue" (kids_of c)) i /\
                                     u = Tr (EBinding (text_of nm) (type_of e (ptr_of c)) i))
            (of_kind old_variable_declaration l) us ->
    means (T old_variable_declaration_statement p s l) (Tr (EDecl us))
| m_for p s l inits c i b tb : Forall2 means (fields "initialization" l) inits ->
    both means (field "condition" l) c -> both means (field "iteration" l) i -> field "body" l = Some b -> means b tb ->
    means (T for_statement p s l) (Tr (ELoop inits (match c with Some u => u | None => none end) i tb))
| m_while k p s l c b tc tb : k = while_statement \/ k = do_while_statement ->
    field "condition" l = Some c -> field "body" l = Some b -> means c tc -> means b tb ->
    means (T k p s l) (Tr (ELoop [] tc None tb))
| m_break p s l : means (T break_statement p s l) (Tr (EControl anon_break None))
| m_continue p s l : means (T continue_statement p s l) (Tr (EControl anon_continue None))
| m_if p s l c t tc tt f : field "condition" l = Some c -> field "truePath" l = Some t -> means c tc -> means t tt ->
    both means (field "falsePath" l) f ->
    means (T condition_statement p s l) (Tr (ECondition tc tt f))
| m_switch p s l c tc us : field "condition" l = Some c -> means c tc ->
    Forall2 (fun x u => Forall2 means (fields "value" (kids_of x)) (fst u) /\
                        exists b, field "body" (kids_of x) = Some b /\ means b (snd u)) (of_kind switch_case l) us ->
    means (T switch_statement p s l) (Tr (ESwitch tc us))
| m_return p s l x : both means (field "expression" l) x -> means (T return_statement p s l) (Tr (EControl anon_return x))
| m_delete p s l x u : field "free" l = Some x -> means x u -> means (T delete_statement p s l) (Tr (EControl anon_delete (Some u)))
| m_statement p s f x l u : means x u -> means (T expression_statement p s ((f, x) :: l)) u
| m_binary k p s l a b ta tb : k = assignment_expression \/ k = binary_expression ->
    field "left" l = Some a -> field "right" l = Some b -> means a ta -> means b tb ->
    means (T k p s l) (Tr (EBinary ta tb (option_map kind_of (field "operator" l))))
| m_call p s l f args tf us : field "function" l = Some f -> kind_of f = identifier -> field "arguments" l = Some args ->
    means f tf -> Forall2 means (written (kids_of args)) us ->
    means (T call_expression p s l) (Tr (ECall tf us))
| m_method p s l f args x m tx us : field "function" l = Some f -> kind_of f = field_access -> field "arguments" l = Some args ->
    field "target" (kids_of f) = Some x -> field "field" (kids_of f) = Some m -> means x tx ->
    Forall2 means (written (kids_of args)) us ->
    means (T call_expression p s l) (Tr (EMethodCall tx (text_of m) us))
| m_index p s l a b ta tb : field "array" l = Some a -> field "index" l = Some b -> means a ta -> means b tb ->
    means (T array_indexed_access p s l) (Tr (EIndex ta tb))
| m_ternary p s l c a b tc ta tb : field "condition" l = Some c -> field "consequence" l = Some a -> field "alternative" l = Some b ->
    means c tc -> means a ta -> means b tb ->
    means (T ternary_expression p s l) (Tr (ETernary tc ta tb))
| m_field p s l x f tx : field "target" l = Some x -> field "field" l = Some f -> means x tx ->
    means (T field_access p s l) (Tr (EField tx (text_of f)))
| m_scope k p s l x f tx : k = array_scope_access \/ k = scope_access ->
    field "scope" l = Some x -> field "field" l = Some f -> means x tx ->
    means (T k p s l) (Tr (EScope tx (text_of f)))
| m_unary k p s l x u : k = unary_expression \/ k = update_expression -> field "argument" l = Some x -> means x u ->
    means (T k p s l) (Tr (EUnary u None))
| m_sizeof p s l x u : field "type" l = Some x -> means x u -> means (T sizeof_expression p s l) (Tr (EUnary u None))
| m_cast k p s l x u ty : k = view_as \/ k = old_type_cast -> field "value" l = Some x -> type_of e p = Some ty -> means x u ->
    means (T k p s l) (Tr (EViewAs u ty))
| m_ident k p s l : k = identifier \/ k = this -> means (T k p s l) (Tr (EIdent s))
| m_int p s l z : int_value s = Some z -> means (T int_literal p s l) (Tr (ELiteral (LInt z)))
| m_float p s l b : parse_f64 e s = Some b -> means (T float_literal p s l) (Tr (ELiteral (LFloat b)))
| m_char p s l c : String.get 1 s = Some c -> means (T char_literal p s l) (Tr (ELiteral (LChar c)))
| m_string p s l : means (T string_literal p s l) (Tr (ELiteral (LString s)))
| m_true p l : means (T bool_literal p "true" l) (Tr (ELiteral (LBool true)))
| m_false p l : means (T bool_literal p "false" l) (Tr (ELiteral (LBool false)))
| m_null p s l : means (T null p s l) (Tr (ELiteral LNull))
| m_paren p s l x u : field "expression" l = Some x -> means x u -> means (T parenthesized_expression p s l) u
| m_new p s l c args us : field "class" l = Some c -> field "arguments" l = Some args ->
    Forall2 means (written (kids_of args)) us ->
    means (T new_expression p s l) (Tr (ENew (text_of c) us))
| m_array p s l us : Forall2 means (written l) us -> means (T array_literal p s l) (Tr (EArray us))
| m_comma p s l us : Forall2 (fun c u => (blank (kind_of c) = true /\ u = none) \/ means c u) (map snd l) us ->
    means (T comma_expression p s l) (Tr (EComma us)).
End means.

(** ** The code that is lowered as it should be *)
Fixpoint everywhere (P : ts -> Prop) (n : ts) : Prop :=
  match n with T _ _ _ kids => P n /\ fold_right and True (map (fun c => match c with (_, x) => everywhere P x end) kids) end.

(** Only digits, and not more than an i64 holds. *)
Fixpoint all_digits (s : string) : bool :=
  match s with "" => true | String c tl => match digit c with Some _ => all_digits tl | None => false end end.
Definition decimal (s : string) : Prop := all_digits s = true /\ exists z, int_value s = Some z /\ (z < 2 ^ 63)%Z.
(** Integer literals are decimal, each [for] has a condition and an iteration, each [return] a value. *)
Definition plain (n : ts) : Prop :=
  match n with
  | T int_literal _ s _ => decimal s
  | T for_statement _ _ l => field "condition" l <> None /\ field "iteration" l <> None
  | T return_statement _ _ l => field "expression" l <> None
  | _ => True
  end.

(** ** Which written arguments are counted *)
Definition has {A} (f : string) (l : list (option string * A)) : bool := match field f l with Some _ => true | None => false end.
Definition some {A} (o : option A) : bool := match o with Some _ => true | None => false end.
Section counted.
Variable e : env.
(** [counted n]: as an argument, [n] is kept. Literals that are no decimal number, [_], [...] and other
    kinds are not, nor is syntax with missing parts. *)
Fixpoint counted (n : ts) : bool :=
  match n with
  | T k p s l =>
      match k with
      | named_arg => has "arg_name" l && has "value" l
      | block | variable_declaration_statement | old_variable_declaration_statement | break_statement | continue_statement
      | identifier | this | string_literal | null | array_literal | comma_expression => true
      | for_statement => has "condition" l && has "iteration" l && has "body" l
      | while_statement | do_while_statement => has "condition" l && has "body" l
      | condition_statement => has "condition" l && has "truePath" l
      | switch_statement => has "condition" l
      | return_statement => has "expression" l
      | delete_statement => has "free" l
      | expression_statement => match l with [] => false | _ => true end
      | assignment_expression | binary_expression => has "left" l && has "right" l
      | call_expression =>
          match field "function" l with
          | Some f => has "arguments" l && match kind_of f with field_access => has "target" (kids_of f) && has "field" (kids_of f) | _ => true end
          | None => false
          end
      | array_indexed_access => has "array" l && has "index" l
      | ternary_expression => has "condition" l && has "consequence" l && has "alternative" l
      | field_access => has "field" l && has "target" l
      | array_scope_access | scope_access => has "field" l && has "scope" l
      | unary_expression | update_expression => has "argument" l
      | sizeof_expression => has "type" l
      | view_as | old_type_cast => has "value" l && some (type_of e p)
      | int_literal => some (parse_i64 s)
      | float_literal => some (parse_f64 e s)
      | char_literal => some (String.get 1 s)
      | bool_literal => String.eqb s "true" || String.eqb s "false"
      | parenthesized_expression =>
          match field "expression" (map (fun c => match c with (f, x) => (f, counted x) end) l) with Some b => b | None => false end
      | new_expression => has "class" l && has "arguments" l
      | _ => false
      end
  end.
End counted.

(** ** No crash *)
(** A call is of a name or of a member, and each block has an id. *)
Definition callable (e : env) (n : ts) : Prop :=
  match n with
  | T call_expression _ _ l => match field "function" l with
                               | Some f => kind_of f = identifier \/ kind_of f = field_access
                               | None => True
                               end
  | T block p _ _ => block_id e p <> None
  | _ => True
  end.

(** ** Sources *)
Fixpoint nodes (n : ts) : list ts :=
  match n with T _ _ _ kids => n :: List.concat (map (fun c => match c with (_, x) => nodes x end) kids) end.
(** The name shown with an expression is the text of its source. *)
Definition name_of {I X} (x : expr I X) : option string :=
  match x with EIdent n | ENew n _ | EField _ n | EMethodCall _ n _ => Some n | _ => None end.
