(** A function as it is written: where its nodes stand in the text, which blocks are around a place, and
    what the nodes around it declare. Nothing here mentions the analysed body. *)
From Coq Require Import List String Bool Arith.
From Verif Require Import TypeRefModel LowerModel LowerSpec HirModel OffsetModel OffsetSpec.
Import ListNotations.
Local Open Scope string_scope.
Local Open Scope nat_scope.
Local Open Scope list_scope.

(** A name with the node that declares it. *)
Definition written_decl := (string * nat)%type.

(** ** Statements *)
Definition opt {A} (x : option A) : list A := match x with Some a => [a] | None => [] end.
Definition is_brace (k : kind) : bool := is_kind k anon_LBRACE || is_kind k anon_RBRACE.
(** Declarations, and the statements that have others in them. *)
Definition is_statement (k : kind) : bool :=
  match k with
  | block | variable_declaration_statement | old_variable_declaration_statement | for_statement | while_statement
  | do_while_statement | condition_statement | switch_statement => true
  | _ => false
  end.
(** The statements with a keyword in front of their parts. *)
Definition has_keyword (k : kind) : bool :=
  match k with for_statement | while_statement | do_while_statement | condition_statement | switch_statement => true | _ => false end.
(** The statements directly in a statement. *)
Definition statements (n : ts) : list ts :=
  match n with T k _ _ l =>
    match k with
    | block => filter (fun x => negb (is_brace (kind_of x))) (map snd l)
    | for_statement => fields "initialization" l ++ opt (field "body" l)
    | while_statement | do_while_statement => opt (field "body" l)
    | condition_statement => opt (field "truePath" l) ++ opt (field "falsePath" l)
    | switch_statement => flat_map (fun c => opt (field "body" (kids_of c))) (of_kind switch_case l)
    | _ => []
    end
  end.
(** The name a declaration gives. *)
Definition declared_name (c : ts) : list written_decl :=
  match field "name" (kids_of c) with Some nm => [(text_of nm, ptr_of c)] | None => [] end.
(** The declarations a statement makes outside of nested blocks, in the order of the text. *)
Fixpoint declares (n : ts) : list written_decl :=
  match n with T k _ _ l =>
    let sub := map (fun c => match c with (f, x) => (f, declares x) end) l in
    match k with
    | variable_declaration_statement => flat_map declared_name (of_kind variable_declaration l)
    | old_variable_declaration_statement => flat_map declared_name (of_kind old_variable_declaration l)
    | for_statement => List.concat (fields "initialization" sub) ++ List.concat (opt (field "body" sub))
    | while_statement | do_while_statement => List.concat (opt (field "body" sub))
    | condition_statement => List.concat (opt (field "truePath" sub)) ++ List.concat (opt (field "falsePath" sub))
    | switch_statement =>
        flat_map (fun c => match c with (_, T switch_case _ _ l') =>
          List.concat (opt (field "body" (map (fun c' => match c' with (f, x) => (f, declares x) end) l')))
          | _ => [] end) l
    | _ => []
    end
  end.

Section text.
(** The start and the end of a node. *)
Variable sp : nat -> span.
Definition where_ (n : ts) : span := sp (ptr_of n).

(** ** A tree in its text *)
(** The children of a node are in it, one behind the other; a name is not empty; a block has its braces
    around its statements and a loop or a condition its keyword in front of its parts; what is in
    parentheses, or is a statement by itself, is an expression, and what a switch looks at is not a case. *)
Definition tidy (n : ts) : Prop :=
  match n with T k _ _ l =>
    Forall (fun c => inside (where_ (snd c)) (where_ n)) l /\
    ForallOrdPairs (fun a b => snd (where_ (snd a)) <= fst (where_ (snd b))) l /\
    (k = identifier \/ k = this -> fst (where_ n) < snd (where_ n)) /\
    (k = block -> Forall (fun c => is_brace (kind_of (snd c)) = false -> between (where_ (snd c)) (where_ n)) l) /\
    (has_keyword k = true ->
     Forall (fun c => fst c <> None \/ kind_of (snd c) = switch_case -> fst (where_ n) < fst (where_ (snd c))) l) /\
    (k = parenthesized_expression \/ k = expression_statement -> Forall (fun c => is_statement (kind_of (snd c)) = false) l) /\
    (k = switch_statement -> Forall (fun c => kind_of (snd c) = switch_case -> fst c <> Some "condition") l)
  end.
(** The parts that the lowering asks for are there (a [for] without a condition or an iteration is legal
    but not complete: C48_for_refuted). *)
Definition complete (n : ts) : Prop :=
  match n with T k _ _ l =>
    match k with
    | for_statement => field "condition" l <> None /\ field "iteration" l <> None /\ field "body" l <> None
    | while_statement | do_while_statement => field "condition" l <> None /\ field "body" l <> None
    | condition_statement => field "condition" l <> None /\ field "truePath" l <> None
    | switch_statement => field "condition" l <> None
    | _ => True
    end
  end.

(** ** What is around a place *)
(** [around p dcl n dcl']: the place [p] is in [n]; the blocks around [n] declare [dcl], innermost first,
    and those around [p] declare [dcl']. *)
Definition enters (n : ts) (dcl : list (list written_decl)) : list (list written_decl) :=
  if is_kind (kind_of n) block then flat_map declares (statements n) :: dcl else dcl.
Inductive around (p : nat) : list (list written_decl) -> ts -> list (list written_decl) -> Prop :=
| around_own dcl n : within p (where_ n) -> (kind_of n = block -> fst (where_ n) < p) ->
    Forall (fun y => outside p (where_ y)) (statements n) -> around p dcl n (enters n dcl)
| around_part dcl n y dcl' : In y (statements n) -> around p (enters n dcl) y dcl' -> around p dcl n dcl'.

(** The blocks of a statement. *)
Inductive has_block : ts -> ts -> Prop :=
| has_here n : kind_of n = block -> has_block n n
| has_part n y b : In y (statements n) -> has_block y b -> has_block n b.
(** [x] is declared, outside of nested blocks, in a block that ends just at [p]. *)
Definition just_closed (n : ts) (p : nat) (x : string) : Prop :=
  exists b, has_block n b /\ snd (where_ b) = p /\ In x (map fst (flat_map declares (statements b))).
End text.

(** The declaration of [x] that counts where the blocks around declare [dcl] and the function has the
    parameters [ps]: the last one of the innermost block that has one, else a parameter. *)
Definition declaration (ps : list written_decl) (dcl : list (list written_decl)) (x : string) : option nat :=
  assoc x (List.concat (map (@rev _) dcl) ++ rev ps).
