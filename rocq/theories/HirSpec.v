(** What names mean in a function body, and which calls have a wrong number of arguments. *)
From Coq Require Import List String Bool Arith.
From Verif Require Import TypeRefModel HirModel.
Import ListNotations.

(** A declared name with the node that declares it. *)
Definition decl := (name * nat)%type.

(** * Scoping *)

(** The identifiers of an expression; the name of a named argument is not one of them. *)
Fixpoint idents (e : expr) : list decl :=
  match e with
  | Ident i n => [(n, i)]
  | Missing _ | Literal _ _ => []
  | CommaExpr _ l | ArrayLiteral _ l | New _ _ l => flat_map idents l
  | NamedArg _ _ v => idents v
  | ViewAs _ x _ | FieldAccess _ x _ | ScopeAccess _ x _ | UnaryOp _ x => idents x
  | ArrayIndexedAccess _ a b | BinaryOp _ a b => idents a ++ idents b
  | TernaryOp _ a b c => idents a ++ idents b ++ idents c
  | Control _ x => match x with Some y => idents y | None => [] end
  | Call _ f l => idents f ++ flat_map idents l
  | MethodCall _ t _ l => idents t ++ flat_map idents l
  end.

(** The declarations a statement makes outside of nested blocks, in the order of the text. *)
Fixpoint level (s : stmt) : list decl :=
  match s with
  | SExpr _ | SBlock _ _ => []
  | SDecl _ l => map (fun b => (b_name b, b_id b)) l
  | SLoop _ init _ _ b => flat_map level init ++ level b
  | SCondition _ _ t e => level t ++ match e with Some x => level x | None => [] end
  | SSwitch _ _ cases => flat_map (fun c => match c with (_, x) => level x end) cases
  end.

(** A use of a name. [u_blocks] are the blocks around it, innermost first. [u_declared] are the
    declarations belonging to each of these blocks, anywhere in it. [u_visible] are the scopes of
    the language that are open at the use, in each block and last for the function, innermost
    first; each holds the declarations made before the use, newest first. *)
Record use := Use {
  u_name : name; u_node : nat; u_blocks : list nat;
  u_declared : list (list decl); u_visible : list (list (list decl)) }.

Definition declare (d : decl) (v : list (list (list decl))) : list (list (list decl)) :=
  match v with (f :: fs) :: tl => ((d :: f) :: fs) :: tl | _ => v end.
Definition open_scope (v : list (list (list decl))) : list (list (list decl)) :=
  match v with fs :: tl => ([] :: fs) :: tl | [] => [] end.

Section uses.
Variable blocks : list nat.
Variable declared : list (list decl).
Definition uses_expr (v : list (list (list decl))) (e : expr) : list use :=
  map (fun d => Use (fst d) (snd d) blocks declared v) (idents e).
Definition uses_opt v (e : option expr) : list use := match e with Some x => uses_expr v x | None => [] end.
(** Bindings of one declaration: a name is visible behind its initialiser. *)
Fixpoint uses_bindings (v : list (list (list decl))) (l : list binding) : list use * list (list (list decl)) :=
  match l with
  | [] => ([], v)
  | b :: tl => let '(us, w) := uses_bindings (declare (b_name b, b_id b) v) tl in (uses_opt v (b_init b) ++ us, w)
  end.
End uses.

(** The uses of a statement and the scopes behind it. A block opens a scope; so does a loop, for the
    names of its header, and each branch or case, for a declaration that stands there alone. *)
Section seq.
Variable one : list (list (list decl)) -> stmt -> list use * list (list (list decl)).
Fixpoint uses_seq (v : list (list (list decl))) (l : list stmt) : list use * list (list (list decl)) :=
  match l with
  | [] => ([], v)
  | x :: tl => let '(a, v1) := one v x in let '(b, v2) := uses_seq v1 tl in (a ++ b, v2)
  end.
End seq.
Fixpoint uses (blocks : list nat) (declared : list (list decl)) (v : list (list (list decl))) (s : stmt) {struct s} : list use * list (list (list decl)) :=
  match s with
  | SExpr e => (uses_expr blocks declared v e, v)
  | SDecl _ l => uses_bindings blocks declared v l
  | SBlock id l => (fst (uses_seq (uses (id :: blocks) (flat_map level l :: declared)) ([[]] :: v) l), v)
  | SLoop _ init cond iter b =>
      let '(a, v1) := uses_seq (uses blocks declared) (open_scope v) init in
      (a ++ uses_expr blocks declared v1 cond ++ uses_opt blocks declared v1 iter ++ fst (uses blocks declared v1 b), v)
  | SCondition _ cond t e =>
      (uses_expr blocks declared v cond ++ fst (uses blocks declared (open_scope v) t) ++
       match e with Some x => fst (uses blocks declared (open_scope v) x) | None => [] end, v)
  | SSwitch _ cond cases =>
      (uses_expr blocks declared v cond ++
       flat_map (fun c => match c with (vs, x) =>
         flat_map (uses_expr blocks declared v) vs ++ fst (uses blocks declared (open_scope v) x) end) cases, v)
  end.
Definition body_uses (b : body) : list use :=
  match body_stmt b with
  | Some s => fst (uses [] [] [[rev (params b)]] s)
  | None => []
  end.

(** What the language says: the newest declaration of the innermost open scope that has one. *)
Definition in_scope (u : use) : option nat := assoc (u_name u) (List.concat (List.concat (u_visible u))).
(** Whether a declaration of the name that belongs to an enclosing block is the only one of that
    block and is in scope at the use. *)
Definition plain_use (u : use) : Prop :=
  Forall2 (fun g d => match filter (fun x => String.eqb (fst x) (u_name u)) d with
                      | [] => True
                      | [x] => In x (List.concat g)
                      | _ => False
                      end) (removelast (u_visible u)) (u_declared u).

(** Ids of the statements and bindings of a body; each node has its own. *)
Fixpoint stmt_ids (s : stmt) : list nat :=
  stmt_id s ::
  match s with
  | SExpr _ => []
  | SDecl _ l => map b_id l
  | SBlock _ l => flat_map stmt_ids l
  | SLoop _ init _ _ b => flat_map stmt_ids init ++ stmt_ids b
  | SCondition _ _ t e => stmt_ids t ++ match e with Some x => stmt_ids x | None => [] end
  | SSwitch _ _ cases => flat_map (fun c => match c with (_, x) => stmt_ids x end) cases
  end.
Definition body_ids (b : body) : list nat := match body_stmt b with Some s => stmt_ids s | None => [] end.

(** What a name means where the blocks around declare [declared]: the last declaration of the
    innermost block, else a parameter, else what [base] says. *)
Definition meaning (owner : nat) (ps : list decl) (base : name -> option value_ns) (declared : list (list decl)) (n : name) : option value_ns :=
  match declared with
  | [] => base n
  | _ => match assoc n (List.concat (map (@rev _) declared) ++ rev ps) with
         | Some e => Some (VLocal owner e)
         | None => base n
         end
  end.

(** * Calls *)

Definition accepts (d : function_data) (n : nat) : Prop :=
  (forall m, m = List.length (filter (fun p => negb (has_default p) && negb (is_rest p)) (fd_params d)) -> m <= n) /\
  (n <= List.length (fd_params d) \/ exists p, In p (fd_params d) /\ is_rest p = true).
Definition accepts_dec d n : {accepts d n} + {~ accepts d n}.
Proof.
  unfold accepts. set (m := List.length (filter _ _)).
  destruct (le_dec m n) as [h|h].
  - destruct (le_dec n (List.length (fd_params d))) as [k|k].
    + left. split; [now intros x ->|now left].
    + destruct (existsb is_rest (fd_params d)) eqn:e.
      * left. split; [now intros x ->|right]. apply existsb_exists in e. exact e.
      * right. intros [_ [c|c]]; [contradiction|]. apply existsb_exists in c. now rewrite c in e.
  - right. intros [c _]. apply h, c, eq_refl.
Defined.

Section calls.
Variable db : database.
Variable look : name -> option value_ns.
(** The function an expression names, if it is a name of one. *)
Definition called (f : expr) : option nat :=
  match f with
  | Ident _ n => match look n with Some (VFunctions (i :: _)) => Some i | _ => None end
  | _ => None
  end.
Definition report (i : nat) (f : expr) (args : list expr) : list diagnostic :=
  match called f with
  | None => []
  | Some g =>
      let d := function_of db g in
      let n := List.length args in
      if accepts_dec d n then [] else
      [IncorrectNumberOfArguments (last (map expr_id args) i) (fd_name d)
         (Some (if n <? number_of_mandatory_parameters d then number_of_mandatory_parameters d else List.length (fd_params d))) n]
  end.
(** The calls of functions in an expression that have a wrong number of arguments, inner calls
    first. *)
Fixpoint wrong_calls (e : expr) : list diagnostic :=
  match e with
  | Ident _ _ | Missing _ | Literal _ _ => []
  | CommaExpr _ l | ArrayLiteral _ l | New _ _ l => flat_map wrong_calls l
  | NamedArg _ _ v => wrong_calls v
  | ViewAs _ x _ | FieldAccess _ x _ | ScopeAccess _ x _ | UnaryOp _ x => wrong_calls x
  | ArrayIndexedAccess _ a b => wrong_calls b ++ wrong_calls a
  | BinaryOp _ a b => wrong_calls a ++ wrong_calls b
  | TernaryOp _ a b c => wrong_calls a ++ wrong_calls b ++ wrong_calls c
  | Control _ x => match x with Some y => wrong_calls y | None => [] end
  | Call i f l => wrong_calls f ++ flat_map wrong_calls l ++ report i f l
  | MethodCall _ t _ l => wrong_calls t ++ flat_map wrong_calls l
  end.

(** A name of functions occurs in the expression, outside of the calls in it. *)
Fixpoint names_function (e : expr) : bool :=
  match e with
  | Ident _ n => match look n with Some (VFunctions _) => true | _ => false end
  | Missing _ | Literal _ _ => false
  | CommaExpr _ l | ArrayLiteral _ l | New _ _ l => existsb names_function l
  | NamedArg _ _ v => names_function v
  | ViewAs _ x _ | FieldAccess _ x _ | ScopeAccess _ x _ | UnaryOp _ x => names_function x
  | ArrayIndexedAccess _ a b | BinaryOp _ a b => names_function a || names_function b
  | TernaryOp _ a b c => names_function a || names_function b || names_function c
  | Control _ x => match x with Some y => names_function y | None => false end
  | Call _ _ _ | MethodCall _ _ _ _ => false
  end.
(** Calls whose callee is not the name of a function contain no name of functions of their own, and
    named arguments only stand in calls of functions. [named] tells whether one may stand here. *)
Fixpoint tame (named : bool) (e : expr) : bool :=
  match e with
  | Ident _ _ | Missing _ | Literal _ _ => true
  | CommaExpr _ l | ArrayLiteral _ l | New _ _ l => forallb (tame false) l
  | NamedArg _ x v => named && match x with Ident _ _ => true | _ => false end && tame false v
  | ViewAs _ x _ | FieldAccess _ x _ | ScopeAccess _ x _ | UnaryOp _ x => tame false x
  | ArrayIndexedAccess _ a b | BinaryOp _ a b => tame false a && tame false b
  | TernaryOp _ a b c => tame false a && tame false b && tame false c
  | Control _ x => match x with Some y => tame false y | None => true end
  | Call _ f l =>
      tame false f &&
      match called f with
      | Some _ => forallb (tame true) l
      | None => negb (names_function f) && negb (existsb names_function l) && forallb (tame false) l
      end
  | MethodCall _ t _ l => tame false t && forallb (tame false) l
  end.
End calls.

(** The same for a body. [P] and [l] are lifted from expressions to statements, with the meaning of
    names at each of them. *)
Section bodies.
Variable db : database.
Variable look : list (list decl) -> name -> option value_ns.
Definition opt_wrong declared (e : option expr) := match e with Some x => wrong_calls db (look declared) x | None => [] end.
Fixpoint wrong_stmt (declared : list (list decl)) (s : stmt) : list diagnostic :=
  match s with
  | SExpr e => wrong_calls db (look declared) e
  | SDecl _ l => flat_map (fun b => opt_wrong declared (b_init b)) l
  | SBlock _ l => flat_map (wrong_stmt (flat_map level l :: declared)) l
  | SLoop _ init c i b =>
      flat_map (wrong_stmt declared) init ++ wrong_calls db (look declared) c ++ opt_wrong declared i ++ wrong_stmt declared b
  | SCondition _ c t e =>
      wrong_calls db (look declared) c ++ wrong_stmt declared t ++ match e with Some x => wrong_stmt declared x | None => [] end
  | SSwitch _ c cases =>
      wrong_calls db (look declared) c ++
      flat_map (fun k => match k with (vs, x) => flat_map (wrong_calls db (look declared)) vs ++ wrong_stmt declared x end) cases
  end.
Definition opt_tame declared (e : option expr) := match e with Some x => tame (look declared) false x | None => true end.
Fixpoint tame_stmt (declared : list (list decl)) (s : stmt) : bool :=
  match s with
  | SExpr e => tame (look declared) false e
  | SDecl _ l => forallb (fun b => opt_tame declared (b_init b)) l
  | SBlock _ l => forallb (tame_stmt (flat_map level l :: declared)) l
  | SLoop _ init c i b =>
      forallb (tame_stmt declared) init && tame (look declared) false c && opt_tame declared i && tame_stmt declared b
  | SCondition _ c t e =>
      tame (look declared) false c && tame_stmt declared t && match e with Some x => tame_stmt declared x | None => true end
  | SSwitch _ c cases =>
      tame (look declared) false c &&
      forallb (fun k => match k with (vs, x) => forallb (tame (look declared) false) vs && tame_stmt declared x end) cases
  end.
End bodies.

Definition is_arity (d : diagnostic) : bool := match d with IncorrectNumberOfArguments _ _ _ _ => true | _ => false end.
