(** What the named arguments of the calls in a function body refer to, for C63. *)
From Coq Require Import List String Bool Arith.
From Verif Require Import TypeRefModel HirModel HirSpec MemberSpec.
Import ListNotations.

Section place.
Variable db : database.
(** What names mean at the place looked at. *)
Variable look : name -> option value_ns.
(** The parameter of a function that has a name. *)
Variable parameter : nat -> name -> option nat.

(** A call with its arguments, and the function called: the first of those that the name of the callee
    stands for, or a method of the enum struct that the target is of. The target is one whose type C55
    is about, and does not name a function other than to call it. *)
Inductive callee : expr -> list expr -> nat -> Prop :=
| callee_name i k n l f fs : look n = Some (VFunctions (f :: fs)) -> callee (Call i (Ident k n) l) l f
| callee_method i x n l t s f : regular db look look x -> names_function look x = false -> typed db look look x (TName t) ->
    look t = Some (VDef (DEnumStruct, s)) -> struct_item_of db s n = Some (IStructMethod f) ->
    callee (MethodCall i x n l) l f.

Inductive naming := Names (e f x : nat) | NoSuch (e : nat) (n f : name).
(** [.n = v] in a call names the parameter [n] of the function called, or there is none. *)
Inductive argument : expr -> naming -> Prop :=
| argument_names w l f j i n v x : callee w l f -> In (NamedArg j (Ident i n) v) l -> parameter f n = Some x -> argument w (Names i f x)
| argument_unknown w l f j i n v : callee w l f -> In (NamedArg j (Ident i n) v) l -> parameter f n = None ->
    argument w (NoSuch i n (fd_name (function_of db f))).

(** Named arguments stand only in such calls. *)
Fixpoint well (here : Prop) (e : expr) : Prop :=
  match e with
  | Ident _ _ | Missing _ | Literal _ _ => True
  | CommaExpr _ l | ArrayLiteral _ l | New _ _ l => fold_right (fun x a => well False x /\ a) True l
  | NamedArg _ x v => here /\ (exists i n, x = Ident i n) /\ well False v
  | ViewAs _ x _ | FieldAccess _ x _ | ScopeAccess _ x _ | UnaryOp _ x => well False x
  | ArrayIndexedAccess _ a b | BinaryOp _ a b => well False a /\ well False b
  | TernaryOp _ a b c => well False a /\ well False b /\ well False c
  | Control _ x => match x with Some y => well False y | None => True end
  | Call _ f l => well False f /\ fold_right (fun x a => well (exists g, callee e l g) x /\ a) True l
  | MethodCall _ t _ l => well False t /\ fold_right (fun x a => well (exists g, callee e l g) x /\ a) True l
  end.
End place.

(** The ids of the names of the named arguments in an expression. *)
Fixpoint name_ids (e : expr) : list nat :=
  match e with
  | Ident _ _ | Missing _ | Literal _ _ => []
  | CommaExpr _ l | ArrayLiteral _ l | New _ _ l => flat_map name_ids l
  | NamedArg _ x v => expr_id x :: name_ids v
  | ViewAs _ x _ | FieldAccess _ x _ | ScopeAccess _ x _ | UnaryOp _ x => name_ids x
  | ArrayIndexedAccess _ a b | BinaryOp _ a b => name_ids a ++ name_ids b
  | TernaryOp _ a b c => name_ids a ++ name_ids b ++ name_ids c
  | Control _ x => match x with Some y => name_ids y | None => [] end
  | Call _ f l => name_ids f ++ flat_map name_ids l
  | MethodCall _ t _ l => name_ids t ++ flat_map name_ids l
  end.

Definition named (res : result) (a : naming) : Prop :=
  match a with
  | Names i f x => In (i, (f, x)) (named_args res)
  | NoSuch i n f => In (UnresolvedNamedArg i n f) (diagnostics res)
  end.
(** The parameter a name stands for: the last of that name. *)
Definition parameter_of (bodies : nat -> body) (f : nat) (n : name) : option nat := assoc n (rev (params (bodies f))).
(** The functions of the database: their parameters are those of their bodies, and their resolvers
    have the scopes of files and types only. *)
Definition knows (db : database) (bodies : nat -> body) : Prop :=
  forall f, function_scopes db f = new_scopes (bodies f) /\
    (forall s, body_stmt (bodies f) = Some s -> exists i l, s = SBlock i l) /\
    exists maps this, function_resolver db f = SGlobal maps :: match this with Some (mm, i) => [SThis mm i] | None => [] end.
