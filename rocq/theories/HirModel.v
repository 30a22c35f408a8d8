(** Function bodies: scopes, name resolution and the inference walk of crates/hir-def/src. *)
From Coq Require Import List String Bool Arith.
From Verif Require Import TypeRefModel.
Import ListNotations.

Definition name := string.

(** ** Bodies *)

(** hir.rs:28-110 [Expr], as a tree in which each node carries its arena index. The grammar only
    puts statements where statements may stand, so they have a type of their own. Operators and
    the values of literals are left out. *)
Inductive expr :=
| Missing (id : nat)
| Ident (id : nat) (n : name)
| CommaExpr (id : nat) (l : list expr)
| NamedArg (id : nat) (arg_name value : expr)
| New (id : nat) (n : name) (args : list expr)
| ViewAs (id : nat) (operand : expr) (ty : type_ref)
| FieldAccess (id : nat) (target : expr) (n : name)
| ScopeAccess (id : nat) (scope : expr) (n : name)
| ArrayIndexedAccess (id : nat) (array index : expr)
| UnaryOp (id : nat) (operand : expr)
| BinaryOp (id : nat) (lhs rhs : expr)
| TernaryOp (id : nat) (condition then_branch else_branch : expr)
| Control (id : nat) (operand : option expr)
| Call (id : nat) (callee : expr) (args : list expr)
| MethodCall (id : nat) (target : expr) (n : name) (args : list expr)
| Literal (id : nat) (ty : type_ref)
| ArrayLiteral (id : nat) (l : list expr).
Record binding := Bind { b_id : nat; b_name : name; b_type : option type_ref; b_init : option expr }.
Inductive stmt :=
| SExpr (e : expr)
| SDecl (id : nat) (l : list binding)
| SBlock (id : nat) (l : list stmt)
| SLoop (id : nat) (init : list stmt) (condition : expr) (iteration : option expr) (body : stmt)
| SCondition (id : nat) (condition : expr) (then_branch : stmt) (else_branch : option stmt)
| SSwitch (id : nat) (condition : expr) (cases : list (list expr * stmt)).

Definition expr_id (e : expr) : nat :=
  match e with
  | Missing i | Ident i _ | CommaExpr i _ | NamedArg i _ _ | New i _ _ | ViewAs i _ _ | FieldAccess i _ _
  | ScopeAccess i _ _ | ArrayIndexedAccess i _ _ | UnaryOp i _ | BinaryOp i _ _ | TernaryOp i _ _ _
  | Control i _ | Call i _ _ | MethodCall i _ _ _ | Literal i _ | ArrayLiteral i _ => i
  end.
Definition stmt_id (s : stmt) : nat :=
  match s with
  | SExpr e => expr_id e
  | SDecl i _ | SBlock i _ | SLoop i _ _ _ _ | SCondition i _ _ _ | SSwitch i _ _ => i
  end.

(** body.rs:19-26 [Body]: parameters with the index of their binding, and the body. *)
Record body := Body { params : list (name * nat); body_stmt : option stmt }.

(** ** scope.rs *)

(** body/scope.rs:134-138 [ScopeData]; a hash map is the list of its insertions, newest first. The
    parent is another scope, or the file. *)
Record scope_data := ScopeData { sd_parent : option nat; sd_entries : list (name * nat) }.
(** body/scope.rs:24-28 [ExprScopes]. *)
Record expr_scopes := ExprScopes { scopes : list scope_data; scope_entries : list nat; by_expr : list (nat * nat) }.

Fixpoint assoc {A} (n : name) (l : list (name * A)) : option A :=
  match l with [] => None | (k, x) :: tl => if String.eqb k n then Some x else assoc n tl end.
Fixpoint by_id {A} (n : nat) (l : list (nat * A)) : option A :=
  match l with [] => None | (k, x) :: tl => if Nat.eqb k n then Some x else by_id n tl end.

Fixpoint update_nth {A} (i : nat) (f : A -> A) (l : list A) : list A :=
  match l, i with
  | [], _ => []
  | x :: tl, O => f x :: tl
  | x :: tl, S j => x :: update_nth j f tl
  end.
(** body/scope.rs:116-118 [set_scope]. *)
Definition set_scope (node scope : nat) (s : expr_scopes) : expr_scopes :=
  ExprScopes (scopes s) (scope_entries s) ((node, scope) :: by_expr s).
(** The two statements that add a binding, body/scope.rs:92-99 and 161-166. *)
Definition add_entry (n : name) (e scope : nat) (s : expr_scopes) : expr_scopes :=
  ExprScopes (update_nth scope (fun d => ScopeData (sd_parent d) ((n, List.length (scope_entries s)) :: sd_entries d)) (scopes s))
             (scope_entries s ++ [e]) (by_expr s).
(** body/scope.rs:108-113 [new_block_scope]. *)
Definition new_block_scope (parent : nat) (s : expr_scopes) : expr_scopes :=
  ExprScopes (scopes s ++ [ScopeData (Some parent) []]) (scope_entries s) (by_expr s).

(** body/scope.rs:153-219 [compute_expr_scopes]. *)
Definition compute_binding (scope : nat) (s : expr_scopes) (b : binding) : expr_scopes :=
  add_entry (b_name b) (b_id b) scope (set_scope (b_id b) scope s).
Fixpoint compute (e : stmt) (scope : nat) (s0 : expr_scopes) : expr_scopes :=
  let s := set_scope (stmt_id e) scope s0 in
  match e with
  | SDecl _ l => fold_left (compute_binding scope) l s
  | SBlock id l =>
      let inner := List.length (scopes s) in
      fold_left (fun s x => compute x inner s) l (set_scope id inner (new_block_scope scope s))
  | SLoop _ init _ _ b => compute b scope (fold_left (fun s x => compute x scope s) init s)
  | SCondition _ _ t e =>
      let s := compute t scope s in
      match e with Some x => compute x scope s | None => s end
  | SSwitch _ _ cases => fold_left (fun s c => match c with (_, x) => compute x scope s end) cases s
  | SExpr _ => s
  end.

(** body/scope.rs:78-90 [ExprScopes::new]. *)
Definition root_scopes : expr_scopes := ExprScopes [ScopeData None []] [] [].
Definition new_scopes (b : body) : expr_scopes :=
  let s := fold_left (fun s p => add_entry (fst p) (snd p) 0 s) (params b) root_scopes in
  match body_stmt b with Some e => compute e 0 s | None => s end.

(** body/scope.rs:51-53 [scope_chain]; the number of scopes bounds its length. *)
Fixpoint chain (fuel : nat) (s : expr_scopes) (scope : nat) : list nat :=
  match fuel with
  | O => []
  | S f => scope :: match nth_error (scopes s) scope with
                    | Some d => match sd_parent d with Some p => chain f s p | None => [] end
                    | None => []
                    end
  end.
Definition scope_chain (s : expr_scopes) (scope : option nat) : list nat :=
  match scope with Some i => chain (List.length (scopes s)) s i | None => [] end.

(** body/scope.rs:55-58 [resolve_name_in_scope], 68-70 [entry] and resolver.rs:33-41. *)
Fixpoint find_in (s : expr_scopes) (n : name) (l : list nat) : option nat :=
  match l with
  | [] => None
  | i :: tl => match nth_error (scopes s) i with
               | Some d => match assoc n (sd_entries d) with Some k => Some k | None => find_in s n tl end
               | None => find_in s n tl
               end
  end.
Definition resolve_name_in_scope (s : expr_scopes) (scope : nat) (n : name) : option nat :=
  match find_in s n (scope_chain s (Some scope)) with
  | Some k => nth_error (scope_entries s) k
  | None => None
  end.
(** body/scope.rs:60-62 [scope_for]. *)
Definition scope_for (s : expr_scopes) (e : nat) : option nat := by_id e (by_expr s).

(** ** resolver.rs *)

(** [FileDefId]: what sort of item, and its interned id. *)
Inductive def_kind := DFunction | DMacro | DGlobal | DEnumStruct | DMethodmap | DEnum | DVariant | DTypedef | DTypeset | DFunctag | DFuncenum.
Definition file_def := (def_kind * nat)%type.
Definition kind_eqb (a b : def_kind) : bool :=
  match a, b with
  | DFunction, DFunction | DMacro, DMacro | DGlobal, DGlobal | DEnumStruct, DEnumStruct | DMethodmap, DMethodmap | DEnum, DEnum
  | DVariant, DVariant | DTypedef, DTypedef | DTypeset, DTypeset | DFunctag, DFunctag | DFuncenum, DFuncenum => true
  | _, _ => false
  end.
Definition def_eqb (a b : file_def) : bool := kind_eqb (fst a) (fst b) && Nat.eqb (snd a) (snd b).

(** A [DefMap]: file and definitions by name. *)
Record def_map := DefMap { dm_file : nat; dm_values : list (name * list file_def) }.
(** resolver.rs:52-60 [Scope]; the flag of [This] tells a methodmap from an enum struct. *)
Inductive scope :=
| SGlobal (maps : list def_map)
| SThis (methodmap : bool) (id : nat)
| SLocal (owner : nat) (s : expr_scopes) (id : nat).

(** resolver.rs:262-275 [ValueNs]. *)
Inductive value_ns :=
| VLocal (owner e : nat)
| VFunctions (ids : list nat)
| VDef (d : file_def).

Definition entry_eqb (a b : file_def * nat) : bool := def_eqb (fst a) (fst b) && Nat.eqb (snd a) (snd b).
(** [Vec::dedup]. *)
Fixpoint dedup (l : list (file_def * nat)) : list (file_def * nat) :=
  match l with
  | x :: ((y :: _) as tl) => if entry_eqb x y then dedup tl else x :: dedup tl
  | _ => l
  end.
Definition global_entries (maps : list def_map) (n : name) : list (file_def * nat) :=
  flat_map (fun m => match assoc n (dm_values m) with Some l => map (fun d => (d, dm_file m)) l | None => [] end) maps.
(** resolver.rs:117-183, one global scope. *)
Definition resolve_global (maps : list def_map) (n : name) : option value_ns :=
  match dedup (global_entries maps n) with
  | [] => None
  | [(DFunction, i, _)] => Some (VFunctions [i])
  | [(d, _)] => Some (VDef d)
  | es =>
      match find (fun e => match e with (DMethodmap, _, _) => true | _ => false end) es with
      | Some (d, _) => Some (VDef d)
      | None => Some (VFunctions (flat_map (fun e => match e with (DFunction, i, _) => [i] | _ => [] end) es))
      end
  end.

(** resolver.rs:95-187 [resolve_ident]; the innermost scope is the last of the vector. *)
Fixpoint resolve_in (l : list scope) (n : name) : option value_ns :=
  match l with
  | [] => None
  | SLocal owner s i :: tl =>
      match resolve_name_in_scope s i n with Some e => Some (VLocal owner e) | None => resolve_in tl n end
  | SThis mm i :: tl =>
      if String.eqb n "this" then Some (VDef (if mm then DMethodmap else DEnumStruct, i)) else resolve_in tl n
  | SGlobal maps :: tl =>
      match resolve_global maps n with Some v => Some v | None => resolve_in tl n end
  end.
Definition resolve_ident (r : list scope) (n : name) : option value_ns := resolve_in (rev r) n.

Fixpoint take_while {A} (p : A -> bool) (l : list A) : list A :=
  match l with [] => [] | x :: tl => if p x then x :: take_while p tl else [] end.
(** resolver.rs:191-239 [update_to_inner_scope]: the new vector and the guard. [s] are the scopes of
    the function being analysed. *)
Definition update_to_inner_scope (owner : nat) (s : expr_scopes) (e : nat) (r : list scope) : list scope * nat :=
  let start := List.length r in
  let pushed :=
    match rev r with
    | SLocal owner' s' i :: _ =>
        map (fun j => SLocal owner' s' j) (take_while (fun j => negb (Nat.eqb j i)) (scope_chain s' (scope_for s' e)))
    | _ => map (fun j => SLocal owner s j) (scope_chain s (scope_for s e))
    end in
  (r ++ rev pushed, start).
(** resolver.rs:241-243 [reset_to_guard]. *)
Definition reset_to_guard (r : list scope) (guard : nat) : list scope := firstn guard r.

(** resolver.rs:367-387 [resolver_for_scope], from the resolver of the owner; the root scope stands
    for the definitions of the file. *)
Definition resolver_for_scope (owner : nat) (s : expr_scopes) (file_maps : list def_map) (base : list scope) (sc : option nat) : list scope :=
  base ++ map (fun i => match nth_error (scopes s) i with
                        | Some d => match sd_parent d with Some _ => SLocal owner s i | None => SGlobal file_maps end
                        | None => SLocal owner s i
                        end) (rev (scope_chain s sc)).
(** hir/src/source_analyzer.rs:161-173 [scope_for] with the enclosing blocks of a node, innermost
    first. *)
Fixpoint node_scope (s : expr_scopes) (blocks : list nat) : option nat :=
  match blocks with
  | [] => None
  | b :: tl => match scope_for s b with Some i => Some i | None => node_scope s tl end
  end.

(** ** infer.rs *)

Record param := Param { has_default : bool; is_rest : bool }.
(** data.rs:39-43 [FunctionData]. *)
Record function_data := FunctionData { fd_name : name; fd_type : option type_ref; fd_params : list param }.
Definition number_of_mandatory_parameters (d : function_data) : nat :=
  List.length (filter (fun p => negb (has_default p || is_rest p)) (fd_params d)).
Definition number_of_parameters (d : function_data) : option nat :=
  if existsb is_rest (fd_params d) then None else Some (List.length (fd_params d)).

Inductive struct_item := IField (ty : type_ref) | IStructMethod (f : nat).
Inductive map_item := IProperty (id : nat) (ty : type_ref) | IMapMethod (f : nat).
(** What the walk asks the database. *)
Record database := Database {
  function_of : nat -> function_data;
  global_type : nat -> option type_ref;
  def_name : file_def -> option name;
  struct_item_of : nat -> name -> option struct_item;
  map_item_of : nat -> name -> option map_item;
  map_constructor : nat -> option nat;
  function_resolver : nat -> list scope;
  function_scopes : nat -> expr_scopes;
  (** Type of the binding with a given index in the body analysed; [None] when it has none. *)
  binding_type : nat -> option type_ref }.

(** infer.rs:31-60 *)
Inductive diagnostic :=
| UnresolvedField (e : nat) (receiver n : name) (method_exists : bool)
| UnresolvedMethodCall (e : nat) (receiver n : name) (field_exists : bool)
| UnresolvedConstructor (e : nat) (n : name) (kind : option bool)
| UnresolvedNamedArg (e : nat) (n callee : name)
| IncorrectNumberOfArguments (e : nat) (n : name) (expected : option nat) (actual : nat).

(** infer.rs:105-118: the mutable part of the context. [calls] is the stack, innermost first, each
    with the id of its callee expression and what it resolved to. *)
Record result := Result {
  attributes : list (nat * nat);
  methods : list (nat * nat);
  named_args : list (nat * (nat * nat));
  diagnostics : list diagnostic }.
Record ctx := Ctx { calls : list (nat * option value_ns); res : result }.

Section infer.
Variable db : database.

Definition push_diag (d : diagnostic) (c : ctx) : ctx :=
  Ctx (calls c) (Result (attributes (res c)) (methods (res c)) (named_args (res c)) (diagnostics (res c) ++ [d])).
Definition add_attribute (e i : nat) (c : ctx) : ctx :=
  Ctx (calls c) (Result ((e, i) :: attributes (res c)) (methods (res c)) (named_args (res c)) (diagnostics (res c))).
Definition add_method (e i : nat) (c : ctx) : ctx :=
  Ctx (calls c) (Result (attributes (res c)) ((e, i) :: methods (res c)) (named_args (res c)) (diagnostics (res c))).
Definition add_named (e : nat) (l : nat * nat) (c : ctx) : ctx :=
  Ctx (calls c) (Result (attributes (res c)) (methods (res c)) ((e, l) :: named_args (res c)) (diagnostics (res c))).
(** infer.rs:137-143 *)
Definition push_call (e : nat) (c : ctx) : ctx := Ctx ((e, None) :: calls c) (res c).
Definition pop_call (c : ctx) : ctx := Ctx (tl (calls c)) (res c).
(** infer.rs:350-354, 602-607: set what the current call resolved to, unless known. *)
Definition set_call (v : value_ns) (c : ctx) : ctx :=
  match calls c with
  | (e, None) :: tl => Ctx ((e, Some v) :: tl) (res c)
  | _ => c
  end.
(** infer.rs:153-161 [current_call_data]. *)
Definition current_call_function (c : ctx) : option nat :=
  match calls c with
  | (_, Some (VFunctions (f :: _))) :: _ => Some f
  | _ => None
  end.

(** infer.rs:322-384: the type of an identifier. *)
Definition infer_ident (r : list scope) (n : name) (c : ctx) : option type_ref * ctx :=
  match resolve_ident r n with
  | None => (None, c)
  | Some (VLocal _ e) => (binding_type db e, c)
  | Some (VFunctions l as v) => (fold_left (fun _ f => fd_type (function_of db f)) l None, set_call v c)
  | Some (VDef (k, i)) =>
      match k with
      | DGlobal => (global_type db i, c)
      | DMethodmap | DEnumStruct | DTypeset | DFuncenum | DTypedef | DFunctag => (option_map TName (def_name db (k, i)), c)
      | _ => (None, c)
      end
  end.
(** infer.rs:449-489 [infer_constructor]. *)
Definition infer_constructor (r : list scope) (e : nat) (n : name) (c : ctx) : option type_ref * ctx :=
  match resolve_ident r n with
  | Some (VDef (DEnumStruct, _)) => (None, push_diag (UnresolvedConstructor e n (Some false)) c)
  | Some (VDef (DMethodmap, i)) =>
      match map_constructor db i with
      | Some f => (Some (TName n), add_method e f c)
      | None => (None, push_diag (UnresolvedConstructor e n (Some true)) c)
      end
  | _ => (None, push_diag (UnresolvedConstructor e n None) c)
  end.
(** infer.rs:491-571 [infer_field_access], behind the inference of the target. An attribute is known
    by the item it belongs to. *)
Definition field_access (r : list scope) (e : nat) (target : option type_ref) (n : name) (c : ctx) : option type_ref * ctx :=
  match target with
  | Some (TName t) =>
      let missing := (None, push_diag (UnresolvedField e t n false) c) in
      match resolve_ident r t with
      | None => (None, c)
      | Some (VDef (DEnumStruct, i)) =>
          match struct_item_of db i n with
          | Some (IField ty) => (Some ty, add_attribute e i c)
          | Some (IStructMethod _) => (None, push_diag (UnresolvedField e t n true) c)
          | None => missing
          end
      | Some (VDef (DMethodmap, i)) =>
          match map_item_of db i n with
          | Some (IProperty p ty) => (Some ty, add_attribute e p c)
          | Some (IMapMethod _) => (None, push_diag (UnresolvedField e t n true) c)
          | None => missing
          end
      | Some _ => missing
      end
  | _ => (None, c)
  end.
(** infer.rs:573-653 [infer_method_call], behind the inference of the target. Only a method of an
    enum struct is recorded as the current call. *)
Definition method_call (r : list scope) (e : nat) (target : option type_ref) (n : name) (c : ctx) : option type_ref * ctx :=
  match target with
  | Some (TName t) =>
      let missing := (None, push_diag (UnresolvedMethodCall e t n false) c) in
      match resolve_ident r t with
      | None => (None, c)
      | Some (VDef (DEnumStruct, i)) =>
          match struct_item_of db i n with
          | Some (IField _) => (None, push_diag (UnresolvedMethodCall e t n true) c)
          | Some (IStructMethod f) => (fd_type (function_of db f), set_call (VFunctions [f]) (add_method e f c))
          | None => missing
          end
      | Some (VDef (DMethodmap, i)) =>
          match map_item_of db i n with
          | Some (IProperty _ _) => (None, push_diag (UnresolvedMethodCall e t n true) c)
          | Some (IMapMethod f) => (fd_type (function_of db f), add_method e f c)
          | None => missing
          end
      | Some _ => missing
      end
  | _ => (None, c)
  end.
(** infer.rs:404-419: the check of the number of arguments. [None] as expected number is
    [usize::MAX], which cannot happen. *)
Definition check_arity (e : nat) (args : list expr) (c : ctx) : ctx :=
  match current_call_function c with
  | None => c
  | Some f =>
      let d := function_of db f in
      let n := List.length args in
      let min := number_of_mandatory_parameters d in
      let max := number_of_parameters d in
      if (n <? min) || match max with Some m => m <? n | None => false end
      then push_diag (IncorrectNumberOfArguments (last (map expr_id args) e) (fd_name d)
                        (if n <? min then Some min else max) n) c
      else c
  end.

(** infer.rs:182-441 [infer_expr], for expressions; the resolver is not changed. *)
Fixpoint infer (r : list scope) (e : expr) (c : ctx) : option type_ref * ctx :=
  match e with
  | Missing _ => (None, c)
  | Ident _ n => infer_ident r n c
  | CommaExpr _ l => fold_left (fun s x => infer r x (snd s)) l (None, c)
  | NamedArg _ nm value =>
      match current_call_function c with
      | None => (None, c)
      | Some f =>
          match nm with
          | Ident i n =>
              let rf := function_resolver db f ++
                match scopes (function_scopes db f) with [] => [] | _ => [SLocal f (function_scopes db f) 0] end in
              let c' := match resolve_ident rf n with
                        | Some (VLocal o x) => add_named i (o, x) c
                        | _ => push_diag (UnresolvedNamedArg i n (fd_name (function_of db f))) c
                        end in
              infer r value c'
          | _ => (None, c)
          end
      end
  | New i n args => infer_constructor r i n (fold_left (fun c x => snd (infer r x c)) args c)
  | ViewAs _ x ty => (Some ty, snd (infer r x c))
  | FieldAccess i x n | ScopeAccess i x n => let '(ty, c) := infer r x c in field_access r i ty n c
  | ArrayIndexedAccess _ a i => let '(ty, c) := infer r a (snd (infer r i c)) in (option_map to_lower_dim ty, c)
  | UnaryOp _ x => infer r x c
  | BinaryOp _ a b => infer r b (snd (infer r a c))
  | TernaryOp _ a b d => infer r d (snd (infer r b (snd (infer r a c))))
  | Control _ x => (None, match x with Some y => snd (infer r y c) | None => c end)
  | Call i f args =>
      let '(ty, c) := infer r f (push_call (expr_id f) c) in
      let c := fold_left (fun c x => snd (infer r x c)) args c in
      (ty, pop_call (check_arity i args c))
  | MethodCall i t n args =>
      let '(ty0, c) := infer r t (push_call (expr_id t) c) in
      let '(ty, c) := method_call r i ty0 n c in
      (ty, pop_call (fold_left (fun c x => snd (infer r x c)) args c))
  | Literal _ ty => (Some ty, c)
  | ArrayLiteral _ l => fold_left (fun s x => infer r x (snd s)) l (None, c)
  end.

(** The statements; here the resolver changes. *)
Section statements.
Variable owner : nat.
Variable es : expr_scopes.
Definition infer_opt (r : list scope) (e : option expr) (c : ctx) : ctx :=
  match e with Some x => snd (infer r x c) | None => c end.
Fixpoint infer_stmt (s : stmt) (st : list scope * ctx) : list scope * ctx :=
  let '(r, c) := st in
  match s with
  | SExpr e => (r, snd (infer r e c))
  | SDecl _ l => (r, fold_left (fun c b => infer_opt r (b_init b) c) l c)
  | SBlock id l =>
      let '(r1, guard) := update_to_inner_scope owner es id r in
      let '(r2, c2) := fold_left (fun st x => infer_stmt x st) l (r1, c) in
      (reset_to_guard r2 guard, c2)
  | SLoop _ init cond iter b =>
      let '(r, c) := fold_left (fun st x => infer_stmt x st) init (r, c) in
      infer_stmt b (r, infer_opt r iter (snd (infer r cond c)))
  | SCondition _ cond t e =>
      let st := infer_stmt t (r, snd (infer r cond c)) in
      match e with Some x => infer_stmt x st | None => st end
  | SSwitch _ cond cases =>
      fold_left (fun st k => match k with (values, b) =>
                   let '(r, c) := st in infer_stmt b (r, fold_left (fun c v => snd (infer r v c)) values c) end)
        cases (r, snd (infer r cond c))
  end.
End statements.
End infer.

(** infer.rs:16-28 [infer_query] for a function with the resolver [base] of its owner. *)
Definition infer_query (db : database) (owner : nat) (base : list scope) (b : body) : result :=
  match body_stmt b with
  | None => Result [] [] [] []
  | Some s => res (snd (infer_stmt db owner (new_scopes b) s (base, Ctx [] (Result [] [] [] []))))
  end.
