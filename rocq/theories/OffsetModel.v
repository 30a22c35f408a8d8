(** A name in a function body and what it leads to: crates/hir/src/source_analyzer.rs and
    crates/hir/src/semantics.rs:362-453 [function_node_to_def_].

    A position in a file is the number of bytes in front of it: tree-sitter's points are ordered like
    them. *)
From Coq Require Import List String Bool Arith.
From Verif Require Import TypeRefModel HirModel.
Import ListNotations.
Local Open Scope string_scope.
Local Open Scope nat_scope.
Local Open Scope list_scope.

(** The start and the end of a node. *)
Definition span := (nat * nat)%type.

(** [Iterator::min_by_key]: the first of the smallest. *)
Fixpoint min_by_key {A} (key : A -> nat) (l : list A) : option A :=
  match l with
  | [] => None
  | x :: tl => match min_by_key key tl with
               | Some y => if key y <? key x then Some y else Some x
               | None => Some x
               end
  end.

(** body/scope.rs:64-66 [scope_by_expr], an [ArenaMap]: its entries in the order of the ids. *)
Definition scope_by_expr (s : expr_scopes) : list (nat * nat) :=
  flat_map (fun i => match by_id i (by_expr s) with Some k => [(i, k)] | None => [] end)
           (seq 0 (S (list_max (map fst (by_expr s))))).

(** source_analyzer.rs:173-193 [scope_for_offset]; [source] gives the span of the node an expression
    comes from (body.rs:38-40 and [NodePtr::to_node], C40). *)
Definition scope_for_offset (source : nat -> option span) (s : expr_scopes) (point : nat) : option nat :=
  option_map snd
    (min_by_key (fun x => snd (fst x) - fst (fst x))
       (filter (fun x => (fst (fst x) <=? point) && (point <=? snd (fst x)))
          (flat_map (fun x => match source (fst x) with Some r => [(r, snd x)] | None => [] end) (scope_by_expr s)))).

(** source_analyzer.rs:28-83: the resolver of a [SourceAnalyzer] in a body; semantics.rs always gives
    the place of the name. *)
Definition resolver_at (owner : nat) (s : expr_scopes) (maps : list def_map) (base : list scope)
    (source : nat -> option span) (point : nat) : list scope :=
  resolver_for_scope owner s maps base (scope_for_offset source s point).

(** lib.rs:30-56 [DefResolution]: an attribute and the results of [try_from]. *)
Inductive found_def := FFunction (i : nat) | FAttribute (i : nat) | FLocal (owner e : nat) | FItem (d : file_def).
(** lib.rs:58-77 [DefResolution::try_from] *)
Definition try_from (v : value_ns) : option found_def :=
  match v with
  | VFunctions (i :: _) => Some (FFunction i)
  | VFunctions [] => None
  | VLocal o e => Some (FLocal o e)
  | VDef d => Some (FItem d)
  end.

(** Where the name stands (semantics.rs:380-444): behind the dot of a member, called or not; behind
    [new]; directly in a named argument; or elsewhere. *)
Inductive place := PMember (called : bool) | PNew | PNamedArg | POther.

(** The function around the name. [node_expr] is body.rs:42-45 for the node of the name. *)
Record fn_input := FnInput {
  f_owner : nat; f_maps : list def_map; f_base : list scope; f_body : body;
  f_source : nat -> option span; f_db : database }.

(** semantics.rs:362-453 [function_node_to_def_]. The assertion that the body is a block holds for
    each caller: C51. *)
Definition function_node_to_def (f : fn_input) (has_body : bool) (p : place) (text : name) (point : nat) (node_expr : option nat) : option found_def :=
  let infer := infer_query (f_db f) (f_owner f) (f_base f) (f_body f) in
  let by_name :=
    match resolve_ident (resolver_at (f_owner f) (new_scopes (f_body f)) (f_maps f) (f_base f) (f_source f) point) text with
    | Some v => try_from v
    | None => None
    end in
  if negb has_body then
    match resolve_ident (f_base f) text with Some v => try_from v | None => None end
  else
    match p with
    | PMember true | PNew =>
        match node_expr with
        | Some e => match by_id e (methods infer) with Some m => Some (FFunction m) | None => None end
        | None => None
        end
    | PMember false =>
        match node_expr with
        | Some e => match by_id e (attributes infer) with Some a => Some (FAttribute a) | None => None end
        | None => None
        end
    | PNamedArg =>
        match node_expr with
        | Some e => match by_id e (named_args infer) with Some (o, x) => Some (FLocal o x) | None => by_name end
        | None => by_name
        end
    | POther => by_name
    end.
