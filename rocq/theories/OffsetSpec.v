(** Where the statements of a body stand in the text, and which blocks are around a place. *)
From Coq Require Import List String Bool Arith.
From Verif Require Import TypeRefModel HirModel HirSpec OffsetModel.
Import ListNotations.

(** The statements directly in a statement. *)
Definition parts (s : stmt) : list stmt :=
  match s with
  | SExpr _ | SDecl _ _ => []
  | SBlock _ l => l
  | SLoop _ init _ _ b => init ++ [b]
  | SCondition _ _ t e => t :: match e with Some y => [y] | None => [] end
  | SSwitch _ _ cases => map snd cases
  end.
(** The names in the expressions of a statement that are in none of its parts. *)
Definition names (s : stmt) : list decl :=
  match s with
  | SExpr e => idents e
  | SDecl _ l => flat_map (fun b => match b_init b with Some e => idents e | None => [] end) l
  | SBlock _ _ => []
  | SLoop _ _ c it _ => idents c ++ match it with Some e => idents e | None => [] end
  | SCondition _ c _ _ => idents c
  | SSwitch _ c cases => idents c ++ flat_map (fun x => flat_map idents (fst x)) cases
  end.
Definition is_block (s : stmt) : bool := match s with SBlock _ _ => true | _ => false end.

(** [p] is in the text of a node; it is outside. *)
Definition within (p : nat) (r : span) : Prop := fst r <= p < snd r.
Definition outside (p : nat) (r : span) : Prop := p < fst r \/ snd r <= p.
(** A node in another one, with text of the other one before it and behind it, or on one side. *)
Definition inside (a b : span) : Prop := fst b <= fst a /\ snd a <= snd b.
Definition between (a b : span) : Prop := fst b < fst a /\ snd a < snd b.
Definition smaller (a b : span) : Prop := inside a b /\ (fst b < fst a \/ snd a < snd b).

Section layout.
(** [at_ i]: the span of the statement with the id [i]. [source]: that of the node that is recorded
    for an expression. *)
Variable at_ : nat -> span.
Variable source : nat -> option span.
Notation place_of s := (at_ (stmt_id s)).

(** A tree in its text. What is recorded for a statement is its node, for an expression some node in
    it; the parts of a statement are in it, and not in each other; a block has its braces and another
    statement its keyword around its parts; a name is in its statement and in none of the parts. *)
Inductive laid : stmt -> Prop :=
| Laid s :
    match s with
    | SExpr e => forall r, source (expr_id e) = Some r -> inside r (place_of s)
    | SDecl _ l => source (stmt_id s) = Some (place_of s) /\
                   Forall (fun b => forall r, source (b_id b) = Some r -> inside r (place_of s)) l
    | _ => source (stmt_id s) = Some (place_of s)
    end ->
    Forall (fun y => (if is_block s then between else smaller) (place_of y) (place_of s)) (parts s) ->
    ForallOrdPairs (fun a b => snd (place_of a) <= fst (place_of b) \/ snd (place_of b) <= fst (place_of a)) (parts s) ->
    Forall (fun d => exists r, source (snd d) = Some r /\ within (fst r) (place_of s) /\
                               Forall (fun y => outside (fst r) (place_of y)) (parts s)) (names s) ->
    Forall laid (parts s) ->
    laid s.

(** [stands p bl dcl s bl' dcl']: [p] is in the statement [s], around which are the blocks [bl] that
    declare [dcl]; [bl'] are the blocks around [p], which declare [dcl']. In a block is what is behind
    its opening brace. *)
Definition enter (s : stmt) (bl : list nat) : list nat := match s with SBlock i _ => i :: bl | _ => bl end.
Definition enter_decls (s : stmt) (dcl : list (list decl)) : list (list decl) :=
  match s with SBlock _ l => flat_map level l :: dcl | _ => dcl end.
Inductive stands (p : nat) : list nat -> list (list decl) -> stmt -> list nat -> list (list decl) -> Prop :=
| stands_own bl dcl s : within p (place_of s) -> (is_block s = true -> fst (place_of s) < p) -> Forall (fun y => outside p (place_of y)) (parts s) ->
    stands p bl dcl s (enter s bl) (enter_decls s dcl)
| stands_part bl dcl s y bl' dcl' : In y (parts s) ->
    stands p (enter s bl) (enter_decls s dcl) y bl' dcl' -> stands p bl dcl s bl' dcl'.
End layout.

(** The blocks of a statement. *)
Inductive block_of : stmt -> nat -> list stmt -> Prop :=
| block_here i l : block_of (SBlock i l) i l
| block_part s y i l : In y (parts s) -> block_of y i l -> block_of s i l.
(** [n] is declared, outside of nested blocks, in a block that ends just at [p]. *)
Definition declared_just_before (at_ : nat -> span) (s : stmt) (p : nat) (n : name) : Prop :=
  exists i l, block_of s i l /\ snd (at_ i) = p /\ In n (map fst (flat_map level l)).

(** What the editor is led to by a meaning: the local variable, the thing of the file, or the first
    of the functions of the name. *)
Inductive leads_to : value_ns -> found_def -> Prop :=
| leads_local o e : leads_to (VLocal o e) (FLocal o e)
| leads_function i l : leads_to (VFunctions (i :: l)) (FFunction i)
| leads_item d : leads_to (VDef d) (FItem d).
