(** What the identifiers of syntax items should be, said without the traversal. *)
From Coq Require Import List Arith.
From Verif Require Import AstIdModel.
Import ListNotations.

(** [below n m]: [m] is [n] or a node under it. *)
Inductive below : node -> node -> Prop :=
| below_here : forall n, below n n
| below_kid : forall n c m, In c (kids_of n) -> below c m -> below n m.

(** What tree-sitter promises about ranges: a node contains its children, and the children follow
    each other without overlapping. *)
Fixpoint in_order (from : nat) (l : list node) (upto : nat) : Prop :=
  match l with
  | [] => from <= upto
  | c :: r => from <= start_of c /\ start_of c <= stop_of c /\ in_order (stop_of c) r upto
  end.

Definition proper (root : node) : Prop :=
  forall n, below root n -> in_order (start_of n) (kids_of n) (stop_of n).

(** The node is not empty and it is the only one of its kind at its place. *)
Definition solid (root n : node) : Prop :=
  start_of n < stop_of n /\ forall a, below root a -> ptr_of a = ptr_of n -> a = n.

(** The nodes whose children are given ids: the root and, down from it, containers. *)
Inductive opened (root : node) : node -> Prop :=
| opened_root : opened root root
| opened_kid : forall n c,
    opened root n -> In c (kids_of n) -> is_container (kind_of c) = true -> opened root c.

(** The syntax items: children of opened nodes, where a variable declaration statement stands for
    the variables it declares. *)
Inductive item (root : node) : node -> Prop :=
| item_plain : forall h n,
    opened root h -> In n (kids_of h) -> kind_of n <> source_file ->
    is_var_stmt (kind_of n) = false -> item root n
| item_variable : forall h st n,
    opened root h -> In st (kids_of h) -> is_var_stmt (kind_of st) = true ->
    In n (kids_of st) -> is_var_decl (kind_of n) = true -> item root n.

(** How a top-level node counts: what is below it only matters for variable declarations. *)
Definition same_head (a b : node) : Prop :=
  kind_of a = kind_of b /\
  (is_var_stmt (kind_of a) = true ->
   map kind_of (kids_of a) = map kind_of (kids_of b)).
