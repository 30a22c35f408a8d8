(** Model of crates/base-db/src/graph.rs. A hash set is the list of its elements in the order in
    which it iterates; that order is arbitrary, see [Permutation] below. *)
From Coq Require Import List Arith Bool Permutation.
Import ListNotations.

Inductive extension := Sp | Inc.                                        (* base-db/src/lib.rs:195-200 *)
(** graph.rs:11-15; nodes are compared and hashed by their file id only, graph.rs:17-29. *)
Record node := Node { file_id : nat; ext : extension }.
Definition node_eqb (a b : node) : bool := file_id a =? file_id b.
(** graph.rs:31-35 *)
Record edge := Edge { source : node; target : node }.
Definition edge_eqb (a b : edge) : bool := node_eqb (source a) (source b) && node_eqb (target a) (target b).
(** graph.rs:37-41 *)
Record graph := Graph { edges : list edge; nodes : list node }.
(** graph.rs:43-48 *)
Record subgraph := SubGraph { sg_root : node; sg_nodes : list node; sg_edges : list edge }.

(** [FxHashSet::insert]: an equal element already there stays. *)
Definition insert {A} (eqb : A -> A -> bool) (s : list A) (x : A) : list A :=
  if existsb (eqb x) s then s else s ++ [x].

(** graph.rs:94-118 [graph_query]: [documents] are the known files, [includes] the resolved
    includes of a file. *)
Definition add_include (s : node) (g : graph) (i : nat * extension) : graph :=
  let t := Node (fst i) (snd i) in
  Graph (insert edge_eqb (edges g) (Edge s t)) (insert node_eqb (nodes g) t).
Definition add_document (includes : nat -> list (nat * extension)) (g : graph) (d : nat * extension) : graph :=
  let s := Node (fst d) (snd d) in
  fold_left (add_include s) (includes (fst d)) (Graph (edges g) (insert node_eqb (nodes g) s)).
Definition graph_query (documents : list (nat * extension)) (includes : nat -> list (nat * extension)) : graph :=
  fold_left (add_document includes) documents (Graph [] []).

(** The same sets, iterated in another order. *)
Definition reordered (g g' : graph) : Prop :=
  Permutation (edges g) (edges g') /\ Permutation (nodes g) (nodes g').

(** graph.rs:144-154 [get_adjacent_targets] looked up at [n], in one of the possible orders. *)
Definition targets (es : list edge) (n : node) : list node :=
  fold_left (fun s e => if node_eqb (source e) n then insert node_eqb s (target e) else s) es [].
Definition adjacency (es : list edge) (adj : node -> list node) : Prop :=
  forall n, Permutation (targets es n) (adj n).

(** graph.rs:156-182 [find_roots]: [adj_map] counts for each node the edges into it and out of it;
    the key of an entry is the node that created it. The counters are u32, taken not to overflow. *)
Definition keys (g : graph) : list node :=
  fold_left (insert node_eqb) (nodes g)
    (fold_left (fun s e => insert node_eqb (insert node_eqb s (source e)) (target e)) (edges g) []).
Definition nb_source (g : graph) (n : node) : nat := length (filter (fun e => node_eqb (target e) n) (edges g)).
Definition nb_target (g : graph) (n : node) : nat := length (filter (fun e => node_eqb (source e) n) (edges g)).
Definition is_root (g : graph) (n : node) : bool := negb (nb_target g n =? 0) || (nb_source g n =? 0).
Definition find_roots (g : graph) : list node := filter (is_root g) (keys g).

(** graph.rs:278-300 [dfs]; [None] when the fuel runs out. The sets [visited] and [nodes] get the
    same elements. *)
Fixpoint dfs (fuel : nat) (adj : node -> list node) (n : node) (s : list node * list edge)
  : option (list node * list edge) :=
  match fuel with
  | O => None
  | S fuel =>
      fold_left (fun acc m =>
        match acc with
        | None => None
        | Some (vs, es) =>
            if existsb (node_eqb m) vs then Some (vs, es)
            else dfs fuel adj m (vs, insert edge_eqb es (Edge n m))
        end) (adj n) (Some (insert node_eqb (fst s) n, snd s))
  end.

(** graph.rs:200-217 [find_subgraphs], the roots in the order [roots]. *)
Fixpoint subgraphs (fuel : nat) (adj : node -> list node) (roots : list node) : option (list subgraph) :=
  match roots with
  | [] => Some []
  | r :: tl =>
      match dfs fuel adj r ([], []), subgraphs fuel adj tl with
      | Some (vs, es), Some gs => Some (SubGraph r vs es :: gs)
      | _, _ => None
      end
  end.

(** graph.rs:184-198 [get_subgraph_ids_from_root] *)
Definition subgraph_ids (fuel : nat) (adj : node -> list node) (root_id : nat) : option (list nat) :=
  match dfs fuel adj (Node root_id Sp) ([], []) with
  | Some (vs, _) => Some (map file_id vs)
  | None => None
  end.

(** graph.rs:68-92 [projet_subgraph_query] *)
Definition ext_eqb (a b : extension) : bool := match a, b with Sp, Sp | Inc, Inc => true | _, _ => false end.
Definition containing (f : nat) (e : extension) (gs : list subgraph) : option subgraph :=
  find (fun g => existsb (node_eqb (Node f Sp)) (sg_nodes g)) (filter (fun g => ext_eqb (ext (sg_root g)) e) gs).
Definition projet_subgraph (gs : list subgraph) (f : nat) : option subgraph :=
  match containing f Sp gs with
  | Some g => Some g
  | None => containing f Inc gs
  end.
