(** C33: the type of an indexed array. *)
From Coq Require Import List String Lia PeanoNat.
From Verif Require Import TypeRefModel TypeRefSpec.
Import ListNotations.

(** k indexings of an array with n dimensions leave an array with n - k, as long as one is left.
    Missing from the full statement: the n-th indexing (C33_refuted). *)
Theorem C33_remaining_dimensions_partial :
  forall t n k, k < n -> indexed to_lower_dim k (array_type t n) = array_type t (n - k).
Proof.
  intros t n k. revert n. induction k as [|k IH]; intros n H; simpl.
  - rewrite Nat.sub_0_r. reflexivity.
  - destruct n as [|[|n]]; [lia|lia|].
    change (to_lower_dim (array_type t (S (S n)))) with (TArray t (S (S n) - 1)).
    replace (S (S n) - 1) with (S n) by lia. change (TArray t (S n)) with (array_type t (S n)).
    rewrite IH by lia. reflexivity.
Qed.
Print Assumptions C33_remaining_dimensions_partial.

(** C33 is false as stated: with any element type, the last indexing does nothing, and n indexings
    of an array with n dimensions give an array. *)
Theorem C33_refuted :
  forall t n, 0 < n -> scalar t ->
    indexed to_lower_dim n (array_type t n) = TArray t 1 /\
    indexed to_lower_dim n (array_type t n) <> t.
Proof.
  intros t n Hn Ht.
  assert (E : indexed to_lower_dim n (array_type t n) = TArray t 1).
  { destruct n as [|n]; [lia|].
    assert (G : forall m x, indexed to_lower_dim (S m) x = to_lower_dim (indexed to_lower_dim m x)).
    { clear. induction m as [|m IH]; intros x; [reflexivity|]. simpl in *. rewrite IH. reflexivity. }
    rewrite G, C33_remaining_dimensions_partial by lia.
    replace (S n - n) with 1 by lia. reflexivity. }
  split; [exact E|]. rewrite E. intros X. exact (Ht t 1 (eq_sym X)).
Qed.
Print Assumptions C33_refuted.

(** Indexing something that is not an array leaves its type as it is. *)
Theorem C33_scalar_unchanged :
  forall t n, scalar t -> indexed to_lower_dim n t = t.
Proof.
  intros t n H. induction n as [|n IH]; simpl; [reflexivity|].
  assert (E : to_lower_dim t = t) by (destruct t; try reflexivity; exfalso; exact (H _ _ eq_refl)).
  rewrite E. exact IH.
Qed.
Print Assumptions C33_scalar_unchanged.

(** The type read from a declaration: its last type with as many dimensions as are written, before
    or after it; no type, no result. *)
Definition last_type (l : list type_child) : option type_ref :=
  fold_left (fun acc c => match c with CType t => Some t | CDimension => acc end) l None.
Definition dimensions (l : list type_child) : nat :=
  List.length (filter (fun c => match c with CDimension => true | _ => false end) l).
Theorem C33_declared_type :
  forall l, from_returntype_node l = option_map (fun t => array_type t (dimensions l)) (last_type l).
Proof.
  intros l. unfold from_returntype_node, last_type, dimensions.
  set (step := fun acc c => _).
  assert (G : forall l a n, fold_left step l (a, n) =
    (fold_left (fun acc c => match c with CType t => Some t | CDimension => acc end) l a,
     n + List.length (filter (fun c => match c with CDimension => true | _ => false end) l))).
  { clear l. induction l as [|c l IH]; intros a n; simpl; [rewrite Nat.add_0_r; reflexivity|].
    destruct c; unfold step at 2; simpl; rewrite IH; simpl; f_equal; lia. }
  rewrite G. simpl. destruct (fold_left _ l None) as [t|]; [|reflexivity]. simpl.
  destruct (List.length _); reflexivity.
Qed.
Print Assumptions C33_declared_type.

(** What is shown for an array type: the element type and one [] per dimension. *)
Theorem C33_shown :
  forall t n, to_str (array_type t n) = (to_str t ++ repeat_text n "[]")%string.
Proof.
  intros t [|n]; simpl; [|reflexivity].
  induction (to_str t) as [|c s IH]; [reflexivity|]. simpl. rewrite <- IH. reflexivity.
Qed.
Print Assumptions C33_shown.

Example C33_nontrivial :
  scalar (TName "Foo") /\
  from_returntype_node [CType (TName "Foo"); CDimension; CDimension; CDimension]
    = Some (array_type (TName "Foo") 3) /\
  indexed to_lower_dim 2 (array_type (TName "Foo") 3) = TArray (TName "Foo") 1 /\
  indexed to_lower_dim 3 (array_type (TName "Foo") 3) = TArray (TName "Foo") 1 /\
  to_str (array_type (TName "Foo") 3) = "Foo[][][]"%string.
Proof. split; [intros e n; discriminate|]. repeat split. Qed.
