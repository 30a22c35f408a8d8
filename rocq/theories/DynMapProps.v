(** C78: the map from nodes to definitions keeps the kinds of definitions apart and remembers the last one put in. *)

From Coq Require Import List Arith Bool Lia.
From Verif Require Import AstIdModel ItemTreeModel FindDefModel DynMapModel.
From Verif Require AstIdProps.
Import ListNotations.

Lemma ptr_iff a b : ptr_eqb a b = true <-> a = b.
Proof. apply AstIdProps.ptr_eqb_iff. Qed.

Lemma hash_same {K V} (eqb : K -> K -> bool) (E : forall a b, eqb a b = true <-> a = b) k (v : V) m :
  hash_get eqb k (hash_insert eqb k v m) = Some v.
Proof.
  induction m as [| [k' v'] r IH]; cbn.
  - now rewrite (proj2 (E k k) eq_refl).
  - destruct (eqb k' k) eqn:Q; cbn; rewrite Q; auto.
Qed.

Lemma hash_other {K V} (eqb : K -> K -> bool) (E : forall a b, eqb a b = true <-> a = b) k k2 (v : V) m : k2 <> k ->
  hash_get eqb k2 (hash_insert eqb k v m) = hash_get eqb k2 m.
Proof.
  intro N. assert (F : eqb k k2 = false) by (apply not_true_iff_false; intro H; apply E in H; congruence).
  induction m as [| [k' v'] r IH]; cbn.
  - now rewrite F.
  - destruct (eqb k' k) eqn:Q; cbn.
    + apply E in Q. subst k'. rewrite F. reflexivity.
    + destruct (eqb k' k2); auto.
Qed.

Lemma type_of_inj a b : type_of a = type_of b -> a = b.
Proof. destruct a, b; cbn; intro H; congruence. Qed.

(** Every box holds what its key says. *)
Definition typed (m : dyn_map) : Prop := forall t a, hash_get Nat.eqb t m = Some a -> a_type a = t.

(** What a map tells of a key. *)
Definition view (m : dyn_map) (k : key) : option sub_map := option_map a_value (hash_get Nat.eqb (type_of k) m).

Lemma insert_typed k p d m : typed m ->
  exists m', insert k p d m = Fine m' /\ typed m' /\
    (forall k2, k2 <> k -> view m' k2 = view m k2) /\
    view m' k = Some (hash_insert ptr_eqb p d (match view m k with Some s => s | None => [] end)).
Proof.
  intro T. unfold insert, view. destruct (hash_get Nat.eqb (type_of k) m) as [a |] eqn:G.
  - pose proof (T _ _ G) as Ta. unfold downcast. rewrite Ta, Nat.eqb_refl. eexists. split; [reflexivity |]. repeat split.
    + intros t b H. destruct (Nat.eq_dec t (type_of k)) as [-> | N].
      * rewrite (hash_same _ Nat.eqb_eq) in H. injection H as <-. reflexivity.
      * rewrite (hash_other _ Nat.eqb_eq) in H by exact N. exact (T _ _ H).
    + intros k2 N. rewrite (hash_other _ Nat.eqb_eq); [reflexivity |]. intro H. apply N, type_of_inj, H.
    + rewrite (hash_same _ Nat.eqb_eq). reflexivity.
  - eexists. split; [reflexivity |]. repeat split.
    + intros t b H. destruct (Nat.eq_dec t (type_of k)) as [-> | N].
      * rewrite (hash_same _ Nat.eqb_eq) in H. injection H as <-. reflexivity.
      * rewrite (hash_other _ Nat.eqb_eq) in H by exact N. exact (T _ _ H).
    + intros k2 N. rewrite (hash_other _ Nat.eqb_eq); [reflexivity |]. intro H. apply N, type_of_inj, H.
    + rewrite (hash_same _ Nat.eqb_eq). reflexivity.
Qed.

Lemma get_view k p m : typed m -> get k p m = Fine (match view m k with Some s => hash_get ptr_eqb p s | None => None end).
Proof.
  intro T. unfold get, any_get, view. destruct (hash_get Nat.eqb (type_of k) m) as [a |] eqn:G; [| reflexivity].
  unfold downcast. rewrite (T _ _ G), Nat.eqb_refl. reflexivity.
Qed.

Lemma empty_view k m : typed m -> is_empty k m = Fine (match view m k with Some (_ :: _) => false | _ => true end).
Proof.
  intro T. unfold is_empty, any_get, view. destruct (hash_get Nat.eqb (type_of k) m) as [a |] eqn:G; [| reflexivity].
  unfold downcast. rewrite (T _ _ G), Nat.eqb_refl. cbn. destruct (a_value a); reflexivity.
Qed.

Lemma insert_some p d (s : sub_map) : match Some (hash_insert ptr_eqb p d s) with Some (_ :: _) => false | _ => true end = false.
Proof. destruct s as [| [q e] s]; cbn; [reflexivity |]. destruct (ptr_eqb q p); reflexivity. Qed.

(** The last definition put in for a node under a key. *)
Definition latest (rows : list row) (k : key) (p : ptr) (o : option def) : Prop :=
  match o with
  | Some d => exists before after, rows = before ++ (k, p, d) :: after /\ forall d', ~ In (k, p, d') after
  | None => forall d, ~ In (k, p, d) rows
  end.

Lemma key_eq a b : key_eqb a b = true <-> a = b.
Proof. destruct a, b; cbn; split; congruence. Qed.

Lemma row_get k p d m k2 p2 : typed m -> forall m', insert k p d m = Fine m' ->
  get k2 p2 m' = if (key_eqb k k2 && ptr_eqb p p2)%bool then Fine (Some d) else get k2 p2 m.
Proof.
  intros T m' I. destruct (insert_typed k p d m T) as (m1 & I1 & T1 & O & S1). rewrite I in I1. injection I1 as <-.
  rewrite (get_view k2 p2 m' T1), (get_view k2 p2 m T). destruct (key_eqb k k2) eqn:K.
  - apply key_eq in K. subst k2. rewrite S1. cbn [andb]. destruct (ptr_eqb p p2) eqn:P.
    + apply ptr_iff in P. subst p2. rewrite (hash_same _ ptr_iff). reflexivity.
    + rewrite (hash_other _ ptr_iff); [destruct (view m k); reflexivity |].
      intros ->. rewrite (proj2 (ptr_iff p p) eq_refl) in P. discriminate P.
  - cbn [andb]. rewrite O; [reflexivity |]. intros ->. rewrite (proj2 (key_eq k k) eq_refl) in K. discriminate K.
Qed.

Lemma rows_get rows : forall m, typed m ->
  exists m', insert_rows rows m = Fine m' /\ typed m' /\
    (forall k p, get k p m' = match find_row k p rows with Some d => Fine (Some d) | None => get k p m end) /\
    (forall k, is_empty k m' = if existsb (fun '(k', _, _) => key_eqb k' k) rows then Fine false else is_empty k m).
Proof.
  induction rows as [| [[k p] d] r IH]; intros m T.
  - exists m. repeat split; auto.
  - destruct (insert_typed k p d m T) as (m1 & I1 & T1 & O & S1). destruct (IH m1 T1) as (m2 & I2 & T2 & G & E).
    exists m2. cbn [insert_rows]. rewrite I1. split; [exact I2 |]. split; [exact T2 |]. split.
    + intros k2 p2. rewrite G. cbn [find_row]. destruct (find_row k2 p2 r); [reflexivity |].
      rewrite (row_get k p d m k2 p2 T m1 I1). destruct (key_eqb k k2 && ptr_eqb p p2)%bool; reflexivity.
    + intro k2. rewrite E. cbn [existsb]. destruct (existsb (fun '(k', _, _) => key_eqb k' k2) r); [now rewrite orb_true_r |]. rewrite orb_false_r.
      rewrite (empty_view k2 m1 T1), (empty_view k2 m T). destruct (key_eqb k k2) eqn:K.
      * apply key_eq in K. subst k2. rewrite S1. apply f_equal. apply insert_some.
      * rewrite O; [reflexivity |]. intros ->. rewrite (proj2 (key_eq k k) eq_refl) in K. discriminate K.
Qed.

Lemma find_row_latest rows k p : latest rows k p (find_row k p rows).
Proof.
  induction rows as [| [[k' p'] d'] r IH]; cbn [find_row]; [intros d [] |].
  destruct (find_row k p r) as [d |].
  - destruct IH as (b & a & -> & N). exists ((k', p', d') :: b), a. split; [reflexivity | exact N].
  - destruct (key_eqb k' k && ptr_eqb p' p)%bool eqn:E.
    + apply andb_true_iff in E as [E1 E2]. apply key_eq in E1. apply ptr_iff in E2. subst. exists [], r. split; [reflexivity | exact IH].
    + intros d [H | H]; [| exact (IH d H)]. injection H as -> -> ->.
      rewrite (proj2 (key_eq k k) eq_refl), (proj2 (ptr_iff p p) eq_refl) in E. discriminate E.
Qed.

(** Whatever is put into the map, and in whatever order, no box is read as something else, and asking for a node
    under a key gives the last definition put in for it under that key, whatever was put in under others. *)
Theorem C78_map : forall rows, exists m, insert_rows rows empty_map = Fine m /\
  forall k p, exists o, get k p m = Fine o /\ latest rows k p o /\ o = find_row k p rows.
Proof.
  intro rows. assert (T : typed empty_map) by (intros t a H; discriminate H).
  destruct (rows_get rows empty_map T) as (m & I & _ & G & _). exists m. split; [exact I |]. intros k p.
  exists (find_row k p rows). split; [rewrite G; destruct (find_row k p rows); reflexivity |]. split; [apply find_row_latest | reflexivity].
Qed.
Print Assumptions C78_map.

(** A key is empty exactly if nothing was put in under it. *)
Theorem C78_empty : forall rows m, insert_rows rows empty_map = Fine m ->
  forall k, exists b, is_empty k m = Fine b /\ (b = true <-> forall p d, ~ In (k, p, d) rows).
Proof.
  intros rows m I k. assert (T : typed empty_map) by (intros t a H; discriminate H).
  destruct (rows_get rows empty_map T) as (m' & I' & _ & _ & E). rewrite I in I'. injection I' as <-.
  rewrite E. destruct (existsb (fun '(k', _, _) => key_eqb k' k) rows) eqn:X; eexists; (split; [reflexivity |]); split; try congruence.
  - intro H. apply existsb_exists in X as ([[k' p] d] & J & Q). apply key_eq in Q. subst k'. destruct (H p d J).
  - intros _ p d J. assert (Y : existsb (fun '(k', _, _) => key_eqb k' k) rows = true); [| congruence].
    apply existsb_exists. exists (k, p, d). split; [exact J |]. now apply key_eq.
Qed.
Print Assumptions C78_empty.

(** The latest definition is unique, so the map is the only answer. *)
Theorem C78_unique : forall rows k p o o', latest rows k p o -> latest rows k p o' -> o = o'.
Proof.
  assert (U : forall rows k p o, latest rows k p o -> o = find_row k p rows).
  { intros rows k p o L. destruct o as [d |].
    - destruct L as (b & a & -> & N). induction b as [| [[k' p'] d'] b IH]; cbn [app find_row].
      + pose proof (find_row_latest a k p) as F. destruct (find_row k p a) as [e |].
        * destruct F as (b' & a' & -> & _). exfalso. apply (N e). apply in_or_app. right. left. reflexivity.
        * now rewrite (proj2 (key_eq k k) eq_refl), (proj2 (ptr_iff p p) eq_refl).
      + rewrite <- IH. reflexivity.
    - pose proof (find_row_latest rows k p) as F. destruct (find_row k p rows) as [e |]; [| reflexivity].
      destruct F as (b & a & -> & _). exfalso. apply (L e). apply in_or_app. right. left. reflexivity. }
  intros rows k p o o' L L'. rewrite (U _ _ _ _ L), (U _ _ _ _ L'). reflexivity.
Qed.
Print Assumptions C78_unique.

(** A function and a field at the same node, and a function put in twice. *)
Definition sample : list row :=
  [(KFunction, (1, 0, 9), Top (FFunction 0)); (KField, (1, 0, 9), InEnumStruct 0 2); (KFunction, (1, 0, 9), Top (FFunction 3));
   (KFunction, (1, 10, 12), Top (FFunction 1))].
Example C78_nontrivial : exists m, insert_rows sample empty_map = Fine m /\
  get KFunction (1, 0, 9) m = Fine (Some (Top (FFunction 3))) /\ get KField (1, 0, 9) m = Fine (Some (InEnumStruct 0 2)) /\
  get KField (1, 10, 12) m = Fine None /\ is_empty KField m = Fine false /\ is_empty KMacro m = Fine true /\
  get KFunction (1, 0, 9) [(type_of KFunction, Any (type_of KField) [])] = Undefined.
Proof. eexists. split; [reflexivity |]. repeat split. Qed.
