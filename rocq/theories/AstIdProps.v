(** C40: item identifiers survive a round trip. *)
From Coq Require Import List Arith Bool PeanoNat Lia.
From Verif Require Import AstIdModel AstIdSpec.
Import ListNotations.

(** * Induction over trees *)
Fixpoint size (n : node) : nat :=
  match n with Node _ _ _ cs => S (list_sum (map size cs)) end.

Lemma kid_smaller : forall n c, In c (kids_of n) -> size c < size n.
Proof.
  intros [k s e cs] c H. cbn [kids_of] in H. cbn [size].
  induction cs as [|d r IH]; [easy|].
  cbn [map list_sum fold_right]. unfold list_sum in IH.
  destruct H as [->|H]; [lia|]. specialize (IH H). cbn [fold_right]. lia.
Qed.

Lemma node_induct : forall P : node -> Prop,
  (forall n, (forall c, In c (kids_of n) -> P c) -> P n) -> forall n, P n.
Proof.
  intros P H n. remember (size n) as m eqn:E. revert n E.
  induction m as [m IH] using lt_wf_ind. intros n ->.
  apply H. intros c I. apply (IH (size c)); auto using kid_smaller.
Qed.

Lemma below_size : forall n m, below n m -> m = n \/ size m < size n.
Proof.
  induction 1 as [n|n c m I B IH]; auto.
  right. pose proof (kid_smaller _ _ I). destruct IH as [->|L]; lia.
Qed.

Lemma below_trans : forall a b c, below a b -> below b c -> below a c.
Proof. induction 1; auto. intros. eapply below_kid; eauto. Qed.

Lemma ptr_eqb_iff : forall a b, ptr_eqb a b = true <-> a = b.
Proof.
  intros [[k s] e] [[k' s'] e']. cbn. rewrite !andb_true_iff, !Nat.eqb_eq.
  split; [intros [[-> ->] ->]; auto|intros E; inversion E; auto].
Qed.

Lemma to_node_eq : forall p n,
  to_node p n =
  if ptr_eqb (ptr_of n) p then Some n
  else match find (covers p) (kids_of n) with Some c => to_node p c | None => None end.
Proof.
  intros p [k s e cs]. cbn [to_node kids_of].
  destruct (ptr_eqb (ptr_of (Node k s e cs)) p); auto.
  induction cs as [|c r IH]; cbn; auto. destruct (covers p c); auto.
Qed.

Lemma bdfs_eq : forall n,
  bdfs n = kids_of n ++ flat_map (fun c => if is_container (kind_of c) then bdfs c else []) (kids_of n).
Proof.
  intros [k s e cs]. reflexivity.
Qed.

(** * Ranges *)
Lemma in_order_le : forall l a b, in_order a l b -> a <= b.
Proof. induction l; cbn; intros; [lia|]. destruct H as (? & ? & H). apply IHl in H. lia. Qed.

Lemma in_order_kid : forall l a b c, in_order a l b -> In c l -> a <= start_of c /\ start_of c <= stop_of c /\ stop_of c <= b.
Proof.
  induction l as [|d r IH]; intros a b c O I; [easy|]. destruct O as (A & B & O).
  destruct I as [->|I].
  - apply in_order_le in O. lia.
  - specialize (IH _ _ _ O I). lia.
Qed.

Lemma in_order_split : forall l r a b, in_order a (l ++ r) b ->
  exists m, in_order a l m /\ in_order m r b.
Proof.
  induction l as [|c l IH]; cbn; intros r a b H.
  - exists a. split; auto.
  - destruct H as (A & B & H). apply IH in H. destruct H as (m & U & V). exists m. auto.
Qed.

Lemma proper_below : forall a b, proper a -> below a b -> proper b.
Proof. intros a b P B n H. apply P. eapply below_trans; eauto. Qed.

Lemma below_range : forall a b, proper a -> below a b -> start_of a <= stop_of a ->
  start_of a <= start_of b /\ start_of b <= stop_of b /\ stop_of b <= stop_of a.
Proof.
  intros a b P B. revert P. induction B as [n|n c m I B IH]; intros P L; [lia|].
  pose proof (in_order_kid _ _ _ _ (P n (below_here n)) I) as (? & ? & ?).
  assert (proper c) by (eapply proper_below; eauto; eapply below_kid; eauto; constructor).
  specialize (IH H2 H0). lia.
Qed.

Lemma kid_below : forall n c, In c (kids_of n) -> below n c.
Proof. intros. eapply below_kid; eauto. constructor. Qed.

Lemma proper_le : forall n, proper n -> start_of n <= stop_of n.
Proof. intros n P. apply (in_order_le (kids_of n)). apply P. constructor. Qed.

(** Walking down finds the child that holds a non-empty node. *)
Lemma find_holder : forall l a b c m,
  in_order a l b -> (forall d, In d l -> proper d) -> In c l -> below c m ->
  start_of m < stop_of m -> find (covers (ptr_of m)) l = Some c.
Proof.
  induction l as [|d r IH]; intros a b c m O P I Bm L; [easy|]. destruct O as (A & B & O).
  cbn [find].
  destruct I as [->|I].
  - pose proof (below_range c m (P c (or_introl eq_refl)) Bm B) as (U & V & W).
    unfold covers, ptr_of.
    rewrite (proj2 (Nat.leb_le _ _) U), (proj2 (Nat.leb_le _ _) W). auto.
  - pose proof (in_order_kid _ _ _ _ O I) as (U & V & W).
    pose proof (below_range c m (P c (or_intror I)) Bm V) as (X & Y & Z).
    assert (covers (ptr_of m) d = false) as ->.
    { unfold covers, ptr_of. apply andb_false_iff. right. apply Nat.leb_gt. lia. }
    eapply IH; eauto. intros; apply P; cbn; auto.
Qed.

(** * The pointer leads back to the node *)
Theorem C40_found : forall root n,
  proper root -> below root n -> solid root n -> to_node (ptr_of n) root = Some n.
Proof.
  intros root n P B (L & U).
  assert (G : forall a, below root a -> below a n -> to_node (ptr_of n) a = Some n).
  { intros a Ba Bn. induction Bn as [n|h c n I Bn IH].
    - rewrite to_node_eq, (proj2 (ptr_eqb_iff _ _) eq_refl). auto.
    - rewrite to_node_eq. destruct (ptr_eqb (ptr_of h) (ptr_of n)) eqn:E.
      + apply ptr_eqb_iff in E. rewrite (U h Ba E). auto.
      + assert (Bc : below root c) by (eapply below_trans; [exact Ba|apply kid_below; auto]).
        rewrite (find_holder (kids_of h) (start_of h) (stop_of h) c n); auto.
        intros d Id. eapply proper_below; [exact P|].
        eapply below_trans; [exact Ba|apply kid_below; auto]. }
  apply G; auto. constructor.
Qed.
Print Assumptions C40_found.

(** * What the arena contains *)
Lemma in_bdfs : forall root n, In n (bdfs root) <-> exists h, opened root h /\ In n (kids_of h).
Proof.
  intros root n. split.
  - revert n.
    assert (G : forall h, opened root h -> forall n, In n (bdfs h) -> exists h', opened root h' /\ In n (kids_of h')).
    { intros h. induction h as [h IH] using node_induct. intros O n H.
      rewrite bdfs_eq in H. apply in_app_or in H. destruct H as [H|H]; eauto.
      apply in_flat_map in H. destruct H as (c & I & H).
      destruct (is_container (kind_of c)) eqn:K; [|easy].
      eapply IH; eauto. eapply opened_kid; eauto. }
    apply G. constructor.
  - intros (h & O & I).
    assert (G : forall h, opened root h -> incl (bdfs h) (bdfs root)).
    { induction 1 as [|h' c O' IH I' K]; [apply incl_refl|].
      intros x Hx. apply IH. rewrite bdfs_eq. apply in_or_app. right.
      apply in_flat_map. exists c. rewrite K. auto. }
    apply (G h O). rewrite bdfs_eq. apply in_or_app. auto.
Qed.

Theorem C40_registered : forall root p,
  In p (arena root) <-> exists n, item root n /\ ptr_of n = p.
Proof.
  intros root p. unfold arena. rewrite in_flat_map. split.
  - intros (x & Hx & Hp). apply in_bdfs in Hx. destruct Hx as (h & O & I).
    unfold emit in Hp. destruct (kind_of x =? source_file) eqn:K; [easy|].
    apply Nat.eqb_neq in K.
    destruct (is_var_stmt (kind_of x)) eqn:V.
    + apply in_map_iff in Hp. destruct Hp as (d & Ed & Hd). apply filter_In in Hd.
      destruct Hd as (Hd & Kd). exists d. split; auto. eapply item_variable; eauto.
    + destruct Hp as [E|[]]. exists x. split; auto. eapply item_plain; eauto.
  - intros (n & [h x O I K V|h st d O I V Id Kd] & E).
    + exists x. split; [apply in_bdfs; eauto|].
      unfold emit. rewrite (proj2 (Nat.eqb_neq _ _) K), V. cbn. auto.
    + exists st. split; [apply in_bdfs; eauto|].
      unfold emit. destruct (kind_of st =? source_file) eqn:K.
      { apply Nat.eqb_eq in K. rewrite K in V. discriminate V. }
      rewrite V. apply in_map_iff. exists d. split; auto. apply filter_In. auto.
Qed.
Print Assumptions C40_registered.

(** * The map points at an index holding the key *)
Lemma insert_all_spec : forall l i p f,
  insert_all i l p f =
  match insert_all 0 l p None with Some j => Some (i + j) | None => f end.
Proof.
  induction l as [|q r IH]; intros i p f; cbn; auto.
  rewrite (IH (S i)), (IH 1 p (if ptr_eqb q p then Some 0 else None)).
  destruct (insert_all 0 r p None) as [j|]; [f_equal; lia|].
  destruct (ptr_eqb q p); auto.
Qed.

Lemma insert_all_hit : forall l p j, insert_all 0 l p None = Some j -> nth_error l j = Some p.
Proof.
  induction l as [|q r IH]; cbn; intros p j H; [discriminate|].
  rewrite insert_all_spec in H.
  destruct (insert_all 0 r p None) as [m|] eqn:E.
  - injection H as <-. cbn. auto.
  - destruct (ptr_eqb q p) eqn:Q; [|discriminate]. injection H as <-.
    apply ptr_eqb_iff in Q. subst. auto.
Qed.

Lemma insert_all_none : forall l p, insert_all 0 l p None = None <-> ~ In p l.
Proof.
  induction l as [|q r IH]; cbn; intros p; [tauto|].
  rewrite insert_all_spec. specialize (IH p).
  destruct (insert_all 0 r p None) as [m|] eqn:E.
  - split; [discriminate|]. intros H. exfalso. apply H. right.
    eapply nth_error_In. apply insert_all_hit; eauto.
  - destruct (ptr_eqb q p) eqn:Q.
    + apply ptr_eqb_iff in Q. subst. split; [discriminate|]. intros H; exfalso; auto.
    + split; auto. intros _ [->|H]; [|apply IH in H; auto].
      rewrite (proj2 (ptr_eqb_iff p p) eq_refl) in Q. discriminate.
Qed.

(** Asking for the id of a node crashes exactly when no item has its kind and range. *)
Theorem C40_crash_iff : forall root n,
  ast_id_of root n = None <-> forall m, item root m -> ptr_of m <> ptr_of n.
Proof.
  intros root n. unfold ast_id_of. rewrite insert_all_none, C40_registered. split.
  - intros H m I E. apply H. eauto.
  - intros H (m & I & E). eapply H; eauto.
Qed.
Print Assumptions C40_crash_iff.

Lemma opened_below : forall root h, opened root h -> below root h.
Proof.
  induction 1; [constructor|]. eapply below_trans; eauto using kid_below.
Qed.

Lemma item_below : forall root n, item root n -> below root n.
Proof.
  intros root n [h x O I _ _|h st d O I _ Id _];
    eapply below_trans; eauto using opened_below, kid_below.
  eapply below_trans; eauto using kid_below.
Qed.

(** Item -> id -> pointer -> node gives the item back. *)
Theorem C40_round_trip : forall root n,
  item root n ->
  exists id, ast_id_of root n = Some id /\ get_raw root id = Some (ptr_of n) /\
             (proper root -> solid root n -> to_node (ptr_of n) root = Some n).
Proof.
  intros root n I. destruct (ast_id_of root n) as [id|] eqn:E.
  - exists id. split; [auto|split].
    + apply insert_all_hit. auto.
    + intros P S. apply C40_found; auto. apply item_below; auto.
  - exfalso. apply (proj1 (C40_crash_iff root n)) with (m := n) in E; auto.
Qed.
Print Assumptions C40_round_trip.

Theorem C40_distinct : forall root a b id,
  proper root -> item root a -> item root b -> solid root a ->
  ast_id_of root a = Some id -> ast_id_of root b = Some id -> a = b.
Proof.
  intros root a b id P Ia Ib Sa Ea Eb.
  apply insert_all_hit in Ea, Eb. rewrite Ea in Eb. injection Eb as E1 E2 E3.
  symmetry. apply (proj2 Sa); [apply item_below; auto|].
  unfold ptr_of. congruence.
Qed.
Print Assumptions C40_distinct.

(** * Top-level ids *)
Lemma insert_all_last : forall l r p,
  ~ In p r -> insert_all 0 (l ++ p :: r) p None = Some (length l).
Proof.
  induction l as [|q l IH]; intros r p H; cbn.
  - rewrite (proj2 (ptr_eqb_iff p p) eq_refl). rewrite insert_all_spec.
    rewrite (proj2 (insert_all_none r p) H). auto.
  - rewrite insert_all_spec, IH; auto.
Qed.

Lemma emit_below : forall n p, In p (emit n) -> exists m, below n m /\ ptr_of m = p.
Proof.
  intros n p H. unfold emit in H. destruct (kind_of n =? source_file); [easy|].
  destruct (is_var_stmt (kind_of n)).
  - apply in_map_iff in H. destruct H as (d & E & H). apply filter_In in H. destruct H.
    exists d. split; auto using kid_below.
  - destruct H as [E|[]]. exists n. split; auto. constructor.
Qed.

Lemma bdfs_below : forall n x, In x (bdfs n) -> exists c, In c (kids_of n) /\ below c x.
Proof.
  induction n as [n IH] using node_induct. intros x H. rewrite bdfs_eq in H.
  apply in_app_or in H. destruct H as [H|H].
  - exists x. split; auto. constructor.
  - apply in_flat_map in H. destruct H as (c & I & H).
    destruct (is_container (kind_of c)); [|easy].
    exists c. split; auto. destruct (IH c I x H) as (d & Id & B).
    eapply below_trans; [apply kid_below; exact Id|auto].
Qed.

Lemma apart : forall l a b c m,
  in_order a l b -> (forall d, In d l -> proper d) ->
  In c l -> below c m -> a <= start_of m /\ stop_of m <= b /\ start_of m <= stop_of m.
Proof.
  intros l a b c m O P I B.
  pose proof (in_order_kid _ _ _ _ O I) as (? & ? & ?).
  pose proof (below_range c m (P c I) B H0). lia.
Qed.

(** A solid node under one child of the root is not met under another child, nor a second time. *)
Lemma only_there : forall root pre h post n m x,
  proper root -> kids_of root = pre ++ h :: post -> below h n -> solid root n ->
  In x (pre ++ post) -> below x m -> ptr_of m <> ptr_of n.
Proof.
  intros root pre h post n m x P K B (L & _) I Bm E.
  pose proof (P root (below_here root)) as O. rewrite K in O.
  assert (PK : forall d, In d (pre ++ h :: post) -> proper d).
  { intros d Hd. eapply proper_below; [exact P|]. apply kid_below. rewrite K. auto. }
  apply in_order_split in O. destruct O as (mid & O1 & (A & Bh & O2)).
  assert (Ph : proper h) by (apply PK, in_or_app; cbn; auto).
  pose proof (below_range h n Ph B Bh) as (U & V & W).
  injection E as _ Es Ee.
  apply in_app_or in I. destruct I as [I|I].
  - assert (Px : forall d, In d pre -> proper d) by (intros; apply PK, in_or_app; auto).
    pose proof (apart _ _ _ _ _ O1 Px I Bm). lia.
  - assert (Px : forall d, In d post -> proper d) by (intros; apply PK, in_or_app; cbn; auto).
    pose proof (apart _ _ _ _ _ O2 Px I Bm). lia.
Qed.

Lemma solid_top : forall root n c, solid root n -> below root n ->
  In c (kids_of n) -> forall m, below c m -> ptr_of m <> ptr_of n.
Proof.
  intros root n c (L & U) B I m Bm E.
  assert (m = n).
  { apply U; auto. eapply below_trans; [exact B|]. eapply below_kid; eauto. }
  subst m. pose proof (kid_smaller _ _ I). destruct (below_size _ _ Bm) as [->|]; lia.
Qed.

(** Nothing met after the top level has the pointer of a solid top-level node. *)
Lemma top_id : forall root pre n post,
  proper root -> kids_of root = pre ++ n :: post -> solid root n ->
  kind_of n <> source_file -> is_var_stmt (kind_of n) = false ->
  ast_id_of root n = Some (length (flat_map emit pre)).
Proof.
  intros root pre n post P K S Ks Kv. unfold ast_id_of, arena.
  rewrite bdfs_eq, K, flat_map_app, flat_map_app. cbn [flat_map].
  assert (emit n = [ptr_of n]) as ->.
  { unfold emit. rewrite (proj2 (Nat.eqb_neq _ _) Ks), Kv. auto. }
  rewrite <- app_assoc. cbn [app]. apply insert_all_last.
  intros H. apply in_app_or in H. destruct H as [H|H].
  - apply in_flat_map in H. destruct H as (x & Ix & Hx). apply emit_below in Hx.
    destruct Hx as (m & Bm & E). revert E.
    eapply only_there with (x := x); eauto; [constructor|apply in_or_app; auto].
  - apply in_flat_map in H. destruct H as (x & Ix & Hx).
    apply emit_below in Hx. destruct Hx as (m & Bm & E).
    apply in_flat_map in Ix. destruct Ix as (c & Ic & Hc).
    destruct (is_container (kind_of c)); [|easy].
    apply bdfs_below in Hc. destruct Hc as (d & Id & Bd).
    assert (Bcm : below d m) by (eapply below_trans; eauto).
    apply in_app_or in Ic. destruct Ic as [Ic|[->|Ic]].
    + revert E. eapply only_there with (x := c); eauto; [constructor|apply in_or_app; auto|].
      eapply below_trans; [apply kid_below; exact Id|auto].
    + revert E. eapply solid_top; eauto. apply kid_below. rewrite K. apply in_or_app; cbn; auto.
    + revert E. eapply only_there with (x := c); eauto; [constructor|apply in_or_app; auto|].
      eapply below_trans; [apply kid_below; exact Id|auto].
Qed.

Lemma var_id : forall root pre st post a d b,
  proper root -> kids_of root = pre ++ st :: post -> is_var_stmt (kind_of st) = true ->
  kids_of st = a ++ d :: b -> is_var_decl (kind_of d) = true -> solid root d ->
  ast_id_of root d =
  Some (length (flat_map emit pre) + length (filter (fun c => is_var_decl (kind_of c)) a)).
Proof.
  intros root pre st post a d b P K V Ka D S. unfold ast_id_of, arena.
  assert (Bst : below root st) by (apply kid_below; rewrite K; apply in_or_app; cbn; auto).
  assert (Bd : below st d) by (apply kid_below; rewrite Ka; apply in_or_app; cbn; auto).
  rewrite bdfs_eq, K, flat_map_app, flat_map_app. cbn [flat_map].
  assert (E : emit st = map ptr_of (filter (fun c => is_var_decl (kind_of c)) a) ++
              ptr_of d :: map ptr_of (filter (fun c => is_var_decl (kind_of c)) b)).
  { unfold emit. destruct (kind_of st =? source_file) eqn:Q.
    { apply Nat.eqb_eq in Q. rewrite Q in V. discriminate V. }
    rewrite V, Ka, filter_app. cbn [filter]. rewrite D, map_app. auto. }
  rewrite E. clear E. rewrite <- !app_assoc. cbn [app].
  rewrite app_assoc, insert_all_last.
  { rewrite app_length, map_length. auto. }
  intros H. apply in_app_or in H. destruct H as [H|H].
  { apply in_map_iff in H. destruct H as (m & E & Hm). apply filter_In in Hm.
    destruct Hm as (Hm & _). revert E.
    apply (only_there st a d b d m m); auto; try (constructor; fail).
    - eapply proper_below; eauto.
    - destruct S as (L & U). split; auto. intros. apply U; auto. eapply below_trans; eauto.
    - apply in_or_app; auto. }
  apply in_app_or in H. destruct H as [H|H].
  - apply in_flat_map in H. destruct H as (x & Ix & Hx). apply emit_below in Hx.
    destruct Hx as (m & Bm & E). revert E.
    eapply only_there with (h := st) (x := x); eauto. apply in_or_app; auto.
  - apply in_flat_map in H. destruct H as (x & Ix & Hx).
    apply emit_below in Hx. destruct Hx as (m & Bm & E).
    apply in_flat_map in Ix. destruct Ix as (c & Ic & Hc).
    destruct (is_container (kind_of c)) eqn:Kc; [|easy].
    apply bdfs_below in Hc. destruct Hc as (g & Ig & Bg).
    assert (Bcm : below c m).
    { eapply below_trans; [apply kid_below; exact Ig|]. eapply below_trans; eauto. }
    apply in_app_or in Ic. destruct Ic as [Ic|[<-|Ic]].
    + revert E. eapply only_there with (h := st) (x := c); eauto. apply in_or_app; auto.
    + exfalso. unfold is_var_stmt in V. cbn in V.
      rewrite !orb_true_iff, !Nat.eqb_eq in V.
      destruct V as [V|[V|[V|[V|V]]]]; try discriminate; rewrite V in Kc; discriminate Kc.
    + revert E. eapply only_there with (h := st) (x := c); eauto. apply in_or_app; auto.
Qed.

Lemma same_kinds_filter : forall a a' : list node, map kind_of a = map kind_of a' ->
  length (filter (fun c => is_var_decl (kind_of c)) a) =
  length (filter (fun c => is_var_decl (kind_of c)) a').
Proof.
  induction a as [|c r IH]; intros [|c' r'] E; try discriminate; auto.
  cbn [map] in E. injection E as E1 E2. cbn [filter]. rewrite E1. specialize (IH _ E2).
  destruct (is_var_decl (kind_of c')); cbn [length]; auto.
Qed.

Lemma same_head_emit : forall a b, same_head a b -> length (emit a) = length (emit b).
Proof.
  intros a b (K & V). unfold emit. rewrite <- K.
  destruct (kind_of a =? source_file); auto.
  destruct (is_var_stmt (kind_of a)); auto.
  rewrite !map_length. apply same_kinds_filter. auto.
Qed.

Lemma same_heads_emit : forall l l', Forall2 same_head l l' ->
  length (flat_map emit l) = length (flat_map emit l').
Proof.
  induction 1; cbn; auto. rewrite !app_length. f_equal; auto using same_head_emit.
Qed.

(** Ids of top-level items depend only on what stands before them at the top level: whatever happens
    inside the bodies of functions, and after the item, leaves the id alone. *)
Theorem C40_top_level_stable : forall root root' pre pre' n n' post post',
  proper root -> proper root' ->
  kids_of root = pre ++ n :: post -> kids_of root' = pre' ++ n' :: post' ->
  Forall2 same_head pre pre' -> kind_of n = kind_of n' ->
  kind_of n <> source_file -> is_var_stmt (kind_of n) = false ->
  solid root n -> solid root' n' ->
  ast_id_of root n = ast_id_of root' n' /\ ast_id_of root n <> None.
Proof.
  intros. rewrite (top_id root pre n post), (top_id root' pre' n' post'); auto; try congruence.
  split; [f_equal; apply same_heads_emit; auto|discriminate].
Qed.
Print Assumptions C40_top_level_stable.

Theorem C40_globals_stable : forall root root' pre pre' st st' post post' a a' d d' b b',
  proper root -> proper root' ->
  kids_of root = pre ++ st :: post -> kids_of root' = pre' ++ st' :: post' ->
  Forall2 same_head pre pre' ->
  is_var_stmt (kind_of st) = true -> is_var_stmt (kind_of st') = true ->
  kids_of st = a ++ d :: b -> kids_of st' = a' ++ d' :: b' -> map kind_of a = map kind_of a' ->
  is_var_decl (kind_of d) = true -> is_var_decl (kind_of d') = true ->
  solid root d -> solid root' d' ->
  ast_id_of root d = ast_id_of root' d' /\ ast_id_of root d <> None.
Proof.
  intros. rewrite (var_id root pre st post a d b), (var_id root' pre' st' post' a' d' b'); auto.
  split; [|discriminate].
  rewrite (same_heads_emit pre pre'), (same_kinds_filter a a'); auto.
Qed.
Print Assumptions C40_globals_stable.

(** * A file: [int a, b; void f() { int x; } methodmap M { ... }] *)
Definition sample_body (inner : list node) (e : nat) := Node 201 20 e inner.
Definition sample (inner : list node) (e : nat) : node :=
  Node 130 0 (e + 30)
    [Node 152 0 9 [Node 194 0 3 []; Node 156 4 5 []; Node 29 5 6 []; Node 156 7 8 []; Node 105 8 9 []];
     Node 144 10 e [Node 194 10 14 []; Node 1 15 16 []; Node 147 16 18 []; sample_body inner e];
     Node 175 (e + 1) (e + 30) [Node 1 (e + 5) (e + 6) []; Node 183 (e + 10) (e + 20) []]].

Definition plain_file := sample [] 30.
Definition edited_file := sample [Node 153 21 28 [Node 156 22 25 []]; Node 201 29 35 []] 40.

Example C40_nontrivial :
  arena plain_file =
    [(156, 4, 5); (156, 7, 8); (144, 10, 30); (175, 31, 60);
     (194, 10, 14); (1, 15, 16); (147, 16, 18); (201, 20, 30);
     (1, 35, 36); (183, 40, 50)] /\
  ast_id_of plain_file (Node 175 31 60 []) = Some 3 /\
  ast_id_of edited_file (Node 175 41 70 []) = Some 3 /\
  option_map ptr_of (to_node (175, 41, 70) edited_file) = Some (175, 41, 70).
Proof. repeat split. Qed.

Ltac walk_tree :=
  repeat match goal with
  | H : below (Node _ _ _ _) _ |- _ => inversion H; clear H; subst; cbn [kids_of In] in *
  | H : _ \/ _ |- _ => destruct H; subst
  | H : False |- _ => destruct H
  end.

Example C40_hypotheses_hold :
  proper edited_file /\ (exists n, solid edited_file n /\ ptr_of n = (175, 41, 70) /\ item edited_file n).
Proof.
  unfold edited_file, sample, sample_body. split.
  - intros n B. walk_tree; cbn; lia.
  - eexists. split; [|split; [|eapply item_plain; [constructor|cbn; auto|discriminate|auto]]].
    + split; [cbn; lia|]. intros a B E. walk_tree; cbn in E; try discriminate E; auto.
    + auto.
Qed.

(** The ids of members do move when a body before them changes: only the top level is stable. *)
Theorem C40_member_ids_refuted :
  ast_id_of plain_file (Node 183 40 50 []) = Some 9 /\
  ast_id_of edited_file (Node 183 50 60 []) = Some 11.
Proof. repeat split. Qed.
Print Assumptions C40_member_ids_refuted.

(** Without "solid" both halves fail.  An empty node (what the parser inserts for something missing)
    standing right behind another node is not found again, and two of them at one place share an
    id. *)
Definition with_missing : node :=
  Node 130 0 10 [Node 145 0 10 [Node 147 1 10 [Node 148 2 5 []; Node 148 5 5 []; Node 148 5 5 [Node 1 5 5 []]]]].

Theorem C40_empty_nodes_refuted :
  proper with_missing /\ item with_missing (Node 148 5 5 []) /\
  to_node (148, 5, 5) with_missing = None /\
  item with_missing (Node 148 5 5 [Node 1 5 5 []]) /\
  ast_id_of with_missing (Node 148 5 5 []) = ast_id_of with_missing (Node 148 5 5 [Node 1 5 5 []]).
Proof.
  assert (O1 : opened with_missing (Node 145 0 10 [Node 147 1 10 [Node 148 2 5 []; Node 148 5 5 []; Node 148 5 5 [Node 1 5 5 []]]])).
  { eapply opened_kid; [constructor|cbn; auto|auto]. }
  assert (O2 : opened with_missing (Node 147 1 10 [Node 148 2 5 []; Node 148 5 5 []; Node 148 5 5 [Node 1 5 5 []]])).
  { eapply opened_kid; [exact O1|cbn; auto|auto]. }
  split.
  { intros n B. unfold with_missing in B. walk_tree; cbn; lia. }
  split; [eapply item_plain; [exact O2|cbn; auto|discriminate|auto]|].
  split; [auto|].
  split; [eapply item_plain; [exact O2|cbn; auto|discriminate|auto]|].
  auto.
Qed.
Print Assumptions C40_empty_nodes_refuted.

(** The item tree asks for the id of every macro definition in the tree
    (crates/hir-def/src/item_tree/lower.rs:64-88), at whatever depth it stands.  One that stands in a
    node that is not opened, such as an old style [struct], has no id, and the question crashes. *)
Definition macro_in_struct : node :=
  Node 130 0 40 [Node 189 0 40 [Node 134 10 20 []]].

Theorem C40_macro_depth_refuted :
  below macro_in_struct (Node 134 10 20 []) /\ ast_id_of macro_in_struct (Node 134 10 20 []) = None.
Proof.
  split; auto. eapply below_kid; [cbn; auto|]. eapply below_kid; [cbn; auto|constructor].
Qed.
Print Assumptions C40_macro_depth_refuted.
