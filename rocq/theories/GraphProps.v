(** C28: every known file belongs to a project. *)
From Coq Require Import List Arith Bool Permutation Lia.
From Verif Require Import GraphModel GraphSpec.
Import ListNotations.

Notation ids := (map file_id).

Lemma mem_ids m vs : existsb (node_eqb m) vs = true <-> In (file_id m) (ids vs).
Proof.
  rewrite existsb_exists, in_map_iff. unfold node_eqb. split.
  - intros (x & Hx & E). apply Nat.eqb_eq in E. exists x. split; [symmetry; exact E|exact Hx].
  - intros (x & E & Hx). exists x. split; [exact Hx|]. apply Nat.eqb_eq. symmetry. exact E.
Qed.
Lemma insert_ids s m f : In f (ids (insert node_eqb s m)) <-> In f (ids s) \/ f = file_id m.
Proof.
  unfold insert. destruct (existsb (node_eqb m) s) eqn:E.
  - apply mem_ids in E. split; [tauto|]. intros [H| ->]; assumption.
  - rewrite map_app, in_app_iff. simpl. split; intros [H|H]; try tauto.
    + destruct H as [H|[]]. right. symmetry. exact H.
    + right. left. symmetry. exact H.
Qed.
Lemma insert_nodup s m : NoDup (ids s) -> NoDup (ids (insert node_eqb s m)).
Proof.
  intros H. unfold insert. destruct (existsb (node_eqb m) s) eqn:E; [exact H|].
  rewrite map_app. simpl. apply (Permutation_NoDup (Permutation_cons_append (ids s) (file_id m))).
  constructor; [|exact H]. intros I. apply mem_ids in I. congruence.
Qed.

(** ** Depth-first search *)

Section dfs.
Variable adj : node -> list node.
Variable E : nat -> nat -> Prop.
Hypothesis adj_spec : forall n b, In b (ids (adj n)) <-> E (file_id n) b.
Variable U : list nat.
Hypothesis U_closed : forall a b, In a U -> E a b -> In b U.

Inductive path : nat -> nat -> Prop :=
| path_self a : path a a
| path_step a b c : E a b -> path b c -> path a c.

Lemma path_snoc a b c : path a b -> E b c -> path a c.
Proof. induction 1 as [a|a x b H1 H2 IH]; intros HE; [eapply path_step; [exact HE|constructor]|eapply path_step; [exact H1|apply IH; exact HE]]. Qed.
Lemma path_trans a b c : path a b -> path b c -> path a c.
Proof. induction 1 as [a|a x b H1 H2 IH]; intros H; [exact H|]. eapply path_step; [exact H1|apply IH; exact H]. Qed.

Definition todo (vs : list node) : nat :=
  length (filter (fun u => negb (if in_dec Nat.eq_dec u (ids vs) then true else false)) U).

Lemma filter_le {A} (p q : A -> bool) l : (forall x, In x l -> p x = true -> q x = true) -> length (filter p l) <= length (filter q l).
Proof.
  induction l as [|x l IH]; intros H; simpl; [lia|].
  assert (IH' := IH (fun y Hy => H y (or_intror Hy))). pose proof (H x (or_introl eq_refl)) as Hx.
  destruct (p x), (q x); simpl; try lia; specialize (Hx eq_refl); discriminate.
Qed.
Lemma filter_lt {A} (p q : A -> bool) l y : (forall x, In x l -> p x = true -> q x = true) ->
  In y l -> p y = false -> q y = true -> length (filter p l) < length (filter q l).
Proof.
  induction l as [|x l IH]; intros H Hy Hp Hq; simpl in *; [tauto|].
  pose proof (H x (or_introl eq_refl)) as Hx.
  assert (L := filter_le p q l (fun z Hz => H z (or_intror Hz))).
  destruct Hy as [->|Hy].
  - rewrite Hp, Hq. simpl. lia.
  - assert (IH' := IH (fun z Hz => H z (or_intror Hz)) Hy Hp Hq).
    destruct (p x), (q x); simpl; try lia; specialize (Hx eq_refl); discriminate.
Qed.
Lemma todo_mono vs vs' : incl (ids vs) (ids vs') -> todo vs' <= todo vs.
Proof.
  intros H. apply filter_le. intros x _. destruct (in_dec Nat.eq_dec x (ids vs)) as [I|I], (in_dec Nat.eq_dec x (ids vs')) as [I'|I']; simpl; try reflexivity; try discriminate.
  exfalso. apply I'. apply H. exact I.
Qed.
Lemma todo_insert vs n : In (file_id n) U -> ~ In (file_id n) (ids vs) -> todo (insert node_eqb vs n) < todo vs.
Proof.
  intros Hu Hn. apply (filter_lt _ _ _ (file_id n)); [|exact Hu| |].
  - intros x _. destruct (in_dec Nat.eq_dec x (ids vs)) as [I|I], (in_dec Nat.eq_dec x (ids (insert node_eqb vs n))) as [I'|I']; simpl; try reflexivity; try discriminate.
    exfalso. apply I'. apply insert_ids. left. exact I.
  - destruct (in_dec Nat.eq_dec (file_id n) (ids (insert node_eqb vs n))) as [I|I]; [reflexivity|]. exfalso. apply I. apply insert_ids. right. reflexivity.
  - destruct (in_dec Nat.eq_dec (file_id n) (ids vs)) as [I|I]; [contradiction|reflexivity].
Qed.

(** What one call adds: [n] with everything reached from it, closed under [E]. *)
Definition grown (n : nat) (vs vs' : list node) : Prop :=
  incl (ids vs) (ids vs') /\
  (forall x, In x (ids vs') -> In x (ids vs) \/ path n x) /\
  (forall x y, In x (ids vs') -> ~ In x (ids vs) -> E x y -> In y (ids vs')) /\
  (NoDup (ids vs) -> NoDup (ids vs')).

Lemma dfs_spec fuel : forall n vs es,
  In (file_id n) U -> ~ In (file_id n) (ids vs) -> todo vs <= fuel ->
  exists vs' es', dfs (S fuel) adj n (vs, es) = Some (vs', es') /\
    grown (file_id n) vs vs' /\ In (file_id n) (ids vs').
Proof.
  induction fuel as [|fuel IH]; intros n vs es Hu Hn Hf; [pose proof (todo_insert vs n Hu Hn); lia|].
  remember (S fuel) as f eqn:Ef. cbn [dfs fst snd].
  assert (L : forall ms vs0 es0, incl ms (adj n) -> In (file_id n) (ids vs0) -> todo vs0 < todo vs ->
     exists vs' es',
       fold_left (fun acc m =>
        match acc with
        | None => None
        | Some (vs, es) =>
            if existsb (node_eqb m) vs then Some (vs, es)
            else dfs f adj m (vs, insert edge_eqb es (Edge n m))
        end) ms (Some (vs0, es0)) = Some (vs', es') /\ grown (file_id n) vs0 vs' /\ incl (ids ms) (ids vs')).
  { induction ms as [|m ms IHms]; intros vs0 es0 Hms Hn0 Ht; cbn [fold_left].
    - exists vs0, es0. split; [reflexivity|]. split; [|intros x []].
      split; [intros x H; exact H|]. split; [intros x H; left; exact H|]. split; [intros x y H H'; contradiction|]. exact (fun H => H).
    - assert (HE : E (file_id n) (file_id m)).
      { apply adj_spec. apply in_map. apply Hms. left. reflexivity. }
      destruct (existsb (node_eqb m) vs0) eqn:Em.
      + apply mem_ids in Em.
        destruct (IHms vs0 es0 (fun x H => Hms x (or_intror H)) Hn0 Ht) as (vs' & es' & E1 & G & I).
        exists vs', es'. split; [exact E1|]. split; [exact G|]. intros x [<-|Hx]; [apply G; exact Em|apply I; exact Hx].
      + assert (Em' : ~ In (file_id m) (ids vs0)) by (intros I; apply mem_ids in I; congruence).
        destruct (IH m vs0 (insert edge_eqb es0 (Edge n m)) (U_closed _ _ Hu HE) Em' ltac:(lia)) as (vs1 & es1 & E1 & G1 & I1).
        rewrite E1.
        destruct G1 as (Ga & Gb & Gc & Gd).
        destruct (IHms vs1 es1 (fun x H => Hms x (or_intror H)) (Ga _ Hn0) ltac:(pose proof (todo_mono _ _ Ga); lia)) as (vs2 & es2 & E2 & (Ha & Hb & Hc & Hd) & I2).
        exists vs2, es2. split; [exact E2|]. split; [|intros x [<-|Hx]; [apply Ha; exact I1|apply I2; exact Hx]].
        split; [intros x Hx; apply Ha, Ga, Hx|]. split; [|split; [|intros H; apply Hd, Gd, H]].
        * intros x Hx. destruct (Hb x Hx) as [H|H]; [|right; exact H].
          destruct (Gb x H) as [H'|H']; [left; exact H'|right; eapply path_step; eassumption].
        * intros x y Hx Hnx HE'. destruct (in_dec Nat.eq_dec x (ids vs1)) as [I|I].
          -- apply Ha. eapply Gc; eassumption.
          -- eapply Hc; eassumption. }
  destruct (L (adj n) (insert node_eqb vs n) es (fun x H => H)) as (vs' & es' & E1 & (Ga & Gb & Gc & Gd) & I).
  { apply insert_ids. right. reflexivity. }
  { apply todo_insert; assumption. }
  exists vs', es'. split; [exact E1|]. assert (Hin : In (file_id n) (ids vs')) by (apply Ga, insert_ids; right; reflexivity).
  split; [|exact Hin]. split; [intros x Hx; apply Ga, insert_ids; left; exact Hx|]. split; [|split].
  - intros x Hx. destruct (Gb x Hx) as [H|H]; [|right; exact H]. apply insert_ids in H.
    destruct H as [H| ->]; [left; exact H|right; constructor].
  - intros x y Hx Hnx HE. destruct (Nat.eq_dec x (file_id n)) as [->|Hd].
    + apply I. apply adj_spec. exact HE.
    + eapply Gc; [exact Hx| |exact HE]. intros H. apply insert_ids in H. tauto.
  - intros H. apply Gd. apply insert_nodup. exact H.
Qed.

Lemma dfs_reaches fuel n : In (file_id n) U -> length U < fuel ->
  exists vs es, dfs fuel adj n ([], []) = Some (vs, es) /\ NoDup (ids vs) /\
    forall x, In x (ids vs) <-> path (file_id n) x.
Proof.
  intros Hu Hf. destruct fuel as [|fuel]; [lia|].
  assert (Ht : todo [] <= fuel).
  { unfold todo. pose proof (filter_le (fun u => negb (if in_dec Nat.eq_dec u (ids []) then true else false)) (fun _ => true) U (fun x _ _ => eq_refl)) as H.
    assert (Et : filter (fun _ : nat => true) U = U) by (clear; induction U as [|u l IH]; simpl; [reflexivity|rewrite IH; reflexivity]).
    rewrite Et in H. lia. }
  destruct (dfs_spec fuel n [] [] Hu (fun H => H) Ht) as (vs & es & E1 & (Ga & Gb & Gc & Gd) & I).
  exists vs, es. split; [exact E1|]. split; [apply Gd; constructor|]. intros x. split.
  - intros Hx. destruct (Gb x Hx) as [[]|H]. exact H.
  - intros Hp. assert (G : forall a, path a x -> In a (ids vs) -> In x (ids vs)).
    { clear - Gc. induction 1 as [a|a b c HE HP IH]; intros Ha; [exact Ha|]. apply IH. eapply Gc; [exact Ha|intros []|exact HE]. }
    apply (G _ Hp I).
Qed.
End dfs.

(** ** The graph *)

Definition has_edge (es : list edge) (a b : nat) : Prop :=
  exists e, In e es /\ file_id (source e) = a /\ file_id (target e) = b.

Lemma edge_mem e es : existsb (edge_eqb e) es = true <-> has_edge es (file_id (source e)) (file_id (target e)).
Proof.
  rewrite existsb_exists. unfold edge_eqb, node_eqb, has_edge. split.
  - intros (x & Hx & H). apply andb_true_iff in H. rewrite !Nat.eqb_eq in H. exists x. intuition congruence.
  - intros (x & Hx & H1 & H2). exists x. split; [exact Hx|]. rewrite H1, H2, !Nat.eqb_refl. reflexivity.
Qed.
Lemma insert_edge es e a b : has_edge (insert edge_eqb es e) a b <->
  has_edge es a b \/ (a = file_id (source e) /\ b = file_id (target e)).
Proof.
  unfold insert. destruct (existsb (edge_eqb e) es) eqn:Ee.
  - apply edge_mem in Ee. split; [tauto|]. intros [H|(-> & ->)]; assumption.
  - unfold has_edge. split.
    + intros (x & Hx & H1 & H2). apply in_app_iff in Hx. destruct Hx as [Hx|[<-|[]]]; [left; exists x; tauto|right; split; congruence].
    + intros [(x & Hx & H)|(-> & ->)]; [exists x; split; [apply in_app_iff; tauto|exact H]|].
      exists e. split; [apply in_app_iff; right; left; reflexivity|split; reflexivity].
Qed.

Section query.
Variable documents : list (nat * extension).
Variable includes : nat -> list (nat * extension).

Lemma add_includes_spec s incs : forall g,
  let g' := fold_left (add_include s) incs g in
  (forall f, In f (ids (nodes g')) <-> In f (ids (nodes g)) \/ In f (map fst incs)) /\
  (forall a b, has_edge (edges g') a b <-> has_edge (edges g) a b \/ (a = file_id s /\ In b (map fst incs))) /\
  (NoDup (ids (nodes g)) -> NoDup (ids (nodes g'))).
Proof.
  induction incs as [|[t e] incs IH]; intros g; cbv zeta; cbn [fold_left map In].
  - split; [tauto|]. split; [intros a b; tauto|tauto].
  - destruct (IH (add_include s g (t, e))) as (H1 & H2 & H3). unfold add_include in H1, H2, H3 |- *.
    cbn [fst snd edges nodes] in *. split; [|split].
    + intros f. rewrite H1, insert_ids. cbn [file_id]. intuition congruence.
    + intros a b. rewrite H2, insert_edge. cbn [source target file_id]. intuition congruence.
    + intros H. apply H3. apply insert_nodup. exact H.
Qed.

Lemma query_fold_spec docs : forall g,
  let g' := fold_left (add_document includes) docs g in
  (forall f, In f (ids (nodes g')) <->
     In f (ids (nodes g)) \/ In f (map fst docs) \/ exists a, In a (map fst docs) /\ In f (map fst (includes a))) /\
  (forall a b, has_edge (edges g') a b <-> has_edge (edges g) a b \/ (In a (map fst docs) /\ In b (map fst (includes a)))) /\
  (NoDup (ids (nodes g)) -> NoDup (ids (nodes g'))).
Proof.
  induction docs as [|[d e] docs IH]; intros g; cbv zeta; cbn [fold_left map In fst].
  - split; [|split]; [| |tauto].
    + intros f. split; [tauto|]. intros [H|[[]|(a & [] & _)]]. exact H.
    + intros a b. tauto.
  - destruct (IH (add_document includes g (d, e))) as (H1 & H2 & H3). unfold add_document in H1, H2, H3 |- *.
    cbn [fst snd] in *.
    destruct (add_includes_spec (Node d e) (includes d) (Graph (edges g) (insert node_eqb (nodes g) (Node d e)))) as (I1 & I2 & I3).
    cbn [edges nodes file_id] in *. split; [|split].
    + intros f. rewrite H1, I1, insert_ids. cbn [file_id]. split.
      * intros [[[H|H]|H]|[H|(a & Ha & H)]]; try tauto.
        -- subst. tauto.
        -- right; right. exists d. tauto.
        -- right; right. exists a. tauto.
      * intros [H|[[H|H]|(a & [<-|Ha] & H)]]; try tauto.
        -- subst. tauto.
        -- right; right. exists a. tauto.
    + intros a b. rewrite H2, I2. intuition (subst; auto).
    + intros H. apply H3, I3, insert_nodup, H.
Qed.

Lemma query_spec :
  let g := graph_query documents includes in
  (forall f, In f (ids (nodes g)) <-> known documents f \/ exists a, includes_directly documents includes a f) /\
  (forall a b, has_edge (edges g) a b <-> includes_directly documents includes a b) /\
  NoDup (ids (nodes g)).
Proof.
  destruct (query_fold_spec documents (Graph [] [])) as (H1 & H2 & H3). cbn [edges nodes map] in *.
  split; [|split].
  - intros f. unfold graph_query. rewrite H1. unfold known, includes_directly, known. simpl. tauto.
  - intros a b. unfold graph_query. rewrite H2. unfold includes_directly, known. split; [|tauto].
    intros [(e & [] & _)|H]. exact H.
  - apply H3. constructor.
Qed.
End query.

Lemma targets_spec es n b : In b (ids (targets es n)) <-> has_edge es (file_id n) b.
Proof.
  unfold targets.
  assert (G : forall es acc, In b (ids (fold_left (fun s e => if node_eqb (source e) n then insert node_eqb s (target e) else s) es acc))
              <-> In b (ids acc) \/ has_edge es (file_id n) b).
  { induction es0 as [|e es0 IH]; intros acc; cbn [fold_left].
    - split; [tauto|]. intros [H|(e & [] & _)]. exact H.
    - rewrite IH. unfold node_eqb at 1. destruct (Nat.eqb_spec (file_id (source e)) (file_id n)) as [Es|Es].
      + rewrite insert_ids. split.
        * intros [[H| ->]|(x & Hx & H)]; [tauto|right; exists e; cbn; tauto|right; exists x; cbn; tauto].
        * intros [H|(x & [->|Hx] & H)]; [tauto|left; right; symmetry; apply H|right; exists x; tauto].
      + split.
        * intros [H|(x & Hx & H)]; [tauto|right; exists x; cbn; tauto].
        * intros [H|(x & [->|Hx] & H)]; [tauto|tauto|right; exists x; tauto]. }
  rewrite G. simpl. tauto.
Qed.

Lemma keys_spec g f : In f (ids (keys g)) <->
  In f (ids (nodes g)) \/ exists a b, has_edge (edges g) a b /\ (f = a \/ f = b).
Proof.
  unfold keys.
  assert (G1 : forall ns acc, In f (ids (fold_left (insert node_eqb) ns acc)) <-> In f (ids acc) \/ In f (ids ns)).
  { induction ns as [|n ns IH]; intros acc; simpl; [tauto|]. rewrite IH, insert_ids. intuition congruence. }
  assert (G2 : forall es acc, In f (ids (fold_left (fun s e => insert node_eqb (insert node_eqb s (source e)) (target e)) es acc))
           <-> In f (ids acc) \/ exists a b, has_edge es a b /\ (f = a \/ f = b)).
  { induction es as [|e es IH]; intros acc; cbn [fold_left].
    - split; [tauto|]. intros [H|(a & b & (e & [] & _) & _)]. exact H.
    - rewrite IH, !insert_ids. split.
      + intros [[[H|H]|H]|(a & b & (x & Hx & H) & H')]; [tauto| | |].
        * right. exists (file_id (source e)), (file_id (target e)). split; [exists e; cbn; tauto|tauto].
        * right. exists (file_id (source e)), (file_id (target e)). split; [exists e; cbn; tauto|tauto].
        * right. exists a, b. split; [exists x; cbn; tauto|exact H'].
      + intros [H|(a & b & (x & [->|Hx] & <- & <-) & H')]; [tauto|tauto|].
        right. exists (file_id (source x)), (file_id (target x)). split; [exists x; tauto|exact H']. }
  rewrite G1, G2. simpl. tauto.
Qed.
Lemma keys_nodup g : NoDup (ids (keys g)).
Proof.
  unfold keys.
  assert (G2 : forall es acc, NoDup (ids acc) -> NoDup (ids (fold_left (fun s e => insert node_eqb (insert node_eqb s (source e)) (target e)) es acc))).
  { induction es as [|e es IH]; intros acc H; cbn [fold_left]; [exact H|]. apply IH. apply insert_nodup, insert_nodup, H. }
  assert (G1 : forall ns acc, NoDup (ids acc) -> NoDup (ids (fold_left (insert node_eqb) ns acc))).
  { induction ns as [|n ns IH]; intros acc H; simpl; [exact H|]. apply IH. apply insert_nodup, H. }
  apply G1, G2. constructor.
Qed.

Lemma nb_zero (p : edge -> bool) es : length (filter p es) = 0 <-> forall e, In e es -> p e = false.
Proof.
  induction es as [|e es IH]; simpl; [split; [intros _ x []|reflexivity]|].
  destruct (p e) eqn:Ep; simpl.
  - split; [discriminate|]. intros H. rewrite (H e (or_introl eq_refl)) in Ep. discriminate Ep.
  - rewrite IH. split; [intros H x [<-|Hx]; [exact Ep|apply H; exact Hx]|intros H x Hx; apply H; right; exact Hx].
Qed.
Lemma nb_target_zero g n : nb_target g n = 0 <-> ~ exists b, has_edge (edges g) (file_id n) b.
Proof.
  unfold nb_target. rewrite nb_zero. unfold node_eqb. split.
  - intros H (b & e & He & Es & _). specialize (H e He). rewrite Es, Nat.eqb_refl in H. discriminate H.
  - intros H e He. apply Nat.eqb_neq. intros Es. apply H. exists (file_id (target e)), e. tauto.
Qed.
Lemma nb_source_zero g n : nb_source g n = 0 <-> ~ exists a, has_edge (edges g) a (file_id n).
Proof.
  unfold nb_source. rewrite nb_zero. unfold node_eqb. split.
  - intros H (b & e & He & _ & Es). specialize (H e He). rewrite Es, Nat.eqb_refl in H. discriminate H.
  - intros H e He. apply Nat.eqb_neq. intros Es. apply H. exists (file_id (source e)), e. tauto.
Qed.
Lemma outgoing_dec g n : {exists b, has_edge (edges g) (file_id n) b} + {~ exists b, has_edge (edges g) (file_id n) b}.
Proof.
  destruct (Nat.eq_dec (nb_target g n) 0) as [H|H]; [right; apply nb_target_zero; exact H|left].
  unfold nb_target in H. destruct (filter (fun e => node_eqb (source e) n) (edges g)) as [|e l] eqn:Ef; [contradiction H; reflexivity|].
  assert (I : In e (e :: l)) by (left; reflexivity). rewrite <- Ef in I. apply filter_In in I. destruct I as (I & Es).
  apply Nat.eqb_eq in Es. exists (file_id (target e)), e. tauto.
Qed.
Lemma incoming_dec g n : {exists a, has_edge (edges g) a (file_id n)} + {~ exists a, has_edge (edges g) a (file_id n)}.
Proof.
  destruct (Nat.eq_dec (nb_source g n) 0) as [H|H]; [right; apply nb_source_zero; exact H|left].
  unfold nb_source in H. destruct (filter (fun e => node_eqb (target e) n) (edges g)) as [|e l] eqn:Ef; [contradiction H; reflexivity|].
  assert (I : In e (e :: l)) by (left; reflexivity). rewrite <- Ef in I. apply filter_In in I. destruct I as (I & Es).
  apply Nat.eqb_eq in Es. exists (file_id (source e)), e. tauto.
Qed.
Lemma is_root_spec g n : is_root g n = true <->
  (exists b, has_edge (edges g) (file_id n) b) \/ ~ exists a, has_edge (edges g) a (file_id n).
Proof.
  unfold is_root. rewrite orb_true_iff, negb_true_iff, Nat.eqb_neq, Nat.eqb_eq, nb_target_zero, nb_source_zero.
  destruct (outgoing_dec g n); tauto.
Qed.

(** ** The answers to the queries, whatever the order of the sets *)

Section answers.
Variable documents : list (nat * extension).
Variable includes : nat -> list (nat * extension).
Variables (g : graph) (adj : node -> list node).
Hypothesis Hg : reordered (graph_query documents includes) g.
Hypothesis Hadj : adjacency (edges g) adj.

Notation E := (includes_directly documents includes).

Lemma g_nodes f : In f (ids (nodes g)) <-> known documents f \/ exists a, E a f.
Proof.
  rewrite <- (proj1 (query_spec documents includes) f). split; apply Permutation_in; apply Permutation_map;
    [apply Permutation_sym|]; apply Hg.
Qed.
Lemma g_edges a b : has_edge (edges g) a b <-> E a b.
Proof.
  rewrite <- (proj1 (proj2 (query_spec documents includes)) a b). unfold has_edge. split; intros (e & He & H); exists e; (split; [|exact H]);
    (eapply Permutation_in; [|exact He]); [apply Permutation_sym|]; apply Hg.
Qed.
Lemma adj_E n b : In b (ids (adj n)) <-> E (file_id n) b.
Proof.
  rewrite <- g_edges, <- targets_spec. split; apply Permutation_in; apply Permutation_map; [apply Permutation_sym|]; apply Hadj.
Qed.
Lemma path_reaches a b : path E a b <-> reaches documents includes a b.
Proof. split; induction 1; try (econstructor; eassumption); constructor. Qed.

Lemma g_closed a b : In a (ids (nodes g)) -> E a b -> In b (ids (nodes g)).
Proof. intros _ H. apply g_nodes. right. exists a. exact H. Qed.

Lemma dfs_exact fuel n : In (file_id n) (ids (nodes g)) -> length (nodes g) < fuel ->
  exists vs es, dfs fuel adj n ([], []) = Some (vs, es) /\ NoDup (ids vs) /\
    forall x, In x (ids vs) <-> reaches documents includes (file_id n) x.
Proof.
  intros Hn Hf. destruct (dfs_reaches adj E adj_E (ids (nodes g)) g_closed fuel n Hn) as (vs & es & E1 & Hd & H).
  { rewrite map_length. exact Hf. }
  exists vs, es. split; [exact E1|]. split; [exact Hd|]. intros x. rewrite H. apply path_reaches.
Qed.

Lemma root_spec n : In n (find_roots g) -> project_root documents includes (file_id n).
Proof.
  intros H. apply filter_In in H. destruct H as (Hk & Hr). apply is_root_spec in Hr.
  assert (I : In (file_id n) (ids (keys g))) by (apply in_map; exact Hk). apply keys_spec in I. split.
  - destruct I as [I|(a & b & He & [->|Eb])]; [apply g_nodes; exact I|left; apply g_edges in He; apply He|right; exists a; rewrite Eb; apply g_edges; exact He].
  - destruct Hr as [(b & Hb)|Hr]; [left; exists b; apply g_edges; exact Hb|right; intros (a & Ha); apply Hr; exists a; apply g_edges; exact Ha].
Qed.
Lemma root_found f : project_root documents includes f -> In f (ids (find_roots g)).
Proof.
  intros (Hk & Hr). assert (I : In f (ids (keys g))) by (apply keys_spec; left; apply g_nodes; exact Hk).
  apply in_map_iff in I. destruct I as (n & <- & I). apply in_map. apply filter_In. split; [exact I|].
  apply is_root_spec. destruct Hr as [(b & Hb)|Hr]; [left; exists b; apply g_edges; exact Hb|right].
  intros (a & Ha). apply Hr. exists a. apply g_edges. exact Ha.
Qed.
Lemma roots_nodup : NoDup (ids (find_roots g)).
Proof.
  unfold find_roots. pose proof (keys_nodup g) as H. induction (keys g) as [|n l IH]; simpl; [constructor|].
  inversion H as [|? ? Hn Hd]; subst. destruct (is_root g n); [|apply IH; exact Hd]. simpl. constructor; [|apply IH; exact Hd].
  intros I. apply Hn. apply in_map_iff in I. destruct I as (x & Ex & I). apply filter_In in I. apply in_map_iff. exists x. tauto.
Qed.

Lemma subgraphs_exact fuel roots : (forall r, In r roots -> In (file_id r) (ids (nodes g))) -> length (nodes g) < fuel ->
  exists gs, subgraphs fuel adj roots = Some gs /\ map sg_root gs = roots /\
    Forall (fun s => NoDup (ids (sg_nodes s)) /\
              forall f, In f (ids (sg_nodes s)) <-> reaches documents includes (file_id (sg_root s)) f) gs.
Proof.
  intros Hr Hf. induction roots as [|r roots IH].
  - exists []. repeat split. constructor.
  - destruct IH as (gs & E1 & E2 & HF); [intros x Hx; apply Hr; right; exact Hx|].
    destruct (dfs_exact fuel r (Hr r (or_introl eq_refl)) Hf) as (vs & es & E3 & Hd & H).
    exists (SubGraph r vs es :: gs). cbn [subgraphs]. rewrite E3, E1. split; [reflexivity|].
    cbn [map sg_root]. rewrite E2. split; [reflexivity|]. constructor; [|exact HF]. cbn. split; [exact Hd|exact H].
Qed.
End answers.

(** ** The theorems *)

(** The graph's files are the known ones and those they include. *)
Theorem C28_graph_covers :
  forall documents includes f,
    In f (ids (nodes (graph_query documents includes))) <->
    known documents f \/ exists a, includes_directly documents includes a f.
Proof. intros. apply (proj1 (query_spec documents includes)). Qed.
Print Assumptions C28_graph_covers.

(** The subgraphs are computed with fuel one above the number of files, in whatever order the sets
    iterate; there is one per project root, and it is exactly what its root reaches. *)
Theorem C28_subgraphs :
  forall documents includes g adj roots fuel,
    reordered (graph_query documents includes) g -> adjacency (edges g) adj -> Permutation (find_roots g) roots ->
    length (nodes g) < fuel ->
    exists gs, subgraphs fuel adj roots = Some gs /\
      NoDup (map (fun s => file_id (sg_root s)) gs) /\
      (forall f, In f (map (fun s => file_id (sg_root s)) gs) <-> project_root documents includes f) /\
      forall s, In s gs -> NoDup (ids (sg_nodes s)) /\
        forall f, In f (ids (sg_nodes s)) <-> reaches documents includes (file_id (sg_root s)) f.
Proof.
  intros documents includes g adj roots fuel Hg Ha Hr Hf.
  destruct (subgraphs_exact documents includes g adj Hg Ha fuel roots) as (gs & E1 & E2 & HF); [|exact Hf|].
  - intros r I. apply (Permutation_in _ (Permutation_sym Hr)) in I.
    apply (root_spec documents includes g Hg) in I. apply (g_nodes documents includes g Hg). apply I.
  - exists gs. split; [exact E1|].
    assert (Em : map (fun s => file_id (sg_root s)) gs = ids roots) by (rewrite <- E2, map_map; reflexivity).
    rewrite Em. split; [|split].
    + eapply Permutation_NoDup; [apply Permutation_map; exact Hr|]. apply roots_nodup.
    + intros f. split.
      * intros I. apply in_map_iff in I. destruct I as (n & <- & I). apply (Permutation_in _ (Permutation_sym Hr)) in I.
        apply (root_spec documents includes g Hg). exact I.
      * intros H. eapply Permutation_in; [apply Permutation_map; exact Hr|]. apply (root_found documents includes g Hg). exact H.
    + rewrite Forall_forall in HF. exact HF.
Qed.
Print Assumptions C28_subgraphs.

(** Every file is reached by a project root, so the query for its project answers with a subgraph
    that has it. *)
Lemma reached_by_root documents includes g f :
  reordered (graph_query documents includes) g ->
  known documents f \/ (exists a, includes_directly documents includes a f) ->
  exists r, project_root documents includes r /\ reaches documents includes r f.
Proof.
  intros Hg Hk. destruct (incoming_dec g (Node f Sp)) as [(a & Ha)|H].
  - apply (g_edges documents includes g Hg) in Ha. cbn in Ha. exists a. split.
    + split; [left; apply Ha|left; exists f; exact Ha].
    + eapply reaches_step; [exact Ha|constructor].
  - exists f. split; [|constructor]. split; [exact Hk|]. right. intros (a & Ha). apply H. exists a.
    apply (g_edges documents includes g Hg). exact Ha.
Qed.

Lemma contains_spec f s : existsb (node_eqb (Node f Sp)) (sg_nodes s) = true <-> In f (ids (sg_nodes s)).
Proof. apply (mem_ids (Node f Sp)). Qed.
Lemma containing_some f e gs s : containing f e gs = Some s -> In s gs /\ In f (ids (sg_nodes s)) /\ ext (sg_root s) = e.
Proof.
  unfold containing. intros H. apply find_some in H. destruct H as (H & Hc). apply filter_In in H. destruct H as (H & He).
  split; [exact H|]. split; [apply contains_spec; exact Hc|]. destruct (ext (sg_root s)), e; try reflexivity; discriminate He.
Qed.
Lemma containing_none f e gs : containing f e gs = None -> forall s, In s gs -> ext (sg_root s) = e -> ~ In f (ids (sg_nodes s)).
Proof.
  unfold containing. intros H s Hs He I. apply contains_spec in I.
  pose proof (find_none _ _ H s) as Hn. rewrite Hn in I; [discriminate I|]. apply filter_In. split; [exact Hs|].
  rewrite He. destruct e; reflexivity.
Qed.

Theorem C28_every_file_has_a_project :
  forall documents includes g adj roots fuel gs f,
    reordered (graph_query documents includes) g -> adjacency (edges g) adj -> Permutation (find_roots g) roots ->
    length (nodes g) < fuel -> subgraphs fuel adj roots = Some gs ->
    (known documents f \/ exists a, includes_directly documents includes a f) ->
    exists s, projet_subgraph gs f = Some s /\ In s gs /\ In f (ids (sg_nodes s)) /\
      reaches documents includes (file_id (sg_root s)) f.
Proof.
  intros documents includes g adj roots fuel gs f Hg Ha Hr Hf Hs Hk.
  destruct (C28_subgraphs documents includes g adj roots fuel Hg Ha Hr Hf) as (gs' & E1 & _ & Hroots & Hsub).
  rewrite Hs in E1. injection E1 as <-.
  destruct (reached_by_root documents includes g f Hg Hk) as (r & Hpr & Hreach).
  assert (exists s, In s gs /\ In f (ids (sg_nodes s))) as (s & Hin & Hc).
  { apply Hroots in Hpr. apply in_map_iff in Hpr. destruct Hpr as (s & Es & Hin). exists s. split; [exact Hin|].
    apply (Hsub s Hin). rewrite Es. exact Hreach. }
  assert (G : exists s, projet_subgraph gs f = Some s).
  { unfold projet_subgraph. destruct (containing f Sp gs) as [s1|] eqn:E1; [exists s1; reflexivity|].
    destruct (containing f Inc gs) as [s2|] eqn:E2; [exists s2; reflexivity|]. exfalso.
    destruct (ext (sg_root s)) eqn:Ee; [exact (containing_none f Sp gs E1 s Hin Ee Hc)|exact (containing_none f Inc gs E2 s Hin Ee Hc)]. }
  destruct G as (s' & Es'). exists s'. split; [exact Es'|].
  assert (I : In s' gs /\ In f (ids (sg_nodes s'))).
  { unfold projet_subgraph in Es'. destruct (containing f Sp gs) as [s1|] eqn:E1.
    - injection Es' as <-. apply containing_some in E1. tauto.
    - apply containing_some in Es'. tauto. }
  destruct I as (I1 & I2). split; [exact I1|]. split; [exact I2|]. apply (Hsub s' I1). exact I2.
Qed.
Print Assumptions C28_every_file_has_a_project.

(** A file outside the graph has no project. *)
Theorem C28_unknown_file_has_no_project :
  forall documents includes g adj roots fuel gs f,
    reordered (graph_query documents includes) g -> adjacency (edges g) adj -> Permutation (find_roots g) roots ->
    length (nodes g) < fuel -> subgraphs fuel adj roots = Some gs ->
    ~ known documents f -> (~ exists a, includes_directly documents includes a f) ->
    projet_subgraph gs f = None.
Proof.
  intros documents includes g adj roots fuel gs f Hg Ha Hr Hf Hs Hk Hi.
  destruct (C28_subgraphs documents includes g adj roots fuel Hg Ha Hr Hf) as (gs' & E1 & _ & Hroots & Hsub).
  rewrite Hs in E1. injection E1 as <-.
  assert (G : forall s, In s gs -> ~ In f (ids (sg_nodes s))).
  { intros s Hin I. apply (Hsub s Hin) in I.
    assert (Hp : project_root documents includes (file_id (sg_root s))) by (apply Hroots, in_map_iff; exists s; tauto).
    destruct Hp as (Hp & _).
    assert (X : forall a b, reaches documents includes a b -> a = b \/ exists c, includes_directly documents includes c b).
    { induction 1 as [a|a b c H1 H2 IH]; [left; reflexivity|]. right. destruct IH as [->|IH]; [exists a; exact H1|exact IH]. }
    destruct (X _ _ I) as [E|E]; [rewrite E in Hp; tauto|tauto]. }
  unfold projet_subgraph. destruct (containing f Sp gs) as [s1|] eqn:E1.
  { apply containing_some in E1. exfalso. apply (G s1); tauto. }
  destruct (containing f Inc gs) as [s2|] eqn:E2; [|reflexivity].
  apply containing_some in E2. exfalso. apply (G s2); tauto.
Qed.
Print Assumptions C28_unknown_file_has_no_project.

(** ** Extensions *)

(** Every mention of a file carries the extension of its name. *)
Definition consistent (e : nat -> extension) documents (includes : nat -> list (nat * extension)) : Prop :=
  (forall d, In d documents -> snd d = e (fst d)) /\
  (forall a i, In a (map fst documents) -> In i (includes a) -> snd i = e (fst i)).

Section ext.
Variable e : nat -> extension.
Definition named (n : node) : Prop := ext n = e (file_id n).
Definition edge_named (x : edge) : Prop := named (source x) /\ named (target x).
Lemma insert_forall {A} (eqb : A -> A -> bool) (P : A -> Prop) s x : Forall P s -> P x -> Forall P (insert eqb s x).
Proof. intros H Hx. unfold insert. destruct (existsb (eqb x) s); [exact H|]. apply Forall_app. split; [exact H|]. constructor; [exact Hx|constructor]. Qed.
Lemma query_named documents includes : consistent e documents includes ->
  Forall named (nodes (graph_query documents includes)) /\ Forall edge_named (edges (graph_query documents includes)).
Proof.
  intros (H1 & H2). unfold graph_query.
  assert (G : forall docs g, incl docs documents -> Forall named (nodes g) /\ Forall edge_named (edges g) ->
     Forall named (nodes (fold_left (add_document includes) docs g)) /\ Forall edge_named (edges (fold_left (add_document includes) docs g))).
  { induction docs as [|d docs IH]; intros g Hi (Hn & He); cbn [fold_left]; [tauto|]. apply IH; [intros x Hx; apply Hi; right; exact Hx|].
    assert (Hd : In d documents) by (apply Hi; left; reflexivity).
    assert (Hs : named (Node (fst d) (snd d))) by (unfold named; cbn; apply H1; exact Hd).
    unfold add_document.
    assert (K : forall incs g, (forall i, In i incs -> snd i = e (fst i)) -> Forall named (nodes g) /\ Forall edge_named (edges g) ->
       Forall named (nodes (fold_left (add_include (Node (fst d) (snd d))) incs g)) /\ Forall edge_named (edges (fold_left (add_include (Node (fst d) (snd d))) incs g))).
    { induction incs as [|i incs IHi]; intros g0 Hinc (Hn0 & He0); cbn [fold_left]; [tauto|].
      assert (Ht : named (Node (fst i) (snd i))) by (unfold named; cbn; apply Hinc; left; reflexivity).
      apply IHi; [intros x Hx; apply Hinc; right; exact Hx|]. unfold add_include. cbn [nodes edges].
      split; apply insert_forall; try assumption. split; [exact Hs|exact Ht]. }
    apply K; [intros i Hii; apply (H2 (fst d)); [apply in_map; exact Hd|exact Hii]|]. cbn [nodes edges].
    split; [apply insert_forall; assumption|exact He]. }
  apply G; [intros x Hx; exact Hx|]. split; constructor.
Qed.
Lemma keys_named g : Forall named (nodes g) -> Forall edge_named (edges g) -> Forall named (keys g).
Proof.
  intros Hn He. unfold keys.
  assert (G2 : forall es acc, Forall edge_named es -> Forall named acc -> Forall named (fold_left (fun s x => insert node_eqb (insert node_eqb s (source x)) (target x)) es acc)).
  { induction es as [|x es IH]; intros acc Hx H; cbn [fold_left]; [exact H|]. inversion Hx as [|? ? (Hs & Ht) Hx']; subst.
    apply IH; [exact Hx'|]. apply insert_forall; [apply insert_forall|]; assumption. }
  assert (G1 : forall ns acc, Forall named ns -> Forall named acc -> Forall named (fold_left (insert node_eqb) ns acc)).
  { induction ns as [|n ns IH]; intros acc Hx H; cbn [fold_left]; [exact H|]. inversion Hx; subst. apply IH; [assumption|]. apply insert_forall; assumption. }
  apply G1; [exact Hn|]. apply G2; [exact He|constructor].
Qed.
End ext.

(** A plugin (.sp) is preferred: the project of a file starts at an include file only when no
    plugin that is a project root reaches the file. *)
Theorem C28_prefers_plugins :
  forall e documents includes g adj roots fuel gs f s,
    reordered (graph_query documents includes) g -> adjacency (edges g) adj -> Permutation (find_roots g) roots ->
    length (nodes g) < fuel -> subgraphs fuel adj roots = Some gs -> consistent e documents includes ->
    projet_subgraph gs f = Some s ->
    (exists r, project_root documents includes r /\ reaches documents includes r f /\ e r = Sp) ->
    e (file_id (sg_root s)) = Sp.
Proof.
  intros e documents includes g adj roots fuel gs f s Hg Ha Hr Hf Hs Hc Hp (r & Hpr & Hreach & Er).
  destruct (C28_subgraphs documents includes g adj roots fuel Hg Ha Hr Hf) as (gs' & E1 & _ & Hroots & Hsub).
  destruct (subgraphs_exact documents includes g adj Hg Ha fuel roots) as (gs2 & E2 & E3 & _); [|exact Hf|].
  { intros x I. apply (Permutation_in _ (Permutation_sym Hr)) in I.
    apply (root_spec documents includes g Hg) in I. apply (g_nodes documents includes g Hg). apply I. }
  rewrite Hs in E1, E2. injection E1 as <-. injection E2 as <-.
  assert (Hnamed : forall x, In x gs -> ext (sg_root x) = e (file_id (sg_root x))).
  { intros x Hx. destruct (query_named e documents includes Hc) as (Hn & He).
    assert (K : Forall (named e) (keys g)).
    { apply keys_named.
      - apply (Permutation_Forall (proj2 Hg)). exact Hn.
      - apply (Permutation_Forall (proj1 Hg)). exact He. }
    rewrite Forall_forall in K. apply K.
    assert (I : In (sg_root x) roots) by (rewrite <- E3; apply in_map; exact Hx).
    apply (Permutation_in _ (Permutation_sym Hr)) in I. apply filter_In in I. apply I. }
  unfold projet_subgraph in Hp. destruct (containing f Sp gs) as [s1|] eqn:Ec.
  - injection Hp as ->. apply containing_some in Ec. destruct Ec as (I & _ & Ee). rewrite <- (Hnamed s I). exact Ee.
  - exfalso. apply Hroots in Hpr. apply in_map_iff in Hpr. destruct Hpr as (x & Ex & Ix).
    apply (containing_none f Sp gs Ec x Ix); [rewrite (Hnamed x Ix), Ex; exact Er|]. apply (Hsub x Ix). rewrite Ex. exact Hreach.
Qed.
Print Assumptions C28_prefers_plugins.

(** The files of the project started at a given file of the graph. *)
Theorem C28_subgraph_ids :
  forall documents includes g adj fuel r,
    reordered (graph_query documents includes) g -> adjacency (edges g) adj -> length (nodes g) < fuel ->
    (known documents r \/ exists a, includes_directly documents includes a r) ->
    exists fs, subgraph_ids fuel adj r = Some fs /\ NoDup fs /\ forall f, In f fs <-> reaches documents includes r f.
Proof.
  intros documents includes g adj fuel r Hg Ha Hf Hk. unfold subgraph_ids.
  destruct (dfs_exact documents includes g adj Hg Ha fuel (Node r Sp)) as (vs & es & E1 & Hd & H); [|exact Hf|].
  - apply (g_nodes documents includes g Hg). exact Hk.
  - rewrite E1. exists (ids vs). split; [reflexivity|]. split; [exact Hd|exact H].
Qed.
Print Assumptions C28_subgraph_ids.

(** A plugin 1 that includes 2, which includes 3 and, in a circle, 1; 4 stands alone. *)
Definition c28_docs : list (nat * extension) := [(1, Sp); (2, Inc); (3, Inc); (4, Sp)].
Definition c28_incs (f : nat) : list (nat * extension) :=
  match f with 1 => [(2, Inc)] | 2 => [(3, Inc); (1, Sp)] | _ => [] end.
Definition c28_graph := graph_query c28_docs c28_incs.
Example C28_nontrivial :
  exists gs, subgraphs 5 (targets (edges c28_graph)) (find_roots c28_graph) = Some gs /\
    map (fun s => (file_id (sg_root s), ids (sg_nodes s))) gs = [(1, [1; 2; 3]); (2, [2; 3; 1]); (4, [4])] /\
    option_map (fun s => file_id (sg_root s)) (projet_subgraph gs 3) = Some 1 /\
    reordered c28_graph c28_graph /\ adjacency (edges c28_graph) (targets (edges c28_graph)) /\
    consistent (fun f => match f with 1 | 4 => Sp | _ => Inc end) c28_docs c28_incs.
Proof.
  eexists. split; [vm_compute; reflexivity|]. split; [reflexivity|]. split; [reflexivity|].
  split; [split; apply Permutation_refl|]. split; [intros n; apply Permutation_refl|]. split.
  - intros d H. simpl in H. intuition (subst; reflexivity).
  - intros a i Ha Hi. simpl in Ha. intuition (subst; simpl in Hi; intuition (subst; reflexivity)).
Qed.

(** Which of several projects a file is given depends on the order in which a hash table iterates:
    2.sp is included by 1.sp and includes 3.inc itself; the project of 3 starts at 1 or at 2. *)
Theorem C28_choice_refuted :
  exists documents includes g adj roots1 roots2 gs1 gs2 f s1 s2,
    reordered (graph_query documents includes) g /\ adjacency (edges g) adj /\
    Permutation (find_roots g) roots1 /\ Permutation (find_roots g) roots2 /\
    subgraphs 4 adj roots1 = Some gs1 /\ subgraphs 4 adj roots2 = Some gs2 /\
    projet_subgraph gs1 f = Some s1 /\ projet_subgraph gs2 f = Some s2 /\
    ~ (forall x, In x (ids (sg_nodes s1)) <-> In x (ids (sg_nodes s2))).
Proof.
  set (docs := [(1, Sp); (2, Sp); (3, Inc)]).
  set (incs := fun f => match f with 1 => [(2, Sp)] | 2 => [(3, Inc)] | _ => [] end).
  exists docs, incs, (graph_query docs incs), (targets (edges (graph_query docs incs))).
  exists (find_roots (graph_query docs incs)), (rev (find_roots (graph_query docs incs))).
  do 2 eexists. exists 3. do 2 eexists.
  split; [split; apply Permutation_refl|]. split; [intros n; apply Permutation_refl|].
  split; [apply Permutation_refl|]. split; [apply Permutation_rev|].
  split; [vm_compute; reflexivity|]. split; [vm_compute; reflexivity|]. split; [vm_compute; reflexivity|].
  split; [vm_compute; reflexivity|]. intros H. specialize (H 1). simpl in H. intuition discriminate.
Qed.
Print Assumptions C28_choice_refuted.
