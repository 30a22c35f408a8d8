(** The state of the server over histories of updates, drains and changed settings. *)
From Coq Require Import List NArith Bool String Arith Lia Sorted.
From Verif Require Import VfsModel VfsSpec VfsProofs LineEndModel LineEndSpec LineEndProofs Utf8 SyncModel SyncSpec SyncProofs
  SyncWorld LifeModel LifeSpec.
Import ListNotations.
Local Open Scope list_scope.

(** * What does not depend on the directories *)
Record core (h1 b : list event) (s : state) : Prop := Core {
  c_inv : exists l, inv (contents_after (h1 ++ b)) l (st_vfs s) /\
                    forall p, tracked h1 b p (entry (plog l p));
  c_text : forall p, ~ flickers true h1 p -> holds (contents_after h1 p) (analysis_text s p);
  c_fresh : forall i, nth_error (interner (st_vfs s)) i = None ->
              file_text (st_db s) i = None /\ file_source_root (st_db s) i = None;
  c_seen : forall p, index_of p (interner (st_vfs s)) = None -> contents_after h1 p = None;
  c_known : forall i e, In (i, e) (known_files (st_db s)) <->
     exists p, index_of p (interner (st_vfs s)) = Some i /\ there h1 p = true /\ path_extension p = Some e;
  c_sorted : StronglySorted lt_fst (known_files (st_db s)) }.

Lemma core_init : forall roots, core [] [] (init roots).
Proof.
  intros roots. constructor; simpl; auto; try (intros; discriminate).
  - exists []. split; [apply inv_empty|]. intros p. reflexivity.
  - intros p _. constructor.
  - intros; split; [tauto|]. intros (p & H & _). discriminate.
  - constructor.
Qed.

Definition same_db (h1 : list event) (s s' : state) : Prop :=
  st_db s' = st_db s /\ st_roots s' = st_roots s /\
  (forall q j, there h1 q = true ->
     (index_of q (interner (st_vfs s')) = Some j <-> index_of q (interner (st_vfs s)) = Some j)) /\
  (forall q, root_of s' q = root_of s q) /\
  (forall q j, index_of q (interner (st_vfs s)) = Some j -> index_of q (interner (st_vfs s')) = Some j).

Lemma core_update : forall h1 b s p c s', core h1 b s -> on_event s (Update p c) = Ok s' ->
  core h1 (b ++ [Update p c]) s' /\ same_db h1 s s'.
Proof.
  intros h1 b s p c s' W H. destruct W as [(l & I & Tr) Wt Wf Ws Wk Wso].
  simpl in H. destruct (set_spec _ _ _ p c I) as (v' & E & I' & ext & Ex). rewrite E in H. simpl in H.
  injection H as <-.
  assert (Fr : forall i, nth_error (interner v') i = None -> nth_error (interner (st_vfs s)) i = None).
  { intros i Hi. apply nth_error_None in Hi. apply nth_error_None. rewrite Ex, app_length in Hi. lia. }
  assert (Up : forall q j, index_of q (interner (st_vfs s)) = Some j -> index_of q (interner v') = Some j).
  { intros q j Hq. rewrite Ex, index_of_app, Hq. reflexivity. }
  assert (At : forall q, analysis_text (State v' (st_db s) (st_roots s)) q = analysis_text s q).
  { intros q. unfold analysis_text. simpl. destruct (index_of q (interner v')) as [j|] eqn:Ej.
    - rewrite Ex in Ej. destruct (index_app_cases _ _ _ _ Ej) as [->|[-> Hn]]; [reflexivity|]. apply Wf. exact Hn.
    - destruct (index_of q (interner (st_vfs s))) as [k|] eqn:Ek; [|reflexivity].
      rewrite (Up _ _ Ek) in Ej. discriminate. }
  assert (Rt : forall q, root_of (State v' (st_db s) (st_roots s)) q = root_of s q).
  { intros q. unfold root_of. simpl. destruct (index_of q (interner v')) as [j|] eqn:Ej.
    - rewrite Ex in Ej. destruct (index_app_cases _ _ _ _ Ej) as [->|[-> Hn]]; [reflexivity|]. apply Wf. exact Hn.
    - destruct (index_of q (interner (st_vfs s))) as [k|] eqn:Ek; [|reflexivity].
      rewrite (Up _ _ Ek) in Ej. discriminate. }
  assert (Ix : forall q j, there h1 q = true -> (index_of q (interner v') = Some j <-> index_of q (interner (st_vfs s)) = Some j)).
  { intros q j Hq. split; [|apply Up]. intros Hj. rewrite Ex in Hj.
    destruct (index_app_cases _ _ _ _ Hj) as [|[Hn _]]; [assumption|]. exfalso.
    unfold there in Hq. rewrite (Ws _ Hn) in Hq. discriminate. }
  split; [|unfold same_db; cbn [st_db st_roots st_vfs]; auto].
  constructor; simpl; auto.
  - exists (log_add l p (change_kind (contents_after (h1 ++ b) p) c)). split.
    + eapply inv_ext; [|exact I']. intros q. rewrite app_assoc. symmetry. apply contents_update.
    + apply tracked_step. exact Tr.
  - intros q Hq. rewrite At. auto.
  - intros q Hq. apply Ws. destruct (index_of q (interner (st_vfs s))) as [j|] eqn:Ej; [|reflexivity].
    rewrite (Up _ _ Ej) in Hq. discriminate.
  - intros i e. rewrite Wk. split; intros (q & H1 & H2 & H3); exists q; (split; [apply Ix; auto|auto]).
Qed.

Lemma core_configure : forall h1 b s dirs, core h1 b s -> core h1 b (update_configuration dirs s).
Proof. intros h1 b s dirs [A B C D E F]. constructor; auto. Qed.

(** What a drain does to the source roots: nothing, or everything anew. *)
Definition kept (h1 b : list event) (s s' : state) : Prop :=
  source_root (st_db s') = source_root (st_db s) /\ file_source_root (st_db s') = file_source_root (st_db s) /\
  source_roots (st_db s') = source_roots (st_db s) /\
  forall p, (forall bb, ~ flickers bb (h1 ++ b ++ [Drain]) p) -> there (h1 ++ b) p = there h1 p.
Definition anew (h1 b : list event) (s s' : state) : Prop :=
  source_roots (st_db s') = partition (st_vfs s') (st_roots s) /\
  (forall k, source_root (st_db s') k =
     match nth_error (partition (st_vfs s') (st_roots s)) k with Some R => Some R | None => source_root (st_db s) k end) /\
  (forall p i, index_of p (interner (st_vfs s)) = Some i ->
     file_source_root (st_db s') i =
     match (if there (h1 ++ b) p then last_pos (starts_with p) (dedup (st_roots s)) else None) with
     | Some j => Some j | None => file_source_root (st_db s) i end).

Lemma core_drain : forall h1 b s s', core h1 b s -> batch_start h1 -> no_drain b -> on_event s Drain = Ok s' ->
  core (h1 ++ b ++ [Drain]) [] s' /\ interner (st_vfs s') = interner (st_vfs s) /\
  dedup (st_roots s') = dedup (st_roots s) /\ (kept h1 b s s' \/ anew h1 b s s').
Proof.
  intros h1 b s s' W Hs Hn H. destruct W as [(l & I & Tr) Wt Wf Ws Wk Wso].
  assert (CA : forall p, contents_after (h1 ++ b ++ [Drain]) p = contents_after (h1 ++ b) p)
    by (intros p; rewrite app_assoc; apply contents_drain).
  assert (TA : forall p, there (h1 ++ b ++ [Drain]) p = there (h1 ++ b) p)
    by (intros p; unfold there; rewrite CA; reflexivity).
  assert (FM : forall bb p, ~ flickers bb (h1 ++ b ++ [Drain]) p -> ~ flickers bb h1 p)
    by (intros bb p N F; apply N, flickers_more, F).
  simpl in H. unfold process_changes, take_changes in H.
  destruct (changes (st_vfs s)) as [|c0 cs0] eqn:Ech.
  - simpl in H. injection H as <-.
    assert (l = []) as -> by (pose proof (i_log _ _ _ I) as Lg; rewrite Ech in Lg; inversion Lg; reflexivity).
    assert (CE : forall p, contents_after (h1 ++ b) p = contents_after h1 p) by (intros p; apply (Tr p)).
    assert (TE : forall p, there (h1 ++ b ++ [Drain]) p = there h1 p)
      by (intros p; rewrite TA; unfold there; rewrite CE; reflexivity).
    split; [|split; [reflexivity|split; [reflexivity|left; split; [reflexivity|split; [reflexivity|split; [reflexivity|]]]]]].
    + constructor; simpl; auto.
      * exists []. rewrite app_nil_r. split; [|intros p; unfold tracked; simpl; rewrite app_nil_r; reflexivity].
        eapply inv_ext; [intros p; symmetry; apply CA|]. destruct I as [ND L D Nn Lg]. constructor; simpl; auto.
      * intros p Hp. rewrite CA, CE. apply Wt. eapply FM; eauto.
      * intros p Hp. rewrite CA, CE. auto.
      * intros i e. rewrite Wk. split; intros (p & H1 & H2 & H3); exists p; rewrite TE in *; auto.
    + intros p _. rewrite <- TA. apply TE.
  - rewrite <- Ech in H. clear c0 cs0 Ech.
    set (v := st_vfs s) in *. set (v' := Vfs (interner v) (data v) []) in *.
    set (files := effective (merge (changes v))) in *.
    set (structure := existsb is_created_or_deleted files) in *.
    assert (I' : inv (contents_after (h1 ++ b)) [] v') by (apply take_inv with (l := l) (v := v); exact I).
    destruct (mapM (changed_text v') files) as [texts|] eqn:Et; [|discriminate]. cbn [bind] in H.
    unfold apply_change in H. fold (roots_opt structure v' (st_roots s) (st_db s)) in H.
    set (d1 := roots_opt structure v' (st_roots s) (st_db s)) in *.
    destruct (set_texts texts d1) as [d'|] eqn:Es; [|discriminate]. cbn [bind fst] in H. injection H as <-.
    destruct (changed_texts _ _ _ Et) as [Ek Ea].
    assert (NDt : NoDup (map fst texts)) by (rewrite Ek; apply effective_nodup, merge_nodup).
    destruct (set_texts_spec _ _ _ NDt Es) as (ST & SR & SS & SSS & _ & SF).
    assert (D1t : file_text d1 = file_text (st_db s)).
    { unfold d1, roots_opt. destruct structure; [apply set_roots_spec|reflexivity]. }
    assert (Ent : forall p i k, index_of p (interner v) = Some i ->
              (assoc i files = Some k <-> exists j, entry (plog l p) = Some (k, j) /\ is_lost (k, j) = false))
      by (intros p i k E; eapply effective_entry; eauto).
    assert (Lost : forall p, there h1 p = true -> entry (plog l p) = Some (Delete, true) ->
              flickers true (h1 ++ b ++ [Drain]) p).
    { intros p Hp He. pose proof (Tr p) as T. rewrite He in T. unfold tracked in T. rewrite Hp in T.
      destruct T as [T1 T2]. rewrite <- Hp. apply alt2_flickers; auto. rewrite Hp. exact T1. }
    assert (Unseen : forall p, there h1 p = false -> entry (plog l p) = Some (Modify, true) ->
              flickers false (h1 ++ b ++ [Drain]) p).
    { intros p Hp He. pose proof (Tr p) as T. rewrite He in T. unfold tracked in T. rewrite Hp in T.
      destruct T as [T1 T2]. rewrite <- Hp. apply alt2_flickers; auto. rewrite Hp. exact T1. }
    split; [|split; [reflexivity|split]].
    + constructor; cbn [st_vfs st_db st_roots file_text file_source_root source_root source_roots known_files].
      * exists []. rewrite app_nil_r. split; [|intros p; unfold tracked; simpl; rewrite app_nil_r; reflexivity].
        eapply inv_ext; [intros p; symmetry; apply CA|exact I'].
      * intros p Hp. rewrite CA. unfold analysis_text. cbn [st_vfs st_db file_text].
        change (interner v') with (interner v).
        pose proof (Tr p) as T. pose proof (Wt p (FM _ _ Hp)) as Old. unfold analysis_text in Old. fold v in Old.
        destruct (index_of p (interner v)) as [i|] eqn:E.
        2: { rewrite (plog_none _ _ _ _ I E) in T. simpl in T. rewrite T. exact Old. }
        rewrite ST, D1t. pose proof (Ea i) as Eai.
        destruct (assoc i files) as [k|] eqn:Ef.
        -- destruct Eai as (t & -> & Ht). apply (Ent _ _ _ E) in Ef. destruct Ef as (j & Ej & Nl).
           rewrite Ej in T. unfold changed_text in Ht. cbn [fst snd] in Ht.
           destruct k.
           ++ destruct (tracked_create _ _ _ _ _ T ltac:(discriminate)) as (c & Ec).
              rewrite (file_contents_inv _ _ _ _ _ _ I' E Ec) in Ht. simpl in Ht. injection Ht as <-.
              rewrite Ec. apply holds_text.
           ++ destruct (tracked_create _ _ _ _ _ T ltac:(discriminate)) as (c & Ec).
              rewrite (file_contents_inv _ _ _ _ _ _ I' E Ec) in Ht. simpl in Ht. injection Ht as <-.
              rewrite Ec. apply holds_text.
           ++ injection Ht as <-. rewrite (tracked_delete _ _ _ _ T). constructor.
        -- rewrite Eai. destruct (entry (plog l p)) as [[k j]|] eqn:Ee.
           ++ destruct (is_lost (k, j)) eqn:El.
              ** destruct k, j; try discriminate. destruct (there h1 p) eqn:Th; [exfalso; auto|].
                 rewrite (tracked_delete _ _ _ _ T). unfold there in Th.
                 destruct (contents_after h1 p); [discriminate|exact Old].
              ** assert (assoc i files = Some k) by (apply (Ent _ _ _ E); eauto). congruence.
           ++ simpl in T. rewrite T. exact Old.
      * intros i Hi. change (interner v') with (interner v) in Hi. destruct (Wf i Hi) as [F1 F2].
        rewrite ST, D1t, F1, SR. pose proof (Ea i) as Eai.
        assert (Nf : assoc i files = None).
        { destruct (assoc i files) as [k|] eqn:Ef; [|reflexivity]. apply in_assoc_effective in Ef.
          destruct (changes_interned _ _ _ _ _ I Ef) as (q & Eq). apply index_of_nth in Eq. congruence. }
        rewrite Nf in Eai. rewrite Eai. split; [reflexivity|].
        unfold d1, roots_opt. destruct structure; [|exact F2].
        destruct (set_roots_spec (partition v' (st_roots s)) (st_db s)) as (_ & _ & _ & ->).
        destruct (last_pos (in_root i) (partition v' (st_roots s))) as [j|] eqn:Ej; [|exact F2]. exfalso.
        apply last_pos_some in Ej. destruct Ej as (x & R & y & EP & _ & Hin & _). unfold in_root in Hin.
        apply existsb_exists in Hin. destruct Hin as ([a q] & Hin & Ha). simpl in Ha. apply Nat.eqb_eq in Ha. subst a.
        rewrite (partition_sets v' (st_roots s) R) in Hin by (rewrite EP; apply in_app_iff; right; left; auto).
        apply filter_In in Hin. destruct Hin as [Hin _]. apply (inv_iter _ _ _ _ _ I') in Hin.
        destruct Hin as [Hq _]. apply index_of_nth in Hq. simpl in Hq. congruence.
      * intros p Hp. rewrite CA. apply (i_none _ _ _ I' p Hp).
      * intros i e. destruct (known_spec _ _ _ I') as [K _]. rewrite K.
        split; intros (p & H1 & H2 & H3); exists p; (split; [exact H1|]; split; [|exact H3]).
        -- rewrite TA. unfold there. destruct (contents_after (h1 ++ b) p); [reflexivity|congruence].
        -- rewrite TA in H2. unfold there in H2. destruct (contents_after (h1 ++ b) p); [discriminate|discriminate H2].
      * apply (known_spec _ _ _ I').
    + cbn [st_roots]. destruct structure; [apply dedup_idem|reflexivity].
    + destruct structure eqn:Est; [right|left].
      * unfold anew. cbn [st_vfs st_db st_roots file_source_root source_root source_roots].
        destruct (set_roots_spec (partition v' (st_roots s)) (st_db s)) as (_ & Y1 & Y2 & Y3).
        rewrite SSS, SS, SR. unfold d1, roots_opt. split; [exact Y1|]. split; [exact Y2|].
        intros p i E. rewrite Y3, (last_pos_partition _ _ _ _ p i I' E). unfold there.
        destruct (contents_after (h1 ++ b) p); reflexivity.
      * unfold kept. cbn [st_vfs st_db st_roots file_source_root source_root source_roots].
        rewrite SSS, SS, SR. unfold d1, roots_opt. split; [reflexivity|]. split; [reflexivity|]. split; [reflexivity|].
        intros p Hf. pose proof (Tr p) as T. destruct (entry (plog l p)) as [[k j]|] eqn:Ee.
        2: { simpl in T. unfold there. rewrite T. reflexivity. }
        destruct (index_of p (interner v)) as [ip|] eqn:E.
        2: { rewrite (plog_none _ _ _ _ I E) in Ee. discriminate. }
        assert (Nk : is_lost (k, j) = false -> k = Modify).
        { intros Nl. assert (Ef : assoc ip files = Some k) by (apply (Ent _ _ _ E); eauto).
          apply in_assoc_effective in Ef. destruct k; [exfalso|reflexivity|exfalso];
            (assert (structure = true) by (apply existsb_exists; eexists; split; [exact Ef|reflexivity]));
            congruence. }
        destruct k, j; try (specialize (Nk eq_refl); discriminate Nk).
        -- destruct (there h1 p) eqn:Th; [apply T|exfalso; eapply Hf, Unseen; eauto].
        -- destruct T as [-> ->]. reflexivity.
        -- destruct (there h1 p) eqn:Th; [exfalso; eapply Hf, Lost; eauto|apply T].
Qed.

(** * The source roots fit the directories *)
Definition under_any (dirs : list path) (p : path) : Prop := exists r, In r dirs /\ under p r.

Lemma last_pos_under_any : forall p dirs, under_any dirs p -> exists k, last_pos (starts_with p) (dedup dirs) = Some k.
Proof.
  intros p dirs (r & Hr & Hu). destruct (last_pos (starts_with p) (dedup dirs)) as [k|] eqn:E; [eauto|]. exfalso.
  apply (last_pos_exists _ (starts_with p) (dedup dirs) r); [apply dedup_in; exact Hr|apply starts_with_under; exact Hu|exact E].
Qed.

Definition exact_set (h1 : list event) (s : state) (R : root) : Prop :=
  forall i p, In (i, p) (file_set R) <->
    index_of p (interner (st_vfs s)) = Some i /\ there h1 p = true /\ starts_with p (root_path R) = true.

Record settled (dirs : list path) (h1 : list event) (s : state) : Prop := Settled {
  s_nth : forall k R, nth_error (source_roots (st_db s)) k = Some R -> source_root (st_db s) k = Some R;
  s_sets : forall R, In R (source_roots (st_db s)) -> exact_set h1 s R;
  s_paths : map root_path (source_roots (st_db s)) = dedup dirs \/ (forall p, there h1 p = false);
  s_root : forall p, there h1 p = true -> under_any dirs p -> root_of s p = last_pos (starts_with p) (dedup dirs) }.

Lemma settled_init : forall dirs, settled dirs [] (init dirs).
Proof.
  intros dirs. constructor; simpl; auto; try (intros; discriminate).
  - intros k R H. destruct k; discriminate.
  - intros R [].
Qed.

Lemma settled_update : forall dirs h1 s s', settled dirs h1 s -> same_db h1 s s' -> settled dirs h1 s'.
Proof.
  intros dirs h1 s s' [A B C D] (Ed & Er & Ix & Rt & Up). constructor; rewrite ?Ed; auto.
  - intros R HR i p. rewrite (B R HR i p). split; intros (H1 & H2 & H3); (split; [apply Ix; auto|auto]).
  - intros p H1 H2. rewrite Rt. auto.
Qed.

Lemma partition_exact : forall f l v rs R, inv f l v -> In R (partition v rs) -> forall i p,
  In (i, p) (file_set R) <-> index_of p (interner v) = Some i /\ f p <> None /\ starts_with p (root_path R) = true.
Proof.
  intros f l v rs R I HR i p. rewrite (partition_sets _ _ _ HR), filter_In, (inv_iter _ _ _ _ _ I). cbn [snd]. tauto.
Qed.

Lemma there_not_none : forall h p, there h p = true <-> contents_after h p <> None.
Proof. intros h p. unfold there. destruct (contents_after h p); split; congruence. Qed.

Lemma settled_anew : forall dirs h1 b s s', core (h1 ++ b ++ [Drain]) [] s' ->
  interner (st_vfs s') = interner (st_vfs s) -> dedup (st_roots s) = dedup dirs ->
  anew h1 b s s' -> settled dirs (h1 ++ b ++ [Drain]) s'.
Proof.
  intros dirs h1 b s s' W Ei Ed (A1 & A2 & A3).
  destruct (c_inv _ _ _ W) as (l & I & _). rewrite app_nil_r in I.
  constructor.
  - intros k R. rewrite A1, A2. intros ->. reflexivity.
  - intros R. rewrite A1. intros HR i p. rewrite (partition_exact _ _ _ _ _ I HR i p), there_not_none. reflexivity.
  - left. rewrite A1, partition_paths. exact Ed.
  - intros p Hp Hu. unfold root_of. rewrite Ei.
    destruct (index_of p (interner (st_vfs s))) as [i|] eqn:E.
    + rewrite (A3 p i E). rewrite app_assoc, there_drain in Hp. rewrite Hp, Ed.
      destruct (last_pos_under_any p dirs Hu) as (k & ->). reflexivity.
    + exfalso. apply there_not_none in Hp. apply Hp. apply (i_none _ _ _ I). rewrite Ei. exact E.
Qed.

Lemma settled_kept : forall dirs h1 b s s', settled dirs h1 s -> interner (st_vfs s') = interner (st_vfs s) ->
  (forall bb p, ~ flickers bb (h1 ++ b ++ [Drain]) p) -> kept h1 b s s' -> settled dirs (h1 ++ b ++ [Drain]) s'.
Proof.
  intros dirs h1 b s s' [A B C D] Ei Hf (K1 & K2 & K3 & K4).
  assert (TH : forall p, there (h1 ++ b ++ [Drain]) p = there h1 p).
  { intros p. rewrite app_assoc, there_drain. apply K4. intros bb. apply Hf. }
  constructor; rewrite ?K1, ?K3; auto.
  - intros R HR i p. rewrite Ei, TH. apply B. exact HR.
  - destruct C as [C|C]; [left; exact C|right; intros p; rewrite TH; apply C].
  - intros p Hp Hu. rewrite TH in Hp. rewrite <- (D p Hp Hu). unfold root_of. rewrite Ei, K2. reflexivity.
Qed.

(** * Reachable states *)
Lemma files_app : forall h k, files_of (h ++ k) = files_of h ++ files_of k.
Proof. induction h as [|[e|d] h IH]; intros k; simpl; [reflexivity| |]; rewrite IH; reflexivity. Qed.
Lemma dirs_app : forall h k dirs, dirs_after dirs (h ++ k) = dirs_after (dirs_after dirs h) k.
Proof. induction h as [|[e|d] h IH]; intros k dirs; simpl; auto. Qed.
Lemma live_app : forall h k s, live s (h ++ k) = bind (live s h) (fun s => live s k).
Proof. induction h as [|o tl IH]; intros k s; simpl; [reflexivity|]. destruct (happen s o); simpl; auto. Qed.

Definition reached (dirs : list path) (h : list happening) (s : state) (h1 b : list event) : Prop :=
  files_of h = h1 ++ b /\ batch_start h1 /\ no_drain b /\ core h1 b s /\
  dedup (st_roots s) = dedup (dirs_after dirs h).

Lemma reached_init : forall dirs, reached dirs [] (init dirs) [] [].
Proof.
  intros dirs. split; [reflexivity|]. split; [left; reflexivity|]. split; [intros []|]. split; [apply core_init|reflexivity].
Qed.

Lemma batch_after_drain : forall h, batch_start (h ++ [Drain]).
Proof. intros h. right. exists h. reflexivity. Qed.

Lemma reached_step : forall dirs h s h1 b e s', reached dirs h s h1 b -> happen s e = Ok s' ->
  match e with
  | Files (Update p c) => reached dirs (h ++ [e]) s' h1 (b ++ [Update p c]) /\ same_db h1 s s'
  | Files Drain => reached dirs (h ++ [e]) s' (h1 ++ b ++ [Drain]) [] /\
                   interner (st_vfs s') = interner (st_vfs s) /\ (kept h1 b s s' \/ anew h1 b s s')
  | Configure dirs' => reached dirs (h ++ [e]) s' h1 b /\ s' = update_configuration dirs' s
  end.
Proof.
  intros dirs h s h1 b e s' (Ef & Hs & Hn & W & Ed) H. destruct e as [[p c|]|dirs'].
  - cbn [happen] in H. destruct (core_update _ _ _ _ _ _ W H) as (W' & S). split; [|exact S].
    split; [rewrite files_app, Ef, app_assoc; reflexivity|]. split; [exact Hs|]. split.
    + intros Hin. apply in_app_iff in Hin. destruct Hin as [Hin|[Hin|[]]]; [exact (Hn Hin)|discriminate Hin].
    + split; [exact W'|]. rewrite dirs_app. destruct S as (_ & -> & _). exact Ed.
  - cbn [happen] in H. destruct (core_drain _ _ _ _ W Hs Hn H) as (W' & Ei & Er & K). split; [|split; [exact Ei|exact K]].
    split; [rewrite files_app, Ef, app_nil_r, <- app_assoc; reflexivity|].
    split; [rewrite app_assoc; apply batch_after_drain|]. split; [intros []|]. split; [exact W'|].
    rewrite dirs_app. cbn [dirs_after]. rewrite Er. exact Ed.
  - cbn [happen] in H. injection H as <-. split; [|reflexivity].
    split; [rewrite files_app; cbn [files_of]; rewrite app_nil_r; exact Ef|]. split; [exact Hs|]. split; [exact Hn|].
    split; [apply core_configure; exact W|]. rewrite dirs_app. reflexivity.
Qed.

Lemma live_reached : forall dirs h s, live (init dirs) h = Ok s -> exists h1 b, reached dirs h s h1 b.
Proof.
  intros dirs h. induction h as [|e h IH] using rev_ind; intros s H.
  - injection H as <-. exists [], []. apply reached_init.
  - rewrite live_app in H. destruct (live (init dirs) h) as [s0|]; [|discriminate]. cbn [bind live] in H.
    destruct (happen s0 e) as [s1|] eqn:Ee; [|discriminate]. injection H as <-.
    destruct (IH _ eq_refl) as (h1 & b & R). pose proof (reached_step _ _ _ _ _ _ _ R Ee) as X.
    destruct e as [[p c|]|dirs']; destruct X as (X & _); eauto.
Qed.

Lemma batches_agree : forall h1 b h1' b' : list event, h1 ++ b = h1' ++ b' ->
  batch_start h1 -> batch_start h1' -> no_drain b -> no_drain b' -> h1 = h1' /\ b = b'.
Proof.
  assert (G : forall (h1 b h1' b' : list event), h1 ++ b = h1' ++ b' -> batch_start h1' -> no_drain b -> List.length h1' <= List.length h1).
  { intros h1 b h1' b' E S N. destruct (Nat.le_gt_cases (List.length h1') (List.length h1)) as [L|L]; [exact L|]. exfalso.
    destruct S as [->|(g & ->)]; [simpl in L; lia|]. rewrite app_length in L. simpl in L.
    rewrite <- app_assoc in E. cbn [app] in E.
    assert (X : exists x, g = h1 ++ x).
    { exists (skipn (List.length h1) g). rewrite <- (firstn_skipn (List.length h1) g) at 1. f_equal.
      pose proof (f_equal (firstn (List.length h1)) E) as Y. rewrite firstn_app, Nat.sub_diag, firstn_all, app_nil_r in Y.
      rewrite firstn_app in Y. replace (List.length h1 - List.length g) with 0 in Y by lia. simpl in Y.
      rewrite app_nil_r in Y. symmetry. exact Y. }
    destruct X as (x & ->). rewrite <- app_assoc in E. apply app_inv_head in E. apply N. rewrite E.
    apply in_app_iff. right. left. reflexivity. }
  intros h1 b h1' b' E S S' N N'. pose proof (G _ _ _ _ E S' N) as L1. pose proof (G _ _ _ _ (eq_sym E) S N') as L2.
  assert (L : List.length h1 = List.length h1') by lia.
  assert (Q : firstn (List.length h1) (h1 ++ b) = firstn (List.length h1') (h1' ++ b')) by (rewrite E, L; reflexivity).
  rewrite !firstn_app, !Nat.sub_diag, !firstn_all in Q. simpl in Q. rewrite !app_nil_r in Q. subst h1'.
  split; [reflexivity|]. eapply app_inv_head; exact E.
Qed.

Lemma calm_more : forall h k, calm (h ++ k) -> calm h.
Proof. intros h k H b p F. apply (H b p). rewrite files_app. apply flickers_more, F. Qed.

(** From a settled state on, as long as the settings stay. *)
Lemma settled_live : forall dirs k h s h1 b s', reached dirs h s h1 b -> settled (dirs_after dirs h) h1 s ->
  ~ configures k -> calm (h ++ k) -> live s k = Ok s' ->
  exists h1' b', reached dirs (h ++ k) s' h1' b' /\ settled (dirs_after dirs h) h1' s'.
Proof.
  intros dirs k. induction k as [|e k IH]; intros h s h1 b s' R S N C H.
  - injection H as <-. rewrite app_nil_r. eauto.
  - cbn [live] in H. destruct (happen s e) as [s1|] eqn:Ee; [|discriminate]. cbn [bind] in H.
    pose proof (reached_step _ _ _ _ _ _ _ R Ee) as X.
    assert (N' : ~ configures k) by (intros (d & Hd); apply N; exists d; right; exact Hd).
    assert (C' : calm ((h ++ [e]) ++ k)) by (rewrite <- app_assoc; exact C).
    destruct e as [[p c|]|dirs'].
    + destruct X as (R' & Sd). destruct (IH (h ++ [Files (Update p c)]) s1 h1 (b ++ [Update p c]) s') as (x & y & R2 & S2); auto.
      * rewrite dirs_app. eapply settled_update; eauto.
      * exists x, y. rewrite <- app_assoc in R2. split; [exact R2|]. rewrite dirs_app in S2. exact S2.
    + destruct X as (R' & Ei & K).
      assert (S' : settled (dirs_after dirs h) (h1 ++ b ++ [Drain]) s1).
      { assert (F : forall bb p, ~ flickers bb (h1 ++ b ++ [Drain]) p).
        { intros bb p F. apply (calm_more _ _ C' bb p). destruct R' as (Er & _). rewrite Er, app_nil_r. exact F. }
        destruct K as [K|K]; [eapply settled_kept; eauto|].
        destruct R as (_ & _ & _ & _ & Ed). destruct R' as (_ & _ & _ & W' & _). eapply settled_anew; eauto. }
      destruct (IH (h ++ [Files Drain]) s1 (h1 ++ b ++ [Drain]) [] s') as (x & y & R2 & S2); auto.
      * rewrite dirs_app. exact S'.
      * exists x, y. rewrite <- app_assoc in R2. split; [exact R2|]. rewrite dirs_app in S2. exact S2.
    + exfalso. apply N. exists dirs'. left. reflexivity.
Qed.

Lemma taken_over_settled : forall dirs h s, live (init dirs) h = Ok s -> taken_over h -> calm h ->
  exists h1 b, reached dirs h s h1 b /\ settled (dirs_after dirs h) h1 s.
Proof.
  intros dirs h s H T C. destruct T as [N|(h0 & h1 & -> & (g & b & p & Eg & Hs & Hn & Hp) & N)].
  - destruct (settled_live dirs h [] (init dirs) [] [] s (reached_init dirs) (settled_init dirs) N C H) as (x & y & R & S).
    exists x, y. split; [exact R|]. replace (dirs_after dirs h) with dirs; [exact S|].
    clear - N. revert N. induction h as [|[e|d] h IH]; intros N; [reflexivity| |].
    + apply IH. intros (d & Hd). apply N. exists d. right. exact Hd.
    + exfalso. apply N. exists d. left. reflexivity.
  - replace (h0 ++ Files Drain :: h1) with ((h0 ++ [Files Drain]) ++ h1) in * by (rewrite <- app_assoc; reflexivity).
    rewrite live_app in H. destruct (live (init dirs) (h0 ++ [Files Drain])) as [s1|] eqn:E1; [|discriminate]. cbn [bind] in H.
    rewrite live_app in E1. destruct (live (init dirs) h0) as [s0|] eqn:E0; [|discriminate].
    cbn [bind live] in E1. destruct (happen s0 (Files Drain)) as [s1'|] eqn:Ed; [|discriminate].
    cbn [bind] in E1. injection E1 as ->.
    destruct (live_reached _ _ _ E0) as (x & y & R0). pose proof (reached_step _ _ _ _ _ _ _ R0 Ed) as (R1 & Ei & K).
    destruct R0 as (Ef & Hs0 & Hn0 & _ & Er).
    assert (Eb : x = g /\ y = b) by (apply batches_agree; auto; congruence). destruct Eb as (-> & ->).
    assert (F : forall bb p, ~ flickers bb (g ++ b ++ [Drain]) p).
    { intros bb q F. apply (calm_more _ _ C bb q). destruct R1 as (Er1 & _). rewrite Er1, app_nil_r. exact F. }
    destruct K as [(_ & _ & _ & K)|K].
    + exfalso. apply Hp. rewrite Eg. symmetry. apply K. intros bb. apply F.
    + assert (S1 : settled (dirs_after dirs h0) (g ++ b ++ [Drain]) s1)
        by (destruct R1 as (_ & _ & _ & W' & _); eapply settled_anew; eauto).
      assert (D1 : dirs_after dirs (h0 ++ [Files Drain]) = dirs_after dirs h0) by (rewrite dirs_app; reflexivity).
      destruct (settled_live dirs h1 (h0 ++ [Files Drain]) s1 (g ++ b ++ [Drain]) [] s R1) as (u & v & R & S); auto.
      * rewrite D1. exact S1.
      * exists u, v. split; [exact R|]. rewrite D1 in S.
        replace (dirs_after dirs ((h0 ++ [Files Drain]) ++ h1)) with (dirs_after dirs h0); [exact S|].
        rewrite dirs_app, D1. clear - N. generalize (dirs_after dirs h0) as d0. revert N.
        induction h1 as [|[e|d] h IH]; intros N d0; [reflexivity| |].
        -- apply IH. intros (d & Hd). apply N. exists d. right. exact Hd.
        -- exfalso. apply N. exists d. left. reflexivity.
Qed.

(** After a drain the pending batch is empty. *)
Lemma reached_drain : forall dirs h s h1 b, reached dirs (h ++ [Files Drain]) s h1 b -> h1 = files_of h ++ [Drain] /\ b = [].
Proof.
  intros dirs h s h1 b (E & Hs & Hn & _). rewrite files_app in E. cbn [files_of] in E.
  assert (N : no_drain (@nil event)) by (intros []).
  destruct (batches_agree (files_of h ++ [Drain]) [] h1 b) as (X & Y); auto using batch_after_drain.
  rewrite app_nil_r. exact E.
Qed.

(** * Looking up *)
Lemma join_leads : forall q p t, leads p q t <-> join p q = t.
Proof.
  induction q as [|c q IH]; intros p t; cbn [join fold_left].
  - split; [intros H; inversion H; reflexivity|intros <-; constructor].
  - change (fold_left step q (step p c)) with (join (step p c) q). unfold step. split.
    + intros H. inversion H as [|p0 c0 q0 t0 Hc H0|p0 d q0 t0 H0|q0 t0 H0|p0 c0 q0 t0 N1 N2 N3 H0]; subst.
      * destruct Hc as [->| ->]; simpl; apply IH; exact H0.
      * simpl. apply IH. rewrite removelast_last. exact H0.
      * simpl. apply IH. exact H0.
      * destruct (string_dec c "."); [contradiction|]. destruct (string_dec c ""); [contradiction|].
        destruct (string_dec c ".."); [contradiction|]. apply IH. exact H0.
    + destruct (string_dec c "."%string) as [->|N1]; [intros H; apply l_stay; [auto|apply IH; exact H]|].
      destruct (string_dec c ""%string) as [->|N2]; [intros H; apply l_stay; [auto|apply IH; exact H]|].
      destruct (string_dec c ".."%string) as [->|N3]; intros H.
      * apply IH in H. destruct p as [|x p _] using rev_ind; [apply l_top; exact H|].
        rewrite removelast_last in H. apply l_up. exact H.
      * apply l_down; auto. apply IH. exact H.
Qed.

Lemma file_at_spec : forall (P : file_id -> path -> Prop) fs t,
  (forall i p, In (i, p) fs <-> P i p) -> (forall i j p, P i p -> P j p -> i = j) ->
  forall j, file_at fs t = Some j <-> P j t.
Proof.
  intros P fs t H U j. unfold file_at. split.
  - destruct (find _ fs) as [[i p]|] eqn:E; [|discriminate]. cbn. intros X. injection X as ->.
    apply List.find_some in E. destruct E as (E1 & E2). cbn [snd] in E2. destruct (path_eq_dec p t) as [->|]; [|discriminate].
    apply H. exact E1.
  - intros X. pose proof X as Y. apply H in Y.
    destruct (find _ fs) as [[i p]|] eqn:E.
    + apply List.find_some in E. destruct E as (E1 & E2). cbn [snd] in E2. destruct (path_eq_dec p t) as [->|]; [|discriminate].
      apply H in E1. cbn. f_equal. eapply U; eauto.
    + exfalso. pose proof (List.find_none _ _ E _ Y) as Z. cbn [snd] in Z. destruct (path_eq_dec t t); congruence.
Qed.

Lemma uri_spec : forall fs i p, In (i, p) fs -> (forall q, In (i, q) fs -> q = p) -> uri fs i = Some p.
Proof.
  intros fs i p H U. unfold uri. destruct (find _ fs) as [[j q]|] eqn:E.
  - apply List.find_some in E. destruct E as (E1 & E2). cbn [fst] in E2. apply Nat.eqb_eq in E2. subst j.
    rewrite (U q E1). reflexivity.
  - exfalso. pose proof (List.find_none _ _ E _ H) as Z. cbn [fst] in Z. rewrite Nat.eqb_refl in Z. discriminate.
Qed.

Lemma index_inj : forall (l : list path) p q i, index_of p l = Some i -> index_of q l = Some i -> p = q.
Proof. intros l p q i H1 H2. apply index_of_nth in H1. apply index_of_nth in H2. congruence. Qed.

(** Every existing file is in the set of its source root. *)
Definition homed (h1 : list event) (s : state) : Prop :=
  (forall k R, source_root (st_db s) k = Some R -> forall i p, In (i, p) (file_set R) -> index_of p (interner (st_vfs s)) = Some i) /\
  forall p, there h1 p = true -> exists i k R, index_of p (interner (st_vfs s)) = Some i /\
    file_source_root (st_db s) i = Some k /\ source_root (st_db s) k = Some R /\ In (i, p) (file_set R).

Lemma covered_more : forall dirs h k, covered dirs (h ++ k) -> covered dirs h.
Proof. intros dirs h k H h0 h1 E. apply (H h0 (h1 ++ k)). rewrite E, <- app_assoc. reflexivity. Qed.

Lemma live_homed : forall dirs h s, live (init dirs) h = Ok s -> calm h -> covered dirs h ->
  exists h1 b, reached dirs h s h1 b /\ homed h1 s.
Proof.
  intros dirs h. induction h as [|e h IH] using rev_ind; intros s H C V.
  - injection H as <-. exists [], []. split; [apply reached_init|]. split; intros; discriminate.
  - rewrite live_app in H. destruct (live (init dirs) h) as [s0|]; [|discriminate]. cbn [bind live] in H.
    destruct (happen s0 e) as [s1|] eqn:Ee; [|discriminate]. injection H as <-.
    destruct (IH _ eq_refl (calm_more _ _ C) (covered_more _ _ _ V)) as (h1 & b & R & (A & B)).
    pose proof (reached_step _ _ _ _ _ _ _ R Ee) as X.
    destruct e as [[p c|]|dirs'].
    + destruct X as (R' & Ed & Er & Ix & Rt & Up). exists h1, (b ++ [Update p c]). split; [exact R'|]. split.
      * rewrite Ed. intros k Rk Hk i q Hq. apply Up. eapply A; eauto.
      * rewrite Ed. intros q Hq. destruct (B q Hq) as (i & k & Rk & B1 & B2). exists i, k, Rk. split; [apply Up; exact B1|exact B2].
    + destruct X as (R' & Ei & K). exists (h1 ++ b ++ [Drain]), []. split; [exact R'|].
      assert (F : forall bb p, ~ flickers bb (h1 ++ b ++ [Drain]) p).
      { intros bb q F. apply (C bb q). destruct R' as (Er1 & _). rewrite Er1, app_nil_r. exact F. }
      assert (TH : forall p, there (h1 ++ b ++ [Drain]) p = there (h1 ++ b) p)
        by (intros p; rewrite app_assoc; apply there_drain).
      destruct K as [(K1 & K2 & K3 & K4)|(A1 & A2 & A3)].
      * split; rewrite Ei, K1; [exact A|]. intros p Hp. rewrite K2. apply B. rewrite TH, K4 in Hp; [exact Hp|]. intros bb. apply F.
      * destruct R' as (_ & _ & _ & W' & _). destruct (c_inv _ _ _ W') as (l & I & _). rewrite app_nil_r in I.
        split.
        -- intros k Rk. rewrite A2. destruct (nth_error (partition (st_vfs s1) (st_roots s0)) k) as [R0|] eqn:En.
           ++ intros X i q Hq. injection X as <-. apply nth_error_In in En.
              apply (partition_exact _ _ _ _ _ I En) in Hq. apply Hq.
           ++ rewrite Ei. apply A.
        -- intros p Hp. rewrite Ei. destruct (index_of p (interner (st_vfs s0))) as [i|] eqn:E.
           2: { exfalso. apply there_not_none in Hp. apply Hp. apply (i_none _ _ _ I). rewrite Ei. exact E. }
           destruct R as (Ef & _ & _ & _ & Ed).
           assert (Hu : under_any (dirs_after dirs h) p).
           { apply (V h [] eq_refl p). rewrite Ef. apply there_not_none. rewrite <- TH. exact Hp. }
           destruct (last_pos_under_any p _ Hu) as (k & Ek). rewrite <- Ed in Ek.
           pose proof (A3 p i E) as Fr. rewrite TH in Hp. rewrite Hp, Ek in Fr.
           destruct (last_pos_some _ _ _ _ Ek) as (a & r & z & _ & Er & Hr & _).
           rewrite <- (partition_paths (st_vfs s1)), nth_error_map in Er.
           destruct (nth_error (partition (st_vfs s1) (st_roots s0)) k) as [R0|] eqn:En; [|discriminate].
           injection Er as Er. exists i, k, R0. split; [reflexivity|]. split; [exact Fr|]. split; [rewrite A2, En; reflexivity|].
           apply (partition_exact _ _ _ _ _ I (nth_error_In _ _ En)). rewrite Ei. split; [exact E|].
           split; [apply there_not_none; rewrite TH; exact Hp|]. rewrite Er. exact Hr.
    + destruct X as (R' & ->). exists h1, b. split; [exact R'|]. split; [exact A|exact B].
Qed.

Lemma homed_look : forall h1 s p i q, homed h1 s -> there h1 p = true -> index_of p (interner (st_vfs s)) = Some i ->
  exists o, look_next_to (st_db s) i q = Ok o.
Proof.
  intros h1 s p i q (A & B) Hp E. destruct (B p Hp) as (j & k & R & E' & B1 & B2 & B3).
  assert (j = i) as -> by congruence. unfold look_next_to. rewrite B1, B2, (uri_spec _ i p B3); [eauto|].
  intros u Hu. eapply index_inj; [|exact E]. eapply A; eauto.
Qed.

(** * Offers *)
Lemma offers_iff : forall h q c t, offers h q c t <->
  join (fst c) q = t /\ contents_after h t <> None /\ starts_with t (snd c) = true.
Proof. intros h q c t. unfold offers. rewrite join_leads, starts_with_under. reflexivity. Qed.

Lemma offers_one : forall h q c t u, offers h q c t -> offers h q c u -> t = u.
Proof. intros h q c t u H1 H2. apply offers_iff in H1. apply offers_iff in H2. destruct H1, H2; congruence. Qed.

Lemma first_none : forall h q cs, (forall t, ~ first_offer h q cs t) -> forall c, In c cs -> forall t, ~ offers h q c t.
Proof.
  intros h q cs. induction cs as [|c cs IH]; intros H d Hd t Ho; [destruct Hd|].
  assert (N : forall u, ~ offers h q c u) by (intros u Hu; apply (H u); apply o_here; exact Hu).
  destruct Hd as [<-|Hd]; [exact (N t Ho)|]. apply (IH (fun u Hu => H u (o_later _ _ _ _ _ N Hu)) d Hd t Ho).
Qed.

Definition pairs (dirs : list path) : list (path * path) := map (fun r => (r, r)) dirs.

Lemma first_in : forall h q cs t, first_offer h q cs t -> exists c, In c cs /\ offers h q c t.
Proof.
  intros h q cs t H. induction H as [c cs t Ho|c cs t N H (d & Hd & Ho)]; [exists c; split; [left; reflexivity|exact Ho]|].
  exists d. split; [right; exact Hd|exact Ho].
Qed.

Lemma first_dedup : forall h q dirs t, first_offer h q (pairs (dedup dirs)) t <-> first_offer h q (pairs dirs) t.
Proof.
  intros h q dirs. induction dirs as [|x tl IH]; intros t; [reflexivity|]. destruct tl as [|y tl']; [reflexivity|].
  change (dedup (x :: y :: tl')) with (if path_eq_dec x y then dedup (y :: tl') else x :: dedup (y :: tl')).
  destruct (path_eq_dec x y) as [->|N].
  - rewrite IH. split.
    + intros H. pose proof H as H0. inversion H0 as [c cs u Ho|c cs u Hn Hl]; subst.
      * apply o_here. exact Ho.
      * apply o_later; [exact Hn|exact H].
    + intros H. inversion H as [c cs u Ho|c cs u Hn Hl]; subst; [apply o_here; exact Ho|exact Hl].
  - change (pairs (x :: dedup (y :: tl'))) with ((x, x) :: pairs (dedup (y :: tl'))).
    change (pairs (x :: y :: tl')) with ((x, x) :: pairs (y :: tl')).
    split; intros H; inversion H as [c cs u Ho|c cs u Hn Hl]; subst;
      first [apply o_here; exact Ho|apply o_later; [exact Hn|apply IH; exact Hl]].
Qed.

Lemma look_in_spec : forall h s q Rs,
  (forall t, there h t = true -> exists i, index_of t (interner (st_vfs s)) = Some i) ->
  (forall R, In R Rs -> exact_set h s R) ->
  forall j, look_in Rs q = Some j <->
    exists t, first_offer h q (pairs (map root_path Rs)) t /\ index_of t (interner (st_vfs s)) = Some j.
Proof.
  intros h s q Rs Hi. induction Rs as [|R Rs IH]; intros H j; cbn [look_in map pairs].
  - split; [discriminate|]. intros (t & Ht & _). inversion Ht.
  - assert (FA : forall j, file_at (file_set R) (join (root_path R) q) = Some j <->
       index_of (join (root_path R) q) (interner (st_vfs s)) = Some j /\ there h (join (root_path R) q) = true /\
       starts_with (join (root_path R) q) (root_path R) = true).
    { intros j0. apply (file_at_spec (fun i p => index_of p (interner (st_vfs s)) = Some i /\ there h p = true /\
         starts_with p (root_path R) = true)); [apply (H R); left; reflexivity|]. intros a b p (X & _) (Y & _). congruence. }
    change (map (fun r : path => (r, r)) (map root_path Rs)) with (pairs (map root_path Rs)).
    destruct (file_at (file_set R) (join (root_path R) q)) as [i|] eqn:E.
    + destruct (proj1 (FA i) eq_refl) as (E1 & E2 & E3). apply there_not_none in E2.
      assert (O : offers h q (root_path R, root_path R) (join (root_path R) q)) by (apply offers_iff; auto).
      split.
      * intros X. injection X as <-. exists (join (root_path R) q). split; [apply o_here; exact O|exact E1].
      * intros (t & Ht & Hj). inversion Ht as [c cs u Ho|c cs u Hn Hl]; subst; [|exfalso; exact (Hn _ O)].
        rewrite (offers_one _ _ _ _ _ Ho O) in Hj. congruence.
    + rewrite IH by (intros X HX; apply H; right; exact HX). split.
      * intros (t & Ht & Hj). exists t. split; [|exact Hj]. apply o_later; [|exact Ht].
        intros u Hu. apply offers_iff in Hu. cbn [fst snd] in Hu. destruct Hu as (<- & U2 & U3).
        apply there_not_none in U2.
        destruct (Hi _ U2) as (i & Ei). assert (X : None = Some i) by (apply (FA i); auto). discriminate X.
      * intros (t & Ht & Hj). inversion Ht as [c cs u Ho|c cs u Hn Hl]; subst; [|exists t; auto].
        exfalso. apply offers_iff in Ho. cbn [fst snd] in Ho. destruct Ho as (<- & U2 & U3). apply there_not_none in U2.
        assert (X : None = Some j) by (apply (FA j); auto). discriminate X.
Qed.

Lemma file_at_exact : forall h s R t, exact_set h s R -> forall j,
  file_at (file_set R) t = Some j <->
  index_of t (interner (st_vfs s)) = Some j /\ there h t = true /\ starts_with t (root_path R) = true.
Proof.
  intros h s R t H j.
  apply (file_at_spec (fun i p => index_of p (interner (st_vfs s)) = Some i /\ there h p = true /\
         starts_with p (root_path R) = true)); [exact H|]. intros a b p (X & _) (Y & _). congruence.
Qed.

Lemma last_containing_pos : forall dirs p home k r, last_containing dirs p home ->
  last_pos (starts_with p) (dedup dirs) = Some k -> nth_error (dedup dirs) k = Some r -> r = home.
Proof.
  intros dirs p home k r H Hk Hr. destruct (last_pos_some _ _ _ _ Hk) as (a & x & b & Ed & Ex & Hx & Hb).
  assert (x = r) as -> by congruence.
  assert (L : last_containing dirs p r).
  { apply dedup_last_containing. exists a, b. split; [exact Ed|]. split; [apply starts_with_under; exact Hx|].
    intros y Hy U. apply starts_with_under in U. rewrite (Hb y Hy) in U. discriminate. }
  destruct H as (a1 & b1 & E1 & U1 & F1). destruct L as (a2 & b2 & E2 & U2 & F2).
  rewrite E1 in E2. clear - E2 U1 U2 F1 F2. revert a2 E2. induction a1 as [|z a1 IH]; intros [|z2 a2] E2; cbn [app] in E2.
  - injection E2 as <- _. reflexivity.
  - injection E2 as <- E2. exfalso. apply (F1 r); [|exact U2]. rewrite E2. apply in_app_iff. right. left. reflexivity.
  - injection E2 as -> E2. exfalso. apply (F2 home); [|exact U1]. rewrite <- E2. apply in_app_iff. right. left. reflexivity.
  - injection E2 as _ E2. exact (IH a2 E2).
Qed.

Lemma settled_find : forall dirs h s p home i quoted q, settled dirs h s -> core h [] s -> there h p = true ->
  index_of p (interner (st_vfs s)) = Some i -> last_containing dirs p home ->
  exists o, find_include (st_db s) i quoted q = Ok o /\
    forall j, o = Some j <-> exists t, meant h dirs home p quoted q t /\ index_of t (interner (st_vfs s)) = Some j.
Proof.
  intros dirs h s p home i quoted q S W Hp Ei Hh. destruct S as [A B C D].
  destruct (c_inv _ _ _ W) as (l & I & _). rewrite app_nil_r in I.
  assert (Hi : forall t, there h t = true -> exists i, index_of t (interner (st_vfs s)) = Some i).
  { intros t Ht. destruct (index_of t (interner (st_vfs s))) as [x|] eqn:E; [eauto|].
    apply there_not_none in Ht. exfalso. apply Ht. apply (i_none _ _ _ I). exact E. }
  destruct C as [C|C]; [|rewrite C in Hp; discriminate].
  assert (LI : forall j, look_in (source_roots (st_db s)) q = Some j <->
     exists t, first_offer h q (pairs dirs) t /\ index_of t (interner (st_vfs s)) = Some j).
  { intros j. rewrite (look_in_spec h s q (source_roots (st_db s)) Hi B j), C.
    split; intros (t & Ht & Hj); exists t; (split; [apply first_dedup; exact Ht|exact Hj]). }
  assert (Hu : under_any dirs p).
  { destruct Hh as (a & b & E & U & _). exists home. split; [rewrite E; apply in_app_iff; right; left; reflexivity|exact U]. }
  unfold find_include, meant. destruct quoted; cbn [bind app].
  2: { eexists. split; [reflexivity|]. exact LI. }
  destruct (last_pos_under_any p dirs Hu) as (k & Ek). pose proof (D p Hp Hu) as Hr. rewrite Ek in Hr.
  unfold root_of in Hr. rewrite Ei in Hr.
  destruct (last_pos_some _ _ _ _ Ek) as (a & r & b & _ & Er & Hr2 & _).
  pose proof (last_containing_pos _ _ _ _ _ Hh Ek Er) as ->.
  rewrite <- C, nth_error_map in Er. destruct (nth_error (source_roots (st_db s)) k) as [R|] eqn:En; [|discriminate].
  injection Er as Er. pose proof (B R (nth_error_In _ _ En)) as X.
  assert (U : uri (file_set R) i = Some p).
  { apply uri_spec; [apply X; split; [exact Ei|split; [exact Hp|rewrite Er; exact Hr2]]|].
    intros u Hu2. apply X in Hu2. destruct Hu2 as (Hu2 & _). eapply index_inj; eauto. }
  unfold look_next_to. rewrite Hr, (A _ _ En), U. cbn [bind]. eexists. split; [reflexivity|]. intros j.
  pose proof (file_at_exact h s R (join (removelast p) q) X) as FA. rewrite Er in FA.
  destruct (file_at (file_set R) (join (removelast p) q)) as [j0|] eqn:E.
  - destruct (proj1 (FA j0) eq_refl) as (F1 & F2 & F3). apply there_not_none in F2.
    assert (O : offers h q (removelast p, home) (join (removelast p) q)) by (apply offers_iff; auto).
    split.
    + intros Y. injection Y as <-. exists (join (removelast p) q). split; [apply o_here; exact O|exact F1].
    + intros (t & Ht & Hj). inversion Ht as [c cs u Ho|c cs u Hn Hl]; subst; [|exfalso; exact (Hn _ O)].
      rewrite (offers_one _ _ _ _ _ Ho O) in Hj. congruence.
  - assert (N : forall u, ~ offers h q (removelast p, home) u).
    { intros u Hu2. apply offers_iff in Hu2. cbn [fst snd] in Hu2. destruct Hu2 as (<- & U2 & U3).
      apply there_not_none in U2. destruct (Hi _ U2) as (x & Ex).
      assert (Y : None = Some x) by (apply (FA x); auto). discriminate Y. }
    rewrite LI. split; intros (t & Ht & Hj); exists t; (split; [|exact Hj]).
    + apply o_later; [exact N|exact Ht].
    + inversion Ht as [c cs u Ho|c cs u Hn Hl]; subst; [exfalso; exact (N _ Ho)|exact Hl].
Qed.
