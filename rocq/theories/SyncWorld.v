(** The invariant of the server state over histories of updates and drains. *)
From Coq Require Import List NArith Bool String Arith Lia Sorted.
From Verif Require Import VfsModel VfsSpec VfsProofs LineEndModel LineEndSpec LineEndProofs Utf8 SyncModel SyncSpec SyncProofs.
Import ListNotations.

(** * Known files *)
Definition lt_fst (x y : nat * extension) := fst x < fst y.

Lemma insert_in : forall x l y, In y (insert_sorted x l) <-> y = x \/ In y l.
Proof.
  intros x l y. induction l as [|z tl IH]; simpl; [intuition|].
  destruct (Nat.leb (fst x) (fst z)); simpl; [intuition|]. rewrite IH. intuition.
Qed.
Lemma sort_in : forall l y, In y (sort_files l) <-> In y l.
Proof. induction l as [|x tl IH]; intros y; simpl; [tauto|]. rewrite insert_in, IH. intuition. Qed.

Lemma insert_sorted_ok : forall x l, StronglySorted lt_fst l -> (forall y, In y l -> fst y <> fst x) ->
  StronglySorted lt_fst (insert_sorted x l).
Proof.
  intros x l. induction l as [|z tl IH]; intros S N; simpl; [repeat constructor|].
  inversion S; subst. destruct (Nat.leb_spec (fst x) (fst z)).
  - constructor; [exact S|]. assert (fst z <> fst x) by (apply N; left; auto).
    constructor; [unfold lt_fst; lia|]. eapply Forall_impl; [|exact H2]. unfold lt_fst. intros; lia.
  - constructor; [apply IH; auto; intros; apply N; right; auto|].
    apply Forall_forall. intros y Hy. apply insert_in in Hy. destruct Hy as [->|Hy]; [exact H|].
    eapply Forall_forall in H2; eauto.
Qed.

Lemma sort_sorted : forall l, NoDup (map fst l) -> StronglySorted lt_fst (sort_files l).
Proof.
  induction l as [|x tl IH]; intros ND; simpl; [constructor|]. inversion ND; subst.
  apply insert_sorted_ok; [apply IH; auto|]. intros y Hy E. apply H1. apply (proj1 (sort_in _ _)) in Hy.
  apply in_map_iff. exists y. split; [exact E|exact Hy].
Qed.

Lemma iter_from_nodup : forall ps ds n, List.length ds = List.length ps ->
  NoDup (map fst (iter_from n ps ds)) /\ forall i, In i (map fst (iter_from n ps ds)) -> n <= i.
Proof.
  induction ps as [|p ps IH]; intros [|d ds] n L; simpl in *; try discriminate; [split; [constructor|tauto]|].
  injection L as L. destruct (IH ds (S n) L) as [H1 H2]. destruct d as [c|]; simpl.
  - split; [constructor; [intros H; apply H2 in H; lia|exact H1]|]. intros i [<-|H]; [lia|apply H2 in H; lia].
  - split; [exact H1|]. intros i H. apply H2 in H. lia.
Qed.

Lemma known_spec : forall f l v, inv f l v ->
  (forall i e, In (i, e) (known v) <->
     exists p, index_of p (interner v) = Some i /\ f p <> None /\ path_extension p = Some e) /\
  StronglySorted lt_fst (known v).
Proof.
  intros f l v I. unfold known. split.
  - intros i e. rewrite sort_in, in_flat_map. split.
    + intros ([j p] & H & Hin). simpl in Hin. destruct (path_extension p) as [e'|] eqn:E; [|destruct Hin].
      destruct Hin as [Hin|[]]. injection Hin as -> ->. apply (inv_iter _ _ _ _ _ I) in H. exists p. tauto.
    + intros (p & H1 & H2 & H3). exists (i, p). split; [apply (inv_iter _ _ _ _ _ I); auto|].
      simpl. rewrite H3. left. reflexivity.
  - apply sort_sorted. destruct (iter_from_nodup (interner v) (data v) 0 (i_len _ _ _ I)) as [ND _].
    unfold iter. induction (iter_from 0 (interner v) (data v)) as [|[j p] tl IH]; simpl; [constructor|].
    simpl in ND. inversion ND; subst. rewrite map_app.
    destruct (path_extension p); simpl; [|auto]. constructor; [|auto]. intros H. apply H1.
    apply in_map_iff in H. destruct H as (x & Ex & Hx). apply in_flat_map in Hx. destruct Hx as ([k q] & Hk & Hx).
    simpl in Hx. destruct (path_extension q); [|destruct Hx]. destruct Hx as [<-|[]]. simpl in Ex. subst k.
    apply in_map_iff. exists (j, q). auto.
Qed.

(** * Flickering *)
Lemma flickers_more : forall b h h' p, flickers b h p -> flickers b (h ++ h') p.
Proof.
  intros b h h' p (h1 & b1 & b2 & b3 & h2 & -> & H). exists h1, b1, b2, b3, (h2 ++ h').
  split; [|exact H]. rewrite <- !app_assoc. reflexivity.
Qed.

Lemma alt2_flickers : forall h1 b p, batch_start h1 -> no_drain b -> alt2 h1 b p ->
  there (h1 ++ b) p = negb (there h1 p) -> flickers (there h1 p) (h1 ++ b ++ [Drain]) p.
Proof.
  intros h1 b p Hs Hn (b1 & b2 & b3 & -> & H1 & H2) H3. exists h1, b1, b2, b3, [].
  rewrite <- !app_assoc in *. repeat split; auto.
Qed.

(** * The invariant *)
Record world (roots : list path) (h1 b : list event) (s : state) : Prop := World {
  w_inv : exists l, inv (contents_after (h1 ++ b)) l (st_vfs s) /\
                    forall p, tracked h1 b p (entry (plog l p));
  w_text : forall p, ~ flickers true h1 p -> holds (contents_after h1 p) (analysis_text s p);
  w_fresh : forall i, nth_error (interner (st_vfs s)) i = None ->
              file_text (st_db s) i = None /\ file_source_root (st_db s) i = None;
  w_seen : forall p, index_of p (interner (st_vfs s)) = None -> contents_after h1 p = None;
  w_root : forall p k, root_of s p = Some k -> last_pos (starts_with p) (dedup roots) = Some k;
  w_source : forall k R, source_root (st_db s) k = Some R -> nth_error (dedup roots) k = Some (root_path R);
  w_some : forall i k, file_source_root (st_db s) i = Some k -> source_root (st_db s) k <> None;
  w_there : forall p, there h1 p = true -> root_of s p <> None;
  w_conf : dedup (st_roots s) = dedup roots;
  w_known : forall i e, In (i, e) (known_files (st_db s)) <->
     exists p, index_of p (interner (st_vfs s)) = Some i /\ there h1 p = true /\ path_extension p = Some e;
  w_sorted : StronglySorted lt_fst (known_files (st_db s));
  w_sets : (forall b p, ~ flickers b h1 p) -> forall R, In R (source_roots (st_db s)) -> forall i p,
     In (i, p) (file_set R) <->
     index_of p (interner (st_vfs s)) = Some i /\ there h1 p = true /\ starts_with p (root_path R) = true;
  w_paths : source_roots (st_db s) = [] /\ (forall i, file_source_root (st_db s) i = None) \/
            map root_path (source_roots (st_db s)) = dedup roots }.

Lemma world_init : forall roots, world roots [] [] (init roots).
Proof.
  intros roots. constructor; simpl; auto; try (intros; discriminate).
  - exists []. split; [apply inv_empty|]. intros p. reflexivity.
  - intros p _. constructor.
  - intros; split; [tauto|]. intros (p & H & _). discriminate.
  - constructor.
  - intros _ R [].
Qed.

Lemma index_app_cases : forall p l ext j, index_of p (l ++ ext) = Some j ->
  index_of p l = Some j \/ (index_of p l = None /\ nth_error l j = None).
Proof.
  intros p l ext j H. rewrite index_of_app in H. destruct (index_of p l) as [i|]; [left; exact H|].
  right. split; [reflexivity|]. destruct (index_of p ext) as [k|]; [|discriminate]. injection H as <-.
  apply nth_error_None. lia.
Qed.

Lemma world_update : forall roots h1 b s p c s', world roots h1 b s -> on_event s (Update p c) = Ok s' ->
  world roots h1 (b ++ [Update p c]) s'.
Proof.
  intros roots h1 b s p c s' W H. destruct W as [(l & I & Tr) Wt Wf Ws Wr Wsrc Wsome Wth Wc Wk Wso Wse Wp].
  simpl in H. destruct (set_spec _ _ _ p c I) as (v' & E & I' & ext & Ex). rewrite E in H. simpl in H.
  injection H as <-.
  assert (Fr : forall i, nth_error (interner v') i = None -> nth_error (interner (st_vfs s)) i = None).
  { intros i Hi. apply nth_error_None in Hi. apply nth_error_None. rewrite Ex, app_length in Hi. lia. }
  assert (Up : forall q j, index_of q (interner (st_vfs s)) = Some j -> index_of q (interner v') = Some j).
  { intros q j Hq. rewrite Ex, index_of_app, Hq. reflexivity. }
  assert (At : forall q, analysis_text (State v' (st_db s) (st_roots s)) q = analysis_text s q).
  { intros q. unfold analysis_text. simpl. destruct (index_of q (interner v')) as [j|] eqn:Ej.
    - rewrite Ex in Ej. destruct (index_app_cases _ _ _ _ Ej) as [->|[-> Hn]]; [reflexivity|]. apply Wf. exact Hn.
    - destruct (index_of q (interner (st_vfs s))) as [k|] eqn:Ek; [|reflexivity].
      rewrite (Up _ _ Ek) in Ej. discriminate. }
  assert (Rt : forall q, root_of (State v' (st_db s) (st_roots s)) q = root_of s q).
  { intros q. unfold root_of. simpl. destruct (index_of q (interner v')) as [j|] eqn:Ej.
    - rewrite Ex in Ej. destruct (index_app_cases _ _ _ _ Ej) as [->|[-> Hn]]; [reflexivity|]. apply Wf. exact Hn.
    - destruct (index_of q (interner (st_vfs s))) as [k|] eqn:Ek; [|reflexivity].
      rewrite (Up _ _ Ek) in Ej. discriminate. }
  assert (Ix : forall q j, there h1 q = true -> (index_of q (interner v') = Some j <-> index_of q (interner (st_vfs s)) = Some j)).
  { intros q j Hq. split; [|apply Up]. intros Hj. rewrite Ex in Hj.
    destruct (index_app_cases _ _ _ _ Hj) as [|[Hn _]]; [assumption|]. exfalso.
    unfold there in Hq. rewrite (Ws _ Hn) in Hq. discriminate. }
  constructor; simpl; auto.
  - exists (log_add l p (change_kind (contents_after (h1 ++ b) p) c)). split.
    + eapply inv_ext; [|exact I']. intros q. rewrite app_assoc. symmetry. apply contents_update.
    + apply tracked_step. exact Tr.
  - intros q Hq. rewrite At. auto.
  - intros q Hq. apply Ws. destruct (index_of q (interner (st_vfs s))) as [j|] eqn:Ej; [|reflexivity].
    rewrite (Up _ _ Ej) in Hq. discriminate.
  - intros q k. rewrite Rt. auto.
  - intros q. rewrite Rt. auto.
  - intros i e. rewrite Wk. split; intros (q & H1 & H2 & H3); exists q; (split; [apply Ix; auto|auto]).
  - intros Hf R HR i q. rewrite (Wse Hf R HR i q). split; intros (H1 & H2 & H3); (split; [apply Ix; auto|auto]).
Qed.

Lemma contents_drain : forall h p, contents_after (h ++ [Drain]) p = contents_after h p.
Proof. intros. unfold contents_after. rewrite map_app. simpl. apply current_take. Qed.
Lemma there_drain : forall h p, there (h ++ [Drain]) p = there h p.
Proof. intros. unfold there. rewrite contents_drain. reflexivity. Qed.

Lemma holds_text : forall c, holds (Some c) (Some (match match decode c with
    | Some _ => option_map fst (normalize c) | None => None end with Some t => t | None => [] end)).
Proof.
  intros c. destruct (decode c) as [x|] eqn:E.
  - destruct (normalize_spec c) as (t & e & -> & N & _). simpl. constructor; [|exact N].
    apply decode_utf8. congruence.
  - apply h_binary. rewrite decode_utf8. intros H. apply H. exact E.
Qed.

(** What one run of [process_changes] finds for each path. *)
Lemma effective_entry : forall f l v p i k, inv f l v -> index_of p (interner v) = Some i ->
  (assoc i (effective (merge (changes v))) = Some k <->
   exists j, entry (plog l p) = Some (k, j) /\ is_lost (k, j) = false).
Proof.
  intros f l v p i k I E. rewrite <- (kinds_plog _ _ _ _ _ I E), <- assoc_merge.
  rewrite <- assoc_in by (apply effective_nodup, merge_nodup). rewrite effective_in.
  split; intros (j & H1 & H2); exists j; (split; [|exact H2]); apply (assoc_in _ _ _ _ (merge_nodup _)); exact H1.
Qed.

Lemma take_inv : forall f l v, inv f l v -> inv f [] (snd (take_changes v)).
Proof. exact take_spec. Qed.

Lemma changes_interned : forall f l v i k, inv f l v -> In (i, k) (effective (merge (changes v))) ->
  exists p, index_of p (interner v) = Some i.
Proof.
  intros f l v i k I H. apply effective_in in H. destruct H as (j & H & _).
  apply (assoc_in _ _ _ _ (merge_nodup _)) in H. rewrite assoc_merge in H.
  destruct I as [ND L D Nn Lg]. assert (Hin : exists k', In (i, k') (changes v)).
  { unfold kinds in H. destruct (filter (fun c => fst c =? i) (changes v)) as [|[a c] tl] eqn:Ef; [discriminate H|].
    assert (Ha : In (a, c) (filter (fun c => fst c =? i) (changes v))) by (rewrite Ef; left; reflexivity).
    apply filter_In in Ha. destruct Ha as [Ha Hb]. simpl in Hb. apply Nat.eqb_eq in Hb. subst a. eauto. }
  destruct Hin as (k' & Hin). clear H. induction Lg as [|[a ka] [q kb] cs l' [H1 H2] F IH]; [destruct Hin|].
  simpl in H1. destruct Hin as [Hin|Hin]; [|auto]. injection Hin as -> ->. exists q.
  apply index_of_nodup; auto.
Qed.

Lemma file_contents_inv : forall f l v p i c, inv f l v -> index_of p (interner v) = Some i -> f p = Some c ->
  file_contents v i = Ok c.
Proof.
  intros f l v p i c I E H. unfold file_contents, get. rewrite (i_data _ _ _ I _ _ E), H. reflexivity.
Qed.

Lemma tracked_create : forall h1 b p k j, tracked h1 b p (Some (k, j)) -> k <> Delete ->
  exists c, contents_after (h1 ++ b) p = Some c.
Proof.
  intros h1 b p k j H N. unfold tracked, there in H.
  destruct (contents_after (h1 ++ b) p) as [c|]; [eauto|].
  destruct k, j; try congruence; try tauto; destruct H; congruence.
Qed.

Lemma tracked_delete : forall h1 b p j, tracked h1 b p (Some (Delete, j)) -> contents_after (h1 ++ b) p = None.
Proof.
  intros h1 b p j H. unfold tracked, there in H.
  destruct (contents_after (h1 ++ b) p) as [c|]; [|reflexivity]. destruct j; destruct H; discriminate.
Qed.

Lemma in_assoc_effective : forall cs i k,
  In (i, k) (effective (merge cs)) <-> assoc i (effective (merge cs)) = Some k.
Proof. intros. apply assoc_in. apply effective_nodup, merge_nodup. Qed.

Lemma set_roots_spec : forall rs d,
  file_text (set_roots rs d) = file_text d /\ source_roots (set_roots rs d) = rs /\
  (forall k, source_root (set_roots rs d) k =
             match nth_error rs k with Some r => Some r | None => source_root d k end) /\
  (forall i, file_source_root (set_roots rs d) i =
             match last_pos (in_root i) rs with Some j => Some j | None => file_source_root d i end).
Proof.
  intros rs d. destruct (set_roots_from_spec rs 0 d) as (A & B & C & D & E). unfold set_roots. simpl.
  repeat split; auto. intros k. rewrite D. simpl. rewrite Nat.sub_0_r. reflexivity.
Qed.

Lemma nth_error_map_some : forall A B (g : A -> B) l k x, nth_error l k = Some x -> nth_error (map g l) k = Some (g x).
Proof. intros A B g l k x H. rewrite nth_error_map, H. reflexivity. Qed.

Lemma partition_dedup : forall v rs rs', dedup rs = dedup rs' -> partition v rs = partition v rs'.
Proof. intros v rs rs' H. unfold partition, partition_files. rewrite H. reflexivity. Qed.

Definition roots_opt (structure : bool) v rs d :=
  match (if structure : bool then Some (partition v rs) else None) with Some rs => set_roots rs d | None => d end.

Lemma world_drain : forall roots h1 b s s', world roots h1 b s -> batch_start h1 -> no_drain b ->
  on_event s Drain = Ok s' -> world roots (h1 ++ b ++ [Drain]) [] s'.
Proof.
  intros roots h1 b s s' W Hs Hn H. destruct W as [(l & I & Tr) Wt Wf Ws Wr Wsrc Wsome Wth Wc Wk Wso Wse Wp].
  assert (CA : forall p, contents_after (h1 ++ b ++ [Drain]) p = contents_after (h1 ++ b) p)
    by (intros p; rewrite app_assoc; apply contents_drain).
  assert (TA : forall p, there (h1 ++ b ++ [Drain]) p = there (h1 ++ b) p)
    by (intros p; unfold there; rewrite CA; reflexivity).
  assert (FM : forall bb p, ~ flickers bb (h1 ++ b ++ [Drain]) p -> ~ flickers bb h1 p)
    by (intros bb p N F; apply N, flickers_more, F).
  simpl in H. unfold process_changes, take_changes in H.
  destruct (changes (st_vfs s)) as [|c0 cs0] eqn:Ech.
  - (* nothing pending *)
    simpl in H. injection H as <-.
    assert (l = []) as -> by (pose proof (i_log _ _ _ I) as Lg; rewrite Ech in Lg; inversion Lg; reflexivity).
    assert (CE : forall p, contents_after (h1 ++ b) p = contents_after h1 p) by (intros p; apply (Tr p)).
    assert (TE : forall p, there (h1 ++ b ++ [Drain]) p = there h1 p)
      by (intros p; rewrite TA; unfold there; rewrite CE; reflexivity).
    constructor; simpl; auto.
    + exists []. rewrite app_nil_r. split; [|intros p; unfold tracked; simpl; rewrite app_nil_r; reflexivity].
      eapply inv_ext; [intros p; symmetry; apply CA|]. destruct I as [ND L D Nn Lg]. constructor; simpl; auto.
    + intros p Hp. rewrite CA, CE. apply Wt. eapply FM; eauto.
    + intros p Hp. rewrite CA, CE. auto.
    + intros p. rewrite TE. apply Wth.
    + intros i e. rewrite Wk. split; intros (p & H1 & H2 & H3); exists p; rewrite TE in *; auto.
    + intros Hf R HR i p. rewrite TE. apply Wse; auto; intros; eapply FM; auto.
  - rewrite <- Ech in H. clear c0 cs0 Ech.
    set (v := st_vfs s) in *. set (v' := Vfs (interner v) (data v) []) in *.
    set (files := effective (merge (changes v))) in *.
    set (structure := existsb is_created_or_deleted files) in *.
    assert (I' : inv (contents_after (h1 ++ b)) [] v') by (apply take_inv with (l := l) (v := v); exact I).
    destruct (mapM (changed_text v') files) as [texts|] eqn:Et; [|discriminate]. cbn [bind] in H.
    unfold apply_change in H. fold (roots_opt structure v' (st_roots s) (st_db s)) in H.
    set (d1 := roots_opt structure v' (st_roots s) (st_db s)) in *.
    destruct (set_texts texts d1) as [d'|] eqn:Es; [|discriminate]. cbn [bind fst] in H. injection H as <-.
    destruct (changed_texts _ _ _ Et) as [Ek Ea].
    assert (NDt : NoDup (map fst texts)) by (rewrite Ek; apply effective_nodup, merge_nodup).
    destruct (set_texts_spec _ _ _ NDt Es) as (ST & SR & SS & SSS & _ & SF).
    (* the database before the texts are written *)
    assert (D1t : file_text d1 = file_text (st_db s)).
    { unfold d1, roots_opt. destruct structure; [apply set_roots_spec|reflexivity]. }
    assert (D1r : forall p i, index_of p (interner v) = Some i ->
              file_source_root d1 i =
              match (if structure then match contents_after (h1 ++ b) p with
                                       | Some _ => last_pos (starts_with p) (dedup roots) | None => None end
                     else None) with
              | Some j => Some j | None => file_source_root (st_db s) i end).
    { intros p i E. unfold d1, roots_opt. destruct structure; [|reflexivity].
      destruct (set_roots_spec (partition v' (st_roots s)) (st_db s)) as (_ & _ & _ & ->).
      rewrite (last_pos_partition _ _ _ _ p i I' E), Wc. reflexivity. }
    assert (Ent : forall p i k, index_of p (interner v) = Some i ->
              (assoc i files = Some k <-> exists j, entry (plog l p) = Some (k, j) /\ is_lost (k, j) = false))
      by (intros p i k E; eapply effective_entry; eauto).
    (* a path whose existence flag changes without being noticed flickers *)
    assert (Lost : forall p, there h1 p = true -> entry (plog l p) = Some (Delete, true) ->
              flickers true (h1 ++ b ++ [Drain]) p).
    { intros p Hp He. pose proof (Tr p) as T. rewrite He in T. unfold tracked in T. rewrite Hp in T.
      destruct T as [T1 T2]. rewrite <- Hp. apply alt2_flickers; auto. rewrite Hp. exact T1. }
    assert (Unseen : forall p, there h1 p = false -> entry (plog l p) = Some (Modify, true) ->
              flickers false (h1 ++ b ++ [Drain]) p).
    { intros p Hp He. pose proof (Tr p) as T. rewrite He in T. unfold tracked in T. rewrite Hp in T.
      destruct T as [T1 T2]. rewrite <- Hp. apply alt2_flickers; auto. rewrite Hp. exact T1. }
    constructor; cbn [st_vfs st_db st_roots file_text file_source_root source_root source_roots known_files].
    + exists []. rewrite app_nil_r. split; [|intros p; unfold tracked; simpl; rewrite app_nil_r; reflexivity].
      eapply inv_ext; [intros p; symmetry; apply CA|exact I'].
    + (* texts *)
      intros p Hp. rewrite CA. unfold analysis_text. cbn [st_vfs st_db file_text].
      change (interner v') with (interner v).
      pose proof (Tr p) as T. pose proof (Wt p (FM _ _ Hp)) as Old. unfold analysis_text in Old. fold v in Old.
      destruct (index_of p (interner v)) as [i|] eqn:E.
      2: { rewrite (plog_none _ _ _ _ I E) in T. simpl in T. rewrite T. exact Old. }
      rewrite ST, D1t. pose proof (Ea i) as Eai.
      destruct (assoc i files) as [k|] eqn:Ef.
      * destruct Eai as (t & -> & Ht). apply (Ent _ _ _ E) in Ef. destruct Ef as (j & Ej & Nl).
        rewrite Ej in T. unfold changed_text in Ht. cbn [fst snd] in Ht.
        destruct k.
        -- destruct (tracked_create _ _ _ _ _ T ltac:(discriminate)) as (c & Ec).
           rewrite (file_contents_inv _ _ _ _ _ _ I' E Ec) in Ht. simpl in Ht. injection Ht as <-.
           rewrite Ec. apply holds_text.
        -- destruct (tracked_create _ _ _ _ _ T ltac:(discriminate)) as (c & Ec).
           rewrite (file_contents_inv _ _ _ _ _ _ I' E Ec) in Ht. simpl in Ht. injection Ht as <-.
           rewrite Ec. apply holds_text.
        -- injection Ht as <-. rewrite (tracked_delete _ _ _ _ T). constructor.
      * rewrite Eai. destruct (entry (plog l p)) as [[k j]|] eqn:Ee.
        -- destruct (is_lost (k, j)) eqn:El.
           ++ destruct k, j; try discriminate. destruct (there h1 p) eqn:Th; [exfalso; auto|].
              rewrite (tracked_delete _ _ _ _ T). unfold there in Th.
              destruct (contents_after h1 p); [discriminate|exact Old].
           ++ assert (assoc i files = Some k) by (apply (Ent _ _ _ E); eauto). congruence.
        -- simpl in T. rewrite T. exact Old.
    + (* fresh ids *)
      intros i Hi. change (interner v') with (interner v) in Hi. destruct (Wf i Hi) as [F1 F2].
      rewrite ST, D1t, F1, SR. pose proof (Ea i) as Eai.
      assert (Nf : assoc i files = None).
      { destruct (assoc i files) as [k|] eqn:Ef; [|reflexivity]. apply in_assoc_effective in Ef.
        destruct (changes_interned _ _ _ _ _ I Ef) as (q & Eq). apply index_of_nth in Eq. congruence. }
      rewrite Nf in Eai. rewrite Eai. split; [reflexivity|].
      unfold d1, roots_opt. destruct structure; [|exact F2].
      destruct (set_roots_spec (partition v' (st_roots s)) (st_db s)) as (_ & _ & _ & ->).
      destruct (last_pos (in_root i) (partition v' (st_roots s))) as [j|] eqn:Ej; [|exact F2]. exfalso.
      apply last_pos_some in Ej. destruct Ej as (x & R & y & EP & _ & Hin & _). unfold in_root in Hin.
      apply existsb_exists in Hin. destruct Hin as ([a q] & Hin & Ha). simpl in Ha. apply Nat.eqb_eq in Ha. subst a.
      rewrite (partition_sets v' (st_roots s) R) in Hin by (rewrite EP; apply in_app_iff; right; left; auto).
      apply filter_In in Hin. destruct Hin as [Hin _]. apply (inv_iter _ _ _ _ _ I') in Hin.
      destruct Hin as [Hq _]. apply index_of_nth in Hq. simpl in Hq. congruence.
    + intros p Hp. rewrite CA. apply (i_none _ _ _ I' p Hp).
    + (* root is the right one *)
      intros p k. unfold root_of. cbn [st_vfs st_db file_source_root]. change (interner v') with (interner v).
      destruct (index_of p (interner v)) as [i|] eqn:E; [|discriminate]. rewrite SR, (D1r _ _ E).
      assert (O : file_source_root (st_db s) i = Some k -> last_pos (starts_with p) (dedup roots) = Some k).
      { intros Ho. apply Wr. unfold root_of. fold v. rewrite E. exact Ho. }
      destruct structure; [|exact O]. destruct (contents_after (h1 ++ b) p); [|exact O].
      destruct (last_pos (starts_with p) (dedup roots)) eqn:El; [congruence|].
      exact O.
    + intros k R. rewrite SS. unfold d1, roots_opt. destruct structure; [|apply Wsrc].
      destruct (set_roots_spec (partition v' (st_roots s)) (st_db s)) as (_ & _ & -> & _).
      destruct (nth_error (partition v' (st_roots s)) k) as [R'|] eqn:En; [|apply Wsrc].
      intros HR. injection HR as <-. rewrite <- Wc, <- (partition_paths v'). apply nth_error_map_some. exact En.
    + intros i k. rewrite SS, SR. unfold d1, roots_opt. destruct structure; [|apply Wsome].
      destruct (set_roots_spec (partition v' (st_roots s)) (st_db s)) as (_ & _ & -> & ->).
      destruct (last_pos (in_root i) (partition v' (st_roots s))) as [j|] eqn:El.
      * intros Hj. injection Hj as <-. apply last_pos_some in El. destruct El as (x & R & y & _ & En & _).
        rewrite En. discriminate.
      * intros Hk. destruct (nth_error (partition v' (st_roots s)) k); [discriminate|]. eapply Wsome; eauto.
    + (* files that exist have a root *)
      intros p Hp. rewrite TA in Hp. unfold root_of. cbn [st_vfs st_db file_source_root].
      change (interner v') with (interner v).
      destruct (index_of p (interner v)) as [i|] eqn:E.
      2: { unfold there in Hp. rewrite (i_none _ _ _ I p E) in Hp. discriminate. }
      rewrite SR. pose proof (Tr p) as T. destruct (entry (plog l p)) as [[k j]|] eqn:Ee.
      * assert (Nd : k <> Delete).
        { intros ->. apply tracked_delete in T. unfold there in Hp. rewrite T in Hp. discriminate. }
        assert (Ef : assoc i files = Some k).
        { apply (Ent _ _ _ E). exists j. split; [exact Ee|]. destruct k, j; simpl; congruence. }
        pose proof (Ea i) as Eai. rewrite Ef in Eai. destruct Eai as (t & Hat & _).
        apply (SF i t). apply assoc_in; auto.
      * assert (Th : there h1 p = true) by (unfold there in *; simpl in T; rewrite <- T; exact Hp).
        rewrite (D1r _ _ E). pose proof (Wth p Th) as O. unfold root_of in O. fold v in O. rewrite E in O.
        destruct structure; [|exact O]. destruct (contents_after (h1 ++ b) p); [|exact O].
        destruct (last_pos (starts_with p) (dedup roots)); [discriminate|exact O].
    + destruct structure; [rewrite dedup_idem|]; exact Wc.
    + intros i e. destruct (known_spec _ _ _ I') as [K _]. rewrite K.
      split; intros (p & H1 & H2 & H3); exists p; (split; [exact H1|]; split; [|exact H3]).
      * rewrite TA. unfold there. destruct (contents_after (h1 ++ b) p); [reflexivity|congruence].
      * rewrite TA in H2. unfold there in H2. destruct (contents_after (h1 ++ b) p); [discriminate|discriminate H2].
    + apply (known_spec _ _ _ I').
    + (* source roots *)
      intros Hf R HR i p. rewrite SSS in HR. change (interner v') with (interner v).
      unfold d1, roots_opt in HR. destruct structure eqn:Est.
      * destruct (set_roots_spec (partition v' (st_roots s)) (st_db s)) as (_ & E2 & _). rewrite E2 in HR.
        rewrite (partition_sets _ _ _ HR), filter_In, (inv_iter _ _ _ _ _ I'). cbn [snd].
        change (interner v') with (interner v). rewrite TA. unfold there.
        destruct (contents_after (h1 ++ b) p); intuition congruence.
      * rewrite (Wse (fun bb q => FM bb q (Hf bb q)) R HR i p). fold v.
        assert (Same : there (h1 ++ b ++ [Drain]) p = there h1 p); [|rewrite Same; reflexivity].
        rewrite TA. pose proof (Tr p) as T. destruct (entry (plog l p)) as [[k j]|] eqn:Ee.
        2: { simpl in T. unfold there. rewrite T. reflexivity. }
        destruct (index_of p (interner v)) as [ip|] eqn:E.
        2: { rewrite (plog_none _ _ _ _ I E) in Ee. discriminate. }
        assert (Nk : is_lost (k, j) = false -> k = Modify).
        { intros Nl. assert (Ef : assoc ip files = Some k) by (apply (Ent _ _ _ E); eauto).
          apply in_assoc_effective in Ef. destruct k; [exfalso|reflexivity|exfalso];
            (assert (structure = true) by (apply existsb_exists; eexists; split; [exact Ef|reflexivity]));
            congruence. }
        destruct k, j; try (specialize (Nk eq_refl); discriminate Nk).
        -- destruct (there h1 p) eqn:Th; [apply T|exfalso; eapply Hf, Unseen; eauto].
        -- destruct T as [-> ->]. reflexivity.
        -- destruct (there h1 p) eqn:Th; [exfalso; eapply Hf, Lost; eauto|apply T].
    + rewrite SSS, SR. unfold d1, roots_opt. destruct structure; [|exact Wp]. right.
      destruct (set_roots_spec (partition v' (st_roots s)) (st_db s)) as (_ & -> & _).
      rewrite partition_paths. exact Wc.
Qed.

(** * Reachable states *)
Lemma play_app : forall h1 h2 s, play s (h1 ++ h2) = bind (play s h1) (fun s => play s h2).
Proof.
  induction h1 as [|o tl IH]; intros h2 s; simpl; [reflexivity|]. destruct (on_event s o); simpl; auto.
Qed.

Definition reached roots h s := exists h1 b, h = h1 ++ b /\ batch_start h1 /\ no_drain b /\ world roots h1 b s.

Lemma play_reached : forall roots h s, play (init roots) h = Ok s -> reached roots h s.
Proof.
  intros roots h. induction h as [|e h IH] using rev_ind; intros s H.
  - injection H as <-. exists [], []. split; [reflexivity|]. split; [left; reflexivity|]. split; [intros []|apply world_init].
  - rewrite play_app in H. destruct (play (init roots) h) as [s0|]; [|discriminate]. cbn [bind play] in H.
    destruct (IH _ eq_refl) as (h1 & b & -> & Hs & Hn & W).
    destruct (on_event s0 e) as [s1|] eqn:Ee; [|discriminate]. injection H as <-. destruct e as [p c|].
    + exists h1, (b ++ [Update p c]). rewrite app_assoc. split; [reflexivity|]. split; [exact Hs|]. split.
      * intros Hin. apply in_app_iff in Hin. destruct Hin as [Hin|[Hin|[]]]; [auto|discriminate].
      * eapply world_update; eauto.
    + exists (h1 ++ b ++ [Drain]), []. rewrite app_nil_r, app_assoc. split; [reflexivity|]. split; [|split; [intros []|]].
      * right. exists (h1 ++ b). reflexivity.
      * rewrite <- app_assoc. eapply world_drain; eauto.
Qed.

Lemma drained : forall roots h s, play (init roots) (h ++ [Drain]) = Ok s -> world roots (h ++ [Drain]) [] s.
Proof.
  intros roots h s H. destruct (play_reached _ _ _ H) as (h1 & b & E & Hs & Hn & W).
  destruct b as [|e b] using rev_ind; [rewrite app_nil_r in E; subst; exact W|].
  rewrite app_assoc in E. apply app_inj_tail in E. destruct E as [-> <-]. exfalso. apply Hn.
  apply in_app_iff. right. left. reflexivity.
Qed.

(** * Absence of panics *)
Lemma drain_ok : forall roots h1 b s, world roots h1 b s -> batch_start h1 -> no_drain b ->
  (forall p, there (h1 ++ b) p = true -> exists r, In r roots /\ under p r) ->
  (forall p, there h1 p = true -> exists r, In r roots /\ under p r) ->
  (forall p, ~ flickers false (h1 ++ b ++ [Drain]) p) ->
  exists s', on_event s Drain = Ok s'.
Proof.
  intros roots h1 b s W Hs Hn Hin Hin1 Hf. destruct W as [(l & I & Tr) Wt Wf Ws Wr Wsrc Wsome Wth Wc Wk Wso Wse Wp].
  simpl. unfold process_changes, take_changes. destruct (changes (st_vfs s)) as [|c0 cs0] eqn:Ech; [simpl; eauto|].
  rewrite <- Ech. clear c0 cs0 Ech. set (v := st_vfs s) in *. set (v' := Vfs (interner v) (data v) []) in *.
  set (files := effective (merge (changes v))) in *.
  set (structure := existsb is_created_or_deleted files) in *.
  assert (I' : inv (contents_after (h1 ++ b)) [] v') by (apply take_inv with (l := l) (v := v); exact I).
  assert (Ent : forall p i k, index_of p (interner v) = Some i ->
              (assoc i files = Some k <-> exists j, entry (plog l p) = Some (k, j) /\ is_lost (k, j) = false))
      by (intros p i k E; eapply effective_entry; eauto).
  destruct (mapM_ok _ _ (changed_text v') files) as (texts & Et).
  { intros [i k] Hik. destruct (changes_interned _ _ _ _ _ I Hik) as (p & E).
    apply in_assoc_effective in Hik. apply (Ent _ _ _ E) in Hik. destruct Hik as (j & Ej & _).
    pose proof (Tr p) as T. rewrite Ej in T. unfold changed_text. cbn [fst snd]. destruct k; [| |eauto];
      destruct (tracked_create _ _ _ _ _ T ltac:(discriminate)) as (c & Ec);
      rewrite (file_contents_inv _ _ _ _ _ _ I' E Ec); simpl; eauto. }
  rewrite Et. cbn [bind]. unfold apply_change. fold (roots_opt structure v' (st_roots s) (st_db s)).
  set (d1 := roots_opt structure v' (st_roots s) (st_db s)) in *.
  destruct (set_texts_ok texts d1) as (d' & ->); [| |simpl; eauto].
  - intros i t Hit. destruct (changed_texts _ _ _ Et) as [Ek _].
    assert (Hif : In i (map fst files)) by (rewrite <- Ek; apply in_map_iff; exists (i, t); auto).
    apply in_map_iff in Hif. destruct Hif as ([a k] & Ea & Hif). simpl in Ea. subst a.
    destruct (changes_interned _ _ _ _ _ I Hif) as (p & E).
    pose proof Hif as Hk. apply in_assoc_effective in Hk. apply (Ent _ _ _ E) in Hk. destruct Hk as (j & Ej & Nl).
    pose proof (Tr p) as T. rewrite Ej in T.
    assert (Old : there h1 p = true -> file_source_root (st_db s) i <> None).
    { intros Th. pose proof (Wth p Th) as O. unfold root_of in O. fold v in O. rewrite E in O. exact O. }
    assert (D1 : there h1 p = true -> file_source_root d1 i <> None).
    { intros Th. unfold d1, roots_opt. destruct structure; [|auto].
      destruct (set_roots_spec (partition v' (st_roots s)) (st_db s)) as (_ & _ & _ & ->).
      destruct (last_pos (in_root i) (partition v' (st_roots s))); [discriminate|auto]. }
    assert (D2 : k = Create -> there (h1 ++ b) p = true -> file_source_root d1 i <> None).
    { intros -> Th. assert (St : structure = true) by (apply existsb_exists; eexists; split; [exact Hif|reflexivity]).
      unfold d1, roots_opt. rewrite St.
      destruct (set_roots_spec (partition v' (st_roots s)) (st_db s)) as (_ & _ & _ & ->).
      rewrite (last_pos_partition _ _ _ _ p i I' E), Wc. destruct (Hin p Th) as (r & Hr & Hu).
      unfold there in Th. destruct (contents_after (h1 ++ b) p); [|discriminate].
      destruct (last_pos (starts_with p) (dedup roots)) eqn:El; [discriminate|].
      exfalso. eapply (last_pos_exists _ (starts_with p) (dedup roots) r); eauto;
        [apply dedup_in; exact Hr|apply starts_with_under; exact Hu]. }
    unfold tracked in T. destruct k, j; try tauto; try discriminate Nl.
    + destruct (there h1 p) eqn:Th; [auto|]. exfalso. apply (Hf p).
      assert (F : flickers (there h1 p) (h1 ++ b ++ [Drain]) p)
        by (apply alt2_flickers; auto; [apply T|rewrite Th; apply T]).
      rewrite Th in F. exact F.
  - intros i k. unfold d1, roots_opt. destruct structure; [|apply Wsome].
    destruct (set_roots_spec (partition v' (st_roots s)) (st_db s)) as (_ & _ & -> & ->).
    destruct (last_pos (in_root i) (partition v' (st_roots s))) as [j|] eqn:El.
    + intros Hj. injection Hj as <-. apply last_pos_some in El. destruct El as (x & R & y & _ & En & _).
      rewrite En. discriminate.
    + intros Hk. destruct (nth_error (partition v' (st_roots s)) k); [discriminate|]. eapply Wsome; eauto.
Qed.

Lemma there_updated : forall h p, there h p = true -> exists c, In (Update p (Some c)) h.
Proof.
  intros h p. induction h as [|e h IH] using rev_ind; intros H; [discriminate|].
  destruct e as [q c|].
  - unfold there in H. rewrite contents_update in H. unfold upd in H. destruct (path_eq_dec q p) as [->|].
    + destruct c as [c|]; [|discriminate]. exists c. apply in_app_iff. right. left. reflexivity.
    + destruct (IH H) as (x & Hx). exists x. apply in_app_iff. auto.
  - rewrite there_drain in H. destruct (IH H) as (x & Hx). exists x. apply in_app_iff. auto.
Qed.

Lemma play_ok : forall roots h,
  (forall p c, In (Update p (Some c)) h -> exists r, In r roots /\ under p r) ->
  (forall p, ~ flickers false h p) ->
  exists s, play (init roots) h = Ok s.
Proof.
  intros roots h. induction h as [|e h IH] using rev_ind; intros Hin Hf; [simpl; eauto|].
  destruct IH as (s & Hs).
  { intros p c H. apply (Hin p c). apply in_app_iff. auto. }
  { intros p F. apply (Hf p). apply flickers_more. exact F. }
  rewrite play_app, Hs. cbn [bind play].
  destruct (play_reached _ _ _ Hs) as (h1 & b & -> & Hb & Hn & W).
  assert (Hth : forall h' p, (exists h2, (h1 ++ b) ++ [e] = h' ++ h2) -> there h' p = true -> exists r, In r roots /\ under p r).
  { intros h' p (h2 & E) Hp. apply there_updated in Hp. destruct Hp as (c & Hc). apply (Hin p c).
    rewrite E. apply in_app_iff. auto. }
  destruct e as [p c|].
  - destruct W as [(l & I & Tr) Wt Wf Ws Wr Wsrc Wsome Wth Wc Wk Wso Wse Wp].
    destruct (set_spec _ _ _ p c I) as (v' & E & _). simpl. rewrite E. simpl. eauto.
  - destruct (drain_ok _ _ _ _ W Hb Hn) as (s' & ->); [| | |simpl; eauto].
    + intros p. apply Hth. exists [Drain]. reflexivity.
    + intros p. apply Hth. exists (b ++ [Drain]). rewrite app_assoc. reflexivity.
    + intros p. rewrite app_assoc. apply Hf.
Qed.
