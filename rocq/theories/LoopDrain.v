(** Draining the changes of one turn: exactly when it crashes, and what it leaves. *)
From Coq Require Import List NArith ZArith Bool String Arith Lia.
From Verif Require Import LoopModel LoopSpec.
From Verif Require Import VfsModel VfsSpec VfsProofs LineEndModel SyncModel SyncSpec SyncProofs SyncWorld.
Import ListNotations.
Local Open Scope nat_scope.
Local Open Scope list_scope.

Definition absent_or (o : option contents) : bool := match o with Some _ => true | None => false end.

Fixpoint log_of (f : path -> option contents) (us : list update) (l : list (path * kind)) : list (path * kind) :=
  match us with
  | [] => l
  | u :: tl => log_of (write f u) tl (log_add l (fst u) (change_kind (f (fst u)) (snd u)))
  end.

Lemma written_snoc : forall us u f, written f (us ++ [u]) = write (written f us) u.
Proof. intros. unfold written. rewrite fold_left_app. reflexivity. Qed.
Lemma log_snoc : forall us u f l, log_of f (us ++ [u]) l =
  log_add (log_of f us l) (fst u) (change_kind (written f us (fst u)) (snd u)).
Proof. induction us as [|x tl IH]; intros u f l; simpl; [reflexivity|]. apply IH. Qed.
Lemma flips_snoc : forall q us u f, flips q f (us ++ [u]) =
  flips q f us + match written f us q, write (written f us) u q with Some _, None | None, Some _ => 1 | _, _ => 0 end.
Proof.
  intros q. induction us as [|x tl IH]; intros u f; cbn [app flips].
  - unfold written. simpl. lia.
  - rewrite IH. unfold written. simpl. lia.
Qed.

Lemma write_same : forall f u, write f u (fst u) = snd u.
Proof. intros f u. unfold write. destruct (path_eq_dec (fst u) (fst u)); congruence. Qed.
Lemma write_other : forall f u q, fst u <> q -> write f u q = f q.
Proof. intros f u q N. unfold write. destruct (path_eq_dec (fst u) q); congruence. Qed.

(** The entry of a path after the merge, from how often it appeared or disappeared. *)
Lemma entry_log : forall f us p,
  let e := entry (plog (log_of f us []) p) in
  let o := written f us p in
  match f p, flips p f us with
  | None, 0 => e = None /\ o = None
  | None, 1 => e = Some (Create, true) /\ o <> None
  | Some _, 0 => (e = None \/ e = Some (Modify, false)) /\ o <> None
  | Some _, 1 => e = Some (Delete, false) /\ o = None
  | _, S (S _) => (e = Some (Modify, true) /\ o <> None) \/ (e = Some (Delete, true) /\ o = None)
  end.
Proof.
  intros f us p. cbv zeta. induction us as [|u us IH] using rev_ind.
  - simpl. destruct (f p) eqn:E; simpl; rewrite ?E; repeat split; auto; congruence.
  - rewrite log_snoc, flips_snoc, written_snoc. set (l := log_of f us []) in *. set (g := written f us) in *.
    destruct (path_eq_dec (fst u) p) as [Ep|Np].
    + subst p. rewrite write_same.
      assert (L : entry (plog (log_add l (fst u) (change_kind (g (fst u)) (snd u))) (fst u)) =
                  match change_kind (g (fst u)) (snd u) with
                  | Some k => merge_next (entry (plog l (fst u))) k
                  | None => entry (plog l (fst u)) end).
      { destruct (change_kind (g (fst u)) (snd u)); [|reflexivity]. unfold log_add. rewrite plog_app.
        destruct (path_eq_dec (fst u) (fst u)); [|congruence]. apply entry_app. }
      rewrite L. clear L. destruct (snd u) as [c|] eqn:Ec, (g (fst u)) as [c'|] eqn:Eg; cbn [change_kind].
      * (* still there *)
        rewrite Nat.add_0_r. destruct (list_eq_dec N.eq_dec c' c).
        -- destruct (f (fst u)), (flips (fst u) f us) as [|[|nn]];
             intuition (try congruence); try (left; split; [reflexivity|congruence]).
        -- destruct (f (fst u)), (flips (fst u) f us) as [|[|nn]]; 
             repeat match goal with
             | H : _ /\ _ |- _ => destruct H
             | H : _ \/ _ |- _ => destruct H
             | H : entry _ = _ |- _ => rewrite H; clear H
             end; try congruence; unfold merge_next; simpl; auto;
             try (split; [tauto|congruence]); try (split; [auto|congruence]); try (left; split; [reflexivity|congruence]).
      * rewrite Nat.add_1_r. destruct (f (fst u)), (flips (fst u) f us) as [|[|nn]];
             repeat match goal with
             | H : _ /\ _ |- _ => destruct H
             | H : _ \/ _ |- _ => destruct H
             | H : entry _ = _ |- _ => rewrite H; clear H
             end; try congruence; unfold merge_next; simpl; auto;
             try (split; [auto|congruence]); try (left; split; [reflexivity|congruence]).
      * rewrite Nat.add_1_r. destruct (f (fst u)), (flips (fst u) f us) as [|[|nn]];
             repeat match goal with
             | H : _ /\ _ |- _ => destruct H
             | H : _ \/ _ |- _ => destruct H
             | H : entry _ = _ |- _ => rewrite H; clear H
             end; try congruence; unfold merge_next; simpl; auto;
             try (split; [auto|congruence]); try (right; split; reflexivity).
      * rewrite Nat.add_0_r. destruct (f (fst u)), (flips (fst u) f us) as [|[|nn]];
             intuition (try congruence).
    + rewrite write_other by exact Np.
      replace (match g p with Some _ => match g p with Some _ => 0 | None => 1 end
                            | None => match g p with Some _ => 1 | None => 0 end end) with 0 by (destruct (g p); reflexivity).
      rewrite Nat.add_0_r.
      replace (plog (log_add l (fst u) (change_kind (g (fst u)) (snd u))) p) with (plog l p); [exact IH|].
      destruct (change_kind (g (fst u)) (snd u)); [|reflexivity]. unfold log_add. rewrite plog_app.
      destruct (path_eq_dec (fst u) p); [contradiction|reflexivity].
Qed.

(** The analysis knows the source root of [p]. *)
Definition placed (v : vfs) (d : db) (p : path) : Prop :=
  exists i k, index_of p (interner v) = Some i /\ file_source_root d i = Some k.

Definition rooted (d : db) : Prop := forall i k, file_source_root d i = Some k -> source_root d k <> None.

Lemma set_texts_panic : forall fs d, rooted d -> set_texts fs d = Panic ->
  exists i t, In (i, t) fs /\ file_source_root d i = None.
Proof.
  induction fs as [|[i t] tl IH]; intros d R H; simpl in H; [discriminate|].
  destruct (file_source_root d i) as [r|] eqn:Er; [|exists i, t; split; [left; reflexivity|exact Er]].
  destruct (source_root d r) eqn:Es; [|exfalso; eapply R; eauto].
  apply IH in H; [|exact R]. destruct H as (j & t' & Hj & Hn). exists j, t'. split; [right; exact Hj|exact Hn].
Qed.

Definition under_any (dirs : list path) (p : path) : Prop := exists r, In r dirs /\ under p r.
Definition stray (f : path -> option contents) us v d dirs : Prop :=
  exists p, f p = None /\ written f us p <> None /\ ~ placed v d p /\ ~ (recomputed f us /\ under_any dirs p).

Lemma last_pos_under : forall p dirs, last_pos (starts_with p) (dedup dirs) <> None <-> under_any dirs p.
Proof.
  intros p dirs. split.
  - intros H. destruct (last_pos (starts_with p) (dedup dirs)) as [k|] eqn:E; [|congruence].
    apply last_pos_some in E. destruct E as (a & r & b & Ed & _ & Hs & _). exists r. split.
    + apply dedup_in. rewrite Ed. apply in_app_iff. right. left. reflexivity.
    + apply starts_with_under. exact Hs.
  - intros (r & Hr & Hu). apply (last_pos_exists _ _ _ r); [apply dedup_in; exact Hr|apply starts_with_under; exact Hu].
Qed.

Definition bounded (v : vfs) (d : db) : Prop :=
  (forall i k, file_source_root d i = Some k -> i < List.length (interner v)) /\
  (forall i e, In (i, e) (known_files d) -> i < List.length (interner v)).

Lemma drain_exact : forall f us v d roots dirs,
  inv (written f us) (log_of f us []) v -> dedup roots = dedup dirs -> rooted d -> bounded v d ->
  (forall p, f p <> None -> placed v d p) ->
  match process_changes (State v d roots) with
  | Panic => stray f us v d dirs
  | Ok (s', b) =>
      ~ stray f us v d dirs /\ inv (written f us) [] (st_vfs s') /\ interner (st_vfs s') = interner v /\
      dedup (st_roots s') = dedup dirs /\ rooted (st_db s') /\ bounded (st_vfs s') (st_db s') /\
      (forall p, placed (st_vfs s') (st_db s') p <->
         placed v d p \/ (recomputed f us /\ written f us p <> None /\ under_any dirs p)) /\
      (forall p, written f us p <> None -> placed (st_vfs s') (st_db s') p)
  end.
Proof.
  intros f us v d roots dirs I Dd R Bd Pl. unfold process_changes, take_changes. cbn [st_vfs st_db st_roots].
  set (l := log_of f us []) in *. set (g := written f us) in *.
  pose proof (entry_log f us) as EL. cbv zeta in EL. fold l g in EL.
  destruct (changes v) as [|c0 cs0] eqn:Ech.
  - assert (l = []) as E0 by (pose proof (i_log _ _ _ I) as Lg; rewrite Ech in Lg; inversion Lg; reflexivity).
    assert (Same : forall p, flips p f us = 0 /\ (f p = None <-> g p = None)).
    { intros p. specialize (EL p). rewrite E0 in EL. change (entry (plog [] p)) with (@None (kind * bool)) in EL.
      destruct (f p), (flips p f us) as [|[|nn]]; intuition (try congruence). }
    assert (NR : ~ recomputed f us) by (intros (q & Hq); destruct (Same q); congruence).
    split.
    { intros (p & H1 & H2 & _). apply H2. apply (Same p). exact H1. }
    cbn [st_vfs st_db st_roots interner]. split; [exact (take_inv _ _ _ I)|].
    split; [reflexivity|]. split; [exact Dd|]. split; [exact R|]. split; [exact Bd|]. split.
    + intros p. split; [intros H; left; exact H|]. intros [H|(H & _)]; [exact H|contradiction].
    + intros p Hp. apply Pl. intros H. apply Hp. apply (Same p). exact H.
  - rewrite <- Ech. clear c0 cs0 Ech. set (v' := Vfs (interner v) (data v) []).
    set (fs := effective (merge (changes v))). set (structure := existsb is_created_or_deleted fs).
    assert (I' : inv g [] v') by (apply take_inv with (l := l) (v := v); exact I).
    assert (Ent : forall p i k, index_of p (interner v) = Some i ->
              (assoc i fs = Some k <-> exists j, entry (plog l p) = Some (k, j) /\ is_lost (k, j) = false))
      by (intros p i k E; eapply effective_entry; eauto).
    assert (In_fs : forall i k, In (i, k) fs -> exists p j, index_of p (interner v) = Some i /\
               entry (plog l p) = Some (k, j) /\ is_lost (k, j) = false).
    { intros i k H. destruct (changes_interned _ _ _ _ _ I H) as (p & E). apply in_assoc_effective in H.
      apply (Ent _ _ _ E) in H. destruct H as (j & H). exists p, j. auto. }
    assert (Alive : forall p k j, entry (plog l p) = Some (k, j) -> is_lost (k, j) = false ->
              match k with Delete => f p <> None | _ => g p <> None end).
    { intros p k j He Hl. specialize (EL p). rewrite He in EL.
      destruct (f p), (flips p f us) as [|[|nn]], k, j; simpl in Hl; try discriminate Hl;
        intuition (try congruence). }
    assert (Str : structure = true <-> recomputed f us).
    { unfold structure. rewrite existsb_exists. split.
      - intros ([i k] & Hin & Hk). destruct (In_fs _ _ Hin) as (p & j & E & He & Hl). exists p.
        specialize (EL p). rewrite He in EL. unfold is_created_or_deleted in Hk. cbn [snd] in Hk.
        destruct (f p), (flips p f us) as [|[|nn]], k, j; simpl in Hl; try discriminate; intuition (try congruence).
      - intros (p & Hp). pose proof (EL p) as Ep. rewrite Hp in Ep.
        assert (Ei : exists i, index_of p (interner v) = Some i).
        { destruct (index_of p (interner v)) as [i|] eqn:Ei; [eauto|].
          rewrite (plog_none _ _ _ _ I Ei) in Ep. simpl in Ep. destruct (f p); destruct Ep; discriminate. }
        destruct Ei as (i & Ei). destruct (f p) eqn:Ef; destruct Ep as (Ep & _).
        + exists (i, Delete). split; [|reflexivity]. apply in_assoc_effective. apply (Ent _ _ _ Ei). eauto.
        + exists (i, Create). split; [|reflexivity]. apply in_assoc_effective. apply (Ent _ _ _ Ei). eauto. }
    destruct (mapM_ok _ _ (changed_text v') fs) as (texts & Et).
    { intros [i k] Hik. destruct (In_fs _ _ Hik) as (p & j & E & He & Hl). pose proof (Alive _ _ _ He Hl) as Al.
      unfold changed_text. cbn [fst snd]. destruct k; [| |eauto];
        (destruct (g p) as [c|] eqn:Ec; [|congruence];
         rewrite (file_contents_inv _ _ _ _ _ _ I' E Ec); simpl; eauto). }
    rewrite Et. cbn [bind]. unfold apply_change. fold (roots_opt structure v' roots d).
    set (d1 := roots_opt structure v' roots d).
    destruct (changed_texts _ _ _ Et) as [Ek _].
    assert (D1 : forall p i, index_of p (interner v) = Some i ->
              (file_source_root d1 i <> None <->
               file_source_root d i <> None \/ (recomputed f us /\ g p <> None /\ under_any dirs p))).
    { intros p i E. unfold d1, roots_opt. destruct structure.
      - destruct (set_roots_spec (partition v' roots) d) as (_ & _ & _ & ->).
        rewrite (last_pos_partition _ _ _ _ p i I' E), Dd.
        assert (Rc : recomputed f us) by (apply Str; reflexivity).
        pose proof (last_pos_under p dirs) as Lu.
        destruct (g p) as [c|]; [|intuition congruence].
        destruct (last_pos (starts_with p) (dedup dirs)); [|intuition congruence].
        split; [|discriminate]. intros _. right. split; [exact Rc|]. split; [discriminate|]. apply Lu. discriminate.
      - split; [intros H; left; exact H|]. intros [H|(Rc & _)]; [exact H|]. apply Str in Rc. discriminate. }
    assert (R1 : rooted d1).
    { intros i k. unfold d1, roots_opt. destruct structure; [|apply R].
      destruct (set_roots_spec (partition v' roots) d) as (_ & _ & -> & ->).
      destruct (last_pos (in_root i) (partition v' roots)) as [j|] eqn:El.
      - intros Hj. injection Hj as <-. apply last_pos_some in El. destruct El as (x & Q & y & _ & En & _).
        rewrite En. discriminate.
      - intros Hk. destruct (nth_error (partition v' roots) k); [discriminate|]. eapply R; eauto. }
    assert (Keys : forall i, (exists t, In (i, t) texts) <-> exists k, In (i, k) fs).
    { intros i. split; intros (x & Hx).
      - assert (H : In i (map fst fs)) by (rewrite <- Ek; apply in_map_iff; exists (i, x); auto).
        apply in_map_iff in H. destruct H as ([a k] & Ea & H). simpl in Ea. subst a. eauto.
      - assert (H : In i (map fst texts)) by (rewrite Ek; apply in_map_iff; exists (i, x); auto).
        apply in_map_iff in H. destruct H as ([a k] & Ea & H). simpl in Ea. subst a. eauto. }
    assert (Nstray : stray f us v d dirs <-> exists i t, In (i, t) texts /\ file_source_root d1 i = None).
    { split.
      - intros (p & Hf & Hg & Np & Nc). pose proof (EL p) as Ep. rewrite Hf in Ep.
        assert (He : exists k j, entry (plog l p) = Some (k, j) /\ is_lost (k, j) = false).
        { fold g in Hg. destruct (flips p f us) as [|[|nn]].
          - destruct Ep as [_ Ep]. contradiction.
          - destruct Ep as [Ep _]. exists Create, true. auto.
          - destruct Ep as [[Ep _]|[_ Ep]]; [|contradiction]. exists Modify, true. auto. }
        destruct He as (k & j & He & Hl).
        destruct (index_of p (interner v)) as [i|] eqn:Ei.
        2: { rewrite (plog_none _ _ _ _ I Ei) in He. discriminate. }
        assert (Hin : In (i, k) fs) by (apply in_assoc_effective; apply (Ent _ _ _ Ei); eauto).
        destruct (proj2 (Keys i) (ex_intro _ k Hin)) as (t & Ht). exists i, t. split; [exact Ht|].
        destruct (file_source_root d1 i) eqn:Ed; [|reflexivity]. exfalso.
        assert (H : file_source_root d1 i <> None) by congruence. apply (D1 _ _ Ei) in H. destruct H as [H|(H1 & _ & H2)].
        + apply Np. destruct (file_source_root d i) eqn:E2; [|congruence]. eexists; eexists; eauto.
        + apply Nc. auto.
      - intros (i & t & Ht & Hn). destruct (proj1 (Keys i) (ex_intro _ t Ht)) as (k & Hk).
        destruct (In_fs _ _ Hk) as (p & j & Ei & He & Hl). exists p.
        assert (Np : ~ placed v d p).
        { intros (i' & k' & E1 & E2). assert (i' = i) as -> by congruence.
          assert (X : file_source_root d1 i <> None) by (apply (D1 _ _ Ei); left; congruence). congruence. }
        assert (Hf : f p = None) by (destruct (f p) eqn:Ef; [exfalso; apply Np, Pl; congruence|reflexivity]).
        split; [exact Hf|]. pose proof (Alive _ _ _ He Hl) as Al.
        assert (Hg : g p <> None) by (destruct k; auto; congruence).
        split; [exact Hg|]. split; [exact Np|]. intros (Rc & Un).
        assert (X : file_source_root d1 i <> None) by (apply (D1 _ _ Ei); right; auto). congruence. }
    destruct (set_texts texts d1) as [d'|] eqn:Es; cbn [bind].
    2: { apply Nstray. apply set_texts_panic; assumption. }
    assert (NDt : NoDup (map fst texts)) by (rewrite Ek; apply effective_nodup, merge_nodup).
    destruct (set_texts_spec _ _ _ NDt Es) as (_ & SR & SS & _ & _ & SF).
    assert (NS : ~ stray f us v d dirs).
    { intros H. apply Nstray in H. destruct H as (i & t & Hi & Hn). eapply SF; eauto. }
    assert (PL : forall p, placed v' (Db (file_text d') (file_source_root d') (source_root d') (source_roots d') (known v')) p <->
         placed v d p \/ (recomputed f us /\ g p <> None /\ under_any dirs p)).
    { intros p. unfold placed. cbn [file_source_root]. rewrite SR. change (interner v') with (interner v). split.
      - intros (i & k & Ei & Hk). assert (H : file_source_root d1 i <> None) by congruence.
        apply (D1 _ _ Ei) in H. destruct H as [H|H]; [left|right; exact H].
        destruct (file_source_root d i) as [k'|] eqn:E2; [|congruence]. eauto.
      - intros [(i & k & Ei & Hk)|(H1 & H2 & H3)].
        + assert (H : file_source_root d1 i <> None) by (apply (D1 _ _ Ei); left; congruence).
          destruct (file_source_root d1 i) as [k'|] eqn:E2; [|congruence]. eauto.
        + destruct (index_of p (interner v)) as [i|] eqn:Ei; [|rewrite (i_none _ _ _ I p Ei) in H2; congruence].
          assert (H : file_source_root d1 i <> None) by (apply (D1 _ _ Ei); right; auto).
          destruct (file_source_root d1 i) as [k'|] eqn:E2; [|congruence]. eauto. }
    split; [exact NS|]. cbn [st_vfs st_db st_roots].
    split; [exact I'|]. split; [reflexivity|].
    split; [destruct structure; [rewrite dedup_idem|]; exact Dd|].
    split; [intros i k; cbn [file_source_root source_root]; rewrite SR, SS; apply R1|].
    split.
    { split; cbn [file_source_root known_files].
      - intros i k. rewrite SR. change (interner v') with (interner v). intros Hk.
        unfold d1, roots_opt in Hk. destruct structure; [|eapply (proj1 Bd); eauto].
        destruct (set_roots_spec (partition v' roots) d) as (_ & _ & _ & X). rewrite X in Hk. clear X.
        destruct (last_pos (in_root i) (partition v' roots)) as [j|] eqn:El; [|eapply (proj1 Bd); eauto].
        apply last_pos_some in El. destruct El as (x & Q & y & Ep & _ & Hq & _).
        assert (HQ : In Q (partition v' roots)) by (rewrite Ep; apply in_app_iff; right; left; reflexivity).
        unfold in_root in Hq. rewrite (partition_sets _ _ _ HQ) in Hq. apply existsb_exists in Hq.
        destruct Hq as ([a q] & Ha & Eq). simpl in Eq. apply Nat.eqb_eq in Eq. subst a. apply filter_In in Ha.
        destruct Ha as [Ha _]. apply (inv_iter _ _ _ _ _ I') in Ha. destruct Ha as [Ha _].
        apply index_of_lt in Ha. exact Ha.
      - intros i e Hi. apply (known_spec _ _ _ I') in Hi. destruct Hi as (p & Ei & _). apply index_of_lt in Ei. exact Ei. }
    split; [exact PL|].
    intros p Hp. apply PL. fold g in Hp. destruct (f p) eqn:Ef; [left; apply Pl; congruence|].
    destruct (index_of p (interner v)) as [i|] eqn:Ei; [|rewrite (i_none _ _ _ I p Ei) in Hp; congruence].
    (* it has an entry, so its text was written *)
    pose proof (EL p) as Ep. rewrite Ef in Ep.
    assert (He : exists k j, entry (plog l p) = Some (k, j) /\ is_lost (k, j) = false).
    { destruct (flips p f us) as [|[|nn]].
      - destruct Ep as [_ Ep]. contradiction.
      - destruct Ep as [Ep _]. exists Create, true. auto.
      - destruct Ep as [[Ep _]|[_ Ep]]; [|contradiction]. exists Modify, true. auto. }
    destruct He as (k & j & He & Hl).
    assert (Hin : In (i, k) fs) by (apply in_assoc_effective; apply (Ent _ _ _ Ei); eauto).
    destruct (proj2 (Keys i) (ex_intro _ k Hin)) as (t & Ht).
    pose proof (SF _ _ Ht) as Hn. apply (D1 _ _ Ei) in Hn. destruct Hn as [Hn|Hn]; [left|right; exact Hn].
    destruct (file_source_root d i) as [k'|] eqn:E2; [|congruence]. exists i, k'. auto.
Qed.
