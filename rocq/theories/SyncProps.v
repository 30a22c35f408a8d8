(** C08 and C36: draining file changes and partitioning files into roots. *)
From Coq Require Import List NArith Bool String Arith Lia Sorted.
From Verif Require Import VfsModel VfsSpec VfsProofs LineEndSpec Utf8 SyncModel SyncSpec SyncProofs SyncWorld.
Import ListNotations.
Local Open Scope string_scope.

(** C08, the part that holds: after every drain the analysis holds, for every file, the text of its
    last contents, unless the file existed at an earlier drain and was then removed, re-created and
    removed again before the next one.
    Missing: such files, see C08_removal_lost_refuted. *)
Theorem C08_text_partial :
  forall roots h s p,
    play (init roots) (h ++ [Drain]) = Ok s -> ~ flickers true (h ++ [Drain]) p ->
    holds (contents_after h p) (analysis_text s p).
Proof.
  intros roots h s p H F. rewrite <- contents_drain. apply (w_text _ _ _ _ (drained _ _ _ H)). exact F.
Qed.
Print Assumptions C08_text_partial.

(** * Extensions *)
Lemma rsplit_dot_some : forall s a b, rsplit_dot s = Some (a, b) -> s = a ++ "." ++ b.
Proof.
  induction s as [|c s IH]; intros a b H; simpl in H; [discriminate|].
  destruct (rsplit_dot s) as [[x y]|] eqn:E.
  - injection H as <- <-. rewrite (IH _ _ eq_refl). reflexivity.
  - destruct (Ascii.eqb_spec c (Ascii.Ascii false true true true false true false false)); [|discriminate]. injection H as <- <-. subst. reflexivity.
Qed.
Lemma rsplit_dot_app : forall a b, rsplit_dot b = None -> rsplit_dot (a ++ "." ++ b) = Some (a, b).
Proof.
  intros a b H. induction a as [|c a IH].
  - change (match rsplit_dot b with Some (x, y) => Some (String (Ascii.Ascii false true true true false true false false) x, y) | None => Some ("", b) end = Some ("", b)).
    rewrite H. reflexivity.
  - change (match rsplit_dot (a ++ "." ++ b) with Some (x, y) => Some (String c x, y) | None => if Ascii.eqb c (Ascii.Ascii false true true true false true false false) then Some ("", a ++ "." ++ b) else None end = Some (String c a, b)).
    rewrite IH. reflexivity.
Qed.
Lemma path_extension_file : forall p e, path_extension p = Some e <-> sourcepawn_file p e.
Proof.
  intros p e. unfold path_extension, sourcepawn_file. split.
  - intros H. destruct (rev p) as [|name dir] eqn:E; [discriminate|].
    assert (P : p = (rev dir ++ [name])%list) by (rewrite <- (rev_involutive p), E; reflexivity).
    unfold file_extension in H. destruct (rsplit_dot name) as [[a b]|] eqn:R; [|discriminate].
    apply rsplit_dot_some in R. destruct a as [|c a]; [discriminate|].
    exists (rev dir), (String c a). split; [|discriminate]. rewrite P, R. do 2 f_equal.
    unfold extension_of_string in H. destruct (string_dec b "sp") as [->|]; [injection H as <-; reflexivity|].
    destruct (string_dec b "inc") as [->|]; [injection H as <-; reflexivity|discriminate].
  - intros (dir & stem & -> & N). rewrite rev_app_distr. cbn [rev app]. unfold file_extension.
    rewrite rsplit_dot_app by (destruct e; reflexivity).
    destruct stem; [congruence|]. destruct e; reflexivity.
Qed.

(** The files known to the analysis are the existing files with a SourcePawn extension, by
    increasing id; this holds without any condition. *)
Theorem C08_known_files :
  forall roots h s, play (init roots) (h ++ [Drain]) = Ok s ->
    (forall i e, In (i, e) (known_files (st_db s)) <->
       exists p, file_id_of (st_vfs s) p = Ok (Some i) /\ contents_after h p <> None /\ sourcepawn_file p e) /\
    StronglySorted (fun x y => fst x < fst y) (known_files (st_db s)).
Proof.
  intros roots h s H. pose proof (drained _ _ _ H) as W. split; [|exact (w_sorted _ _ _ _ W)].
  intros i e. rewrite (w_known _ _ _ _ W). destruct (w_inv _ _ _ _ W) as (l & I & _). rewrite app_nil_r in I.
  split; intros (p & H1 & H2 & H3); exists p; apply path_extension_file in H3.
  - rewrite there_drain in H2. unfold there in H2.
    destruct (contents_after h p) eqn:E; [|discriminate]. repeat split; auto; [|discriminate].
    rewrite (inv_file_id _ _ _ p I), contents_drain, E, H1. reflexivity.
  - split; [eapply file_id_index; eauto|]. split; [|exact H3]. rewrite there_drain. unfold there.
    destruct (contents_after h p); [reflexivity|congruence].
Qed.
Print Assumptions C08_known_files.

(** * Kinds of source roots *)
Lemma partition_kinds : forall v rs k R, nth_error (partition v rs) k = Some R -> is_include_dir R = negb (Nat.eqb k 0).
Proof.
  intros v rs k R. unfold partition. destruct (partition_files v rs) as [|[fs r] tl]; [destruct k; discriminate|].
  destruct k as [|k]; simpl; [intros H; injection H as <-; reflexivity|].
  rewrite nth_error_map. destruct (nth_error tl k); [|discriminate]. intros H. injection H as <-. reflexivity.
Qed.
Definition kinds (d : db) : Prop :=
  forall k R, source_root d k = Some R \/ nth_error (source_roots d) k = Some R -> is_include_dir R = negb (Nat.eqb k 0).
Lemma set_texts_roots : forall fs d d', set_texts fs d = Ok d' ->
  source_root d' = source_root d /\ source_roots d' = source_roots d.
Proof.
  induction fs as [|[i t] tl IH]; intros d d' H; simpl in H; [injection H as <-; auto|].
  destruct (file_source_root d i); [|discriminate]. destruct (source_root d n); [|discriminate].
  apply IH in H. exact H.
Qed.
Lemma play_kinds : forall h s s', kinds (st_db s) -> play s h = Ok s' -> kinds (st_db s').
Proof.
  induction h as [|e h IH]; intros s s' K H; simpl in H; [injection H as <-; exact K|].
  destruct (on_event s e) as [s1|] eqn:E; [|discriminate]. apply (IH s1 s'); [clear IH H|exact H].
  destruct e as [p c|]; simpl in E.
  - destruct (set_file_contents (st_vfs s) p c); [|discriminate]. injection E as <-. exact K.
  - unfold process_changes in E. destruct (take_changes (st_vfs s)) as [cs v].
    destruct cs as [|c cs]; [injection E as <-; exact K|].
    destruct (mapM _ _) as [texts|]; [|discriminate]. cbn [bind] in E.
    destruct (apply_change _ _ _) as [d|] eqn:A; [|discriminate]. injection E as <-.
    unfold apply_change in A. apply set_texts_roots in A. destruct A as [A1 A2].
    unfold kinds. cbn [fst st_db source_root source_roots]. rewrite A1, A2.
    destruct (existsb _ _); [|exact K].
    destruct (set_roots_spec (partition v (st_roots s)) (st_db s)) as (_ & S1 & S2 & _).
    intros k R [Hk|Hk].
    + rewrite S2 in Hk. destruct (nth_error (partition v (st_roots s)) k) as [R'|] eqn:N.
      * injection Hk as <-. eapply partition_kinds; eauto.
      * apply K. left. exact Hk.
    + rewrite S1 in Hk. eapply partition_kinds; eauto.
Qed.

(** The first configured directory is the workspace, all others are include directories; and the
    source roots are the configured directories in their order (repetitions in a row left out). *)
Theorem C08_root_kinds :
  forall roots h s, play (init roots) (h ++ [Drain]) = Ok s ->
    (forall k R, source_root (st_db s) k = Some R \/ nth_error (source_roots (st_db s)) k = Some R ->
       (is_include_dir R = true <-> k <> 0)) /\
    (source_roots (st_db s) = [] \/ map root_path (source_roots (st_db s)) = dedup roots).
Proof.
  intros roots h s H. split.
  - assert (K0 : kinds (st_db (init roots))) by (intros k R [Hk|Hk]; [discriminate|destruct k; discriminate]).
    intros k R HR. rewrite (play_kinds _ _ _ K0 H k R HR). destruct k; simpl; split; congruence.
  - destruct (w_paths _ _ _ _ (drained _ _ _ H)) as [[E _]|E]; auto.
Qed.
Print Assumptions C08_root_kinds.

(** Each source root holds exactly the existing files under its directory, if no file came and went
    three times between two drains. *)
Theorem C08_source_roots_partial :
  forall roots h s, play (init roots) (h ++ [Drain]) = Ok s -> (forall b p, ~ flickers b (h ++ [Drain]) p) ->
    forall R i p, In R (source_roots (st_db s)) ->
      (In (i, p) (file_set R) <->
       file_id_of (st_vfs s) p = Ok (Some i) /\ contents_after h p <> None /\ under p (root_path R)).
Proof.
  intros roots h s H F R i p HR. pose proof (drained _ _ _ H) as W.
  rewrite (w_sets _ _ _ _ W F R HR). destruct (w_inv _ _ _ _ W) as (l & I & _). rewrite app_nil_r in I.
  rewrite there_drain, starts_with_under. rewrite (inv_file_id _ _ _ p I), contents_drain. unfold there.
  destruct (contents_after h p); split; intros (H1 & H2 & H3); repeat split; congruence.
Qed.
Print Assumptions C08_source_roots_partial.

(** No drain crashes as long as all files lie under the configured roots and no file appears,
    disappears and appears again between two drains. *)
Theorem C08_no_crash_partial :
  forall roots h,
    (forall p c, In (Update p (Some c)) h -> exists r, In r roots /\ under p r) ->
    (forall p, ~ flickers false h p) ->
    exists s, play (init roots) h = Ok s.
Proof. exact play_ok. Qed.
Print Assumptions C08_no_crash_partial.

(** a workspace with an include directory inside *)
Definition ws : path := ["w"].
Definition inc : path := ["w"; "include"].
Definition a_sp : path := ["w"; "a.sp"].
Definition b_inc : path := ["w"; "include"; "b.inc"].
(** "a\r\n", "é" in UTF-8, and bytes that are not UTF-8 *)
Definition c08_history : list event :=
  [Update a_sp (Some [97; 13; 10]%N); Update b_inc (Some [195; 169]%N); Drain;
   Update a_sp (Some [98; 13; 10]%N); Update b_inc (Some [255]%N)].

Lemma no_flicker_by_count : forall b h p,
  List.length (filter (fun e => match e with Update q _ => if path_eq_dec q p then true else false | Drain => false end) h) < 3 ->
  ~ flickers b h p.
Proof.
  intros b h p L (h1 & b1 & b2 & b3 & h2 & -> & _ & _ & T0 & T1 & T2 & T3).
  assert (Step : forall x y, there (x ++ y) p <> there x p ->
     1 <= List.length (filter (fun e => match e with Update q _ => if path_eq_dec q p then true else false | Drain => false end) y)).
  { intros x y. induction y as [|e y IH] using rev_ind; [rewrite app_nil_r; congruence|].
    rewrite filter_app, app_length, app_assoc. intros H. destruct e as [q c|].
    - simpl. destruct (path_eq_dec q p) as [->|N]; [simpl; lia|]. simpl.
      assert (there (x ++ y) p <> there x p); [|specialize (IH H0); lia].
      intros E. apply H. rewrite <- E. unfold there. rewrite contents_update, upd_other by auto. reflexivity.
    - rewrite there_drain in H. specialize (IH H). simpl. lia. }
  rewrite !filter_app, !app_length in L.
  pose proof (Step h1 b1) as S1. pose proof (Step (h1 ++ b1)%list b2) as S2. pose proof (Step (h1 ++ b1 ++ b2)%list b3) as S3.
  rewrite <- !app_assoc in *. rewrite T1, T0 in S1. rewrite T2, T1 in S2. rewrite T3, T2 in S3.
  assert (Q1 : negb b <> b) by (destruct b; discriminate).
  assert (Q2 : b <> negb b) by (destruct b; discriminate).
  specialize (S1 Q1). specialize (S2 Q2). specialize (S3 Q1). lia.
Qed.

Example C08_nontrivial :
  (match play (init [ws; inc]) (c08_history ++ [Drain]) with
   | Ok s => analysis_text s a_sp = Some [98; 10]%N /\ analysis_text s b_inc = Some [] /\
             known_files (st_db s) = [(0, Sp); (1, Inc)] /\
             map (fun r => map fst (file_set r)) (source_roots (st_db s)) = [[0; 1]; [1]] /\
             map is_include_dir (source_roots (st_db s)) = [false; true]
   | Panic => False
   end) /\
  (forall b p, ~ flickers b (c08_history ++ [Drain]) p) /\
  (forall p c, In (Update p (Some c)) (c08_history ++ [Drain]) -> exists r, In r [ws; inc] /\ under p r).
Proof.
  split; [vm_compute; repeat split|]. split.
  - intros b p. apply no_flicker_by_count. cbn [c08_history app filter].
    destruct (path_eq_dec a_sp p) as [E1|], (path_eq_dec b_inc p) as [E2|];
      try (rewrite <- E1 in E2; discriminate E2); simpl; lia.
  - intros p c H. exists ws. split; [left; reflexivity|]. cbn [c08_history app In] in H.
    repeat (destruct H as [H|H]; [try discriminate H; injection H as <- _; eexists; reflexivity|]). destruct H.
Qed.

(** C08 refuted: a file that is removed, re-created and removed again between two drains stays in the
    analysis with its old text. *)
Theorem C08_removal_lost_refuted :
  exists roots h s p,
    play (init roots) (h ++ [Drain]) = Ok s /\ ~ holds (contents_after h p) (analysis_text s p).
Proof.
  eexists [ws], [Update a_sp (Some [97]%N); Drain; Update a_sp None; Update a_sp (Some [98]%N); Update a_sp None], _, a_sp.
  split; [vm_compute; reflexivity|]. vm_compute. intros H. inversion H.
Qed.
Print Assumptions C08_removal_lost_refuted.

(** C08 refuted: opening a file outside the workspace and the include directories crashes the
    server when the change is processed (its source root was never set). *)
Theorem C08_outside_roots_crash_refuted :
  exists roots p c, play (init roots) [Update p (Some c); Drain] = Panic.
Proof. exists [ws], ["tmp"; "a.sp"], [97%N]. vm_compute. reflexivity. Qed.
Print Assumptions C08_outside_roots_crash_refuted.

(** C08 refuted: so does a file of the workspace that appears, disappears and appears again between
    two drains: the merge turns its creation into a modification. *)
Theorem C08_recreated_crash_refuted :
  exists roots p c, (exists r, In r roots /\ under p r) /\
    play (init roots) [Update p (Some c); Update p None; Update p (Some c); Drain] = Panic.
Proof.
  exists [ws], a_sp, [97%N]. split; [exists ws; split; [left; reflexivity|eexists; reflexivity]|].
  vm_compute. reflexivity.
Qed.
Print Assumptions C08_recreated_crash_refuted.

(** C36, the part that holds: after every drain each existing file belongs to one source root, that of
    the last configured directory containing it.
    Missing: that it is the nearest one, see C36_nearest_partial and C36_nearest_refuted. *)
Theorem C36_last_root_partial :
  forall roots h s p, play (init roots) (h ++ [Drain]) = Ok s -> contents_after h p <> None ->
    exists k R, root_of s p = Some k /\ source_root (st_db s) k = Some R /\
                last_containing roots p (root_path R).
Proof.
  intros roots h s p H Hp. pose proof (drained _ _ _ H) as W.
  assert (T : there (h ++ [Drain]) p = true)
    by (rewrite there_drain; unfold there; destruct (contents_after h p); congruence).
  pose proof (w_there _ _ _ _ W p T) as Hr. destruct (root_of s p) as [k|] eqn:Ek; [|congruence].
  pose proof (w_root _ _ _ _ W p k Ek) as El. exists k.
  assert (Hs : source_root (st_db s) k <> None).
  { unfold root_of in Ek. destruct (index_of p (interner (st_vfs s))) as [i|]; [|discriminate].
    eapply (w_some _ _ _ _ W); eauto. }
  destruct (source_root (st_db s) k) as [R|] eqn:ER; [|congruence]. exists R. split; [reflexivity|]. split; [reflexivity|].
  pose proof (w_source _ _ _ _ W k R ER) as En.
  destruct (last_pos_some _ _ _ _ El) as (a & r & b & Ed & Er & Hu & Hb).
  assert (r = root_path R) as -> by congruence.
  apply dedup_last_containing. exists a, b. split; [exact Ed|]. split; [apply starts_with_under; exact Hu|].
  intros x Hx U. apply starts_with_under in U. rewrite (Hb x Hx) in U. discriminate.
Qed.
Print Assumptions C36_last_root_partial.

Example C36_nontrivial :
  (match play (init [ws; inc]) (c08_history ++ [Drain]) with
   | Ok s => root_of s a_sp = Some 0 /\ root_of s b_inc = Some 1
   | Panic => False
   end) /\ contents_after c08_history b_inc <> None.
Proof. vm_compute. repeat split. discriminate. Qed.

(** It is the nearest one when no directory is configured after one of its subdirectories. *)
Theorem C36_nearest_partial :
  forall roots h s p, play (init roots) (h ++ [Drain]) = Ok s -> contents_after h p <> None ->
    (forall before r after x, roots = (before ++ r :: after)%list -> In x after -> under r x -> x = r) ->
    exists k R, root_of s p = Some k /\ source_root (st_db s) k = Some R /\
      In (root_path R) roots /\ under p (root_path R) /\
      forall r, In r roots -> under p r -> under (root_path R) r.
Proof.
  intros roots h s p H Hp Ord. destruct (C36_last_root_partial _ _ _ _ H Hp) as (k & R & H1 & H2 & a & b & E & U & F).
  exists k, R. split; [exact H1|]. split; [exact H2|]. split; [rewrite E; apply in_app_iff; right; left; reflexivity|].
  split; [exact U|]. intros r Hr Ur. rewrite E in Hr. apply in_app_iff in Hr. destruct Hr as [Hr|[<-|Hr]].
  - destruct U as (u & Eu). destruct Ur as (w & Ew).
    assert (C : under (root_path R) r \/ under r (root_path R)).
    { clear - Eu Ew. rewrite Eu in Ew. clear p Eu. revert r Ew.
      induction (root_path R) as [|x q IH]; intros r Ew.
      - right. exists r. reflexivity.
      - destruct r as [|y r]; [left; exists (x :: q); reflexivity|]. injection Ew as -> Ew.
        destruct (IH _ Ew) as [(z & Ez)|(z & Ez)]; [left|right]; exists z; simpl; rewrite Ez; reflexivity. }
    destruct C as [C|C]; [exact C|]. apply in_split in Hr. destruct Hr as (a1 & a2 & ->).
    rewrite (Ord a1 r (a2 ++ root_path R :: b)%list (root_path R)); auto.
    + exists []. rewrite app_nil_r. reflexivity.
    + rewrite E, <- app_assoc. reflexivity.
    + apply in_app_iff. right. left. reflexivity.
  - exists []. rewrite app_nil_r. reflexivity.
  - exfalso. exact (F r Hr Ur).
Qed.
Print Assumptions C36_nearest_partial.

(** C36 refuted for the nearest enclosing directory (as documented for SourceRoot): when an outer
    include directory is configured after an inner one, the file belongs to the outer one. *)
Theorem C36_nearest_refuted :
  exists roots h s p k R,
    play (init roots) (h ++ [Drain]) = Ok s /\ contents_after h p <> None /\
    root_of s p = Some k /\ source_root (st_db s) k = Some R /\
    exists r, In r roots /\ under p r /\ under r (root_path R) /\ r <> root_path R.
Proof.
  eexists [ws; inc; ["w"; "include"; "lib"]; inc],
    [Update ["w"; "include"; "lib"; "b.inc"] (Some [97]%N)], _, ["w"; "include"; "lib"; "b.inc"], 3, _.
  split; [vm_compute; reflexivity|]. split; [discriminate|]. split; [vm_compute; reflexivity|].
  split; [vm_compute; reflexivity|]. exists ["w"; "include"; "lib"]. repeat split.
  - right. right. left. reflexivity.
  - eexists; reflexivity.
  - eexists; reflexivity.
  - discriminate.
Qed.
Print Assumptions C36_nearest_refuted.
