(** C42: the readiness status. *)
From Coq Require Import List Bool Arith Lia.
From Verif Require Import StatusModel StatusSpec StatusProofs.
Import ListNotations.

Lemma run_app : forall p d h1 h2, run p d (h1 ++ h2) = fold_left (step p) h2 (run p d h1).
Proof. intros. unfold run. apply fold_left_app. Qed.

Lemma run_ninv : forall p d h, ninv (run p d h).
Proof.
  intros p d h. unfold run. assert (N : ninv (start d)) by (destruct d; split; reflexivity || exact I).
  revert N. generalize (start d). induction h as [|e h IH]; intros s N; [exact N|]. cbn [fold_left]. apply IH.
  destruct e as [i| |]; cbn [step].
  - destruct i; try (apply ninv_turn; exact N). destruct (from_loader s); [exact N|apply ninv_turn; exact N].
  - destruct (loading s); [exact N|]. destruct (to_loader s) as [|[v n] tl]; exact N.
  - destruct (loading s) as [[[v n] i]|]; exact N.
Qed.

(** Whatever the settings changes and however the loader and the main loop interleave: a server that considers itself
    ready has handled every entry of the latest configuration, and the handling of progress never crashes. *)
Theorem C42_ready_is_loaded :
  forall prefill dirs h,
    let s := run prefill dirs h in
    crashed s = false /\ (is_quiescent s = true -> all_loaded s).
Proof.
  intros prefill dirs h s. pose proof (inv_run prefill dirs h) as I. fold s in I. split; [apply I|].
  intros Q n i Hn Hi. apply quiescent_loaded with (n := n); auto.
  destruct (length (sizes s)) as [|k] eqn:E; [destruct (sizes s); [discriminate Hn|discriminate E]|].
  cbn [size]. replace (S k - 1) with k in Hn by lia. exact Hn.
Qed.
Print Assumptions C42_ready_is_loaded.

(** Conversely, when there is nothing left to load or to handle, a server that has reported a status is ready. *)
Theorem C42_loaded_is_ready :
  forall prefill dirs h,
    let s := run prefill dirs h in
    settled s -> last_reported_status s <> None -> is_quiescent s = true.
Proof. intros prefill dirs h s S N. apply settled_quiescent; auto. apply inv_run. Qed.
Print Assumptions C42_loaded_is_ready.

(** The client is only told changes, and what it was told last is the status the server last reported. *)
Theorem C42_only_changes :
  forall prefill dirs h,
    let s := run prefill dirs h in
    all_changes (told s) /\
    match last_reported_status s with
    | None => told s = []
    | Some st => exists before, told s = before ++ [st]
    end.
Proof. intros prefill dirs h. apply (run_ninv prefill dirs h). Qed.
Print Assumptions C42_only_changes.

(** After every turn of the main loop but the first, what the client was told last is the current status. *)
Theorem C42_current_partial :
  forall prefill dirs h i,
    last_reported_status (run prefill dirs h) <> None ->
    (i = Vfs -> from_loader (run prefill dirs h) <> []) ->
    let s := run prefill dirs (h ++ [Turn i]) in
    exists before, told s = before ++ [current_status s].
Proof.
  intros prefill dirs h i N V s. pose proof (run_ninv prefill dirs h) as I.
  assert (E : s = turn prefill (run prefill dirs h) i).
  { unfold s. rewrite run_app. cbn [fold_left step]. destruct i; try reflexivity.
    destruct (from_loader (run prefill dirs h)); [destruct (V eq_refl eq_refl)|reflexivity]. }
  destruct (ninv_turn prefill _ i I) as ([_ L] & _ & K). specialize (K N). rewrite <- E in *. rewrite K in L. exact L.
Qed.
Print Assumptions C42_current_partial.

(** The loader always comes to an end: with at most as many steps as there is work left (one for each configuration that waits
    and one for each directory of it), nothing is left to load. *)
Definition work (s : state) : nat :=
  match loading s with Some (_, n, i) => n - i | None => 0 end + list_sum (map (fun c => S (snd c)) (to_loader s)).
Definition of_loader (e : event) : Prop := e = LoaderTake \/ e = LoaderLoad.
Lemma work_done : forall prefill k s, inv s -> work s <= k -> exists h, length h <= k /\ (forall e, In e h -> of_loader e) /\
  let s' := fold_left (step prefill) h s in to_loader s' = [] /\ loading s' = None.
Proof.
  intros prefill. induction k as [|k IH]; intros s I W.
  - exists []. split; [cbn; lia|]. split; [intros e []|]. cbn [fold_left]. unfold work in W. destruct I as [_ _ _ _ _ (t & _ & _ & _ & L)].
    destruct (loading s) as [[[v n] i]|]; [lia|]. destruct (to_loader s); [auto|cbn in W; lia].
  - pose proof I as [_ _ _ _ _ (t & _ & _ & _ & L)]. unfold work in W. destruct (loading s) as [[[v n] i]|] eqn:Ld.
    + destruct (IH (step prefill s LoaderLoad)) as (h & Lh & Hh & E); [apply inv_step; exact I| |].
      { unfold work. cbn [step]. rewrite Ld. cbn [loading to_loader]. destruct (S i =? n) eqn:Q; lia. }
      exists (LoaderLoad :: h). split; [cbn [length]; lia|]. split; [intros e [<-|Ie]; [right; reflexivity|auto]|exact E].
    + destruct (to_loader s) as [|[v n] l] eqn:Tl.
      * exists []. split; [cbn; lia|]. split; [intros e []|]. cbn [fold_left]. auto.
      * destruct (IH (step prefill s LoaderTake)) as (h & Lh & Hh & E); [apply inv_step; exact I| |].
        { unfold work. cbn [step]. rewrite Ld, Tl. cbn [loading to_loader]. cbn [map snd list_sum fold_right] in W. destruct (n =? 0) eqn:Q.
          - change (0 + list_sum (map (fun c : nat * nat => S (snd c)) l) <= k). unfold list_sum in *. lia.
          - change (n - 0 + list_sum (map (fun c : nat * nat => S (snd c)) l) <= k). unfold list_sum in *. lia. }
        exists (LoaderTake :: h). split; [cbn [length]; lia|]. split; [intros e [<-|Ie]; [left; reflexivity|auto]|exact E].
Qed.
Theorem C42_settles : forall prefill dirs h, exists h', length h' <= work (run prefill dirs h) /\ (forall e, In e h' -> of_loader e) /\
  let s := run prefill dirs (h ++ h' ++ [Turn Vfs; Turn Other; Turn Other]) in
  settled s /\ is_quiescent s = true /\ exists before errors, told s = before ++ [Status errors true].
Proof.
  intros prefill dirs h. destruct (work_done prefill (work (run prefill dirs h)) _ (inv_run prefill dirs h) (le_n _)) as (h' & Lh & Hh & Tl & Ld).
  exists h'. split; [exact Lh|]. split; [exact Hh|]. rewrite <- run_app in Tl, Ld.
  set (s1 := run prefill dirs (h ++ h')) in *. intros s.
  assert (Ot : forall x, to_loader (turn prefill x Other) = to_loader x /\ loading (turn prefill x Other) = loading x /\ from_loader (turn prefill x Other) = from_loader x).
  { intros x. unfold turn. destruct (is_quiescent x && negb (is_quiescent x) && prefill); unfold update_status_or_notify;
      destruct (match last_reported_status _ with Some _ => _ | None => _ end); repeat split. }
  set (s2 := step prefill s1 (Turn Vfs)).
  assert (S2 : settled s2).
  { unfold s2. cbn [step]. destruct (from_loader s1) as [|x l] eqn:Fl; [repeat split; assumption|]. unfold turn. rewrite Fl.
    destruct (handle_fold (x :: l) s1) as ((A1 & A2 & A3 & A4 & A5) & _).
    set (s3 := set_inbox _ []). assert (S3 : settled s3) by (repeat split; unfold s3; cbn [set_inbox to_loader loading]; congruence).
    clearbody s3. destruct (_ && prefill); unfold update_status_or_notify; destruct (match last_reported_status _ with Some _ => _ | None => _ end); exact S3. }
  assert (Es : s = turn prefill (turn prefill s2 Other) Other).
  { unfold s. rewrite app_assoc, run_app. fold s1. reflexivity. }
  assert (Se : settled s).
  { rewrite Es. destruct (Ot (turn prefill s2 Other)) as (O1 & O2 & O3), (Ot s2) as (P1 & P2 & P3), S2 as (Q1 & Q2 & Q3). repeat split; congruence. }
  assert (R2 : run prefill dirs (h ++ h' ++ [Turn Vfs; Turn Other]) = turn prefill s2 Other) by (rewrite app_assoc, run_app; fold s1; reflexivity).
  pose proof (run_ninv prefill dirs (h ++ h' ++ [Turn Vfs])) as Nv.
  assert (R1 : run prefill dirs (h ++ h' ++ [Turn Vfs]) = s2) by (rewrite app_assoc, run_app; fold s1; reflexivity). rewrite R1 in Nv.
  destruct (ninv_turn prefill s2 Other Nv) as (N3 & L3 & _). destruct (ninv_turn prefill _ Other N3) as (_ & L4 & _).
  assert (Q : is_quiescent s = true) by (apply settled_quiescent; [unfold s; apply inv_run|exact Se|rewrite Es; exact L4]).
  split; [exact Se|]. split; [exact Q|].
  destruct (C42_current_partial prefill dirs (h ++ h' ++ [Turn Vfs; Turn Other]) Other) as (before & T); [rewrite R2; exact L3|discriminate|].
  assert (E : run prefill dirs ((h ++ h' ++ [Turn Vfs; Turn Other]) ++ [Turn Other]) = s) by (rewrite run_app, R2, Es; reflexivity).
  cbv zeta in T. rewrite E in T. exists before. unfold current_status in T. rewrite Q in T. eexists. exact T.
Qed.
Print Assumptions C42_settles.

(** When the client knows the current status, a turn requests indexing exactly if the server becomes ready in it and
    indexing is enabled, once; and it tells the client the new status exactly if it differs.
    Missing: the turn after the first one, see C42_first_turn_refuted. *)
Theorem C42_indexing_partial :
  forall prefill dirs h i before,
    let s := run prefill dirs h in
    (i = Vfs -> from_loader s <> []) ->
    told s = before ++ [current_status s] ->
    let s' := run prefill dirs (h ++ [Turn i]) in
    let old := current_status s in let new := current_status s' in
    effects s' = effects s ++
      (if prefill && quiescent new && negb (quiescent old) then [RequestIndexing] else []) ++
      (if status_eqb old new then [] else [Notify new]).
Proof.
  intros prefill dirs h i before s V T s' old new.
  assert (E : s' = turn prefill s i).
  { unfold s'. rewrite run_app. fold s. cbn [fold_left step]. destruct i; try reflexivity.
    destruct (from_loader s); [destruct (V eq_refl eq_refl)|reflexivity]. }
  assert (L : last_reported_status s = Some old).
  { pose proof (run_ninv prefill dirs h) as [_ N]. fold s in N. destruct (last_reported_status s) as [st|].
    - destruct N as (b & N). rewrite T in N. apply app_inj_tail in N. destruct N as [_ N]. rewrite <- N. reflexivity.
    - rewrite T in N. destruct before; discriminate. }
  assert (N : last_reported_status s' = Some new).
  { unfold new. rewrite E. apply ninv_turn; [apply run_ninv|congruence]. }
  clear T V. unfold new in *. clear new. rewrite E in *. clear E s'. clearbody s. unfold turn in *.
  set (s1 := match i with Vfs => _ | Settings e d => _ | Other => s end) in *.
  assert (S1 : effects s1 = effects s /\ last_reported_status s1 = last_reported_status s).
  { unfold s1. destruct i as [|e [d|]|]; auto. destruct (handle_fold (from_loader s) s) as (_ & _ & C & D & _).
    cbn [set_inbox effects last_reported_status]. auto. }
  clearbody s1. destruct S1 as [S1 S2].
  set (s2 := if is_quiescent s1 && negb (is_quiescent s) && prefill then add_effect s1 RequestIndexing else s1) in *.
  assert (C2 : current_status s2 = current_status s1) by (unfold s2; destruct (_ && _ && _); reflexivity).
  assert (L2 : last_reported_status s2 = Some old) by (unfold s2; destruct (_ && _ && _); cbn [add_effect last_reported_status]; congruence).
  assert (C3 : current_status (update_status_or_notify s2) = current_status s1).
  { unfold update_status_or_notify. rewrite L2. destruct (status_eqb _ _); [exact C2|]. rewrite <- C2.
    unfold current_status. cbn [add_effect set_last config_errors]. f_equal. unfold is_quiescent.
    cbn [add_effect set_last last_reported_status vfs_progress_config_version vfs_config_version vfs_progress_n_done vfs_progress_n_total].
    rewrite L2. reflexivity. }
  rewrite C3. unfold update_status_or_notify. rewrite L2, C2.
  assert (E2 : effects s2 = effects s ++ (if prefill && quiescent (current_status s1) && negb (quiescent old) then [RequestIndexing] else [])).
  { unfold s2, old. cbn [current_status quiescent]. destruct prefill, (is_quiescent s1), (is_quiescent s);
      cbn [andb negb add_effect effects]; rewrite S1, ?app_nil_r; reflexivity. }
  destruct (status_eqb old (current_status s1)); cbn [add_effect set_last effects]; rewrite E2, <- ?app_assoc, ?app_nil_r; reflexivity.
Qed.
Print Assumptions C42_indexing_partial.

(** Finding: after the first turn this can be false. If that turn finds everything loaded, the client is told that the
    server is not ready although it is; no indexing is requested then, nor at any later turn before something else
    makes the server busy. *)
Theorem C42_first_turn_refuted :
  forall dirs k,
    let h := [LoaderTake] ++ repeat LoaderLoad (S dirs) ++ [Turn Vfs] in
    let s := run true (Some dirs) h in
    told s = [Status HOk false] /\ current_status s = Status HOk true /\
    ~ In RequestIndexing (effects (run true (Some dirs) (h ++ repeat (Turn Other) k))).
Proof.
  intros dirs k h.
  assert (L : forall j s v n i, loading s = Some (v, n, i) -> i + j = n -> 0 < j ->
    fold_left (step true) (repeat LoaderLoad j) s =
      State (vfs_config_version s) (vfs_progress_config_version s) (vfs_progress_n_total s) (vfs_progress_n_done s)
        (last_reported_status s) (config_errors s) (effects s) (crashed s) (to_loader s) None
        (from_loader s ++ flat_map (fun x => [Loaded v x; Progress n (S x) v]) (seq i j)) (sizes s) (handled s)).
  { induction j as [|j IH]; intros s v n i Hl Hn Hj; [lia|]. cbn [repeat fold_left step]. rewrite Hl.
    destruct j as [|j].
    - replace (S i =? n) with true by (symmetry; apply Nat.eqb_eq; lia). reflexivity.
    - replace (S i =? n) with false by (symmetry; apply Nat.eqb_neq; lia).
      rewrite (IH _ v n (S i)); [|reflexivity|lia|lia].
      cbn [vfs_config_version vfs_progress_config_version vfs_progress_n_total vfs_progress_n_done last_reported_status
           config_errors effects crashed to_loader from_loader sizes handled]. rewrite <- app_assoc. reflexivity. }
  set (s1 := run true (Some dirs) ([LoaderTake] ++ repeat LoaderLoad (S dirs))).
  assert (E1 : s1 = State 1 0 0 0 None false [] false [] None
      (Progress (S dirs) 0 1 :: flat_map (fun x => [Loaded 1 x; Progress (S dirs) (S x) 1]) (seq 0 (S dirs))) [S dirs] []).
  { unfold s1, run. rewrite fold_left_app. rewrite (L (S dirs) _ 1 (S dirs) 0); [reflexivity|reflexivity|lia|lia]. }
  assert (Q : last_progress (from_loader s1) = (S dirs, S dirs, 1)).
  { rewrite E1. cbn [from_loader]. rewrite seq_S, flat_map_app. cbn [flat_map app].
    change (Progress (S dirs) 0 1 :: ?x) with ([Progress (S dirs) 0 1] ++ x). rewrite app_assoc, last_progress_app. reflexivity. }
  set (s := run true (Some dirs) h).
  assert (Es : s = turn true s1 Vfs).
  { unfold s, h. rewrite app_assoc, run_app. fold s1. cbn [fold_left step]. rewrite E1. reflexivity. }
  set (s2 := set_inbox (fold_left handle_vfs_msg (from_loader s1) s1) []).
  destruct (handle_fold (from_loader s1) s1) as ((A1 & A2 & A3 & A4 & A5) & B & C & D & F).
  assert (Sn : (vfs_progress_n_total s2, vfs_progress_n_done s2, vfs_progress_config_version s2) = (S dirs, S dirs, 1)).
  { rewrite <- Q. pose proof (handle_fold_seen (from_loader s1) s1) as H. cbv zeta in H. rewrite B in H.
    assert (H0 : handled s1 = []) by (rewrite E1; reflexivity). rewrite H0 in H. cbn [app] in H. apply H. rewrite E1. reflexivity. }
  assert (S1 : vfs_progress_n_total s2 = S dirs) by congruence. assert (S2 : vfs_progress_n_done s2 = S dirs) by congruence.
  assert (S3 : vfs_progress_config_version s2 = 1) by congruence.
  assert (V : vfs_config_version s2 = 1) by (change (vfs_config_version s2) with (vfs_config_version (fold_left handle_vfs_msg (from_loader s1) s1)); rewrite A1, E1; reflexivity).
  assert (La : last_reported_status s2 = None) by (change (last_reported_status s2) with (last_reported_status (fold_left handle_vfs_msg (from_loader s1) s1)); rewrite C, E1; reflexivity).
  assert (Ef : effects s2 = []) by (change (effects s2) with (effects (fold_left handle_vfs_msg (from_loader s1) s1)); rewrite D, E1; reflexivity).
  assert (Er : config_errors s2 = false) by (change (config_errors s2) with (config_errors (fold_left handle_vfs_msg (from_loader s1) s1)); rewrite F, E1; reflexivity).
  assert (Q2 : is_quiescent s2 = false) by (unfold is_quiescent; rewrite La; reflexivity).
  assert (Es' : s = add_effect (set_last s2 (Status HOk false)) (Notify (Status HOk false))).
  { rewrite Es. unfold turn. fold s2. rewrite Q2. cbn [andb]. unfold update_status_or_notify. rewrite La.
    unfold current_status. rewrite Er, Q2. reflexivity. }
  clearbody s2.
  assert (T : effects s = [Notify (Status HOk false)]) by (rewrite Es'; cbn [add_effect set_last effects]; rewrite Ef; reflexivity).
  assert (Qs : is_quiescent s = true).
  { rewrite Es'. unfold is_quiescent. cbn [add_effect set_last last_reported_status vfs_progress_config_version vfs_config_version vfs_progress_n_done vfs_progress_n_total].
    rewrite S1, S2, S3, V, !Nat.ltb_irrefl. reflexivity. }
  assert (Es2 : config_errors s = false) by (rewrite Es'; exact Er).
  split; [unfold told; rewrite T; reflexivity|]. split; [unfold current_status; rewrite Es2, Qs; reflexivity|].
  rewrite run_app. fold s.
  assert (G : forall j s0, is_quiescent s0 = true -> ~ In RequestIndexing (effects s0) ->
     ~ In RequestIndexing (effects (fold_left (step true) (repeat (Turn Other) j) s0))).
  { induction j as [|j IH]; intros s0 G1 G2; [exact G2|]. cbn [repeat fold_left step]. apply IH.
    - unfold turn. rewrite G1. cbn [andb negb]. unfold update_status_or_notify. destruct (last_reported_status s0) eqn:El.
      + destruct (status_eqb _ _); [exact G1|]. unfold is_quiescent in *. rewrite El in G1. exact G1.
      + unfold is_quiescent in G1. rewrite El in G1. discriminate G1.
    - unfold turn. rewrite G1. cbn [andb negb]. unfold update_status_or_notify.
      destruct (match last_reported_status s0 with Some _ => _ | None => _ end); [exact G2|].
      cbn [add_effect set_last effects]. intros H. apply in_app_or in H. destruct H as [H|[H|[]]]; [exact (G2 H)|discriminate]. }
  apply G; [exact Qs|]. rewrite T. intros [H|[]]. discriminate.
Qed.
Print Assumptions C42_first_turn_refuted.

Example C42_nontrivial :
  let h := [Turn Other; LoaderTake; Turn Vfs; LoaderLoad; Turn (Settings true (Some 0)); LoaderLoad; LoaderTake; Turn Vfs; LoaderLoad; Turn Vfs] in
  let s := run true (Some 1) h in
  settled s /\ last_reported_status s = Some (Status HWarning true) /\
  effects s = [Notify (Status HOk false); Notify (Status HWarning false); RequestIndexing; Notify (Status HWarning true)] /\
  is_quiescent s = true /\ sizes s = [2; 1].
Proof. vm_compute. repeat split. Qed.
Example C42_settles_nontrivial :
  work (run true (Some 1) []) = 3 /\ work (run true (Some 1) [LoaderTake; LoaderLoad; Turn (Settings false (Some 2))]) = 5 /\
  (let s := run true (Some 1) ([Turn Other; LoaderTake; LoaderLoad; LoaderLoad] ++ [Turn Vfs; Turn Other; Turn Other]) in
   is_quiescent s = true /\ told s = [Status HOk false; Status HOk true]).
Proof. vm_compute. repeat split. Qed.
