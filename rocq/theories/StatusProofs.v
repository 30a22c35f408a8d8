From Coq Require Import List Bool Arith Lia.
From Verif Require Import StatusModel StatusSpec.
Import ListNotations.

(** the last progress message *)
Definition last_progress (l : list loader_msg) : nat * nat * nat :=
  fold_left (fun acc m => match m with Progress t d v => (t, d, v) | _ => acc end) l (0, 0, 0).

Lemma last_progress_app : forall a b, last_progress (a ++ b) =
  fold_left (fun acc m => match m with Progress t d v => (t, d, v) | _ => acc end) b (last_progress a).
Proof. intros. unfold last_progress. apply fold_left_app. Qed.

(** a progress message comes after the entries it announces *)
Definition ordered (l : list loader_msg) : Prop :=
  forall l1 l2 n k v, l = l1 ++ Progress n k v :: l2 -> k <= n /\ forall i, i < k -> In (Loaded v i) l1.

Definition stream (s : state) := handled s ++ from_loader s.

Definition size (s : state) (v : nat) : option nat := match v with 0 => None | S v => nth_error (sizes s) v end.

(** [t]: how many configurations the loader has taken *)
Record inv (s : state) : Prop := {
  i_crash : crashed s = false;
  i_version : vfs_config_version s = length (sizes s);
  i_pos : Forall (fun n => 0 < n) (sizes s);
  i_seen : (vfs_progress_n_total s, vfs_progress_n_done s, vfs_progress_config_version s) = last_progress (handled s);
  i_ordered : ordered (stream s);
  i_loader : exists t,
      t + length (to_loader s) = length (sizes s) /\
      (forall k v n, nth_error (to_loader s) k = Some (v, n) -> v = S (t + k) /\ size s v = Some n) /\
      (forall n k v, In (Progress n k v) (stream s) -> v <= t /\ size s v = Some n) /\
      match loading s with
      | Some (v, n, i) => v = t /\ size s v = Some n /\ i < n /\ last_progress (stream s) = (n, i, v) /\
                          (forall j, j < i -> In (Loaded v j) (stream s))
      | None => last_progress (stream s) = match size s t with Some n => (n, n, t) | None => (0, 0, 0) end
      end }.

Lemma ordered_snoc : forall l n k v, ordered l -> k <= n -> (forall i, i < k -> In (Loaded v i) l) -> ordered (l ++ [Progress n k v]).
Proof.
  intros l n k v O K H l1 l2 n' k' v' E. destruct l2 as [|x l2] using rev_ind.
  - apply app_inj_tail in E. destruct E as [-> E]. injection E as -> -> ->. auto.
  - clear IHl2. rewrite app_comm_cons, app_assoc in E. apply app_inj_tail in E. destruct E as [-> _].
    apply (O l1 l2). reflexivity.
Qed.

Lemma ordered_loaded : forall l v i, ordered l -> ordered (l ++ [Loaded v i]).
Proof.
  intros l v i O l1 l2 n' k' v' E. destruct l2 as [|x l2] using rev_ind.
  - apply app_inj_tail in E. destruct E as [_ E]. discriminate.
  - clear IHl2. rewrite app_comm_cons, app_assoc in E. apply app_inj_tail in E. destruct E as [-> _].
    apply (O l1 l2). reflexivity.
Qed.

Definition same_loader (s s' : state) : Prop :=
  vfs_config_version s' = vfs_config_version s /\ sizes s' = sizes s /\ to_loader s' = to_loader s /\
  loading s' = loading s /\ from_loader s' = from_loader s.

(** handling messages *)
Lemma handle_fold : forall ms s,
  same_loader s (fold_left handle_vfs_msg ms s) /\
  handled (fold_left handle_vfs_msg ms s) = handled s ++ ms /\
  last_reported_status (fold_left handle_vfs_msg ms s) = last_reported_status s /\
  effects (fold_left handle_vfs_msg ms s) = effects s /\
  config_errors (fold_left handle_vfs_msg ms s) = config_errors s.
Proof.
  induction ms as [|m ms IH]; intros s; cbn [fold_left].
  - rewrite app_nil_r. repeat split.
  - destruct (IH (handle_vfs_msg s m)) as ((A1 & A2 & A3 & A4 & A5) & B & C & D & F).
    assert (Q : same_loader s (handle_vfs_msg s m) /\ handled (handle_vfs_msg s m) = handled s ++ [m] /\
                last_reported_status (handle_vfs_msg s m) = last_reported_status s /\ effects (handle_vfs_msg s m) = effects s /\
                config_errors (handle_vfs_msg s m) = config_errors s)
      by (destruct m; repeat split).
    destruct Q as ((Q1 & Q2 & Q3 & Q4 & Q5) & Q6 & Q7 & Q8 & Q9).
    unfold same_loader. rewrite A1, A2, A3, A4, A5, B, C, D, F, Q1, Q2, Q3, Q4, Q5, Q6, Q7, Q8, Q9, <- app_assoc. repeat split.
Qed.

Lemma handle_fold_seen : forall ms s,
  (vfs_progress_n_total s, vfs_progress_n_done s, vfs_progress_config_version s) = last_progress (handled s) ->
  let s' := fold_left handle_vfs_msg ms s in
  (vfs_progress_n_total s', vfs_progress_n_done s', vfs_progress_config_version s') = last_progress (handled s').
Proof.
  induction ms as [|m ms IH]; intros s H; cbn [fold_left]; [exact H|]. apply IH.
  destruct m as [v i|t d v]; cbn [handle_vfs_msg vfs_progress_n_total vfs_progress_n_done vfs_progress_config_version handled];
    rewrite last_progress_app; cbn [fold_left]; [exact H|reflexivity].
Qed.

Lemma handle_fold_crash : forall ms s,
  crashed s = false -> (forall n k v, In (Progress n k v) ms -> k <= n) -> crashed (fold_left handle_vfs_msg ms s) = false.
Proof.
  induction ms as [|m ms IH]; intros s C H; cbn [fold_left]; [exact C|]. apply IH; [|intros n k v Q; apply (H n k v); right; exact Q].
  destruct m as [v i|t d v]; cbn [handle_vfs_msg crashed]; [exact C|]. rewrite C. cbn [orb].
  specialize (H t d v (or_introl eq_refl)). destruct (d =? 0) eqn:E1, (d <? t) eqn:E2, (d =? t) eqn:E3; cbn; try reflexivity.
  apply Nat.ltb_ge in E2. apply Nat.eqb_neq in E3. lia.
Qed.

Lemma ordered_le : forall l n k v, ordered l -> In (Progress n k v) l -> k <= n.
Proof. intros l n k v O H. apply in_split in H. destruct H as (l1 & l2 & ->). exact (proj1 (O l1 l2 n k v eq_refl)). Qed.

Lemma inv_vfs : forall s, inv s -> inv (set_inbox (fold_left handle_vfs_msg (from_loader s) s) []).
Proof.
  intros s [C V P S O (t & L1 & L2 & L3 & L4)].
  destruct (handle_fold (from_loader s) s) as ((A1 & A2 & A3 & A4 & A5) & B & _).
  pose proof (handle_fold_seen (from_loader s) s S) as Sn. cbv zeta in Sn.
  assert (Cr := handle_fold_crash (from_loader s) s C).
  set (s' := fold_left handle_vfs_msg (from_loader s) s) in *.
  assert (St : stream (set_inbox s' []) = stream s).
  { unfold stream. cbn [set_inbox handled from_loader]. rewrite B, app_nil_r. reflexivity. }
  assert (Sz : forall v, size (set_inbox s' []) v = size s v).
  { intros [|v]; [reflexivity|]. cbn [size set_inbox sizes]. rewrite A2. reflexivity. }
  constructor; cbn [set_inbox crashed vfs_config_version sizes to_loader loading].
  - apply Cr. intros n k v H. eapply ordered_le; [exact O|]. apply in_or_app. right. exact H.
  - rewrite A1, A2. exact V.
  - rewrite A2. exact P.
  - exact Sn.
  - rewrite St. exact O.
  - exists t. rewrite A2, A3, A4, St. split; [exact L1|]. split; [|split; [intros n k v H; rewrite Sz; exact (L3 n k v H)|]].
    + intros k v n H. rewrite Sz. exact (L2 k v n H).
    + destruct (loading s) as [[[v n] i]|]; rewrite Sz; exact L4.
Qed.

Lemma inv_same : forall s s', inv s -> crashed s' = crashed s -> same_loader s s' -> handled s' = handled s ->
  vfs_progress_config_version s' = vfs_progress_config_version s -> vfs_progress_n_total s' = vfs_progress_n_total s ->
  vfs_progress_n_done s' = vfs_progress_n_done s -> inv s'.
Proof.
  intros s s' [C V P S O (t & L1 & L2 & L3 & L4)] E1 (A1 & A2 & A3 & A4 & A5) B E2 E3 E4.
  assert (St : stream s' = stream s) by (unfold stream; rewrite B, A5; reflexivity).
  assert (Sz : forall v, size s' v = size s v) by (intros [|v]; [reflexivity|]; cbn [size]; rewrite A2; reflexivity).
  constructor.
  - congruence.
  - congruence.
  - rewrite A2. exact P.
  - rewrite E2, E3, E4, B. exact S.
  - rewrite St. exact O.
  - exists t. rewrite A2, A3, A4, St. split; [exact L1|]. split; [|split; [intros n k v H; rewrite Sz; exact (L3 n k v H)|]].
    + intros k v n H. rewrite Sz. exact (L2 k v n H).
    + destruct (loading s) as [[[v n] i]|]; rewrite Sz; exact L4.
Qed.

Lemma inv_config : forall s d, inv s -> inv (update_configuration s d).
Proof.
  intros s [d|] I; [|exact I]. destruct I as [C V P S O (t & L1 & L2 & L3 & L4)]. cbn [update_configuration].
  match goal with |- inv ?x => set (s' := x) end.
  assert (St : stream s' = stream s) by reflexivity.
  assert (Sz : forall v n, size s v = Some n -> size s' v = Some n).
  { intros [|v] n H; [discriminate|]. cbn [size] in *. change (sizes s') with (sizes s ++ [Datatypes.S d]).
    rewrite nth_error_app1; [exact H|]. apply nth_error_Some. congruence. }
  constructor.
  - exact C.
  - change (sizes s') with (sizes s ++ [Datatypes.S d]). rewrite app_length, Nat.add_1_r.
    change (vfs_config_version s') with (Datatypes.S (vfs_config_version s)). congruence.
  - change (sizes s') with (sizes s ++ [Datatypes.S d]). apply Forall_app. split; [exact P|constructor; [lia|constructor]].
  - exact S.
  - rewrite St. exact O.
  - exists t. rewrite St. change (sizes s') with (sizes s ++ [Datatypes.S d]).
    change (to_loader s') with (to_loader s ++ [(Datatypes.S (vfs_config_version s), Datatypes.S d)]).
    change (loading s') with (loading s).
    rewrite !app_length. cbn [length]. split; [lia|]. split; [|split; [intros n k v H; destruct (L3 n k v H) as [H1 H2]; split; [exact H1|apply Sz; exact H2]|]].
    + intros k v n H. destruct (Nat.lt_ge_cases k (length (to_loader s))) as [Hk|Hk].
      * rewrite nth_error_app1 in H by exact Hk. destruct (L2 k v n H) as [Hv Hs]. split; [exact Hv|apply Sz; exact Hs].
      * rewrite nth_error_app2 in H by exact Hk. destruct (k - length (to_loader s)) as [|x] eqn:E; [|destruct x; discriminate].
        injection H as <- <-. split; [lia|]. cbn [size]. change (sizes s') with (sizes s ++ [Datatypes.S d]).
        rewrite V, nth_error_app2, Nat.sub_diag by lia. reflexivity.
    + destruct (loading s) as [[[v n] i]|].
      * destruct L4 as (E1 & E2 & E3). split; [exact E1|]. split; [apply Sz; exact E2|exact E3].
      * destruct (size s t) as [n|] eqn:Q; [rewrite (Sz _ _ Q); exact L4|].
        destruct t as [|t]; [cbn [size]; exact L4|]. exfalso. cbn [size] in Q. apply nth_error_None in Q. lia.
Qed.

Lemma inv_notify : forall s, inv s -> inv (update_status_or_notify s).
Proof.
  intros s I. unfold update_status_or_notify. destruct (match last_reported_status s with Some _ => _ | None => _ end); [exact I|].
  eapply inv_same; [exact I|..]; try reflexivity. repeat split.
Qed.

Lemma inv_turn : forall prefill s i, inv s -> inv (turn prefill s i).
Proof.
  intros prefill s i I. unfold turn. apply inv_notify.
  assert (J : inv match i with
           | Vfs => set_inbox (fold_left handle_vfs_msg (from_loader s) s) []
           | Settings e d => update_configuration (set_errors s e) d
           | Other => s
           end).
  { destruct i as [|e d|]; [apply inv_vfs; exact I| |exact I]. apply inv_config.
    eapply inv_same; [exact I|..]; try reflexivity. repeat split. }
  destruct (_ && prefill); [|exact J]. eapply inv_same; [exact J|..]; try reflexivity. repeat split.
Qed.

Lemma inv_step : forall prefill s e, inv s -> inv (step prefill s e).
Proof.
  intros prefill s e I. destruct e as [i| |]; cbn [step].
  - destruct i; try apply inv_turn; try exact I. destruct (from_loader s); [exact I|apply inv_turn; exact I].
  - destruct (loading s) as [|] eqn:Ld; [exact I|]. destruct (to_loader s) as [|[v n] tl] eqn:T; [exact I|].
    destruct I as [C V P S O (t & L1 & L2 & L3 & L4)]. rewrite Ld in L4.
    match goal with |- inv ?x => set (s' := x) end.
    assert (St : stream s' = stream s ++ [Progress n 0 v]) by (unfold stream; cbn; rewrite app_assoc; reflexivity).
    destruct (L2 0 v n) as [Hv Hs]; [rewrite T; reflexivity|]. rewrite Nat.add_0_r in Hv.
    assert (Np : 0 < n).
    { subst v. cbn [size] in Hs. rewrite Forall_forall in P. apply P. eapply nth_error_In. exact Hs. }
    constructor; try assumption.
    + rewrite St. apply ordered_snoc; [exact O|lia|intros i Hi; lia].
    + exists (Datatypes.S t). cbn [s' to_loader sizes loading]. rewrite T in L1. cbn [length] in L1. split; [lia|].
      split; [|split].
      * intros k v' n' H. destruct (L2 (Datatypes.S k) v' n') as [H1 H2]; [rewrite T; exact H|]. split; [lia|exact H2].
      * intros n' k v' H. rewrite St in H. apply in_app_or in H. destruct H as [H|[H|[]]]; [destruct (L3 _ _ _ H); split; [lia|assumption]|].
        injection H as <- <- <-. split; [lia|exact Hs].
      * replace (n =? 0) with false by (symmetry; apply Nat.eqb_neq; lia).
        split; [exact Hv|]. split; [exact Hs|]. split; [exact Np|]. rewrite St, last_progress_app. split; [reflexivity|lia].
  - destruct (loading s) as [[[v n] i]|] eqn:Ld; [|exact I].
    destruct I as [C V P S O (t & L1 & L2 & L3 & L4)]. rewrite Ld in L4. destruct L4 as (Hv & Hs & Hi & Hl & Hin).
    match goal with |- inv ?x => set (s' := x) end.
    assert (St : stream s' = (stream s ++ [Loaded v i]) ++ [Progress n (Datatypes.S i) v])
      by (unfold stream; cbn; rewrite <- !app_assoc; reflexivity).
    assert (Hall : forall j, j < Datatypes.S i -> In (Loaded v j) (stream s ++ [Loaded v i])).
    { intros j Hj. apply in_or_app. destruct (Nat.eq_dec j i) as [->|Hne]; [right; left; reflexivity|left; apply Hin; lia]. }
    constructor; try assumption.
    + rewrite St. apply ordered_snoc; [apply ordered_loaded; exact O|lia|exact Hall].
    + exists t. cbn [s' to_loader sizes]. split; [exact L1|]. split; [exact L2|]. split.
      * intros n' k v' H. rewrite St, <- app_assoc in H. apply in_app_or in H. destruct H as [H|[H|[H|[]]]]; [exact (L3 _ _ _ H)|discriminate|].
        injection H as <- <- <-. split; [lia|exact Hs].
      * assert (Lp : last_progress (stream s') = (n, Datatypes.S i, v)) by (rewrite St, last_progress_app; reflexivity).
        cbn [loading s']. destruct (Datatypes.S i =? n) eqn:Q.
        -- apply Nat.eqb_eq in Q. fold s'. rewrite Lp. rewrite <- Hv. change (size s' v) with (size s v). rewrite Hs, Q. reflexivity.
        -- apply Nat.eqb_neq in Q. fold s'. split; [exact Hv|]. split; [exact Hs|]. split; [lia|]. split; [exact Lp|].
           intros j Hj. rewrite St. apply in_or_app. left. apply Hall. exact Hj.
Qed.

Lemma inv_start : forall dirs, inv (start dirs).
Proof.
  intros dirs. apply inv_config. constructor; try reflexivity.
  - constructor.
  - intros l1 l2 n k v H. destruct l1; discriminate.
  - exists 0. cbn. split; [reflexivity|]. split; [intros [|k] v n H; discriminate|]. split; [intros n k v []|reflexivity].
Qed.

Lemma inv_run : forall prefill dirs h, inv (run prefill dirs h).
Proof.
  intros prefill dirs h. unfold run. generalize (inv_start dirs). generalize (start dirs).
  induction h as [|e h IH]; intros s I; [exact I|]. cbn [fold_left]. apply IH. apply inv_step. exact I.
Qed.

(** truth *)
Lemma last_progress_in : forall l t d v, last_progress l = (t, d, v) -> (t, d, v) = (0, 0, 0) \/ In (Progress t d v) l.
Proof.
  induction l as [|m l IH] using rev_ind; intros t d v H; [left; symmetry; exact H|].
  rewrite last_progress_app in H. cbn [fold_left] in H. destruct m as [v' i|t' d' v'].
  - destruct (IH _ _ _ H) as [E|E]; [left; exact E|right; apply in_or_app; left; exact E].
  - injection H as -> -> ->. right. apply in_or_app. right. left. reflexivity.
Qed.

Lemma quiescent_loaded : forall s, inv s -> is_quiescent s = true ->
  forall n i, size s (length (sizes s)) = Some n -> i < n -> In (Loaded (length (sizes s)) i) (handled s).
Proof.
  intros s [C V P Se O (t & L1 & L2 & L3 & L4)] Q n i Hn Hi. unfold is_quiescent in Q. apply negb_true_iff in Q.
  apply orb_false_iff in Q. destruct Q as [Q Q3]. apply orb_false_iff in Q. destruct Q as [_ Q2].
  apply Nat.ltb_ge in Q2, Q3. rewrite V in Q2.
  symmetry in Se. destruct (last_progress_in _ _ _ _ Se) as [E|E].
  - injection E as E1 E2 E3. rewrite E3 in Q2. assert (length (sizes s) = 0) by lia. rewrite H in Hn. discriminate.
  - assert (Hs : In (Progress (vfs_progress_n_total s) (vfs_progress_n_done s) (vfs_progress_config_version s)) (stream s))
      by (apply in_or_app; left; exact E).
    destruct (L3 _ _ _ Hs) as [Vt Vn]. assert (Ev : vfs_progress_config_version s = length (sizes s)) by lia.
    assert (Et : t = length (sizes s)) by lia.
    (* the total of the message is the size of the configuration *)
    assert (Tn : vfs_progress_n_total s = n).
    { rewrite Ev in Vn. congruence. }
    apply in_split in E. destruct E as (l1 & l2 & E).
    destruct (O l1 (l2 ++ from_loader s) _ _ _ ltac:(unfold stream; rewrite E, <- app_assoc; reflexivity)) as [_ Hl].
    rewrite Ev in Hl. rewrite E. apply in_or_app. left. apply Hl. lia.
Qed.

Lemma settled_quiescent : forall s, inv s -> settled s -> last_reported_status s <> None -> is_quiescent s = true.
Proof.
  intros s [C V P Se O (t & L1 & L2 & L3 & L4)] (S1 & S2 & S3) N. rewrite S1 in L1. cbn [length] in L1. rewrite S2 in L4.
  unfold stream in L4. rewrite S3, app_nil_r in L4. rewrite <- Se in L4.
  unfold is_quiescent. destruct (last_reported_status s); [|congruence]. cbn [orb]. apply negb_true_iff, orb_false_iff.
  destruct t as [|t].
  - cbn [size] in L4. injection L4 as E1 E2 E3. split; apply Nat.ltb_ge; lia.
  - destruct (size s (S t)) as [n|] eqn:Q.
    + injection L4 as E1 E2 E3. split; apply Nat.ltb_ge; lia.
    + exfalso. cbn [size] in Q. apply nth_error_None in Q. lia.
Qed.

(** notifications *)
Lemma status_eqb_spec : forall a b, status_eqb a b = true <-> a = b.
Proof.
  intros [[] []] [[] []]; unfold status_eqb; cbn; split; try reflexivity; discriminate.
Qed.

Lemma last_snoc : forall A (l : list A) x d, last (l ++ [x]) d = x.
Proof. intros. apply last_last. Qed.

Definition ninv (s : state) : Prop :=
  all_changes (told s) /\
  match last_reported_status s with
  | None => told s = []
  | Some st => exists l, told s = l ++ [st]
  end.

Lemma all_changes_snoc : forall l a b, all_changes (l ++ [a]) -> a <> b -> all_changes ((l ++ [a]) ++ [b]).
Proof.
  induction l as [|x l IH]; intros a b H N; cbn [app] in *; [cbn; auto|].
  destruct (l ++ [a]) as [|y tl] eqn:E; [destruct l; discriminate|].
  cbn [app]. destruct H as [H1 H2]. split; [exact H1|]. rewrite <- E in H2. specialize (IH _ _ H2 N). rewrite E in IH. exact IH.
Qed.

Lemma ninv_ext : forall s s', told s' = told s -> last_reported_status s' = last_reported_status s -> ninv s -> ninv s'.
Proof. unfold ninv. intros s s' -> ->. auto. Qed.

Lemma told_add : forall s e, told (add_effect s e) = told s ++ match e with Notify st => [st] | _ => [] end.
Proof. intros s e. unfold told. cbn [add_effect effects]. rewrite flat_map_app. cbn [flat_map]. rewrite app_nil_r. reflexivity. Qed.

Lemma ninv_notify : forall s, ninv s -> ninv (update_status_or_notify s) /\
  last_reported_status (update_status_or_notify s) = Some (current_status s).
Proof.
  intros s [A L]. unfold update_status_or_notify. destruct (last_reported_status s) as [st|] eqn:E.
  - destruct (status_eqb st (current_status s)) eqn:Q.
    + apply status_eqb_spec in Q. subst st. rewrite E. split; [|reflexivity]. split; [exact A|]. rewrite E. exact L.
    + split; [|reflexivity]. destruct L as (l & L). unfold ninv. rewrite told_add. cbn [add_effect set_last last_reported_status].
      change (told (set_last s (current_status s))) with (told s). rewrite L. split; [|eauto].
      rewrite L in A. apply all_changes_snoc; [exact A|]. intros H. apply status_eqb_spec in H. congruence.
  - split; [|reflexivity]. unfold ninv. rewrite told_add. cbn [add_effect set_last last_reported_status].
    change (told (set_last s (current_status s))) with (told s). rewrite L. split; [exact I|]. exists []. reflexivity.
Qed.

Lemma told_handle : forall s ms, told (fold_left handle_vfs_msg ms s) = told s.
Proof. intros s ms. unfold told. destruct (handle_fold ms s) as (_ & _ & _ & E & _). rewrite E. reflexivity. Qed.

Lemma ninv_before : forall prefill s i, ninv s -> exists s1,
  turn prefill s i = update_status_or_notify s1 /\ ninv s1 /\ last_reported_status s1 = last_reported_status s.
Proof.
  intros prefill s i N. unfold turn.
  set (s1 := match i with
           | Vfs => set_inbox (fold_left handle_vfs_msg (from_loader s) s) []
           | Settings e d => update_configuration (set_errors s e) d
           | Other => s
           end).
  assert (J : ninv s1 /\ last_reported_status s1 = last_reported_status s).
  { unfold s1. destruct i as [|e [d|]|]; try (split; [exact N|reflexivity]).
    destruct (handle_fold (from_loader s) s) as (_ & _ & E & _). split; [|exact E].
    eapply ninv_ext; [| |exact N]; [apply told_handle|exact E]. }
  destruct J as [J E].
  destruct (_ && prefill); [|exists s1; auto].
  exists (add_effect s1 RequestIndexing). split; [reflexivity|]. split; [|exact E].
  eapply ninv_ext; [| |exact J]; [rewrite told_add, app_nil_r; reflexivity|reflexivity].
Qed.

Lemma ninv_turn : forall prefill s i, ninv s -> ninv (turn prefill s i) /\ last_reported_status (turn prefill s i) <> None /\
  (last_reported_status s <> None -> last_reported_status (turn prefill s i) = Some (current_status (turn prefill s i))).
Proof.
  intros prefill s i N. destruct (ninv_before prefill s i N) as (s1 & -> & J & E).
  destruct (ninv_notify s1 J) as [K L]. split; [exact K|]. split; [rewrite L; discriminate|].
  intros H. rewrite <- E in H. rewrite L. f_equal. unfold update_status_or_notify in *.
  destruct (match last_reported_status s1 with Some _ => _ | None => _ end); [reflexivity|].
  unfold current_status. cbn [add_effect set_last config_errors]. f_equal. unfold is_quiescent.
  cbn [add_effect set_last last_reported_status vfs_progress_config_version vfs_config_version vfs_progress_n_done vfs_progress_n_total].
  destruct (last_reported_status s1); [reflexivity|congruence].
Qed.
