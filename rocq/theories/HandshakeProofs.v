(** The loop only sends what the capabilities of the client allow, apart from the creation of progress
    tokens. *)
From Coq Require Import List NArith ZArith Bool String Arith Lia.
From Verif Require Import VfsModel TextModel Utf8 OpenDocsModel LoopModel HandshakeModel HandshakeSpec.
From Verif Require SyncModel RequestsModel DiagModel OpQueueModel.
Import ListNotations.
Local Open Scope string_scope.
Local Open Scope nat_scope.
Local Open Scope list_scope.

Lemma pull_spec : forall c, has_pull_configuration_support c = true <-> consents c "workspace/configuration".
Proof.
  intros c. unfold has_pull_configuration_support, and_then, HandshakeModel.is_true. split.
  - destruct (c_workspace c) as [w|] eqn:Hw; [|discriminate].
    destruct (w_configuration w) as [[|]|] eqn:Hc; try discriminate. intros _. eapply c_configuration; eassumption.
  - intros H. inversion H as [w Hw Hc| |]. rewrite Hw, Hc. reflexivity.
Qed.
Lemma refresh_spec : forall c, semantic_tokens_refresh c = true <-> consents c "workspace/semanticTokens/refresh".
Proof.
  intros c. unfold semantic_tokens_refresh, and_then. split.
  - destruct (c_workspace c) as [w|] eqn:Hw; [|discriminate].
    destruct (w_tokens w) as [[[|]|]|] eqn:Hc; try discriminate. intros _. eapply c_refresh; eassumption.
  - intros H. inversion H as [|w Hw Hc|]. rewrite Hw, Hc. reflexivity.
Qed.

Section Consent.
Variable E0 : env.
Notation E := (connect E0).
Variable caps : client_caps.
Implicit Types s : state E.

Definition fine (m : string) : Prop := consents caps m \/ m = "window/workDoneProgress/create".
Definition keeps (s : state E) : Prop :=
  fst (cfg s) = caps /\ Forall (fun x => fine (snd x)) (sent (client_ s)).
(** What the two fields looked at do not see. *)
Definition alike s s' : Prop := cfg s' = cfg s /\ client_ s' = client_ s.

Lemma keeps_alike : forall s s', alike s s' -> keeps s -> keeps s'.
Proof. intros s s' [Hc Hl] K. unfold keeps. rewrite Hc, Hl. exact K. Qed.
Lemma keeps_send : forall s m h, fine m -> keeps s -> keeps (send_request s m h).
Proof.
  intros s m h F [Hc Hs]. split; [exact Hc|]. cbn. apply Forall_app. split; [exact Hs|].
  constructor; [exact F|constructor].
Qed.
Lemma keeps_progress : forall s b, keeps s -> keeps (report_progress s b).
Proof. intros s [|] K; [|exact K]. apply keeps_send; [right; reflexivity|exact K]. Qed.

Lemma bind_inv : forall A B (x : res A) (f : A -> res B) y, bind x f = Ok y -> exists a, x = Ok a /\ f a = Ok y.
Proof. intros A B [a|] f y H; [|discriminate]. exists a. split; [reflexivity|exact H]. Qed.

Lemma alike_document : forall s m b s', document s m b = Ok s' -> alike s s'.
Proof.
  intros s m b s' H. unfold document in H. apply bind_inv in H. destruct H as (v & _ & H).
  injection H as <-. split; reflexivity.
Qed.
Lemma alike_reload : forall s s', reload_flycheck s = Ok s' -> alike s s'.
Proof.
  intros s s' H. unfold reload_flycheck in H.
  destruct (has_compiler E (cfg s)); [|injection H as <-; split; reflexivity].
  destruct (project_roots E (SyncModel.st_db (files s))); [|injection H as <-; split; reflexivity].
  apply bind_inv in H. destruct H as (? & _ & H). injection H as <-. split; reflexivity.
Qed.

Lemma keeps_update : forall s c s', fst c = caps -> keeps s -> update_configuration s c = Ok s' -> keeps s'.
Proof.
  intros s c s' Hf [_ Hs] H. unfold update_configuration in H.
  match type of H with (if ?b then reload_flycheck ?t else _) = _ => set (s1 := t) in *; destruct b end.
  - eapply keeps_alike; [apply (alike_reload _ _ H)|]. subst s1.
    destruct (paths_eq_dec _ _); split; assumption.
  - injection H as <-. subst s1. destruct (paths_eq_dec _ _); split; assumption.
Qed.

Lemma keeps_reply : forall s r s', keeps s -> complete_request s r = Ok s' -> keeps s'.
Proof.
  intros s r s' [Hc Hs] H. unfold complete_request in H.
  destruct (complete (client_ s) (r_id r)) as [[h c]|] eqn:Hk; [|discriminate].
  assert (sent c = sent (client_ s)) as Hsent.
  { unfold complete in Hk. destruct (r_id r); [|discriminate]. destruct (find_out _ _); [|discriminate].
    injection Hk as _ <-. reflexivity. }
  assert (K : keeps (with_client s c)) by (split; [exact Hc|cbn; rewrite Hsent; exact Hs]).
  destruct h; [|injection H as <-; exact K].
  destruct (r_error r); [injection H as <-; exact K|].
  destruct (r_result r) as [v|]; [|injection H as <-; exact K].
  destruct (first_setting E v) as [j|]; [|injection H as <-; exact K].
  destruct (update_config E (cfg (with_client s c)) j) as [c1 e] eqn:Hu.
  eapply keeps_update; [|exact (K : keeps (with_errors (with_client s c) e))|exact H].
  cbn in Hu. destruct (update_config E0 (snd (cfg s)) j) as [d e1]. injection Hu as <- _. exact Hc.
Qed.

Lemma keeps_sync : forall P m parse (f : state E -> P -> res (state E)) (d d' : dispatcher),
  (forall s x s', keeps s -> f s x = Ok s' -> keeps s') ->
  keeps (snd d) -> on_sync_mut m parse f d = Ok d' -> keeps (snd d').
Proof.
  intros P m parse f [n s] d' Hf K H. unfold on_sync_mut in H. cbn [fst snd] in H.
  destruct n as [[m' j]|]; [|injection H as <-; exact K].
  destruct (String.eqb m' m); [|injection H as <-; exact K].
  destruct (parse j) as [x|]; [|discriminate]. apply bind_inv in H. destruct H as (s' & H1 & H).
  injection H as <-. exact (Hf _ _ _ K H1).
Qed.

Lemma keeps_notification : forall s m j s', keeps s -> on_notification s m j = Ok s' -> keeps s'.
Proof.
  intros s m j s' K H. unfold on_notification in H.
  apply bind_inv in H. destruct H as (d1 & H1 & H).
  assert (K1 : keeps (snd d1)).
  { eapply keeps_sync; [|exact (K : keeps (snd (Some (m, j), s)))|exact H1].
    intros t [[u v] x] t' Kt Ht. unfold did_open in Ht. destruct (vfs_path E u); [|injection Ht as <-; exact Kt].
    eapply keeps_alike; [eapply alike_document; exact Ht|exact Kt]. }
  apply bind_inv in H. destruct H as (d2 & H2 & H).
  assert (K2 : keeps (snd d2)).
  { eapply keeps_sync; [|exact K1|exact H2].
    intros t [[u v] x] t' Kt Ht. unfold did_change in Ht. destruct (vfs_path E u); [|injection Ht as <-; exact Kt].
    eapply keeps_alike; [eapply alike_document; exact Ht|exact Kt]. }
  apply bind_inv in H. destruct H as (d3 & H3 & H).
  assert (K3 : keeps (snd d3)).
  { eapply keeps_sync; [|exact K2|exact H3].
    intros t u t' Kt Ht. unfold did_close in Ht. destruct (vfs_path E u); [|injection Ht as <-; exact Kt].
    apply bind_inv in Ht. destruct Ht as (t1 & Ht1 & Ht). apply bind_inv in Ht. destruct Ht as (i & _ & Ht).
    apply alike_document in Ht1. pose proof (keeps_alike _ _ Ht1 Kt) as K4.
    injection Ht as <-. destruct i; [|exact K4]. eapply keeps_alike; [|exact K4]. split; reflexivity. }
  apply bind_inv in H. destruct H as (d4 & H4 & H).
  assert (K4 : keeps (snd d4)).
  { eapply keeps_sync; [|exact K3|exact H4].
    intros t u t' Kt Ht. unfold did_save in Ht. destruct (vfs_path E u); [|injection Ht as <-; exact Kt].
    apply bind_inv in Ht. destruct Ht as (t1 & Ht1 & Ht). injection Ht as <-. exact Kt. }
  apply bind_inv in H. destruct H as (d5 & H5 & H).
  assert (K5 : keeps (snd d5)).
  { eapply keeps_sync; [|exact K4|exact H5].
    intros t u t' Kt Ht. unfold did_change_configuration in Ht. destruct (pulls E (cfg t)) eqn:Hp.
    - injection Ht as <-. apply keeps_send; [|exact Kt]. left. apply pull_spec. destruct Kt as [<- _]. exact Hp.
    - injection Ht as <-. exact Kt. }
  apply bind_inv in H. destruct H as (d6 & H6 & H).
  assert (K6 : keeps (snd d6)).
  { eapply keeps_sync; [|exact K5|exact H6]. intros t u t' Kt Ht. injection Ht as <-. exact Kt. }
  apply bind_inv in H. destruct H as (d7 & H7 & H).
  assert (K7 : keeps (snd d7)).
  { eapply keeps_sync; [|exact K6|exact H7]. intros t u t' Kt Ht. injection Ht as <-. exact Kt. }
  injection H as <-. exact K7.
Qed.

Lemma keeps_foldM : forall A (f : state E -> A -> res (state E)),
  (forall s x s', keeps s -> f s x = Ok s' -> keeps s') ->
  forall l s s', keeps s -> foldM f s l = Ok s' -> keeps s'.
Proof.
  intros A f Hf. induction l as [|x tl IH]; intros s s' K H.
  - injection H as <-. exact K.
  - cbn in H. apply bind_inv in H. destruct H as (s1 & H1 & H). exact (IH _ _ (Hf _ _ _ K H1) H).
Qed.

Lemma keeps_vfs : forall s m s', keeps s -> handle_vfs_msg s m = Ok s' -> keeps s'.
Proof.
  intros s [fs|total done v] s' K H; cbn [handle_vfs_msg] in H.
  - eapply keeps_alike; [eapply alike_document; exact H|exact K].
  - destruct (negb (done =? 0) && negb (done <? total) && negb (done =? total)); [discriminate|].
    destruct (total <? done); [discriminate|]. injection H as <-. apply keeps_progress.
    eapply keeps_alike; [|exact K]. split; reflexivity.
Qed.
Lemma keeps_check : forall s m s', keeps s -> handle_flycheck_msg s m = Ok s' -> keeps s'.
Proof.
  intros s [id p d|id p] s' K H; cbn [handle_flycheck_msg] in H.
  - apply bind_inv in H. destruct H as (i & _ & H). injection H as <-. destruct i; [|exact K].
    eapply keeps_alike; [|exact K]. split; reflexivity.
  - destruct p; injection H as <-; try exact K. apply keeps_send; [right; reflexivity|].
    eapply keeps_alike; [|exact K]. split; reflexivity.
Qed.
Lemma keeps_tasks : forall l s ps, keeps s -> keeps (fst (fold_left handle_task l (s, ps))).
Proof.
  induction l as [|t tl IH]; intros s ps K; [exact K|]. cbn [fold_left].
  destruct t as [t|ds|[|d n|b]]; cbn [handle_task]; apply IH; try exact K;
    (eapply keeps_alike; [|exact K]; split; reflexivity).
Qed.
Lemma keeps_handle_progress : forall s p s', keeps s -> handle_progress s p = Ok s' -> keeps s'.
Proof.
  intros s [|d n|b] s' K H; cbn [handle_progress] in H.
  - injection H as <-. apply keeps_send; [right; reflexivity|exact K].
  - destruct (n <? d); [discriminate|]. injection H as <-. exact K.
  - destruct (OpQueueModel.op_completed unit (queue s)); [|discriminate]. injection H as <-.
    eapply keeps_alike; [|exact K]. split; reflexivity.
Qed.

Lemma keeps_turn : forall s t s', keeps s -> handle_turn s t = Ok s' -> keeps s'.
Proof.
  intros s [[q|m j|r]|l|l|l] s' K H; cbn [handle_turn] in H.
  - injection H as <-. eapply keeps_alike; [|exact K]. split; reflexivity.
  - exact (keeps_notification _ _ _ _ K H).
  - exact (keeps_reply _ _ _ K H).
  - pose proof (keeps_tasks l s [] K) as K1. destruct (fold_left handle_task l (s, [])) as [s1 ps]. cbn [fst] in K1.
    exact (keeps_foldM _ _ keeps_handle_progress _ _ _ K1 H).
  - exact (keeps_foldM _ _ keeps_vfs _ _ _ K H).
  - exact (keeps_foldM _ _ keeps_check _ _ _ K H).
Qed.

Lemma keeps_quiescent : forall a b d s s', keeps s -> when_quiescent a b d s = Ok s' -> keeps s'.
Proof.
  intros a b d s s' K H. unfold when_quiescent in H. destruct (is_quiescent s); [|injection H as <-; exact K].
  set (s1 := if negb a && prefills E (cfg s) then _ else s) in H.
  assert (K1 : keeps s1).
  { subst s1. destruct (negb a && prefills E (cfg s)); [|exact K]. eapply keeps_alike; [|exact K]. split; reflexivity. }
  set (s2 := if (negb a || b) && refreshes E (cfg s1) then _ else s1) in H.
  assert (K2 : keeps s2).
  { subst s2. destruct ((negb a || b) && refreshes E (cfg s1)) eqn:Hr; [|exact K1].
    apply andb_true_iff in Hr. destruct Hr as [_ Hr]. apply keeps_send; [|exact K1]. left. apply refresh_spec.
    destruct K1 as [<- _]. exact Hr. }
  destruct (negb a || b || d).
  - unfold update_diagnostics in H. apply bind_inv in H. destruct H as (? & _ & H). injection H as <-. exact K2.
  - injection H as <-. exact K2.
Qed.

Lemma keeps_event : forall s t s', keeps s -> handle_event s t = Ok s' -> keeps s'.
Proof.
  intros s t s' K H. unfold handle_event in H.
  apply bind_inv in H. destruct H as (s1 & H1 & H). pose proof (keeps_turn _ _ _ K H1) as K1.
  apply bind_inv in H. destruct H as ([s2 b] & H2 & H).
  assert (K2 : keeps s2).
  { unfold process_changes in H2. apply bind_inv in H2. destruct H2 as (r & _ & H2).
    injection H2 as <- _. eapply keeps_alike; [|exact K1]. split; reflexivity. }
  apply bind_inv in H. destruct H as (s3 & H3 & H).
  assert (K3 : keeps s3).
  { eapply keeps_quiescent; [|exact H3]. eapply keeps_alike; [|exact K2]. split; reflexivity. }
  apply bind_inv in H. destruct H as (s4 & H4 & H).
  assert (K4 : keeps s4).
  { unfold publish in H4. destruct (DiagModel.take_changes (diags s3)) as [c [ids|]].
    - apply bind_inv in H4. destruct H4 as (? & _ & H4). injection H4 as <-. eapply keeps_alike; [|exact K3]. split; reflexivity.
    - injection H4 as <-. eapply keeps_alike; [|exact K3]. split; reflexivity. }
  injection H as <-. eapply keeps_alike; [|exact K4].
  unfold update_status_or_notify, maybe_prime. destruct (OpQueueModel.should_start_op unit (queue s4)) as [q [|]]; split; reflexivity.
Qed.

Lemma keeps_serve : forall h s s', keeps s -> serve s h = Running s' -> keeps s'.
Proof.
  induction h as [|[t|] tl IH]; intros s s' K H; cbn [serve] in H; [injection H as <-; exact K| |discriminate].
  destruct (is_exit t); [discriminate|]. destruct (handle_event s t) as [s1|] eqn:H1; [|discriminate].
  exact (IH _ _ (keeps_event _ _ _ K H1) H).
Qed.

Lemma keeps_run : forall d ignored h s, LoopModel.run (E := E) (caps, d) ignored h = Running s -> keeps s.
Proof.
  intros d ignored h s H. unfold LoopModel.run in H.
  destruct (serve (LoopModel.start (E := E) (caps, d)) _) as [s1| |] eqn:H1; [|discriminate|discriminate].
  assert (K1 : keeps s1).
  { eapply keeps_serve; [|exact H1]. split; [reflexivity|constructor]. }
  destruct (reload_flycheck s1) as [s2|] eqn:H2; [|discriminate].
  eapply keeps_serve; [|exact H]. eapply keeps_alike; [|exact (keeps_alike _ _ (alike_reload _ _ H2) K1)]. split; reflexivity.
Qed.
End Consent.
