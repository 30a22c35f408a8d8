From Coq Require Import List NArith Lia Bool.
From Verif Require Import SemTokensModel SemTokensSpec SemTokensProofs SemCacheModel SemCacheSpec.
Import ListNotations.
Local Open Scope N_scope.

Lemma upd_same {A} (f : N -> A) k v : upd f k v k = v.
Proof. unfold upd. rewrite N.eqb_refl. reflexivity. Qed.
Lemma upd_other {A} (f : N -> A) k v x : x <> k -> upd f k v x = f x.
Proof. unfold upd. intros H. rewrite (proj2 (N.eqb_neq _ _) H). reflexivity. Qed.

(** [r] is a right answer given what was issued. *)
Definition good_reply (iss : list (N * (N * list token))) (u : N) (r : reply) : Prop :=
  match r with
  | RFull id toks => In (id, (u, toks)) iss
  | RDelta p id es => exists old new,
      In (p, (u, old)) iss /\ In (id, (u, new)) iss /\
      apply_edits (flatten old) es = flatten new /\ p <> id
  end.

Definition good_thread iss (t : thread) : Prop :=
  match t with
  | Idle => True
  | Computed u _ id toks => In (id, (u, toks)) iss
  | Decided u id toks r => In (id, (u, toks)) iss /\ good_reply iss u r /\ reply_id r = id
  | Inserted r => exists u, good_reply iss u r
  end.

(** the ids a thread holds that are not to be handed out by others *)
Definition thread_id (t : thread) : option N :=
  match t with
  | Idle => None | Computed _ _ id _ => Some id | Decided _ id _ _ => Some id
  | Inserted r => Some (reply_id r)
  end.

Record Inv (s : state) : Prop := {
  inv_bound : forall id x, In (id, x) (issued s) -> id < counter s;
  inv_nodup : NoDup (map fst (issued s));
  inv_cache : forall u id toks, cache s u = Some (id, toks) -> In (id, (u, toks)) (issued s);
  inv_cache_thread : forall u id toks t p u' toks',
     cache s u = Some (id, toks) -> threads s t = Computed u' p id toks' -> False;
  inv_threads : forall t, good_thread (issued s) (threads s t);
  inv_distinct : forall t t' id, thread_id (threads s t) = Some id ->
     thread_id (threads s t') = Some id -> t = t';
  inv_log : forall r, In r (log s) -> exists u, good_reply (issued s) u r;
  inv_log_thread : forall r t, In r (log s) -> thread_id (threads s t) = Some (reply_id r) -> False;
  inv_log_nodup : NoDup (map reply_id (log s))
}.

Lemma good_reply_mono iss x u r : good_reply iss u r -> good_reply (iss ++ [x]) u r.
Proof.
  destruct r; simpl.
  - intros H. apply in_or_app. auto.
  - intros (o & n & A & B & C & D). exists o, n. rewrite !in_app_iff. tauto.
Qed.

Lemma good_thread_mono iss x t : good_thread iss t -> good_thread (iss ++ [x]) t.
Proof.
  destruct t; simpl; auto; intros H.
  - apply in_or_app; auto.
  - destruct H as (A & B & C). rewrite in_app_iff. auto using good_reply_mono.
  - destruct H as (u & H). exists u. auto using good_reply_mono.
Qed.

Lemma good_reply_id iss u r : good_reply iss u r -> exists x, In (reply_id r, x) iss.
Proof. destruct r; simpl; [eauto|]. intros (o & n & A & B & C & D); eauto. Qed.

Lemma good_thread_id iss t id : good_thread iss t -> thread_id t = Some id -> exists x, In (id, x) iss.
Proof.
  destruct t; simpl; intros H E; try discriminate; injection E as <-; try tauto; eauto.
  - destruct H; eauto.
  - destruct H as (u & H). eapply good_reply_id; eauto.
Qed.

Lemma nodup_app_one {A} (l : list A) x : NoDup l -> ~ In x l -> NoDup (l ++ [x]).
Proof.
  intros H Hx. apply NoDup_rev in H. rewrite <- (rev_involutive (l ++ [x])).
  apply NoDup_rev. rewrite rev_app_distr. simpl. constructor; [|exact H].
  rewrite <- in_rev. exact Hx.
Qed.

Lemma step_inv s a : Inv s -> Inv (step s a).
Proof.
  intros I. destruct a as [t u p toks|t|t|t|u toks|u|]; simpl.
  - (* Start *)
    destruct (threads s t) eqn:Et; try exact I.
    assert (Hfresh : forall x, ~ In (counter s, x) (issued s)).
    { intros x Hx. apply (inv_bound s I) in Hx. lia. }
    constructor; cbn [counter cache threads log issued].
    + intros id x Hx. apply in_app_or in Hx. destruct Hx as [Hx|[Hx|[]]].
      * apply (inv_bound s I) in Hx. lia.
      * injection Hx as <- _. lia.
    + rewrite map_app. simpl. apply nodup_app_one; [apply (inv_nodup s I)|].
      intros Hx. apply in_map_iff in Hx. destruct Hx as ([i x] & E & Hx). simpl in E; subst.
      eapply Hfresh; eauto.
    + intros u' id' toks' Hc. apply in_or_app; left. apply (inv_cache s I); assumption.
    + intros u' id' toks' t' p' u'' toks'' Hc Ht.
      destruct (N.eq_dec t' t) as [->|Hn].
      * rewrite upd_same in Ht. injection Ht as <- <- <- <-.
        apply (inv_cache s I) in Hc. eapply Hfresh; eauto.
      * rewrite upd_other in Ht by assumption. eapply (inv_cache_thread s I); eauto.
    + intros t'. destruct (N.eq_dec t' t) as [->|Hn].
      * rewrite upd_same. simpl. apply in_or_app; right; left; reflexivity.
      * rewrite upd_other by assumption. apply good_thread_mono, (inv_threads s I).
    + intros t1 t2 id H1 H2.
      assert (Hold : forall t', t' <> t -> thread_id (threads s t') <> Some (counter s)).
      { intros t' Hn E. destruct (good_thread_id _ _ _ (inv_threads s I t') E) as (x & Hx).
        eapply Hfresh; eauto. }
      destruct (N.eq_dec t1 t) as [->|N1]; destruct (N.eq_dec t2 t) as [->|N2]; auto.
      * rewrite upd_same in H1. rewrite upd_other in H2 by assumption. simpl in H1.
        injection H1 as <-. exfalso; eapply Hold; eauto.
      * rewrite upd_same in H2. rewrite upd_other in H1 by assumption. simpl in H2.
        injection H2 as <-. exfalso; eapply Hold; eauto.
      * rewrite upd_other in H1, H2 by assumption. eapply (inv_distinct s I); eauto.
    + intros r Hr. destruct (inv_log s I r Hr) as (u' & H). exists u'. auto using good_reply_mono.
    + intros r t' Hr Ht. destruct (N.eq_dec t' t) as [->|Hn].
      * rewrite upd_same in Ht. simpl in Ht. injection Ht as Ht.
        destruct (inv_log s I r Hr) as (u' & H). apply good_reply_id in H. destruct H as (x & H).
        rewrite <- Ht in H. eapply Hfresh; eauto.
      * rewrite upd_other in Ht by assumption. eapply (inv_log_thread s I); eauto.
    + apply (inv_log_nodup s I).
  - (* Remove *)
    destruct (threads s t) as [|u [p|] id toks| |] eqn:Et; try exact I.
    pose proof (inv_threads s I t) as Hg. rewrite Et in Hg. simpl in Hg.
    constructor; cbn [counter cache threads log issued].
    + apply (inv_bound s I).
    + apply (inv_nodup s I).
    + intros u' id' toks' Hc. destruct (N.eq_dec u' u) as [->|Hn].
      * rewrite upd_same in Hc; discriminate.
      * rewrite upd_other in Hc by assumption. apply (inv_cache s I); assumption.
    + intros u' id' toks' t' p' u'' toks'' Hc Ht.
      destruct (N.eq_dec u' u) as [->|Hn]; [rewrite upd_same in Hc; discriminate|].
      rewrite upd_other in Hc by assumption.
      destruct (N.eq_dec t' t) as [->|Hn2]; [rewrite upd_same in Ht; discriminate|].
      rewrite upd_other in Ht by assumption. eapply (inv_cache_thread s I); eauto.
    + intros t'. destruct (N.eq_dec t' t) as [->|Hn].
      * rewrite upd_same. simpl. split; [exact Hg|].
        destruct (cache s u) as [[pid old]|] eqn:Ec; [|simpl; auto].
        destruct (N.eqb_spec pid p) as [->|]; [|simpl; auto].
        simpl. split; [|reflexivity]. exists old, toks.
        split; [apply (inv_cache s I); assumption|].
        split; [exact Hg|]. split; [apply diff_correct|].
        intros ->. eapply (inv_cache_thread s I); eauto.
      * rewrite upd_other by assumption. apply (inv_threads s I).
    + intros t1 t2 id' H1 H2.
      assert (E : forall t', thread_id (upd (threads s) t
         (Decided u id toks match cache s u with
            | Some (pid, old) => if pid =? p then RDelta p id (diff_tokens old toks) else RFull id toks
            | None => RFull id toks end) t') = thread_id (threads s t')).
      { intros t'. destruct (N.eq_dec t' t) as [->|Hn].
        - rewrite upd_same, Et. reflexivity.
        - rewrite upd_other by assumption. reflexivity. }
      rewrite E in H1, H2. eapply (inv_distinct s I); eauto.
    + apply (inv_log s I).
    + intros r t' Hr Ht. destruct (N.eq_dec t' t) as [->|Hn].
      * rewrite upd_same in Ht. simpl in Ht.
        eapply (inv_log_thread s I r t); eauto. rewrite Et. exact Ht.
      * rewrite upd_other in Ht by assumption. eapply (inv_log_thread s I); eauto.
    + apply (inv_log_nodup s I).
  - (* Insert *)
    assert (Hins : forall u id toks r,
      thread_id (threads s t) = Some id -> In (id, (u, toks)) (issued s) ->
      good_reply (issued s) u r -> reply_id r = id ->
      Inv (State (counter s) (upd (cache s) u (Some (id, toks)))
             (upd (threads s) t (Inserted r)) (log s) (issued s))).
    { intros u id toks r Et Hin Hg Hid.
      assert (E : forall t', thread_id (upd (threads s) t (Inserted r) t') = thread_id (threads s t')).
      { intros t'. destruct (N.eq_dec t' t) as [->|Hn].
        - rewrite upd_same, Et. simpl. congruence.
        - rewrite upd_other by assumption. reflexivity. }
      constructor; cbn [counter cache threads log issued].
      + apply (inv_bound s I).
      + apply (inv_nodup s I).
      + intros u' id' toks' Hc. destruct (N.eq_dec u' u) as [->|Hn].
        * rewrite upd_same in Hc. injection Hc as <- <-. exact Hin.
        * rewrite upd_other in Hc by assumption. apply (inv_cache s I); assumption.
      + intros u' id' toks' t' p' u'' toks'' Hc Ht.
        destruct (N.eq_dec t' t) as [->|Hn2]; [rewrite upd_same in Ht; discriminate|].
        rewrite upd_other in Ht by assumption.
        destruct (N.eq_dec u' u) as [->|Hn].
        * rewrite upd_same in Hc. injection Hc as <- <-.
          apply Hn2. eapply (inv_distinct s I); [rewrite Ht; reflexivity | exact Et].
        * rewrite upd_other in Hc by assumption. eapply (inv_cache_thread s I); eauto.
      + intros t'. destruct (N.eq_dec t' t) as [->|Hn].
        * rewrite upd_same. simpl. eauto.
        * rewrite upd_other by assumption. apply (inv_threads s I).
      + intros t1 t2 id' H1 H2. rewrite E in H1, H2. eapply (inv_distinct s I); eauto.
      + apply (inv_log s I).
      + intros r' t' Hr Ht. rewrite E in Ht. eapply (inv_log_thread s I); eauto.
      + apply (inv_log_nodup s I). }
    pose proof (inv_threads s I t) as Hg.
    destruct (threads s t) as [|u [p|] id toks|u id toks r|r] eqn:Et; try exact I; simpl in Hg.
    + apply Hins; simpl; auto.
    + destruct Hg as (A & B & C). apply Hins; simpl; auto.
  - (* Send *)
    pose proof (inv_threads s I t) as Hg.
    destruct (threads s t) as [| | |r] eqn:Et; try exact I. simpl in Hg.
    constructor; cbn [counter cache threads log issued].
    + apply (inv_bound s I).
    + apply (inv_nodup s I).
    + apply (inv_cache s I).
    + intros u' id' toks' t' p' u'' toks'' Hc Ht.
      destruct (N.eq_dec t' t) as [->|Hn2]; [rewrite upd_same in Ht; discriminate|].
      rewrite upd_other in Ht by assumption. eapply (inv_cache_thread s I); eauto.
    + intros t'. destruct (N.eq_dec t' t) as [->|Hn].
      * rewrite upd_same. simpl. auto.
      * rewrite upd_other by assumption. apply (inv_threads s I).
    + intros t1 t2 id' H1 H2.
      destruct (N.eq_dec t1 t) as [->|N1]; [rewrite upd_same in H1; discriminate|].
      destruct (N.eq_dec t2 t) as [->|N2]; [rewrite upd_same in H2; discriminate|].
      rewrite upd_other in H1, H2 by assumption. eapply (inv_distinct s I); eauto.
    + intros r' Hr. apply in_app_or in Hr. destruct Hr as [Hr|[<-|[]]]; [apply (inv_log s I); assumption|].
      exact Hg.
    + intros r' t' Hr Ht.
      destruct (N.eq_dec t' t) as [->|Hn]; [rewrite upd_same in Ht; discriminate|].
      rewrite upd_other in Ht by assumption.
      apply in_app_or in Hr. destruct Hr as [Hr|[<-|[]]]; [eapply (inv_log_thread s I); eauto|].
      apply Hn. eapply (inv_distinct s I); [exact Ht|]. rewrite Et. reflexivity.
    + rewrite map_app. simpl. apply nodup_app_one; [apply (inv_log_nodup s I)|].
      intros Hx. apply in_map_iff in Hx. destruct Hx as (r' & E & Hr').
      eapply (inv_log_thread s I r' t); eauto. rewrite Et. simpl. congruence.
  - (* RangeReq *)
    assert (Hfresh : forall x, ~ In (counter s, x) (issued s)).
    { intros x Hx. apply (inv_bound s I) in Hx. lia. }
    constructor; cbn [counter cache threads log issued].
    + intros id x Hx. apply in_app_or in Hx. destruct Hx as [Hx|[Hx|[]]].
      * apply (inv_bound s I) in Hx. lia.
      * injection Hx as <- _. lia.
    + rewrite map_app. simpl. apply nodup_app_one; [apply (inv_nodup s I)|].
      intros Hx. apply in_map_iff in Hx. destruct Hx as ([i x] & E & Hx). simpl in E; subst.
      eapply Hfresh; eauto.
    + intros u' id' toks' Hc. apply in_or_app; left. apply (inv_cache s I); assumption.
    + apply (inv_cache_thread s I).
    + intros t'. apply good_thread_mono, (inv_threads s I).
    + apply (inv_distinct s I).
    + intros r Hr. apply in_app_or in Hr. destruct Hr as [Hr|[<-|[]]].
      * destruct (inv_log s I r Hr) as (u' & H). exists u'. auto using good_reply_mono.
      * exists u. simpl. apply in_or_app; right; left; reflexivity.
    + intros r' t' Hr Ht. apply in_app_or in Hr. destruct Hr as [Hr|[<-|[]]].
      * eapply (inv_log_thread s I); eauto.
      * simpl in Ht. destruct (good_thread_id _ _ _ (inv_threads s I t') Ht) as (x & Hx).
        eapply Hfresh; eauto.
    + rewrite map_app. simpl. apply nodup_app_one; [apply (inv_log_nodup s I)|].
      intros Hx. apply in_map_iff in Hx. destruct Hx as (r' & E & Hr').
      destruct (inv_log s I r' Hr') as (u' & H). apply good_reply_id in H. destruct H as (x & H).
      rewrite E in H. eapply Hfresh; eauto.
  - (* Close *)
    constructor; cbn [counter cache threads log issued]; try apply I.
    + intros u' id' toks' Hc. destruct (N.eq_dec u' u) as [->|Hn].
      * rewrite upd_same in Hc; discriminate.
      * rewrite upd_other in Hc by assumption. apply (inv_cache s I); assumption.
    + intros u' id' toks' t' p' u'' toks'' Hc Ht.
      destruct (N.eq_dec u' u) as [->|Hn]; [rewrite upd_same in Hc; discriminate|].
      rewrite upd_other in Hc by assumption. eapply (inv_cache_thread s I); eauto.
  - (* ClearAll *)
    constructor; cbn [counter cache threads log issued]; try apply I; discriminate.
Qed.

Lemma init_inv : Inv init.
Proof.
  constructor; simpl; try contradiction; try discriminate; try constructor.
Qed.

Lemma fold_inv acts : forall s, Inv s -> Inv (fold_left step acts s).
Proof. induction acts as [|a acts IH]; simpl; auto using step_inv. Qed.

Lemma run_inv acts : Inv (run acts).
Proof. apply fold_inv, init_inv. Qed.

Lemma nodup_fst_inj {A} (l : list (N * A)) k x y :
  NoDup (map fst l) -> In (k, x) l -> In (k, y) l -> x = y.
Proof.
  induction l as [|[k' z] l IH]; simpl; [contradiction|].
  intros H. inversion H as [|? ? Hn Hd]; subst.
  intros [Hx|Hx] [Hy|Hy].
  - congruence.
  - injection Hx as -> ->. exfalso; apply Hn. apply in_map_iff. exists (k, y). auto.
  - injection Hy as -> ->. exfalso; apply Hn. apply in_map_iff. exists (k, x). auto.
  - auto.
Qed.

(** client side *)
Lemma client_view_snoc l r : client_view (l ++ [r]) = client_step (client_view l) r.
Proof. unfold client_view. rewrite fold_left_app. reflexivity. Qed.

Lemma client_view_sound iss l :
  NoDup (map fst iss) ->
  (forall r, In r l -> exists u, good_reply iss u r) ->
  forall id arr, client_view l id = Some arr ->
  exists u toks, In (id, (u, toks)) iss /\ arr = flatten toks.
Proof.
  intros Hnd. induction l as [|r l IH] using rev_ind; intros Hg id arr; [discriminate|].
  rewrite client_view_snoc.
  assert (Hg' : forall r, In r l -> exists u, good_reply iss u r)
    by (intros r' H; apply Hg, in_or_app; auto).
  specialize (IH Hg').
  destruct (Hg r) as (u & Hr); [apply in_or_app; right; left; reflexivity|].
  destruct r as [i toks|p i es]; simpl in *.
  - destruct (N.eq_dec id i) as [->|Hn].
    + rewrite upd_same. intros E; injection E as <-. eauto.
    + rewrite upd_other by assumption. apply IH.
  - destruct (N.eq_dec id i) as [->|Hn].
    + rewrite upd_same. destruct Hr as (old & new & A & B & C & D).
      destruct (client_view l p) as [a|] eqn:Ep; [|discriminate]. simpl.
      intros E; injection E as <-.
      destruct (IH p a Ep) as (u' & toks & Hin & ->).
      pose proof (nodup_fst_inj _ _ _ _ Hnd A Hin) as E. injection E as -> ->.
      exists u', new. split; [exact B|]. exact C.
    + rewrite upd_other by assumption. apply IH.
Qed.

Lemma C03_view_sound acts id arr :
  client_view (log (run acts)) id = Some arr ->
  exists u toks, In (id, (u, toks)) (issued (run acts)) /\ arr = flatten toks.
Proof.
  pose proof (run_inv acts) as I.
  apply client_view_sound; [apply (inv_nodup _ I) | apply (inv_log _ I)].
Qed.

(** With an honest client every received id has an array. *)
Definition prev_known (l : list reply) (r : reply) : Prop :=
  match r with RDelta p _ _ => In p (map reply_id l) | RFull _ _ => True end.
Definition thread_prev_known (l : list reply) (t : thread) : Prop :=
  match t with
  | Idle => True
  | Computed _ p _ _ => match p with Some p => In p (map reply_id l) | None => True end
  | Decided _ _ _ r => prev_known l r
  | Inserted r => prev_known l r
  end.

Fixpoint known_log (l : list reply) : Prop :=   (* newest first *)
  match l with
  | [] => True
  | r :: tl => prev_known (rev tl) r /\ known_log tl
  end.

Lemma prev_known_mono l l' r : prev_known l r -> prev_known (l ++ l') r.
Proof. destruct r; simpl; auto. rewrite map_app, in_app_iff. auto. Qed.
Lemma thread_prev_known_mono l l' t : thread_prev_known l t -> thread_prev_known (l ++ l') t.
Proof. destruct t as [|u [p|] id toks| |]; simpl; auto using prev_known_mono.
  rewrite map_app, in_app_iff. auto. Qed.

Definition HInv (s : state) : Prop :=
  (forall t, thread_prev_known (log s) (threads s t)) /\ known_log (rev (log s)).

Lemma step_hinv s a :
  HInv s -> match a with Start _ _ (Some p) _ => In p (map reply_id (log s)) | _ => True end ->
  HInv (step s a).
Proof.
  intros [H1 H2] Ha. destruct a as [t u p toks|t|t|t|u toks|u|]; simpl.
  - destruct (threads s t) eqn:Et; try (split; assumption).
    split; cbn [log threads]; [|assumption].
    intros t'. destruct (N.eq_dec t' t) as [->|Hn].
    + rewrite upd_same. simpl. destruct p; auto.
    + rewrite upd_other by assumption. apply H1.
  - pose proof (H1 t) as Ht.
    destruct (threads s t) as [|u [p|] id toks| |] eqn:Et; try (split; assumption).
    split; cbn [log threads]; [|assumption].
    intros t'. destruct (N.eq_dec t' t) as [->|Hn].
    + rewrite upd_same. simpl in *. destruct (cache s u) as [[pid old]|]; [|exact I].
      destruct (pid =? p); [exact Ht | exact I].
    + rewrite upd_other by assumption. apply H1.
  - pose proof (H1 t) as Ht.
    destruct (threads s t) as [|u [p|] id toks| |] eqn:Et; try (split; assumption);
    (split; cbn [log threads]; [|assumption]);
    intros t'; (destruct (N.eq_dec t' t) as [->|Hn];
      [rewrite upd_same; simpl in *; auto | rewrite upd_other by assumption; apply H1]).
  - pose proof (H1 t) as Ht.
    destruct (threads s t) as [| | |r] eqn:Et; try (split; assumption).
    split; cbn [log threads].
    + intros t'. destruct (N.eq_dec t' t) as [->|Hn].
      * rewrite upd_same. exact I.
      * rewrite upd_other by assumption. apply thread_prev_known_mono, H1.
    + rewrite rev_app_distr. simpl. rewrite rev_involutive. split; assumption.
  - split; cbn [log threads].
    + intros t'. apply thread_prev_known_mono, H1.
    + rewrite rev_app_distr. simpl. split; auto.
  - split; assumption.
  - split; assumption.
Qed.

Lemma fold_hinv acts : forall s, HInv s -> honest_from s acts -> HInv (fold_left step acts s).
Proof.
  induction acts as [|a acts IH]; simpl; auto.
  intros s H [Ha Hs]. apply IH; [|exact Hs]. apply step_hinv; assumption.
Qed.

Lemma known_view l : known_log l -> forall id, In id (map reply_id (rev l)) ->
  exists arr, client_view (rev l) id = Some arr.
Proof.
  induction l as [|r l IH]; simpl; [contradiction|].
  intros [Hr Hl] id Hin. rewrite client_view_snoc. specialize (IH Hl).
  rewrite map_app, in_app_iff in Hin. simpl in Hin.
  destruct (N.eq_dec id (reply_id r)) as [->|Hn].
  - destruct r as [i toks|p i es]; simpl in *.
    + rewrite upd_same. eauto.
    + rewrite upd_same. destruct (IH p Hr) as (a & ->). simpl. eauto.
  - destruct Hin as [Hin|[Hin|[]]]; [|congruence].
    destruct (IH id Hin) as (a & Ha).
    destruct r as [i toks|p i es]; simpl in *; rewrite upd_other by assumption; eauto.
Qed.

Lemma C03_view_complete acts id :
  honest acts -> In id (map reply_id (log (run acts))) ->
  exists u toks, In (id, (u, toks)) (issued (run acts)) /\
    client_view (log (run acts)) id = Some (flatten toks).
Proof.
  intros Hh Hin.
  assert (HI : HInv (run acts)).
  { apply fold_hinv; [|exact Hh]. split; simpl; auto. }
  destruct HI as [_ Hk].
  rewrite <- (rev_involutive (log (run acts))) in Hin.
  destruct (known_view _ Hk id Hin) as (arr & Ha).
  rewrite rev_involutive in Ha.
  destruct (C03_view_sound acts id arr Ha) as (u & toks & H & ->). eauto.
Qed.

Lemma C03_base acts p id es :
  In (RDelta p id es) (log (run acts)) ->
  exists u old new, In (p, (u, old)) (issued (run acts)) /\ In (id, (u, new)) (issued (run acts)) /\
    apply_edits (flatten old) es = flatten new.
Proof.
  intros H. destruct (inv_log _ (run_inv acts) _ H) as (u & old & new & A & B & C & D).
  exists u, old, new. auto.
Qed.

Lemma C03_unique acts id x y :
  In (id, x) (issued (run acts)) -> In (id, y) (issued (run acts)) -> x = y.
Proof. apply nodup_fst_inj, (inv_nodup _ (run_inv acts)). Qed.
