From Coq Require Import List ZArith Bool String Lia Arith.
From Verif Require Import RequestsModel RequestsSpec.
Import ListNotations.
Local Open Scope string_scope.

Section Proofs.
Variable json : Type.
Variable parse_error : string -> json -> option string.
Variable null : json.
Notation request := (request json).
Notation state := (state json).
Notation event := (event json).
Notation run := (run json parse_error null).
Notation step := (step json parse_error null).
Notation on_request := (on_request json parse_error null).
Notation respond := (respond json).
Notation ledger := (ledger json).
Notation ledger_of := (ledger_of json parse_error null).
Notation entry := (entry json parse_error null).
Notation immediate := (immediate json parse_error null).
Notation shuts_down := (shuts_down json parse_error).
Notation answered := (answered json).
Notation asked := (asked json).
Notation working := (working json).
Notation on := (on json parse_error).

Definition pend (i : req_id) (p : list req_id) : nat := if is_pending i p then 1 else 0.

Lemma is_pending_iff : forall i p, is_pending i p = true <-> In i p.
Proof. intros i p. unfold is_pending. destruct (in_dec id_dec i p); split; congruence || tauto. Qed.

Lemma pend_remove : forall i j p, pend i (remove id_dec j p) = if id_dec j i then 0 else pend i p.
Proof.
  intros i j p. unfold pend, is_pending.
  destruct (in_dec id_dec i (remove id_dec j p)) as [H|H], (in_dec id_dec i p) as [K|K], (id_dec j i) as [E|E];
    try reflexivity; exfalso; subst.
  - exact (remove_In _ _ _ H).
  - exact (remove_In _ _ _ H).
  - apply in_remove in H. tauto.
  - apply H. apply in_in_remove; congruence || assumption.
Qed.

Lemma answered_app : forall i a b, answered i (a ++ b) = answered i a + answered i b.
Proof. intros i a b. unfold answered. rewrite filter_app, app_length. reflexivity. Qed.
Lemma answered_one : forall i r, answered i [r] = if id_dec (rs_id _ r) i then 1 else 0.
Proof. intros i r. unfold answered. cbn. destruct (id_dec (rs_id _ r) i); reflexivity. Qed.

(** the balance of an id: its answers and whether an answer is pending *)
Definition balance (i : req_id) (s : state) : nat := answered i (sent _ s) + pend i (pending _ s).

Lemma balance_respond : forall i s r, balance i (respond s r) = balance i s.
Proof.
  intros i s r. unfold respond, balance. destruct (is_pending (rs_id _ r) (pending _ s)) eqn:E; [|reflexivity].
  cbn [sent pending]. rewrite answered_app, answered_one, pend_remove.
  destruct (id_dec (rs_id _ r) i) as [<-|]; [|lia]. unfold pend. rewrite E. lia.
Qed.

Lemma balance_parse : forall i d m, balance i (dp_state _ (fst (parse _ parse_error d m))) = balance i (dp_state _ d).
Proof.
  intros i [r s] m. unfold parse. cbn [dp_req dp_state]. destruct r as [q|]; [|reflexivity].
  destruct (String.eqb (rq_method _ q) m); [|reflexivity].
  destruct (parse_error m (rq_params _ q)); cbn [fst dp_state]; [apply balance_respond|reflexivity].
Qed.

Lemma balance_on : forall i m d, balance i (dp_state _ (on m d)) = balance i (dp_state _ d).
Proof.
  intros i m d. unfold on. pose proof (balance_parse i d m) as H.
  destruct (parse _ parse_error d m) as [d' [q|]]; cbn [fst] in H; exact H.
Qed.

Lemma balance_fold : forall i ms d, balance i (dp_state _ (fold_left (fun d m => on m d) ms d)) = balance i (dp_state _ d).
Proof. intros i ms. induction ms as [|m ms IH]; intros d; [reflexivity|]. cbn [fold_left]. rewrite IH. apply balance_on. Qed.

Lemma balance_finish : forall i d, balance i (finish _ d) = balance i (dp_state _ d).
Proof. intros i [r s]. unfold finish. cbn [dp_req dp_state]. destruct r; [apply balance_respond|reflexivity]. Qed.

Lemma balance_shutdown : forall i d, balance i (dp_state _ (on_shutdown _ parse_error null d)) = balance i (dp_state _ d).
Proof.
  intros i d. unfold on_shutdown. pose proof (balance_parse i d "shutdown") as H.
  destruct (parse _ parse_error d "shutdown") as [d' [q|]]; cbn [fst] in H; [|exact H].
  cbn [result_to_response dp_state]. rewrite balance_respond. exact H.
Qed.

Lemma balance_on_request : forall i s q, balance i (on_request s q) = balance i s.
Proof.
  intros i s q. unfold on_request. pose proof (balance_shutdown i (Dispatcher _ (Some q) s)) as H.
  destruct (on_shutdown _ parse_error null (Dispatcher _ (Some q) s)) as [r s']. cbn [dp_req dp_state] in *.
  destruct r as [q'|]; [destruct (shutdown_requested _ s')|];
    rewrite ?balance_respond, ?balance_finish, ?balance_fold; exact H.
Qed.

Lemma asked_app : forall i a b, asked i (a ++ b) = asked i a + asked i b.
Proof.
  intros i a b. induction a as [|e a IH]; [reflexivity|]. cbn [app]. destruct e; cbn [RequestsSpec.asked]; rewrite IH; lia.
Qed.

Lemma run_app : forall h e, run (h ++ [e]) = step (run h) e.
Proof. intros h e. unfold run. rewrite fold_left_app. reflexivity. Qed.
Lemma ledger_app : forall h e, ledger_of (h ++ [e]) = entry (ledger_of h) e.
Proof. intros h e. unfold ledger_of. rewrite fold_left_app. reflexivity. Qed.

Lemma pend_register : forall i j p, pend i (register j p) <= pend i p + (if id_dec j i then 1 else 0).
Proof.
  intros i j p. unfold register. destruct (in_dec id_dec j p); [lia|]. unfold pend, is_pending.
  destruct (in_dec id_dec i (j :: p)) as [[E|H]|H], (in_dec id_dec i p), (id_dec j i); try lia; congruence.
Qed.

Lemma balance_step : forall i s e, balance i (step s e) <= balance i s + asked i [e].
Proof.
  intros i s e. destruct e as [q|j|n o|]; cbn [RequestsModel.step RequestsSpec.asked].
  - unfold on_new_request. rewrite balance_on_request. unfold balance. cbn [sent pending].
    pose proof (pend_register i (rq_id _ q) (pending _ s)). lia.
  - lia.
  - destruct (nth_error (jobs _ s) n); [|lia]. unfold balance. cbn [sent pending]. lia.
  - destruct (tasks _ s) as [|t tl]; [lia|]. set (s' := State _ _ _ _ _ _).
    assert (balance i s' = balance i s) as E by reflexivity.
    destruct t as [r|q]; cbn [handle_task]; [rewrite balance_respond; lia|].
    destruct (is_pending (rq_id _ q) (pending _ s')); [rewrite balance_on_request|]; lia.
Qed.

Lemma balance_run : forall i h, balance i (run h) <= asked i h.
Proof.
  intros i h. induction h as [|e h IH] using rev_ind; [cbn; lia|].
  rewrite run_app, asked_app. pose proof (balance_step i (run h) e). lia.
Qed.

(** ** what a request that is pending leads to *)
Lemma on_none : forall ms s, fold_left (fun d m => on m d) ms (Dispatcher _ None s) = Dispatcher _ None s.
Proof. induction ms as [|m ms IH]; intros s; [reflexivity|]. cbn [fold_left]. unfold RequestsModel.on at 2, parse. cbn [dp_req]. apply IH. Qed.

Lemma on_some : forall ms q s,
  fold_left (fun d m => on m d) ms (Dispatcher _ (Some q) s) =
  if existsb (String.eqb (rq_method _ q)) ms then
    match parse_error (rq_method _ q) (rq_params _ q) with
    | Some e => Dispatcher _ None (respond s (Resp _ (rq_id _ q) (Error _ InvalidParams e)))
    | None => Dispatcher _ None (State _ (pending _ s) (shutdown_requested _ s) (jobs _ s ++ [q]) (tasks _ s) (sent _ s))
    end
  else Dispatcher _ (Some q) s.
Proof.
  induction ms as [|m ms IH]; intros q s; [reflexivity|]. cbn [fold_left existsb].
  unfold RequestsModel.on at 2. unfold parse. cbn [dp_req dp_state].
  destruct (String.eqb_spec (rq_method _ q) m) as [<-|N]; cbn [orb].
  - destruct (parse_error (rq_method _ q) (rq_params _ q)); cbn [dp_req dp_state]; apply on_none.
  - apply IH.
Qed.

Definition answer (s : state) (q : request) (down : bool) (b : body json) : state :=
  State _ (remove id_dec (rq_id _ q) (pending _ s)) down (jobs _ s) (tasks _ s)
        (sent _ s ++ [Resp _ (rq_id _ q) b]).

Lemma respond_pending : forall s q b, is_pending (rq_id _ q) (pending _ s) = true ->
  respond s (Resp _ (rq_id _ q) b) = answer s q (shutdown_requested _ s) b.
Proof. intros s q b H. unfold respond. cbn [rs_id]. rewrite H. reflexivity. Qed.

Lemma on_request_spec : forall s q, is_pending (rq_id _ q) (pending _ s) = true ->
  on_request s q =
  match immediate (shutdown_requested _ s) q with
  | Some b => answer s q (shutdown_requested _ s || shuts_down q) b
  | None => State _ (pending _ s) (shutdown_requested _ s) (jobs _ s ++ [q]) (tasks _ s) (sent _ s)
  end.
Proof.
  intros s q H. unfold RequestsModel.on_request, on_shutdown, RequestsSpec.immediate, RequestsSpec.shuts_down, parse. cbn [dp_req dp_state].
  destruct (String.eqb_spec (rq_method _ q) "shutdown") as [E|N]; cbn [andb orb].
  - destruct (parse_error "shutdown" (rq_params _ q)) as [e|]; cbn [dp_req dp_state result_to_response].
    + rewrite on_none. unfold finish. cbn [dp_req dp_state]. rewrite respond_pending, orb_false_r by exact H. reflexivity.
    + rewrite on_none. unfold finish. cbn [dp_req dp_state]. rewrite respond_pending by exact H. rewrite orb_true_r. reflexivity.
  - rewrite orb_false_r. cbn [dp_req dp_state]. destruct (shutdown_requested _ s) eqn:D.
    + rewrite respond_pending by exact H. rewrite D. reflexivity.
    + rewrite on_some. unfold known. destruct (existsb (String.eqb (rq_method _ q)) handled_methods).
      * destruct (parse_error (rq_method _ q) (rq_params _ q)); unfold finish; cbn [dp_req dp_state].
        -- rewrite respond_pending, D by exact H. reflexivity.
        -- rewrite D. reflexivity.
      * unfold finish. cbn [dp_req dp_state]. rewrite respond_pending, D by exact H. reflexivity.
Qed.

Definition task_of (x : request * outcome json) : task json :=
  match answer_of _ (snd x) with
  | Some b => TResponse _ (Resp _ (rq_id _ (fst x)) b)
  | None => TRetry _ (fst x)
  end.

Lemma thread_result : forall q o,
  match thread_result_to_response _ (rq_id _ q) o with Some r => TResponse _ r | None => TRetry _ q end = task_of (q, o).
Proof. intros q o. destruct o as [v|c m| |m|[m|]]; reflexivity. Qed.

Definition resp_of (x : req_id * body json) : response json := Resp _ (fst x) (snd x).

Record rel (s : state) (l : ledger) (h : list event) : Prop := {
  r_down : shutdown_requested _ s = lg_down _ l;
  r_jobs : jobs _ s = lg_working _ l;
  r_tasks : tasks _ s = map task_of (lg_done _ l);
  r_sent : sent _ s = map resp_of (lg_answers _ l);
  r_work : forall i, working i l = pend i (pending _ s);
  r_asked : forall i, balance i s = asked i h }.

Definition has (i : req_id) (q : request) : bool := if id_dec (rq_id _ q) i then true else false.
Lemma working_eq : forall i l, working i l =
  (List.length (filter (has i) (lg_working _ l)) + List.length (filter (has i) (map fst (lg_done _ l))))%nat.
Proof. intros i l. unfold RequestsSpec.working. rewrite filter_app, app_length. reflexivity. Qed.

Lemma remove_nth_count : forall i (l : list request) n q, nth_error l n = Some q ->
  List.length (filter (has i) l) = (List.length (filter (has i) (remove_nth n l)) + (if id_dec (rq_id _ q) i then 1 else 0))%nat.
Proof.
  intros i l. induction l as [|x l IH]; intros n q H; [destruct n; discriminate|].
  destruct n as [|n].
  - injection H as ->. cbn [remove_nth filter]. change (has i q) with (if id_dec (rq_id _ q) i then true else false). destruct (id_dec (rq_id _ q) i); cbn [List.length]; lia.
  - cbn [nth_error] in H. specialize (IH _ _ H). cbn [remove_nth filter].
    destruct (has i x); cbn [List.length]; lia.
Qed.

Lemma pend_pos : forall i p, 1 <= pend i p -> is_pending i p = true.
Proof. intros i p. unfold pend. destruct (is_pending i p); [reflexivity|lia]. Qed.

(** handling a request that is pending and not being worked on *)
Lemma rel_accept : forall s l h q,
  shutdown_requested _ s = lg_down _ l -> jobs _ s = lg_working _ l -> tasks _ s = map task_of (lg_done _ l) ->
  sent _ s = map resp_of (lg_answers _ l) ->
  is_pending (rq_id _ q) (pending _ s) = true ->
  (forall i, (working i l + (if id_dec (rq_id _ q) i then 1 else 0))%nat = pend i (pending _ s)) ->
  (forall i, balance i s = asked i h) ->
  rel (on_request s q) (accept _ parse_error null l q) h.
Proof.
  intros s l h q D J T A P W B.
  assert (forall i, balance i (on_request s q) = asked i h) as B'
    by (intros i; rewrite balance_on_request; apply B).
  rewrite on_request_spec in * by exact P. unfold accept. rewrite <- D.
  destruct (immediate (shutdown_requested _ s) q) as [b|].
  - constructor; cbn [answer shutdown_requested jobs tasks sent pending lg_down lg_working lg_done lg_answers]; try assumption.
    + reflexivity.
    + rewrite A, map_app. reflexivity.
    + intros i. rewrite pend_remove. change (working i l = if id_dec (rq_id _ q) i then 0 else pend i (pending _ s)).
      specialize (W i). destruct (id_dec (rq_id _ q) i) as [E|E]; [|lia].
      unfold pend in W. destruct (is_pending i (pending _ s)); lia.
  - constructor; cbn [shutdown_requested jobs tasks sent pending lg_down lg_working lg_done lg_answers]; try assumption.
    + reflexivity.
    + rewrite J. reflexivity.
    + intros i. rewrite <- (W i), !working_eq. cbn [lg_working lg_done]. rewrite filter_app, app_length.
      cbn [filter]. change (has i q) with (if id_dec (rq_id _ q) i then true else false). destruct (id_dec (rq_id _ q) i); cbn [List.length]; lia.
Qed.

Lemma rel_step : forall s l h e, rel s l h ->
  (forall q, e = Arrive _ q -> asked (rq_id _ q) h = answered (rq_id _ q) (sent _ s)) ->
  rel (step s e) (entry l e) (h ++ [e]).
Proof.
  intros s l h e R F. destruct R as [D J T A W B]. destruct e as [q|j|n o|].
  - cbn [RequestsModel.step RequestsSpec.entry]. specialize (F q eq_refl). unfold on_new_request.
    assert (Hn : ~ In (rq_id _ q) (pending _ s)).
    { intros H. apply is_pending_iff in H. specialize (B (rq_id _ q)). unfold balance, pend in B. rewrite H in B. lia. }
    unfold register. destruct (in_dec id_dec (rq_id _ q) (pending _ s)) as [H|_]; [contradiction|].
    assert (Pp : forall i, pend i (rq_id _ q :: pending _ s) = (pend i (pending _ s) + if id_dec (rq_id _ q) i then 1 else 0)%nat).
    { intros i. unfold pend, is_pending. destruct (in_dec id_dec i (rq_id _ q :: pending _ s)) as [[E|H]|H], (in_dec id_dec i (pending _ s)) as [K|K], (id_dec (rq_id _ q) i) as [E'|E'];
        cbn [In] in *; try congruence; try lia; try tauto; subst; tauto. }
    apply rel_accept; cbn [shutdown_requested jobs tasks sent pending]; try assumption.
    + apply is_pending_iff. left. reflexivity.
    + intros i. rewrite Pp, W. reflexivity.
    + intros i. unfold balance. cbn [sent pending]. rewrite Pp, asked_app, <- B. unfold balance. cbn [RequestsSpec.asked].
      lia.
  - cbn [RequestsModel.step RequestsSpec.entry]. constructor; try assumption.
    intros i. rewrite asked_app, B. cbn [RequestsSpec.asked]. lia.
  - cbn [RequestsModel.step RequestsSpec.entry]. rewrite J. destruct (nth_error (lg_working _ l) n) as [q|] eqn:E.
    + rewrite thread_result. constructor; cbn [shutdown_requested jobs tasks sent pending lg_down lg_working lg_done lg_answers]; try assumption.
      * reflexivity.
      * rewrite T, map_app. reflexivity.
      * intros i. rewrite <- W, !working_eq. cbn [lg_working lg_done].
        rewrite map_app, filter_app, app_length, (remove_nth_count i _ _ _ E).
        cbn [map fst filter]. change (has i q) with (if id_dec (rq_id _ q) i then true else false). destruct (id_dec (rq_id _ q) i); cbn [List.length]; lia.
      * intros i. unfold balance. cbn [sent pending]. rewrite asked_app. cbn [RequestsSpec.asked]. rewrite <- B. unfold balance. lia.
    + constructor; try assumption. intros i. rewrite asked_app, B. cbn [RequestsSpec.asked]. lia.
  - cbn [RequestsModel.step RequestsSpec.entry]. rewrite T. destruct (lg_done _ l) as [|[q o] tl] eqn:E; cbn [map].
    + constructor; try assumption.
      * rewrite T, E. reflexivity.
      * intros i. rewrite asked_app, B. cbn [RequestsSpec.asked]. lia.
    + assert (Wk : forall i, pend i (pending _ s) =
         (List.length (filter (has i) (lg_working _ l)) + List.length (filter (has i) (map fst tl)) + (if id_dec (rq_id _ q) i then 1 else 0))%nat).
      { intros i. rewrite <- W, working_eq, E. cbn [map fst filter]. change (has i q) with (if id_dec (rq_id _ q) i then true else false).
        destruct (id_dec (rq_id _ q) i); cbn [List.length]; lia. }
      assert (P : is_pending (rq_id _ q) (pending _ s) = true).
      { apply pend_pos. rewrite Wk. destruct (id_dec (rq_id _ q) (rq_id _ q)); [lia|congruence]. }
      set (s' := State _ _ _ _ _ _).
      assert (B' : forall i, balance i s' = asked i (h ++ [Receive _])).
      { intros i. unfold balance. cbn [s' sent pending]. rewrite asked_app. cbn [RequestsSpec.asked]. rewrite <- B. unfold balance. lia. }
      unfold task_of at 1. cbn [fst snd]. destruct (answer_of _ o) as [b|].
      * cbn [handle_task].
        assert (B'' : forall i, balance i (respond s' (Resp _ (rq_id _ q) b)) = asked i (h ++ [Receive _]))
          by (intros i; rewrite balance_respond; apply B').
        rewrite respond_pending in * by exact P.
        constructor; cbn [s' answer shutdown_requested jobs tasks sent pending lg_down lg_working lg_done lg_answers] in *; try assumption.
        -- reflexivity.
        -- rewrite A, map_app. reflexivity.
        -- intros i. rewrite pend_remove, Wk, working_eq. cbn [lg_working lg_done].
           pose proof (Wk i) as K. unfold pend in K.
           destruct (id_dec (rq_id _ q) i); [|lia]. destruct (is_pending i (pending _ s)); lia.
      * cbn [handle_task]. change (pending _ s') with (pending _ s). rewrite P.
        apply rel_accept; try assumption; try reflexivity.
        intros i. change (pending _ s') with (pending _ s). rewrite Wk, working_eq. reflexivity.
Qed.

Lemma polite_prefix : forall h e, polite _ parse_error null (h ++ [e]) -> polite _ parse_error null h.
Proof.
  intros h e P h1 q h2 ->. apply (P h1 q (h2 ++ [e])%list). rewrite <- app_assoc. reflexivity.
Qed.

Lemma rel_run : forall h, polite _ parse_error null h -> rel (run h) (ledger_of h) h.
Proof.
  intros h. induction h as [|e h IH] using rev_ind; intros P.
  - constructor; reflexivity.
  - rewrite run_app, ledger_app. apply rel_step.
    + apply IH. eapply polite_prefix. exact P.
    + intros q ->. apply (P h q []). reflexivity.
Qed.
End Proofs.
