From Coq Require Import List Bool String Arith Lia.
From Verif Require Import OpQueueModel OpQueueSpec.
Import ListNotations.

Section Queue.
Variable args : Type.
Notation calls := (calls args).
Notation default := (default args).

Definition call1 (q : op_queue args) (c : call args) : option (op_queue args * option (string * args)) :=
  match c with
  | Request _ r a => Some (request_op _ q r a, None)
  | Start _ => Some (should_start_op _ q)
  | Complete _ => option_map (fun q => (q, None)) (op_completed _ q)
  end.

Lemma calls_snoc : forall h q c,
  calls q (h ++ [c]) =
  match calls q h with
  | None => None
  | Some (q, t) => match call1 q c with None => None | Some (q, o) => Some (q, t ++ [(c, o)]) end
  end.
Proof.
  induction h as [|x h IH]; intros q c.
  - cbn [app OpQueueModel.calls]. change (match call1 q c with
      | Some (q0, o) => option_map (fun r => (fst r, (c, o) :: snd r)) (Some (q0, [])) | None => None end =
      match call1 q c with None => None | Some (q0, o) => Some (q0, [] ++ [(c, o)]) end).
    destruct (call1 q c) as [[q' o]|]; reflexivity.
  - cbn [app OpQueueModel.calls]. change (match call1 q x with
      | Some (q0, o) => option_map (fun r => (fst r, (x, o) :: snd r)) (calls q0 (h ++ [c])) | None => None end =
      match match call1 q x with
      | Some (q0, o) => option_map (fun r => (fst r, (x, o) :: snd r)) (calls q0 h) | None => None end
      with None => None | Some (q, t) => match call1 q c with None => None | Some (q, o) => Some (q, t ++ [(c, o)]) end end).
    destruct (call1 q x) as [[q' o]|]; [|reflexivity]. rewrite IH.
    destruct (calls q' h) as [[q2 t]|]; [|reflexivity]. cbn [option_map fst snd].
    destruct (call1 q2 c) as [[q3 o3]|]; reflexivity.
Qed.

Lemma running_snoc : forall t x, running args (t ++ [x]) = if starts _ x || completes _ x then starts _ x else running _ t.
Proof. intros t x. unfold running. rewrite rev_app_distr. cbn [rev app filter]. destruct (starts _ x || completes _ x); reflexivity. Qed.

Lemma wanted_snoc : forall t x, wanted args (t ++ [x]) =
  match x with (Request _ r a, _) => Some (r, a) | _ => if starts _ x then None else wanted _ t end.
Proof. intros t x. unfold wanted. rewrite rev_app_distr. cbn [rev app recent]. destruct x as [[r a| |] o]; reflexivity. Qed.

Lemma calls_inv : forall h q t, calls default h = Some (q, t) ->
  op_in_progress _ q = running _ t /\ op_requested _ q = wanted _ t.
Proof.
  intros h. induction h as [|c h IH] using rev_ind; intros q t H.
  - cbn in H. injection H as <- <-. split; reflexivity.
  - rewrite calls_snoc in H. destruct (calls default h) as [[q0 t0]|]; [|discriminate].
    destruct (IH _ _ eq_refl) as [P R]. destruct (call1 q0 c) as [[q1 o]|] eqn:C; [|discriminate].
    injection H as <- <-. rewrite running_snoc, wanted_snoc. destruct c as [r a| |]; cbn [call1] in C.
    + injection C as <- <-. cbn. auto.
    + injection C as C. unfold should_start_op in C. destruct (op_in_progress _ q0) eqn:E.
      * injection C as <- <-. cbn. rewrite E. auto.
      * injection C as <- <-. cbn. destruct (op_requested _ q0); cbn; auto.
    + unfold op_completed in C. destruct (op_in_progress _ q0) eqn:E; [|discriminate].
      cbn in C. injection C as <- <-. cbn. auto.
Qed.

Definition count {A} (f : A -> bool) (l : list A) : nat := List.length (filter f l).
Lemma count_app : forall A (f : A -> bool) a b, count f (a ++ b) = count f a + count f b.
Proof. intros. unfold count. rewrite filter_app, app_length. reflexivity. Qed.

Lemma calls_count : forall h q t, calls default h = Some (q, t) ->
  count (starts _) t = count (completes _) t + (if running _ t then 1 else 0).
Proof.
  intros h. induction h as [|c h IH] using rev_ind; intros q t H.
  - cbn in H. injection H as <- <-. reflexivity.
  - rewrite calls_snoc in H. destruct (calls default h) as [[q0 t0]|] eqn:E0; [|discriminate].
    destruct (calls_inv _ _ _ E0) as [P R]. specialize (IH _ _ eq_refl).
    destruct (call1 q0 c) as [[q1 o]|] eqn:C; [|discriminate].
    injection H as <- <-. rewrite running_snoc, !count_app, IH. destruct c as [r a| |]; cbn [call1] in C.
    + injection C as <- <-. cbn. lia.
    + injection C as C. unfold should_start_op in C. rewrite P in C. destruct (running _ t0).
      * injection C as <- <-. cbn. lia.
      * injection C as <- <-. destruct (op_requested _ q0); cbn; lia.
    + unfold op_completed in C. rewrite P in C. destruct (running _ t0); [|discriminate].
      cbn in C. injection C as <- <-. cbn. lia.
Qed.

Lemma calls_prefix : forall h q t, calls default h = Some (q, t) ->
  forall a x b, t = a ++ x :: b -> exists h' q', calls default (h' ++ [fst x]) = Some (q', a ++ [x]).
Proof.
  intros h. induction h as [|c h IH] using rev_ind; intros q t H a x b E.
  - cbn in H. injection H as <- <-. destruct a; discriminate.
  - pose proof H as H0. rewrite calls_snoc in H. destruct (calls default h) as [[q0 t0]|] eqn:E0; [|discriminate].
    destruct (call1 q0 c) as [[q1 o]|] eqn:C; [|discriminate]. injection H as <- <-.
    destruct b as [|y b].
    + apply app_inj_tail in E. destruct E as [-> <-]. exists h, q1. exact H0.
    + destruct (exists_last (l := y :: b) ltac:(discriminate)) as (b' & z & Eb). rewrite Eb in E.
      rewrite app_comm_cons, app_assoc in E. apply app_inj_tail in E. destruct E as [E _].
      exact (IH _ _ eq_refl _ _ _ E).
Qed.

Lemma calls_start : forall h q t, calls default h = Some (q, t) ->
  forall a o b, t = a ++ (Start _, o) :: b -> o = if running _ a then None else wanted _ a.
Proof.
  intros h q t H a o b E. destruct (calls_prefix _ _ _ H _ _ _ E) as (h' & q' & H'). cbn [fst] in H'.
  rewrite calls_snoc in H'. destruct (calls default h') as [[q0 t0]|] eqn:E0; [|discriminate].
  destruct (calls_inv _ _ _ E0) as [P R]. cbn [call1] in H'. unfold should_start_op in H'. rewrite P, R in H'.
  destruct (running _ t0) eqn:Er; injection H' as _ H'; apply app_inj_tail in H'; destruct H' as [-> Ho];
    injection Ho as <-; rewrite Er; reflexivity.
Qed.

Lemma calls_complete : forall h q t, calls default h = Some (q, t) ->
  (calls default (h ++ [Complete _]) = None <-> running _ t = false).
Proof.
  intros h q t H. rewrite calls_snoc, H. destruct (calls_inv _ _ _ H) as [P _]. cbn [call1]. unfold op_completed.
  rewrite P. destruct (running _ t); cbn; split; congruence.
Qed.
End Queue.

Section Indexing.
Variable report : Type.
Notation progress := (progress report).
Notation state := (state report).
Notation step := (step report).
Notation run := (run report).

Fixpoint scan (open : bool) (l : list progress) : option bool :=
  match l with
  | [] => Some open
  | p :: tl =>
      match p with
      | Begin _ => if open then None else scan true tl
      | Report _ _ => if open then scan true tl else None
      | End _ _ => if open then scan false tl else None
      end
  end.

Lemma scan_bracketed : forall l b, scan b l <> None -> bracketed report b l.
Proof.
  induction l as [|p l IH]; intros b H; [exact I|]. destruct p; cbn [scan bracketed] in *; destruct b;
    try congruence; split; auto.
Qed.

Lemma scan_app : forall a b o, scan o (a ++ b) = match scan o a with Some o => scan o b | None => None end.
Proof. induction a as [|p a IH]; intros b o; [reflexivity|]. destruct p, o; cbn [app scan]; auto. Qed.

Definition is_end (p : progress) : bool := match p with End _ _ => true | _ => false end.
Notation ends := (count is_end).

Lemma collect_ends : forall acc p, ends (collect report acc p) = ends acc + ends [p].
Proof.
  intros acc p. unfold collect. destruct p as [|r|c]; try (rewrite count_app; reflexivity).
  destruct (rev acc) as [|[|r'|c'] tl] eqn:E; try (rewrite count_app; reflexivity).
  assert (acc = rev tl ++ [Report _ r']) as -> by (rewrite <- (rev_involutive acc), E; reflexivity).
  rewrite removelast_last, !count_app. cbn. lia.
Qed.

Lemma collect_scan : forall acc p o, scan o (collect report acc p) = scan o (acc ++ [p]).
Proof.
  intros acc p o. unfold collect. destruct p as [|r|c]; try reflexivity.
  destruct (rev acc) as [|[|r'|c'] tl] eqn:E; try reflexivity.
  assert (acc = rev tl ++ [Report _ r']) as -> by (rewrite <- (rev_involutive acc), E; reflexivity).
  rewrite removelast_last, <- app_assoc, !scan_app. destruct (scan o (rev tl)) as [[]|]; reflexivity.
Qed.

Lemma fold_collect : forall l acc,
  ends (fold_left (collect report) l acc) = ends acc + ends l /\
  forall o rest, scan o (fold_left (collect report) l acc ++ rest) = scan o (acc ++ l ++ rest).
Proof.
  induction l as [|p l IH]; intros acc; cbn [fold_left app].
  - split; [unfold count at 3; cbn; lia|reflexivity].
  - destruct (IH (collect report acc p)) as [E S]. split.
    + rewrite E, collect_ends. change (p :: l) with ([p] ++ l). rewrite !count_app. lia.
    + intros o rest. rewrite S, scan_app, collect_scan, <- scan_app, <- app_assoc. reflexivity.
Qed.

Definition idle_phase (s : state) (open : bool) : Prop :=
  match jobs _ s with
  | [] => started _ s = completed _ s + ends (channel _ s) -> open = false
  | [Spawned] => open = false
  | [Indexing] => open = true
  | _ => False
  end.

Record inv (s : state) : Prop := {
  i_low : completed _ s + List.length (jobs _ s) + ends (channel _ s) <= started _ s;
  i_high : started _ s <= completed _ s + 1;
  i_prog : op_in_progress _ (queue _ s) = (completed _ s <? started _ s);
  i_scan : exists open, scan false (notified _ s ++ channel _ s) = Some open /\ idle_phase s open }.

(** the state after announcing [ps]: only the queue, the notifications and the count change *)
Lemma announce_spec : forall ps s,
  ends ps <= 1 -> (ends ps = 1 -> op_in_progress _ (queue _ s) = true) ->
  exists q, announce report s ps =
      Some (State _ q (jobs _ s) (channel _ s) (notified _ s ++ ps) (started _ s) (completed _ s + ends ps)) /\
    op_in_progress _ q = (if ends ps =? 0 then op_in_progress _ (queue _ s) else false) /\
    (op_requested _ (queue _ s) <> None -> op_requested _ q <> None).
Proof.
  induction ps as [|p ps IH]; intros s H1 H2.
  - exists (queue _ s). cbn. rewrite app_nil_r, Nat.add_0_r. destruct s. auto.
  - change (p :: ps) with ([p] ++ ps) in *. rewrite count_app in *. cbn [app announce].
    destruct p as [|r|c]; cbn in H1, H2.
    + destruct (IH (State _ (queue _ s) (jobs _ s) (channel _ s) (notified _ s ++ [Begin _]) (started _ s) (completed _ s)))
        as (q & E & P & R); cbn [queue]; auto.
      exists q. rewrite E. cbn [jobs channel notified started completed queue] in *. rewrite <- app_assoc. cbn. auto.
    + destruct (IH (State _ (queue _ s) (jobs _ s) (channel _ s) (notified _ s ++ [Report _ r]) (started _ s) (completed _ s)))
        as (q & E & P & R); cbn [queue]; auto.
      exists q. rewrite E. cbn [jobs channel notified started completed queue] in *. rewrite <- app_assoc. cbn. auto.
    + assert (ends ps = 0) as Z by lia. unfold op_completed. rewrite (H2 ltac:(lia)).
      set (q0 := if c then _ else _).
      destruct (IH (State _ q0 (jobs _ s) (channel _ s) (notified _ s ++ [End _ c]) (started _ s) (S (completed _ s))))
        as (q & E & P & R); cbn [queue]; [lia|lia|].
      exists q. cbn [jobs channel notified started completed queue] in *. rewrite E. split; [|split].
      * rewrite <- app_assoc. f_equal. f_equal. cbn. lia.
      * rewrite P, Z. cbn. unfold q0. destruct c; reflexivity.
      * intros K. apply R. unfold q0. destruct c; cbn; congruence.
Qed.

Lemma ends_split : forall n l, ends (firstn n l) + ends (skipn n l) = ends l.
Proof. intros n l. rewrite <- count_app, firstn_skipn. reflexivity. Qed.

Lemma ends_zero_cons : forall p l, ends (p :: l) = (if is_end p then 1 else 0) + ends l.
Proof. intros p l. unfold count. cbn. destruct (is_end p); reflexivity. Qed.

Lemma step_inv : forall s e, inv s -> exists s', step s e = Some s' /\ inv s' /\
  (forall n w, e = Turn _ n w ->
     (op_requested _ (queue _ s') <> None -> started _ s' = completed _ s' + 1) /\
     (w = true \/ op_requested _ (queue _ s) <> None -> started _ s' = completed _ s' + 1 /\
        (op_requested _ (queue _ s') <> None \/ started _ s' = S (started _ s)))).
Proof.
  intros s e [L H P (o & So & Io)]. destruct e as [n w| |r|c|]; cbn [OpQueueModel.step].
  - destruct (fold_collect (firstn n (channel _ s)) []) as [Ec Sc]. cbn [count filter List.length Nat.add app] in Ec, Sc.
    change (count is_end [] ) with 0 in Ec. cbn [Nat.add] in Ec.
    pose proof (ends_split n (channel _ s)) as Es.
    destruct (announce_spec (fold_left (collect report) (firstn n (channel _ s)) [])
      (State _ (queue _ s) (jobs _ s) (skipn n (channel _ s)) (notified _ s) (started _ s) (completed _ s))) as (q & E & Pq & Rq);
      cbn [queue].
    { rewrite Ec. lia. }
    { rewrite Ec, P. intros K. apply Nat.ltb_lt. lia. }
    cbn [jobs channel notified started completed queue] in *. rewrite Ec in *. rewrite E.
    set (q1 := if w then _ else _).
    assert (P1 : op_in_progress _ q1 = (completed _ s + ends (firstn n (channel _ s)) <? started _ s)).
    { assert (op_in_progress _ q1 = op_in_progress _ q) as -> by (unfold q1; destruct w; reflexivity).
      rewrite Pq, P. destruct (Nat.eqb_spec (ends (firstn n (channel _ s))) 0) as [->|N]; [rewrite Nat.add_0_r; reflexivity|].
      symmetry. apply Nat.ltb_ge. lia. }
    assert (Sn : scan false ((notified _ s ++ fold_left (collect report) (firstn n (channel _ s)) []) ++ skipn n (channel _ s)) = Some o).
    { rewrite <- app_assoc, scan_app. rewrite scan_app in So. destruct (scan false (notified _ s)) as [o1|]; [|discriminate].
      rewrite Sc, firstn_skipn. exact So. }
    assert (Rw : (w = true \/ op_requested _ (queue _ s) <> None) -> op_requested _ q1 <> None).
    { unfold q1. intros [->|K]; [cbn; discriminate|]. destruct w; [cbn; discriminate|]. apply Rq. exact K. }
    eexists. split; [reflexivity|]. unfold maybe_start, should_start_op. cbn [queue jobs channel notified started completed].
    rewrite P1. destruct (Nat.ltb_spec (completed _ s + ends (firstn n (channel _ s))) (started _ s)) as [Lt|Ge].
    + split.
      * constructor; cbn [queue jobs channel notified started completed].
        -- lia.
        -- lia.
        -- rewrite P1. symmetry. apply Nat.ltb_lt. lia.
        -- exists o. split; [exact Sn|]. unfold idle_phase in *. cbn [jobs channel started completed].
           destruct (jobs _ s) as [|[] []]; auto. intros K. apply Io. lia.
      * intros n' w' K. injection K as <- <-. cbn [queue jobs channel notified started completed]. split; [lia|].
        intros K. split; [lia|]. left. apply Rw. exact K.
    + assert (jobs _ s = []) as J by (destruct (jobs _ s); [reflexivity|cbn in L; lia]).
      assert (o = false) as ->. { unfold idle_phase in Io. rewrite J in Io. apply Io. lia. }
      destruct (op_requested _ q1) as [cause|] eqn:R1.
      * split.
        -- constructor; cbn [queue jobs channel notified started completed op_in_progress].
           ++ rewrite J. cbn. lia.
           ++ lia.
           ++ symmetry. apply Nat.ltb_lt. lia.
           ++ exists false. split; [exact Sn|]. unfold idle_phase. cbn [jobs]. rewrite J. reflexivity.
        -- intros n' w' K. injection K as <- <-. cbn [queue jobs channel notified started completed op_requested].
           split; [congruence|]. intros _. split; [lia|]. right. reflexivity.
      * split.
        -- constructor; cbn [queue jobs channel notified started completed op_in_progress].
           ++ rewrite J. cbn. lia.
           ++ lia.
           ++ symmetry. apply Nat.ltb_ge. lia.
           ++ exists false. split; [exact Sn|]. unfold idle_phase. cbn [jobs]. rewrite J. reflexivity.
        -- intros n' w' K. injection K as <- <-. cbn [queue jobs channel notified started completed op_requested].
           split; [congruence|]. intros K. destruct (Rw K). reflexivity.
  - destruct (jobs _ s) as [|[] tl] eqn:J.
    + exists s. split; [reflexivity|]. split; [|intros; discriminate]. constructor; try assumption.
      * rewrite J. exact L.
      * exists o. split; [exact So|]. exact Io.
    + assert (tl = []) as -> by (destruct tl; [reflexivity|cbn in L; lia]).
      eexists. split; [reflexivity|]. split; [|intros; discriminate].
      unfold idle_phase in Io. rewrite J in Io. subst o.
      constructor; cbn [queue jobs channel notified started completed]; try assumption.
      * rewrite count_app. cbn in *. lia.
      * exists true. split; [|reflexivity]. rewrite app_assoc, scan_app, So. reflexivity.
    + exists s. split; [reflexivity|]. split; [|intros; discriminate]. constructor; try assumption.
      * rewrite J. exact L.
      * exists o. split; [exact So|]. exact Io.
  - destruct (jobs _ s) as [|[] tl] eqn:J.
    + exists s. split; [reflexivity|]. split; [|intros; discriminate]. constructor; try assumption.
      * rewrite J. exact L.
      * exists o. split; [exact So|]. exact Io.
    + exists s. split; [reflexivity|]. split; [|intros; discriminate]. constructor; try assumption.
      * rewrite J. exact L.
      * exists o. split; [exact So|]. exact Io.
    + assert (tl = []) as -> by (destruct tl; [reflexivity|cbn in L; lia]).
      eexists. split; [reflexivity|]. split; [|intros; discriminate].
      unfold idle_phase in Io. rewrite J in Io. subst o.
      constructor; cbn [queue jobs channel notified started completed]; try assumption.
      * rewrite count_app. cbn in *. lia.
      * exists true. split; [|reflexivity]. rewrite app_assoc, scan_app, So. reflexivity.
  - destruct (jobs _ s) as [|[] tl] eqn:J.
    + exists s. split; [reflexivity|]. split; [|intros; discriminate]. constructor; try assumption.
      * rewrite J. exact L.
      * exists o. split; [exact So|]. exact Io.
    + exists s. split; [reflexivity|]. split; [|intros; discriminate]. constructor; try assumption.
      * rewrite J. exact L.
      * exists o. split; [exact So|]. exact Io.
    + assert (tl = []) as -> by (destruct tl; [reflexivity|cbn in L; lia]).
      eexists. split; [reflexivity|]. split; [|intros; discriminate].
      unfold idle_phase in Io. rewrite J in Io. subst o.
      constructor; cbn [queue jobs channel notified started completed]; try assumption.
      * rewrite count_app. cbn in *. lia.
      * exists false. split; [|intros _; reflexivity]. rewrite app_assoc, scan_app, So. reflexivity.
  - destruct (jobs _ s) as [|[] tl] eqn:J.
    + exists s. split; [reflexivity|]. split; [|intros; discriminate]. constructor; try assumption.
      * rewrite J. exact L.
      * exists o. split; [exact So|]. exact Io.
    + exists s. split; [reflexivity|]. split; [|intros; discriminate]. constructor; try assumption.
      * rewrite J. exact L.
      * exists o. split; [exact So|]. exact Io.
    + assert (tl = []) as -> by (destruct tl; [reflexivity|cbn in L; lia]).
      eexists. split; [reflexivity|]. split; [|intros; discriminate].
      unfold idle_phase in Io. rewrite J in Io. subst o.
      constructor; cbn [queue jobs channel notified started completed]; try assumption.
      * cbn in *. lia.
      * exists true. split; [exact So|]. unfold idle_phase. cbn [jobs started completed channel]. cbn in L. lia.
Qed.

Lemma start_inv : inv (start report).
Proof. constructor; cbn; auto. exists false. split; [reflexivity|]. intros _. reflexivity. Qed.

Lemma run_snoc : forall h s e, run s (h ++ [e]) = match run s h with Some s => step s e | None => None end.
Proof.
  induction h as [|x h IH]; intros s e; cbn [app OpQueueModel.run].
  - destruct (step s e); reflexivity.
  - destruct (step s x); [apply IH|reflexivity].
Qed.

Lemma run_inv : forall h, exists s, run (start report) h = Some s /\ inv s.
Proof.
  intros h. induction h as [|e h IH] using rev_ind.
  - exists (start report). split; [reflexivity|apply start_inv].
  - destruct IH as (s & R & I). destruct (step_inv s e I) as (s' & E & I' & _). exists s'. rewrite run_snoc, R. auto.
Qed.
End Indexing.

Section Dead.
Variable report : Type.
Notation ends := (count (is_end report)).
Definition dead (s : state report) : Prop :=
  jobs _ s = [] /\ ends (channel _ s) = 0 /\ op_in_progress _ (queue _ s) = true.

Lemma dead_step : forall s e, dead s -> exists s', step report s e = Some s' /\ dead s' /\ started _ s' = started _ s.
Proof.
  intros s e (J & E & P). destruct e as [n w| |r|c|]; cbn [step]; rewrite ?J;
    try (exists s; split; [reflexivity|]; split; [repeat split; assumption|reflexivity]).
  destruct (fold_collect report (firstn n (channel _ s)) []) as [Ec _]. pose proof (ends_split report n (channel _ s)) as Es.
  change (count (is_end report) []) with 0 in Ec.
  destruct (announce_spec report (fold_left (collect report) (firstn n (channel _ s)) [])
    (State _ (queue _ s) [] (skipn n (channel _ s)) (notified _ s) (started _ s) (completed _ s))) as (q & Eq & Pq & _);
    cbn [queue]; [lia|auto|].
  rewrite Eq. assert (ends (fold_left (collect report) (firstn n (channel _ s)) []) = 0) as Z by lia. rewrite Z in Pq. cbn in Pq.
  cbn [jobs channel notified started completed queue].
  eexists. split; [reflexivity|]. unfold maybe_start, should_start_op. cbn [jobs channel notified started completed queue].
  destruct w; cbn [request_op op_in_progress]; rewrite Pq, P; unfold dead; cbn [jobs channel started queue op_in_progress];
    repeat split; try assumption; try lia; exact (eq_trans Pq P).
Qed.

Lemma dead_run : forall h s, dead s -> exists s', run report s h = Some s' /\ started _ s' = started _ s.
Proof.
  induction h as [|e h IH]; intros s D; [exists s; split; reflexivity|].
  destruct (dead_step s e D) as (s1 & E & D1 & K). destruct (IH s1 D1) as (s2 & R & K2).
  exists s2. cbn [run]. rewrite E. split; [exact R|congruence].
Qed.
End Dead.
