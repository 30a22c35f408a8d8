(** C56: every task given to the pool is run once, in order, unless tasks panic. *)
From Coq Require Import List Bool Arith ZArith Lia Permutation.
From Verif Require Import PoolModel PoolSpec.
Import ListNotations.
Local Open Scope nat_scope.

Lemma set_split {A} (l : list A) w a : nth_error l w = Some a ->
  exists l1 l2, l = l1 ++ a :: l2 /\ forall x, set l w x = l1 ++ x :: l2.
Proof.
  revert w. induction l as [|b l IH]; intros [|w] H; try discriminate.
  - injection H as <-. exists [], l. auto.
  - destruct (IH w H) as (l1 & l2 & E & F). exists (b :: l1), l2. split; [simpl; now rewrite <- E|]. intros x. simpl. now rewrite F.
Qed.
Lemma intent_eqb_eq a b : intent_eqb a b = true <-> a = b.
Proof. destruct a, b; simpl; split; congruence. Qed.

(** The jobs of panicked threads *)
Definition dead (p : pool) : list job := flat_map (fun t => match at_ t with Panicked j => [j] | _ => [] end) (threads p).
Definition well (t : thread) : Prop :=
  current_intent t = class t /\ match at_ t with Prepared j | Running j => requested j = class t | _ => True end.
Record inv (n : nat) (g : list job) (o : list observation) (p : pool) : Prop := Inv {
  i_order : g = began o ++ queue p;
  i_parts : Permutation (began o) (ended o ++ died o ++ in_hand p);
  i_dead : Permutation (died o) (dead p);
  i_count : extant_tasks p = Z.of_nat (List.length (running p) + List.length (dead p));
  i_well : Forall well (threads p);
  i_left : (exists t, In t (threads p) /\ at_ t = Left) -> closed p = true /\ queue p = [];
  i_threads : List.length (threads p) = n;
  i_guard : Forall (fun j => guarded j = false) (died o);
  i_sent : sent o = map id (filter answers (ended o)) }.

Lemma flat_repeat {B} (f : thread -> list B) x n : f x = [] -> flat_map f (repeat x n) = [].
Proof. intros H. induction n; simpl; [reflexivity|]. now rewrite H. Qed.
Lemma inv_new n : inv n [] [] (new n).
Proof.
  assert (R : running (new n) = [] /\ in_hand (new n) = [] /\ dead (new n) = [])
    by (repeat split; unfold running, in_hand, dead; simpl; now apply flat_repeat).
  destruct R as (R1 & R2 & R3). split; try reflexivity.
  - simpl. rewrite R2. constructor.
  - rewrite R3. constructor.
  - rewrite R1, R3. reflexivity.
  - simpl. apply Forall_forall. intros t T. apply repeat_spec in T. subst. split; reflexivity.
  - intros (t & T & L). apply repeat_spec in T. subst. discriminate.
  - simpl. apply repeat_length.
  - constructor.
Qed.

Lemma began_app a b : began (a ++ b) = began a ++ began b. Proof. apply flat_map_app. Qed.
Lemma ended_app a b : ended (a ++ b) = ended a ++ ended b. Proof. apply flat_map_app. Qed.
Lemma died_app a b : died (a ++ b) = died a ++ died b. Proof. apply flat_map_app. Qed.
Lemma sent_app a b : sent (a ++ b) = sent a ++ sent b. Proof. apply flat_map_app. Qed.

Lemma inv_step debug n g o p e p' o' : inv n g o p -> step debug p e = Next p' o' -> inv n (g ++ given [e]) (o ++ o') p'.
Proof.
  intros [H1 H2 H3 H4 H5 H6 H7 H8 H9] E. destruct e as [j| |w x]; simpl in E.
  - unfold spawn in E. destruct (closed p) eqn:C; [discriminate|]. destruct (forallb gone (threads p)); [discriminate|].
    injection E as <- <-. rewrite app_nil_r. split; auto; cbn [queue closed threads extant_tasks given flat_map List.app].
    + rewrite H1, app_assoc. reflexivity.
    + intros L. destruct (H6 L). congruence.
  - injection E as <- <-. simpl. rewrite !app_nil_r. split; auto. intros L. simpl in *. destruct (H6 L). auto.
  - simpl. rewrite app_nil_r. unfold advance in E. destruct (nth_error (threads p) w) as [[cur cls ph]|] eqn:N; [|discriminate].
    destruct (set_split _ _ _ N) as (l1 & l2 & S1 & S2).
    assert (K : forall t, well t -> Forall well (l1 ++ t :: l2)).
    { intros t T. rewrite S1 in H5. apply Forall_app in H5. destruct H5 as [A B]. inversion B; subst. apply Forall_app. auto. }
    assert (L : forall t, at_ t <> Left -> (exists y, In y (l1 ++ t :: l2) /\ at_ y = Left) -> closed p = true /\ queue p = []).
    { intros t T (y & Y & YL). apply H6. exists y. split; [|exact YL]. rewrite S1. apply in_app_iff. apply in_app_iff in Y.
      destruct Y as [Y|[Y|Y]]; [now left|subst; contradiction|right; now right]. }
    assert (M : forall t, List.length (l1 ++ t :: l2) = n).
    { intros t. rewrite <- H7, S1, !app_length. reflexivity. }
    assert (W : well (Thread cur cls ph)).
    { rewrite Forall_forall in H5. apply H5. rewrite S1. apply in_app_iff. right. now left. }
    destruct W as [W1 W2]. cbn [current_intent class at_] in W1, W2.
    unfold running, in_hand, dead in *. rewrite S1 in H2, H3, H4.
    rewrite flat_map_app in H2, H3. repeat rewrite flat_map_app in H4. cbn [flat_map] in H2, H3, H4. cbn [at_] in H2, H3, H4.
    destruct ph as [|j|j|j|j| |j]; try discriminate.
    + destruct (queue p) as [|j q] eqn:Q.
      * destruct (closed p) eqn:C; [|discriminate]. injection E as <- <-. rewrite app_nil_r.
        split; unfold running, in_hand, dead; cbn [queue closed threads extant_tasks]; rewrite ?S2, ?flat_map_app; cbn [flat_map at_]; auto.
        apply K. split; [exact W1|exact I].
      * injection E as <- <-.
        split; unfold running, in_hand, dead; cbn [queue closed threads extant_tasks]; rewrite ?S2, ?flat_map_app, ?began_app, ?ended_app, ?died_app, ?sent_app; cbn [flat_map at_ began ended died sent List.app];
          rewrite ?app_nil_r; auto.
        -- rewrite H1, <- app_assoc. reflexivity.
        -- rewrite H2. rewrite <- !app_assoc. do 3 apply Permutation_app_head.
           simpl. apply Permutation_sym. apply Permutation_cons_append.
        -- apply K. split; [exact W1|exact I].
        -- intros X. apply L in X; [|discriminate]. destruct X. discriminate.
    + assert (X : exists c2 k2, p' = Pool (queue p) (closed p) (set (threads p) w (Thread c2 k2 (Prepared j))) (extant_tasks p) /\ o' = [] /\ c2 = k2 /\ requested j = k2).
      { destruct (intent_eqb (requested j) cur) eqn:Q; injection E as <- <-; [apply intent_eqb_eq in Q|]; eexists _, _; repeat split; congruence. }
      destruct X as (c2 & k2 & -> & -> & X1 & X2). rewrite app_nil_r.
      split; unfold running, in_hand, dead; cbn [queue closed threads extant_tasks]; rewrite ?S2, ?flat_map_app; cbn [flat_map at_]; auto.
      * apply K. split; [exact X1|exact X2].
      * intros X. apply L in X; [exact X|discriminate].
    + injection E as <- <-. rewrite app_nil_r.
      split; unfold running, in_hand, dead; cbn [queue closed threads extant_tasks]; rewrite ?S2, ?flat_map_app; cbn [flat_map at_]; auto.
      * rewrite H4. rewrite !app_length. cbn [List.length List.app]. lia.
      * apply K. split; [exact W1|exact W2].
      * intros X. apply L in X; [exact X|discriminate].
    + rewrite W2 in E. replace (intent_eqb cls cls) with true in E by (symmetry; now apply intent_eqb_eq).
      rewrite andb_false_r in E. cbn [orb] in E. destruct (x && negb (guarded j)) eqn:G.
      * injection E as <- <-.
        split; unfold running, in_hand, dead; cbn [queue closed threads extant_tasks]; rewrite ?S2, ?flat_map_app, ?began_app, ?ended_app, ?died_app, ?sent_app; cbn [flat_map at_ began ended died sent List.app];
          rewrite ?app_nil_r; auto.
        -- rewrite H2. apply Permutation_app_head. rewrite <- app_assoc. apply Permutation_app_head. simpl.
           apply Permutation_sym, Permutation_middle.
        -- rewrite H3. simpl. rewrite <- app_assoc. apply Permutation_app_head. apply Permutation_sym. apply Permutation_cons_append.
        -- rewrite H4, !app_length. cbn [List.length List.app]. lia.
        -- apply K. split; [exact W1|exact I].
        -- intros X. apply L in X; [exact X|discriminate].
        -- apply Forall_app. split; [exact H8|]. constructor; [|constructor]. apply andb_true_iff in G. destruct G as [_ G]. now apply negb_true_iff in G.
      * injection E as <- <-.
        assert (A1 : began (Ended w j :: (if answers j then [Sent (id j)] else [])) = []) by (destruct (answers j); reflexivity).
        assert (A2 : ended (Ended w j :: (if answers j then [Sent (id j)] else [])) = [j]) by (destruct (answers j); reflexivity).
        assert (A3 : died (Ended w j :: (if answers j then [Sent (id j)] else [])) = []) by (destruct (answers j); reflexivity).
        assert (A4 : sent (Ended w j :: (if answers j then [Sent (id j)] else [])) = map id (filter answers [j])) by (simpl; destruct (answers j); reflexivity).
        split; unfold running, in_hand, dead; cbn [queue closed threads extant_tasks]; rewrite ?S2, ?flat_map_app, ?began_app, ?ended_app, ?died_app, ?sent_app, ?A1, ?A2, ?A3, ?A4; cbn [flat_map at_ List.app];
          rewrite ?app_nil_r; auto.
        -- rewrite H2. rewrite <- app_assoc. apply Permutation_app_head. simpl. rewrite <- Permutation_middle.
           rewrite <- Permutation_middle. reflexivity.
        -- apply K. split; [exact W1|exact I].
        -- intros X. apply L in X; [exact X|discriminate].
        -- rewrite H9, filter_app, map_app. reflexivity.
    + injection E as <- <-. rewrite app_nil_r.
      split; unfold running, in_hand, dead; cbn [queue closed threads extant_tasks]; rewrite ?S2, ?flat_map_app; cbn [flat_map at_]; auto.
      * rewrite H4, !app_length. cbn [List.length List.app]. lia.
      * apply K. split; [exact W1|exact I].
      * intros X. apply L in X; [exact X|discriminate].
Qed.
Lemma inv_run debug n evs : forall g o p p' o', inv n g o p -> run debug p evs = Next p' o' -> inv n (g ++ given evs) (o ++ o') p'.
Proof.
  induction evs as [|e evs IH]; intros g o p p' o' H E; simpl in E.
  - injection E as <- <-. simpl. now rewrite !app_nil_r.
  - destruct (step debug p e) as [p1 o1| |] eqn:S; try discriminate. pose proof (inv_step _ _ _ _ _ _ _ _ H S) as H'.
    destruct (run debug p1 evs) as [p2 o2| |] eqn:R; try discriminate. injection E as <- <-.
    specialize (IH _ _ _ _ _ H' R). rewrite <- !app_assoc in IH. simpl in IH. 
    replace (given (e :: evs)) with (given [e] ++ given evs) by (unfold given; simpl; now rewrite app_nil_r).
    unfold given at 1. simpl. now rewrite app_nil_r in *.
Qed.
Lemma reached debug n evs p o : run debug (new n) evs = Next p o -> inv n (given evs) o p.
Proof. intros E. exact (inv_run debug n evs [] [] (new n) p o (inv_new n) E). Qed.

(** Tasks begin in the order they were given, each is begun once, and comes to one end. *)
Theorem C56_order : forall debug n evs p o, run debug (new n) evs = Next p o ->
  given evs = began o ++ queue p /\ Permutation (began o) (ended o ++ died o ++ in_hand p).
Proof. intros debug n evs p o E. apply reached in E. destruct E. auto. Qed.
Print Assumptions C56_order.

(** The result of a task given with an answer is sent when it ends, and nothing else is sent. *)
Theorem C56_answers : forall debug n evs p o, run debug (new n) evs = Next p o -> sent o = map id (filter answers (ended o)).
Proof. intros debug n evs p o E. apply reached in E. now destruct E. Qed.
Print Assumptions C56_answers.

(** Tasks run on threads of the class they ask for, so the assertion made in debug builds never fails. *)
Theorem C56_intent : forall debug n evs p o t j, run debug (new n) evs = Next p o ->
  In t (threads p) -> at_ t = Running j -> class t = requested j.
Proof.
  intros debug n evs p o t j E T R. apply reached in E. destruct E as [_ _ _ _ W _ _ _ _]. rewrite Forall_forall in W.
  destruct (W t T) as [_ H]. rewrite R in H. now symmetry.
Qed.
Print Assumptions C56_intent.
Lemma step_debug p e : Forall well (threads p) -> step true p e = step false p e.
Proof.
  intros W. destruct e as [j| |w x]; try reflexivity. simpl. unfold advance.
  destruct (nth_error (threads p) w) as [[cur cls ph]|] eqn:N; [|reflexivity]. destruct ph as [|j|j|j|j| |j]; try reflexivity.
  rewrite Forall_forall in W. destruct (W _ (nth_error_In _ _ N)) as [_ H]. simpl in H. rewrite H.
  replace (intent_eqb cls cls) with true by (symmetry; now apply intent_eqb_eq). reflexivity.
Qed.
Theorem C56_debug : forall n evs, run true (new n) evs = run false (new n) evs.
Proof.
  intros n evs. assert (H : forall evs g o p, inv n g o p -> run true p evs = run false p evs).
  { clear evs. induction evs as [|e evs IH]; intros g o p I; [reflexivity|]. simpl. rewrite step_debug by apply (i_well _ _ _ _ I).
    destruct (step false p e) as [p1 o1| |] eqn:S; try reflexivity. erewrite IH; [reflexivity|]. eapply inv_step; eauto. }
  apply (H evs [] [] (new n)). apply inv_new.
Qed.
Print Assumptions C56_debug.

(** The number of tasks the pool says it has is that of the tasks running and of all that ever panicked. *)
Theorem C56_len : forall debug n evs p o, run debug (new n) evs = Next p o ->
  len p = Z.of_nat (List.length (running p) + List.length (died o)).
Proof.
  intros debug n evs p o E. apply reached in E. destruct E as [_ _ D C _ _ _ _ _]. unfold len. rewrite C.
  now rewrite (Permutation_length D).
Qed.
Print Assumptions C56_len.

(** Giving a task to the pool crashes the server exactly if every thread died of a panic before. *)
Lemma gone_all p : (forall t, In t (threads p) -> at_ t <> Left) ->
  (forallb gone (threads p) = true <-> List.length (dead p) = List.length (threads p)).
Proof.
  unfold dead. induction (threads p) as [|t l IH]; intros H; simpl; [tauto|].
  assert (X : List.length (flat_map (fun t => match at_ t with Panicked j => [j] | _ => [] end) l) <= List.length l).
  { clear. induction l as [|t l IH]; simpl; [lia|]. rewrite app_length. destruct (at_ t); simpl; lia. }
  rewrite app_length, andb_true_iff, IH by (intros u U; apply H; now right).
  unfold gone. pose proof (H t (or_introl eq_refl)). destruct (at_ t); simpl; try contradiction; split; try (intros [? ?]; discriminate); try lia.
Qed.
Theorem C56_crash : forall debug n evs p o j, run debug (new n) evs = Next p o -> closed p = false ->
  (step debug p (Spawn j) = Crash <-> List.length (died o) = n).
Proof.
  intros debug n evs p o j E C. apply reached in E. destruct E as [_ _ D _ _ L T _ _].
  assert (G : forall t, In t (threads p) -> at_ t <> Left).
  { intros t I A. destruct L as [L _]; [eauto|]. congruence. }
  pose proof (gone_all p G) as X. rewrite <- T, (Permutation_length D), <- X. simpl. unfold spawn. rewrite C.
  destruct (forallb gone (threads p)); split; congruence.
Qed.
Print Assumptions C56_crash.

(** A panic that is caught costs no thread: tasks that are all guarded never crash the pool. *)
Theorem C56_guarded : forall debug n evs, 0 < n -> Forall (fun j => guarded j = true) (given evs) -> run debug (new n) evs <> Crash.
Proof.
  intros debug n evs P F E.
  assert (H : forall evs g o p, inv n g o p -> Forall (fun j => guarded j = true) g -> Forall (fun j => guarded j = true) (given evs) -> run debug p evs <> Crash).
  { clear evs F E. induction evs as [|e evs IH]; intros g o p I G F; simpl; [discriminate|].
    assert (F' : Forall (fun j => guarded j = true) (given [e]) /\ Forall (fun j => guarded j = true) (given evs)).
    { unfold given in *. simpl in *. apply Forall_app in F. rewrite app_nil_r. exact F. }
    destruct F' as [F1 F2]. destruct (step debug p e) as [p1 o1| |] eqn:S; [|exfalso|discriminate].
    - assert (IH' := IH _ _ _ (inv_step _ _ _ _ _ _ _ _ I S) (proj2 (Forall_app _ _ _) (conj G F1)) F2).
      destruct (run debug p1 evs); try discriminate. congruence.
    - destruct e as [j| |w x]; simpl in S.
      + unfold spawn in S. destruct (closed p) eqn:C; [discriminate|]. destruct (forallb gone (threads p)) eqn:A; [|discriminate].
        destruct I as [O Pm D _ _ L T U _]. apply gone_all in A.
        * assert (died o = []).
          { destruct (died o) as [|d l] eqn:X; [reflexivity|]. exfalso. apply Forall_inv in U.
            assert (In d g). { rewrite O. apply in_app_iff. left. eapply Permutation_in; [symmetry; exact Pm|]. apply in_app_iff. right. now left. }
            rewrite Forall_forall in G. specialize (G d H). congruence. }
          rewrite H in D. apply Permutation_nil in D. rewrite D in A. simpl in A. lia.
        * intros t I A'. destruct L as [L _]; [eauto|]. congruence.
      + discriminate.
      + unfold advance in S. destruct (nth_error (threads p) w) as [[cur cls ph]|]; [|discriminate].
        destruct ph; try discriminate; [destruct (queue p); [destruct (closed p)|]| |]; try discriminate;
          match goal with H : (if ?b then _ else _) = _ |- _ => destruct b; discriminate end. }
  apply (H evs [] [] (new n) (inv_new n)); auto.
Qed.
Print Assumptions C56_guarded.

(** ** Everything is done in the end *)
Definition weight (t : thread) : nat :=
  match at_ t with Waiting => 1 | Returned _ => 2 | Running _ => 3 | Prepared _ => 4 | Received _ => 5 | Left | Panicked _ => 0 end.
Definition work (p : pool) : nat := 5 * List.length (queue p) + list_sum (map weight (threads p)).
Lemma advance_works debug w x p p' o : advance debug w x p = Next p' o -> work p' < work p.
Proof.
  unfold advance. destruct (nth_error (threads p) w) as [[cur cls ph]|] eqn:N; [|discriminate].
  destruct (set_split _ _ _ N) as (l1 & l2 & S1 & S2).
  assert (K : forall q c t e, work (Pool q c (set (threads p) w t) e) = 5 * List.length q + list_sum (map weight l1) + weight t + list_sum (map weight l2)).
  { intros q c t e. unfold work. simpl. rewrite S2, map_app, list_sum_app. simpl. lia. }
  assert (P : work p = 5 * List.length (queue p) + list_sum (map weight l1) + weight (Thread cur cls ph) + list_sum (map weight l2)).
  { unfold work. rewrite S1, map_app, list_sum_app. simpl. lia. }
  generalize dependent (list_sum (map weight l1)). generalize dependent (list_sum (map weight l2)). intros b a K P.
  destruct ph as [|j|j|j|j| |j]; intros E; try discriminate.
  - destruct (queue p) as [|j q]; [destruct (closed p); [|discriminate]|]; injection E as <- <-; rewrite K, P; unfold weight; cbn [List.length at_]; lia.
  - destruct (intent_eqb (requested j) cur); injection E as <- <-; rewrite K, P; unfold weight; simpl; lia.
  - injection E as <- <-. rewrite K, P. unfold weight. simpl. lia.
  - destruct ((debug && negb (intent_eqb cls (requested j))) || (x && negb (guarded j))); injection E as <- <-; rewrite K, P; unfold weight; simpl; lia.
  - injection E as <- <-. rewrite K, P. unfold weight. simpl. lia.
Qed.
(** Whatever the schedule, the threads come to rest after a bounded number of steps. *)
Theorem C56_rest : forall debug evs p p' o, advances evs -> run debug p evs = Next p' o -> List.length evs + work p' <= work p.
Proof.
  intros debug. induction evs as [|e evs IH]; intros p p' o A E; simpl in E.
  - injection E as <- <-. simpl. lia.
  - inversion A; subst. destruct e as [| |w x]; try contradiction. simpl in E.
    destruct (advance debug w x p) as [p1 o1| |] eqn:S; try discriminate.
    destruct (run debug p1 evs) as [p2 o2| |] eqn:R; try discriminate. injection E as <- <-.
    apply advance_works in S. specialize (IH _ _ _ H2 R). simpl. lia.
Qed.
Print Assumptions C56_rest.

(** At rest, every task given has been run to its end or died, if a thread is left to do so. *)
Lemma stuck_threads debug p : stuck debug p -> forall t, In t (threads p) ->
  gone t = true \/ (at_ t = Waiting /\ queue p = [] /\ closed p = false).
Proof.
  intros S t T. apply In_nth_error in T. destruct T as [w N]. specialize (S w false). unfold advance in S. rewrite N in S.
  destruct t as [cur cls ph]. unfold gone. simpl. destruct ph as [|j|j|j|j| |j]; auto; try discriminate.
  - right. destruct (queue p); [|discriminate]. destruct (closed p); [discriminate|auto].
  - destruct (intent_eqb (requested j) cur); discriminate.
  - match goal with H : (if ?b then _ else _) = _ |- _ => destruct b; discriminate end.
Qed.
Theorem C56_done : forall debug n evs p o, run debug (new n) evs = Next p o -> stuck debug p ->
  live p \/ (exists t, In t (threads p) /\ at_ t = Left) ->
  Permutation (given evs) (ended o ++ died o).
Proof.
  intros debug n evs p o E S V. apply reached in E. destruct E as [O P D _ _ L _ _ _].
  pose proof (stuck_threads debug p S) as Q.
  assert (H : in_hand p = []).
  { unfold in_hand. clear - Q. induction (threads p) as [|t l IH]; [reflexivity|]. simpl. rewrite IH by (intros u U; apply Q; now right).
    destruct (Q t (or_introl eq_refl)) as [G|[G _]]; [unfold gone in G; destruct (at_ t); try discriminate; reflexivity|now rewrite G]. }
  assert (F : queue p = []).
  { destruct V as [(t & T & G)|V]; [|now apply L]. destruct (Q t T) as [K|K]; [congruence|tauto]. }
  rewrite O, F, app_nil_r, P, H, app_nil_r. reflexivity.
Qed.
Print Assumptions C56_done.
(** In particular guarded tasks are all run to their end. *)
Theorem C56_all : forall debug n evs p o, 0 < n -> Forall (fun j => guarded j = true) (given evs) ->
  run debug (new n) evs = Next p o -> stuck debug p -> Permutation (given evs) (ended o).
Proof.
  intros debug n evs p o N G E S. pose proof (reached _ _ _ _ _ E) as [O P D _ _ L T U _].
  assert (X : died o = []).
  { destruct (died o) as [|d l] eqn:X; [reflexivity|]. exfalso. apply Forall_inv in U.
    assert (I : In d (given evs)). { rewrite O. apply in_app_iff. left. eapply Permutation_in; [symmetry; exact P|]. apply in_app_iff. right. now left. }
    rewrite Forall_forall in G. specialize (G d I). congruence. }
  rewrite X in D. apply Permutation_nil in D.
  assert (V : live p \/ (exists t, In t (threads p) /\ at_ t = Left)).
  { unfold dead in D. destruct (threads p) as [|t l] eqn:TT; [simpl in T; lia|]. simpl in D. apply app_eq_nil in D. destruct D as [D _].
    assert (I : In t (threads p)) by (rewrite TT; now left).
    destruct (at_ t) eqn:A; try discriminate; try (left; exists t; split; [exact I|unfold gone; now rewrite A]).
    right. exists t. split; [now left|exact A]. }
  assert (V' : live p \/ (exists t, In t (threads p) /\ at_ t = Left)) by exact V.
  pose proof (C56_done debug n evs p o E S V') as Z. now rewrite X, app_nil_r in Z.
Qed.
Print Assumptions C56_all.

(** ** What goes wrong *)
Definition diagnostics_task (i : nat) : job := Job i LatencySensitive false true.
Definition request_task (i : nat) : job := Job i Worker true true.
Definition full (w : nat) (x : bool) : list event := [Advance w false; Advance w false; Advance w false; Advance w x; Advance w x].

(** A task that is not guarded, such as the fetching of diagnostics, panics once on each thread: the requests waiting are
    never answered, whatever happens, and the next one crashes the server. *)
Definition both_die : list event :=
  [Spawn (diagnostics_task 1); Spawn (diagnostics_task 2); Spawn (request_task 3)] ++ firstn 4 (full 0 true) ++ firstn 4 (full 1 true).
Definition dead_pool (c : bool) : pool :=
  Pool [request_task 3] c [Thread LatencySensitive LatencySensitive (Panicked (diagnostics_task 1));
                           Thread LatencySensitive LatencySensitive (Panicked (diagnostics_task 2))] 2.
Theorem C56_lost_refuted :
  run false (new 2) both_die =
    Next (dead_pool false) [Began 0 (diagnostics_task 1); Died 0 (diagnostics_task 1); Began 1 (diagnostics_task 2); Died 1 (diagnostics_task 2)] /\
  queue (dead_pool false) = [request_task 3] /\ (forall j, step false (dead_pool false) (Spawn j) = Crash) /\
  forall evs p' o', run false (dead_pool false) evs = Next p' o' -> o' = [] /\ queue p' = [request_task 3].
Proof.
  split; [vm_compute; reflexivity|]. split; [reflexivity|]. split; [intros j; reflexivity|].
  assert (H : forall evs c p' o', run false (dead_pool c) evs = Next p' o' -> o' = [] /\ queue p' = [request_task 3]).
  { induction evs as [|e evs IH]; intros c p' o' E; [injection E as <- <-; split; reflexivity|].
    cbn [run] in E. destruct e as [j| |w x]; cbn [step] in E.
    - unfold spawn in E. cbn in E. destruct c; discriminate.
    - change (close (dead_pool c)) with (Next (dead_pool true) []) in E. cbn iota in E.
      destruct (run false (dead_pool true) evs) as [p2 o2| |] eqn:R; try discriminate. injection E as <- <-. apply (IH true _ _ R).
    - assert (A : advance false w x (dead_pool c) = Impossible) by (destruct w as [|[|[|w]]]; reflexivity). rewrite A in E. discriminate. }
  intros evs. apply (H evs false).
Qed.
Print Assumptions C56_lost_refuted.

(** After one such panic the pool never again says that it is empty, though nothing runs. *)
Theorem C56_never_empty : forall debug n evs p o, run debug (new n) evs = Next p o -> died o <> [] -> (1 <= len p)%Z.
Proof. intros debug n evs p o E D. rewrite (C56_len _ _ _ _ _ E). destruct (died o); [contradiction|simpl; lia]. Qed.
Print Assumptions C56_never_empty.
Theorem C56_len_refuted : exists evs p o, run false (new 2) evs = Next p o /\ running p = [] /\ in_hand p = [] /\ len p = 2%Z.
Proof.
  exists both_die, (dead_pool false), [Began 0 (diagnostics_task 1); Died 0 (diagnostics_task 1); Began 1 (diagnostics_task 2); Died 1 (diagnostics_task 2)].
  split; [vm_compute; reflexivity|]. repeat split.
Qed.
Print Assumptions C56_len_refuted.

(** Three tasks on two threads: a guarded one panics, the pool is closed, all three are done. Without threads, the first
    task crashes the pool. *)
Definition hurried (i : nat) : job := Job i LatencySensitive true true.
Definition silent (i : nat) : job := Job i Worker true false.
Definition session : list event :=
  [Spawn (request_task 1); Spawn (hurried 2); Spawn (silent 3); Advance 1 false]
  ++ full 0 false ++ [Close] ++ skipn 1 (full 1 true) ++ full 0 true ++ [Advance 0 false; Advance 1 false].
Definition at_rest : pool := Pool [] true [Thread Worker Worker Left; Thread Worker Worker Left] 0.
Example C56_nontrivial :
  run true (new 2) session =
    Next at_rest [Began 1 (request_task 1); Began 0 (hurried 2); Ended 0 (hurried 2); Sent 2;
                  Ended 1 (request_task 1); Sent 1; Began 0 (silent 3); Ended 0 (silent 3)] /\
  stuck true at_rest /\ run true (new 0) session = Crash.
Proof.
  split; [vm_compute; reflexivity|]. split; [|reflexivity]. intros w x. destruct w as [|[|[|w]]]; reflexivity.
Qed.
