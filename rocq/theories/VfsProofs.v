(** Proofs about the virtual file system. *)
From Coq Require Import List NArith Bool String Arith Lia Permutation.
From Verif Require Import VfsModel VfsSpec.
Import ListNotations.

Lemma index_of_nth : forall p l i, index_of p l = Some i -> nth_error l i = Some p.
Proof.
  intros p; induction l as [|q tl IH]; intros i H; simpl in H; [discriminate|].
  destruct (path_eq_dec q p) as [->|N]; [injection H as <-; reflexivity|].
  destruct (index_of p tl) as [j|]; [|discriminate]. injection H as <-. simpl. apply IH; reflexivity.
Qed.

Lemma index_of_none : forall p l, index_of p l = None <-> ~ In p l.
Proof.
  intros p; induction l as [|q tl IH]; simpl; [tauto|].
  destruct (path_eq_dec q p) as [->|N]; [split; [discriminate|tauto]|].
  destruct (index_of p tl); simpl; split; intros H; try discriminate; try tauto.
  - exfalso. apply H. right. apply Decidable.not_not; [|intros Hn; apply IH in Hn; discriminate].
    unfold Decidable.decidable. destruct (in_dec path_eq_dec p tl); tauto.
Qed.

Lemma index_of_lt : forall p l i, index_of p l = Some i -> i < List.length l.
Proof. intros p l i H. apply index_of_nth in H. apply nth_error_Some. congruence. Qed.

Lemma index_of_app : forall p l l', index_of p (l ++ l') =
  match index_of p l with Some i => Some i | None => option_map (Nat.add (List.length l)) (index_of p l') end.
Proof.
  intros p; induction l as [|q tl IH]; intros l'; simpl.
  - destruct (index_of p l'); reflexivity.
  - destruct (path_eq_dec q p); [reflexivity|]. rewrite IH. destruct (index_of p tl); [reflexivity|].
    simpl. destruct (index_of p l'); reflexivity.
Qed.

Lemma index_of_nodup : forall l p i, NoDup l -> nth_error l i = Some p -> index_of p l = Some i.
Proof.
  induction l as [|q tl IH]; intros p i ND H; [destruct i; discriminate|].
  inversion ND; subst. simpl. destruct i as [|i]; simpl in H.
  - injection H as ->. destruct (path_eq_dec p p); congruence.
  - destruct (path_eq_dec q p) as [->|N]; [exfalso; apply H2; eapply nth_error_In; eauto|].
    rewrite (IH _ _ H3 H). reflexivity.
Qed.

Lemma set_nth_length : forall A i (x : A) l, List.length (set_nth i x l) = List.length l.
Proof. intros A; induction i; intros x [|y tl]; simpl; auto. Qed.
Lemma set_nth_same : forall A i (x : A) l, i < List.length l -> nth_error (set_nth i x l) i = Some x.
Proof. intros A; induction i; intros x [|y tl] H; simpl in *; try lia; auto. apply IHi. lia. Qed.
Lemma set_nth_other : forall A i j (x : A) l, i <> j -> nth_error (set_nth i x l) j = nth_error l j.
Proof.
  intros A; induction i; intros j x [|y tl] H; simpl; auto; destruct j; simpl; auto; try congruence.
Qed.

Lemma Forall2_impl : forall A B (P Q : A -> B -> Prop) l l',
  (forall a b, P a b -> Q a b) -> Forall2 P l l' -> Forall2 Q l l'.
Proof. intros A B P Q l l' H F. induction F; constructor; auto. Qed.

(** The state invariant: [f] is the abstract map and [l] the abstract log. *)
Record inv (f : path -> option contents) (l : list (path * kind)) (v : vfs) : Prop := Inv {
  i_nodup : NoDup (interner v);
  i_len : List.length (data v) = List.length (interner v);
  i_data : forall p i, index_of p (interner v) = Some i -> nth_error (data v) i = Some (f p);
  i_none : forall p, index_of p (interner v) = None -> f p = None;
  i_log : Forall2 (fun c e => nth_error (interner v) (fst c) = Some (fst e) /\ snd c = snd e) (changes v) l }.

Definition upd (f : path -> option contents) p c q := if path_eq_dec p q then c else f q.

Lemma inv_empty : inv (fun _ => None) [] empty.
Proof. constructor; simpl; auto using NoDup_nil; intros; discriminate. Qed.

Definition log_add (l : list (path * kind)) p (k : option kind) :=
  match k with Some k => l ++ [(p, k)] | None => l end.

Lemma alloc_spec : forall f l v p, inv f l v ->
  let (i, v') := alloc_file_id v p in
  inv f l v' /\ index_of p (interner v') = Some i /\ i < List.length (data v') /\
  (exists ext, interner v' = interner v ++ ext) /\ changes v' = changes v.
Proof.
  intros f l v p [ND L D Nn Lg]. unfold alloc_file_id, intern.
  destruct (index_of p (interner v)) as [i|] eqn:E; simpl.
  - pose proof (index_of_lt _ _ _ E).
    replace (Nat.max (List.length (data v)) (S i) - List.length (data v)) with 0 by lia.
    simpl. rewrite app_nil_r. repeat split; simpl; auto; [lia|exists []; rewrite app_nil_r; reflexivity].
  - set (n := List.length (interner v)).
    replace (Nat.max (List.length (data v)) (S n) - List.length (data v)) with 1 by lia. simpl.
    assert (En : index_of p (interner v ++ [p]) = Some n).
    { rewrite index_of_app, E. simpl. destruct (path_eq_dec p p); [simpl; f_equal; lia|congruence]. }
    assert (Hni : ~ In p (interner v)) by (apply index_of_none; exact E).
    split; [constructor; simpl|].
    + apply (Permutation_NoDup (l := p :: interner v)); [|constructor; auto].
      apply Permutation_cons_append.
    + rewrite !app_length. simpl. lia.
    + intros q j. rewrite index_of_app. destruct (index_of q (interner v)) as [k|] eqn:Eq.
      * intros H; injection H as <-. pose proof (index_of_lt _ _ _ Eq).
        rewrite nth_error_app1 by lia. apply D. exact Eq.
      * simpl. destruct (path_eq_dec p q) as [->|Npq]; simpl; [|discriminate].
        intros H; injection H as <-. rewrite Nat.add_0_r. rewrite nth_error_app2 by lia.
        replace (List.length (interner v) - List.length (data v)) with 0 by lia. simpl. rewrite (Nn q Eq). reflexivity.
    + intros q Hq. apply Nn. rewrite index_of_app in Hq. destruct (index_of q (interner v)); [discriminate|reflexivity].
    + eapply Forall2_impl; [|exact Lg]. simpl. intros [a b] [c d]; simpl. intros [H1 H2]; split; [|exact H2].
      rewrite nth_error_app1; [exact H1|apply nth_error_Some; congruence].
    + repeat split; auto; [rewrite app_length; simpl; lia|exists [p]; reflexivity].
Qed.

Lemma set_spec : forall f l v p c, inv f l v ->
  exists v', set_file_contents v p c = Ok (v', if change_kind (f p) c then true else false) /\
    inv (upd f p c) (log_add l p (change_kind (f p) c)) v' /\
    exists ext, interner v' = interner v ++ ext.
Proof.
  intros f l v p c H. unfold set_file_contents. pose proof (alloc_spec f l v p H) as A.
  destruct (alloc_file_id v p) as [i w]. destruct A as (Iw & Ei & Li & Ext & Ec).
  destruct Iw as [ND L D Nn Lg]. unfold get. rewrite (D _ _ Ei). cbn [bind].
  assert (Same : f p = c -> inv (upd f p c) l w).
  { intros E. constructor; auto.
    - intros q j Hj. rewrite (D q j Hj). unfold upd. destruct (path_eq_dec p q) as [<-|]; congruence.
    - intros q Hq. unfold upd. destruct (path_eq_dec p q) as [<-|]; [congruence|auto]. }
  assert (Push : forall k, inv (upd f p c) (l ++ [(p, k)])
                  (Vfs (interner w) (set_nth i c (data w)) (changes w ++ [(i, k)]))).
  { intros k. constructor; simpl; auto.
    - rewrite set_nth_length. exact L.
    - intros q j Hj. unfold upd. destruct (path_eq_dec p q) as [<-|Npq].
      + assert (i = j) as <- by congruence. apply set_nth_same. exact Li.
      + rewrite set_nth_other; [apply D; exact Hj|]. intros <-.
        apply index_of_nth in Hj. apply index_of_nth in Ei. congruence.
    - intros q Hq. unfold upd. destruct (path_eq_dec p q) as [<-|]; [congruence|auto].
    - apply Forall2_app; [exact Lg|]. constructor; [|constructor]. split; [|reflexivity].
      simpl. apply index_of_nth. exact Ei. }
  unfold change_kind. destruct (f p) as [o|] eqn:Ef, c as [n|].
  - destruct (list_eq_dec N.eq_dec o n) as [->|Nn'].
    + exists w. split; [reflexivity|]. split; [apply Same; reflexivity|exact Ext].
    + eexists. split; [reflexivity|]. split; [apply Push|exact Ext].
  - eexists. split; [reflexivity|]. split; [apply Push|exact Ext].
  - eexists. split; [reflexivity|]. split; [apply Push|exact Ext].
  - exists w. split; [reflexivity|]. split; [apply Same; reflexivity|exact Ext].
Qed.

Lemma take_spec : forall f l v, inv f l v -> inv f [] (snd (take_changes v)).
Proof. intros f l v [ND L D Nn Lg]. constructor; simpl; auto. Qed.

Lemma inv_ext : forall f g l v, (forall p, f p = g p) -> inv f l v -> inv g l v.
Proof.
  intros f g l v E [ND L D Nn Lg]. constructor; auto.
  - intros p i Hi. rewrite <- E. auto.
  - intros p Hp. rewrite <- E. auto.
Qed.

Lemma run_app : forall h1 h2 v, run v (h1 ++ h2) = bind (run v h1) (fun v => run v h2).
Proof.
  induction h1 as [|o tl IH]; intros h2 v; simpl; [reflexivity|].
  destruct (step v o); simpl; auto.
Qed.

Lemma last_set_app : forall h1 h2 p b, last_set (h1 ++ h2) p b = last_set h2 p (last_set h1 p b).
Proof. induction h1 as [|[q c|] tl IH]; intros; simpl; auto. Qed.

Lemma current_set : forall h p c q, current (h ++ [Set_ p c]) q = upd (current h) p c q.
Proof. intros. unfold current. rewrite last_set_app. reflexivity. Qed.
Lemma current_take : forall h q, current (h ++ [Take]) q = current h q.
Proof. intros. unfold current. rewrite last_set_app. reflexivity. Qed.

Lemma run_inv : forall h, exists v l, run empty h = Ok v /\ logs h l /\ inv (current h) l v.
Proof.
  induction h as [|o h IH] using rev_ind.
  - exists empty, []. split; [reflexivity|]. split; [exact l_nil|apply inv_empty].
  - destruct IH as (v & l & R & Lg & I). rewrite run_app, R. cbn [bind].
    destruct o as [p c|]; cbn [run step].
    + destruct (set_spec _ _ _ p c I) as (v' & E & I' & _). rewrite E. cbn [bind fst].
      exists v', (log_add l p (change_kind (current h p) c)). split; [reflexivity|]. split.
      * unfold log_add. destruct (change_kind (current h p) c) eqn:Ek; [apply l_change|apply l_same]; auto.
      * eapply inv_ext; [|exact I']. intros q. symmetry. apply current_set.
    + eexists _, []. split; [reflexivity|]. split; [eapply l_take; exact Lg|].
      eapply inv_ext; [|eapply take_spec; exact I]. intros q. symmetry. apply current_take.
Qed.

Lemma step_interner : forall v o v' f l, inv f l v -> step v o = Ok v' ->
  (exists ext, interner v' = interner v ++ ext) /\ exists f' l', inv f' l' v'.
Proof.
  intros v [p c|] v' f l I H; simpl in H.
  - destruct (set_spec _ _ _ p c I) as (w & E & I' & Ext). rewrite E in H. injection H as <-.
    split; [exact Ext|eauto].
  - injection H as <-. split; [exists []; rewrite app_nil_r; reflexivity|].
    exists f, []. eapply take_spec; eauto.
Qed.

Lemma run_interner : forall h v v' f l, inv f l v -> run v h = Ok v' ->
  exists ext, interner v' = interner v ++ ext.
Proof.
  induction h as [|o tl IH]; intros v v' f l I H; simpl in H.
  - injection H as <-. exists []. rewrite app_nil_r. reflexivity.
  - destruct (step v o) as [w|] eqn:E; [|discriminate]. cbn [bind] in H.
    destruct (step_interner _ _ _ _ _ I E) as ((e1 & E1) & f' & l' & I').
    destruct (IH _ _ _ _ I' H) as (e2 & E2). exists (e1 ++ e2). rewrite E2, E1, app_assoc. reflexivity.
Qed.

Lemma file_id_index : forall v p i, file_id_of v p = Ok (Some i) -> index_of p (interner v) = Some i.
Proof.
  intros v p i H. unfold file_id_of in H. destruct (index_of p (interner v)) as [j|]; [|discriminate].
  destruct (get v j) as [[c|]|]; simpl in H; congruence.
Qed.

Lemma logs_fun : forall h l l', logs h l -> logs h l' -> l = l'.
Proof.
  intros h l l' H; revert l'.
  induction H as [|h l H IH|h l p c H IH E|h l p c k H IH E]; intros l' H'.
  - inversion H'; auto; destruct h; discriminate.
  - inversion H' as [E1|h1 l1 H1 E1|h1 l1 p1 c1 H1 K1 E1|h1 l1 p1 c1 k1 H1 K1 E1]; subst; auto;
      try (destruct h; discriminate); apply app_inj_tail in E1; destruct E1; discriminate.
  - inversion H' as [E1|h1 l1 H1 E1|h1 l1 p1 c1 H1 K1 E1|h1 l1 p1 c1 k1 H1 K1 E1]; subst; auto;
      try (destruct h; discriminate); apply app_inj_tail in E1; destruct E1 as [-> E1]; try discriminate;
      injection E1 as -> ->; [apply IH; assumption|congruence].
  - inversion H' as [E1|h1 l1 H1 E1|h1 l1 p1 c1 H1 K1 E1|h1 l1 p1 c1 k1 H1 K1 E1]; subst; auto;
      try (destruct h; discriminate); apply app_inj_tail in E1; destruct E1 as [-> E1]; try discriminate;
      injection E1 as -> ->; [congruence|]. f_equal; [apply IH; assumption|congruence].
Qed.

Lemma iter_from_in : forall ps ds n i p, List.length ds = List.length ps ->
  (In (i, p) (iter_from n ps ds) <->
   exists k c, i = n + k /\ nth_error ps k = Some p /\ nth_error ds k = Some (Some c)).
Proof.
  induction ps as [|q ps IH]; intros [|d ds] n i p L; simpl in *; try discriminate.
  - split; [tauto|]. intros (k & c & _ & H & _). destruct k; discriminate.
  - injection L as L. assert (G : In (i, p) (iter_from (S n) ps ds) <->
       exists k c, i = n + S k /\ nth_error ps k = Some p /\ nth_error ds k = Some (Some c)).
    { rewrite IH by exact L. split; intros (k & c & H1 & H2); exists k, c; (split; [lia|exact H2]). }
    destruct d as [c0|]; simpl; rewrite G; split.
    + intros [H|(k & c & H)]; [injection H as <- <-; exists 0, c0; repeat split; simpl; auto; lia|].
      exists (S k), c. exact H.
    + intros ([|k] & c & H1 & H2 & H3); simpl in *.
      * left. injection H2 as ->. f_equal. lia.
      * right. exists k, c. auto.
    + intros (k & c & H). exists (S k), c. exact H.
    + intros ([|k] & c & H1 & H2 & H3); simpl in *; [discriminate|]. exists k, c. auto.
Qed.

Lemma inv_iter : forall f l v i p, inv f l v ->
  (In (i, p) (iter v) <-> index_of p (interner v) = Some i /\ f p <> None).
Proof.
  intros f l v i p [ND L D Nn Lg]. unfold iter. rewrite (iter_from_in _ _ _ _ _ L). split.
  - intros (k & c & -> & H1 & H2). pose proof (index_of_nodup _ _ _ ND H1) as E. simpl. split; [exact E|].
    rewrite (D _ _ E) in H2. congruence.
  - intros [E F]. destruct (f p) as [c|] eqn:Ef; [|congruence]. exists i, c. repeat split.
    + apply index_of_nth. exact E.
    + rewrite (D _ _ E), Ef. reflexivity.
Qed.

Lemma inv_file_id : forall f l v p, inv f l v ->
  file_id_of v p = Ok (match f p with None => None | Some _ => index_of p (interner v) end).
Proof.
  intros f l v p [ND L D Nn Lg]. unfold file_id_of. destruct (index_of p (interner v)) as [i|] eqn:E.
  - unfold get. rewrite (D _ _ E). simpl. destruct (f p); reflexivity.
  - destruct (f p); reflexivity.
Qed.
