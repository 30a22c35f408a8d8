From Coq Require Import List Bool Arith String Lia Ascii.
From Coq Require DecimalString DecimalNat.
From Verif Require StatusModel StatusProofs OpQueueModel OpQueueProofs FlycheckModel SaveModel SaveProps.
From Verif Require Import ProgressModel ProgressSpec.
Import ListNotations.
Local Open Scope string_scope.
Local Open Scope nat_scope.
Local Open Scope list_scope.

Lemma some_inj : forall A (x y : A), Some x = Some y -> x = y.
Proof. intros A x y E. injection E as E. exact E. Qed.

(** * Conversations *)
(** [talk] in which the fractions do not go down *)
Inductive climb : stage -> list out -> stage -> Prop :=
| c_nil : forall s, climb s [] s
| c_cons : forall s o s' l s'', says s o s' -> (forall f g, s = Shown (Some f) -> s' = Shown (Some g) -> not_less f g) ->
    climb s' l s'' -> climb s (o :: l) s''.
Lemma climb_talk : forall s l s', climb s l s' -> talk s l s' /\ rising s l.
Proof. intros s l s' C. induction C as [s|s o s' l s'' S R C (T & U)]; [split; constructor|]. split; econstructor; eauto. Qed.
Lemma climb_app : forall s l s' m s'', climb s l s' -> climb s' m s'' -> climb s (l ++ m) s''.
Proof. intros s l s' m s'' C D. induction C as [s|s o s1 l s2 S R C IH]; [exact D|]. cbn [app]. econstructor; eauto. Qed.
Lemma talk_app : forall s l s' m s'', talk s l s' -> talk s' m s'' -> talk s (l ++ m) s''.
Proof. intros s l s' m s'' C D. induction C as [s|s o s1 l s2 S C IH]; [exact D|]. cbn [app]. econstructor; eauto. Qed.
Lemma says_det : forall s o a b, says s o a -> says s o b -> a = b.
Proof. intros s o a b A B. destruct A; inversion B; reflexivity. Qed.
Lemma talk_det : forall s l a b, talk s l a -> talk s l b -> a = b.
Proof.
  intros s l a b A. revert b. induction A as [s|s o s1 l s2 S A IH]; intros b B; inversion B; subst; [reflexivity|].
  match goal with H : says s o _ |- _ => rewrite (says_det _ _ _ _ S H) in * end. apply IH. assumption.
Qed.
Lemma heard_app : forall t a b, heard t (a ++ b) = heard t a ++ heard t b.
Proof. intros. apply filter_app. Qed.

Lemma append_inj : forall p a b, (p ++ a)%string = (p ++ b)%string -> a = b.
Proof. induction p as [|c p IH]; intros a b E; [exact E|]. injection E as E. auto. Qed.
Lemma token_inj : forall a b, SaveModel.token a = SaveModel.token b -> a = b.
Proof.
  intros a b E. apply append_inj in E. unfold SaveModel.display in E.
  assert (U : forall n, DecimalString.NilZero.uint_of_string (DecimalString.NilZero.string_of_uint (Nat.to_uint n)) = Some (Nat.to_uint n)).
  { intros n. apply DecimalString.NilZero.usu. rewrite <- (DecimalNat.Unsigned.of_to n), DecimalNat.Unsigned.to_of.
    unfold Decimal.unorm. destruct (Decimal.nzhead _); discriminate. }
  pose proof (U a) as Ua. rewrite E, U in Ua. injection Ua as Ua. apply DecimalNat.Unsigned.to_uint_inj. auto.
Qed.
Lemma token_apart : forall a title, SaveModel.token a <> ("rustAnalyzer/" ++ title)%string.
Proof. intros a title E. discriminate E. Qed.
Lemma roots_indexing : roots <> indexing.
Proof. discriminate. Qed.

(** What one report adds *)
Lemma heard_other : forall t title k f c, t <> match c with Some u => u | None => ("rustAnalyzer/" ++ title)%string end ->
  heard t (report_progress title k f c) = [].
Proof.
  intros t title k f c N. unfold report_progress. cbv zeta. apply String.eqb_neq in N. destruct k; cbn [heard filter on token_of]; rewrite N; reflexivity.
Qed.
Lemma heard_own : forall t title k f c, t = match c with Some u => u | None => ("rustAnalyzer/" ++ title)%string end ->
  heard t (report_progress title k f c) = report_progress title k f c.
Proof.
  intros t title k f c ->. unfold report_progress. cbv zeta. destruct k; cbn [heard filter on token_of]; rewrite String.eqb_refl; reflexivity.
Qed.
Lemma climb_begin : forall title f c, climb Idle (report_progress title Begin f c) (Shown f).
Proof. intros. econstructor; [constructor|discriminate|]. econstructor; [constructor|discriminate|]. constructor. Qed.
Lemma climb_report : forall title f g c, (forall x y, f = Some x -> g = Some y -> not_less x y) -> climb (Shown f) (report_progress title Report g c) (Shown g).
Proof.
  intros title f g c H. econstructor; [constructor| |constructor]. intros x y X Y. injection X as ->. injection Y as ->. auto.
Qed.
Lemma climb_end : forall title f g c, climb (Shown f) (report_progress title End g c) Idle.
Proof. intros. econstructor; [constructor|discriminate|constructor]. Qed.

Definition others (o : out) : Prop := match o with SpcompStatus _ => False | _ => True end.
Lemma report_others : forall title k f c, Forall others (report_progress title k f c).
Proof. intros. unfold report_progress. destruct k; repeat constructor. Qed.

(** * Files *)
Fixpoint lscan (o : option (nat * nat)) (l : list StatusModel.loader_msg) : option (option (nat * nat)) :=
  match l with
  | [] => Some o
  | StatusModel.Loaded _ _ :: tl => lscan o tl
  | StatusModel.Progress n d _ :: tl =>
      match o with
      | None => if (d =? 0) && (0 <? n) then lscan (Some (n, 0)) tl else None
      | Some (m, k) => if (n =? m) && (d =? S k) && (d <=? n) then lscan (if d =? n then None else Some (n, d)) tl else None
      end
  end.
Definition lst (o : option (nat * nat)) : stage := match o with None => Idle | Some (n, k) => Shown (Some (k, n)) end.
Lemma lscan_app : forall a b o, lscan o (a ++ b) = match lscan o a with Some o => lscan o b | None => None end.
Proof.
  induction a as [|[v i|n d v] a IH]; intros b o; cbn [app lscan]; auto.
  destruct o as [[m k]|]; [destruct (_ && _); auto|destruct (_ && _); auto].
Qed.
Lemma lscan_out : forall l o o', lscan o l = Some o' ->
  exists outs, all_out vfs_out l = Some outs /\ climb (lst o) (heard roots outs) (lst o') /\
    (forall t, t <> roots -> heard t outs = []) /\ Forall others outs.
Proof.
  induction l as [|[v i|n d v] l IH]; intros o o' E; cbn [lscan] in E.
  - injection E as <-. exists []. cbn. repeat split; constructor.
  - destruct (IH _ _ E) as (outs & A & C & H & F). exists outs. cbn [all_out vfs_out]. rewrite A. cbn [app]. auto.
  - cbn [all_out vfs_out].
    assert (G : exists k, (if d =? 0 then Some Begin else if d <? n then Some Report else if d =? n then Some End else None) = Some k /\
                  d <= n /\ exists o1, lscan o1 l = Some o' /\
                  climb (lst o) (report_progress "Roots Scanned" k (Some (d, n)) None) (lst o1)).
    { destruct o as [[m k]|].
      - destruct (n =? m) eqn:Em; [|discriminate]. destruct (d =? S k) eqn:Ed; [|discriminate]. destruct (d <=? n) eqn:El; [|discriminate].
        cbn [andb] in E. apply Nat.eqb_eq in Em. apply Nat.eqb_eq in Ed. apply Nat.leb_le in El. subst m d.
        change (S k =? 0) with false. cbv iota. destruct (S k =? n) eqn:Ee.
        + apply Nat.eqb_eq in Ee. replace (S k <? n) with false by (symmetry; apply Nat.ltb_ge; lia).
          exists End. split; [reflexivity|]. split; [lia|]. exists None. split; [exact E|]. apply climb_end.
        + apply Nat.eqb_neq in Ee. replace (S k <? n) with true by (symmetry; apply Nat.ltb_lt; lia).
          exists Report. split; [reflexivity|]. split; [lia|]. exists (Some (n, S k)). split; [exact E|]. apply climb_report.
          intros x y X Y. injection X as <-. injection Y as <-. unfold not_less. cbn [fst snd]. nia.
      - destruct (d =? 0) eqn:Ed; [|discriminate]. destruct (0 <? n) eqn:En; [|discriminate]. cbn [andb] in E. apply Nat.eqb_eq in Ed. subst d.
        exists Begin. split; [reflexivity|]. split; [lia|]. exists (Some (n, 0)). split; [exact E|]. apply climb_begin. }
    destruct G as (k & -> & L & o1 & E1 & C1). unfold mk_fraction. replace (d <=? n) with true by (symmetry; apply Nat.leb_le; lia).
    destruct (IH _ _ E1) as (outs & A & C & H & F). rewrite A. eexists. split; [reflexivity|]. split; [|split].
    + rewrite heard_app, heard_own by reflexivity. eapply climb_app; eauto.
    + intros t N. rewrite heard_app, heard_other, H by (cbn; auto). reflexivity.
    + apply Forall_app. split; [apply report_others|exact F].
Qed.

Definition files_inv (s : StatusModel.state) (heard_roots : list out) : Prop :=
  exists o1 o2, climb Idle heard_roots (lst o1) /\ lscan o1 (StatusModel.from_loader s) = Some o2 /\
    match StatusModel.loading s with None => o2 = None | Some (v, n, i) => o2 = Some (n, i) /\ i < n end /\
    Forall (fun x => 0 < snd x) (StatusModel.to_loader s).

Lemma files_same : forall s s' r, StatusModel.from_loader s' = StatusModel.from_loader s -> StatusModel.loading s' = StatusModel.loading s ->
  StatusModel.to_loader s' = StatusModel.to_loader s -> files_inv s r -> files_inv s' r.
Proof. unfold files_inv. intros s s' r -> -> ->. auto. Qed.
Lemma status_same : forall s, StatusModel.from_loader (StatusModel.update_status_or_notify s) = StatusModel.from_loader s /\
  StatusModel.loading (StatusModel.update_status_or_notify s) = StatusModel.loading s /\
  StatusModel.to_loader (StatusModel.update_status_or_notify s) = StatusModel.to_loader s.
Proof. intros s. unfold StatusModel.update_status_or_notify. cbv zeta. destruct (match _ with Some _ => _ | None => _ end); auto. Qed.
Lemma vfs_fold_same : forall l s, StatusModel.loading (fold_left StatusModel.handle_vfs_msg l s) = StatusModel.loading s /\
  StatusModel.to_loader (fold_left StatusModel.handle_vfs_msg l s) = StatusModel.to_loader s.
Proof. induction l as [|m l IH]; intros s; [auto|]. cbn [fold_left]. destruct (IH (StatusModel.handle_vfs_msg s m)) as (-> & ->). destruct m; auto. Qed.
Lemma config_inv : forall s d r, files_inv s r -> files_inv (StatusModel.update_configuration s d) r.
Proof.
  intros s [d|] r (o1 & o2 & C & E & L & F); [|exists o1, o2; auto]. exists o1, o2. cbn. split; [exact C|]. split; [exact E|]. split; [exact L|].
  apply Forall_app. split; [exact F|]. constructor; [cbn; lia|constructor].
Qed.
Lemma turn_rest : forall p s s0, StatusModel.from_loader s = StatusModel.from_loader s0 -> StatusModel.loading s = StatusModel.loading s0 ->
  StatusModel.to_loader s = StatusModel.to_loader s0 ->
  forall b r, files_inv s0 r -> files_inv (StatusModel.update_status_or_notify (if StatusModel.is_quiescent s && b && p then StatusModel.add_effect s StatusModel.RequestIndexing else s)) r.
Proof.
  intros p s s0 E1 E2 E3 b r I. destruct (status_same (if StatusModel.is_quiescent s && b && p then StatusModel.add_effect s StatusModel.RequestIndexing else s)) as (A & B & C).
  eapply files_same; [| | |exact I]; rewrite ?A, ?B, ?C; destruct (_ && _ && _); cbn; auto.
Qed.
Lemma files_step : forall s r e, files_inv s r ->
  exists outs, all_out vfs_out (match e with StatusModel.Turn StatusModel.Vfs => StatusModel.from_loader s | _ => [] end) = Some outs /\
    files_inv (StatusModel.step true s e) (r ++ heard roots outs) /\ (forall t, t <> roots -> heard t outs = []) /\ Forall others outs.
Proof.
  intros s r e I.
  assert (K : files_inv (StatusModel.step true s e) r -> forall l, l = [] ->
    exists outs, all_out vfs_out l = Some outs /\
    files_inv (StatusModel.step true s e) (r ++ heard roots outs) /\ (forall t, t <> roots -> heard t outs = []) /\ Forall others outs).
  { intros I' l ->. exists []. split; [reflexivity|]. cbn [heard filter]. rewrite app_nil_r. auto. }
  destruct e as [[|er d|]| |].
  - destruct I as (o1 & o2 & C & E & L & F). destruct (lscan_out _ _ _ E) as (outs & A & C' & H & O). exists outs. split; [exact A|]. split; [|auto].
    cbn [StatusModel.step]. destruct (StatusModel.from_loader s) as [|m l] eqn:Fl.
    + cbn in A. injection A as <-. cbn [heard filter]. rewrite app_nil_r. exists o1, o2. rewrite Fl. auto.
    + unfold StatusModel.turn. cbv zeta. rewrite Fl.
      eapply turn_rest; [reflexivity|reflexivity|reflexivity|].
      destruct (vfs_fold_same (m :: l) s) as (X & Y).
      exists o2, o2. split; [eapply climb_app; eauto|]. split; [reflexivity|]. cbn [StatusModel.set_inbox StatusModel.loading StatusModel.to_loader].
      rewrite X, Y. auto.
  - apply K; [|reflexivity]. cbn [StatusModel.step]. unfold StatusModel.turn. cbv zeta. eapply turn_rest; [reflexivity|reflexivity|reflexivity|].
    apply config_inv. eapply files_same; [| | |exact I]; reflexivity.
  - apply K; [|reflexivity]. cbn [StatusModel.step]. unfold StatusModel.turn. cbv zeta. eapply turn_rest; [reflexivity|reflexivity|reflexivity|exact I].
  - apply K; [|reflexivity]. cbn [StatusModel.step]. destruct I as (o1 & o2 & C & E & L & F).
    destruct (StatusModel.loading s) as [[[v n] i]|] eqn:Lo; [exists o1, o2; rewrite Lo; auto|].
    destruct (StatusModel.to_loader s) as [|[v n] tl] eqn:T; [exists o1, o2; rewrite Lo, T; auto|].
    inversion F as [|? ? Pn F']; subst. cbn in Pn. exists o1, (Some (n, 0)). cbn [StatusModel.from_loader StatusModel.loading StatusModel.to_loader].
    split; [exact C|]. rewrite lscan_app, E. cbn [lscan Nat.eqb]. replace (0 <? n) with true by (symmetry; apply Nat.ltb_lt; lia). cbn [andb].
    split; [reflexivity|]. replace (n =? 0) with false by (symmetry; apply Nat.eqb_neq; lia). auto.
  - apply K; [|reflexivity]. cbn [StatusModel.step]. destruct I as (o1 & o2 & C & E & L & F).
    destruct (StatusModel.loading s) as [[[v n] i]|] eqn:Lo; [|exists o1, o2; rewrite Lo; auto]. destruct L as (-> & L).
    exists o1, (if S i =? n then None else Some (n, S i)). cbn [StatusModel.from_loader StatusModel.loading StatusModel.to_loader].
    split; [exact C|]. rewrite lscan_app, E. cbn [lscan]. rewrite !Nat.eqb_refl. replace (S i <=? n) with true by (symmetry; apply Nat.leb_le; lia).
    cbn [andb]. split; [reflexivity|]. split; [|exact F]. destruct (S i =? n) eqn:X; [reflexivity|]. apply Nat.eqb_neq in X. split; [reflexivity|lia].
Qed.

(** * Indexing *)
Notation progress := (OpQueueModel.progress fraction).
Definition fair_progress (p : progress) : Prop := match p with OpQueueModel.Report _ (d, t) => d <= t | _ => True end.
Definition at_stage (b : bool) (s : stage) : Prop := if b then exists f, s = Shown f else s = Idle.
Lemma index_outs : forall l b b' s, OpQueueProofs.scan fraction b l = Some b' -> Forall fair_progress l -> at_stage b s ->
  exists outs s', all_out index_out l = Some outs /\ talk s (heard indexing outs) s' /\ at_stage b' s' /\
    (forall t, t <> indexing -> heard t outs = []) /\ Forall others outs.
Proof.
  induction l as [|p l IH]; intros b b' s E F A.
  - injection E as <-. exists [], s. cbn. repeat split; auto. constructor.
  - inversion F as [|? ? Fp Fl]; subst.
    assert (G : exists k f b1 s1, index_out p = Some (report_progress "Indexing" k f None) /\ OpQueueProofs.scan fraction b1 l = Some b' /\
      at_stage b1 s1 /\ talk s (report_progress "Indexing" k f None) s1).
    { destruct p as [|[d t]|c]; cbn [OpQueueProofs.scan] in E; destruct b; try discriminate; cbn [at_stage] in A.
      - subst s. do 4 eexists. split; [reflexivity|]. split; [exact E|]. split; [|apply climb_talk, climb_begin]. eexists. reflexivity.
      - destruct A as (f & ->). cbn [index_out]. unfold mk_fraction. cbn in Fp. replace (d <=? t) with true by (symmetry; apply Nat.leb_le; lia).
        exists Report, (Some (d, t)), true, (Shown (Some (d, t))). split; [reflexivity|]. split; [exact E|]. split; [eexists; reflexivity|].
        econstructor; [constructor|constructor].
      - destruct A as (f & ->). do 4 eexists. split; [reflexivity|]. split; [exact E|]. split; [|apply climb_talk, climb_end]. reflexivity. }
    destruct G as (k & f & b1 & s1 & O & E1 & A1 & T1). destruct (IH _ _ _ E1 Fl A1) as (outs & s' & Oo & T & A' & H & Ot).
    cbn [all_out]. rewrite O, Oo. eexists _, s'. split; [reflexivity|]. split; [|split; [exact A'|split]].
    + rewrite heard_app, heard_own by reflexivity. eapply talk_app; eauto.
    + intros t N. rewrite heard_app, heard_other, H by (cbn; auto). reflexivity.
    + apply Forall_app. split; [apply report_others|exact Ot].
Qed.

Lemma collect_fair : forall l acc, Forall fair_progress l -> Forall fair_progress acc ->
  Forall fair_progress (fold_left (OpQueueModel.collect fraction) l acc).
Proof.
  induction l as [|p l IH]; intros acc F A; [exact A|]. inversion F as [|? ? Fp Fl]; subst. cbn [fold_left]. apply IH; [exact Fl|].
  unfold OpQueueModel.collect. destruct p as [|r|c]; try (apply Forall_app; split; [exact A|constructor; [exact Fp|constructor]]).
  destruct (rev acc) as [|[|r'|c'] tl] eqn:E; try (apply Forall_app; split; [exact A|constructor; [exact Fp|constructor]]).
  assert (acc = rev tl ++ [OpQueueModel.Report _ r']) as -> by (rewrite <- (rev_involutive acc), E; reflexivity).
  rewrite removelast_last. apply Forall_app in A as (A & _). apply Forall_app. split; [exact A|constructor; [exact Fp|constructor]].
Qed.
Lemma announce_notified : forall ps s s', OpQueueModel.announce fraction s ps = Some s' ->
  OpQueueModel.notified fraction s' = OpQueueModel.notified fraction s ++ ps /\ OpQueueModel.channel fraction s' = OpQueueModel.channel fraction s.
Proof.
  induction ps as [|p ps IH]; intros s s' E.
  - injection E as <-. rewrite app_nil_r. auto.
  - cbn [OpQueueModel.announce] in E.
    destruct (match p with OpQueueModel.End _ c => _ | _ => Some s end) as [s1|] eqn:E1; [|discriminate].
    destruct (IH _ _ E) as (A & B). cbn [OpQueueModel.notified OpQueueModel.channel] in A, B.
    assert (X : OpQueueModel.notified fraction s1 = OpQueueModel.notified fraction s /\ OpQueueModel.channel fraction s1 = OpQueueModel.channel fraction s).
    { destruct p as [|r|c]; try (injection E1 as <-; auto). destruct (OpQueueModel.op_completed unit _); [|discriminate]. injection E1 as <-. auto. }
    destruct X as (X & Y). rewrite X in A. rewrite Y in B. rewrite <- app_assoc in A. auto.
Qed.
Definition fair_index (e : OpQueueModel.event fraction) : Prop := match e with OpQueueModel.JobReports _ (d, t) => d <= t | _ => True end.
Definition index_inv (q : OpQueueModel.state fraction) (h : list out) : Prop :=
  OpQueueProofs.inv fraction q /\ Forall fair_progress (OpQueueModel.channel fraction q) /\
  exists b s, OpQueueProofs.scan fraction false (OpQueueModel.notified fraction q) = Some b /\ talk Idle h s /\ at_stage b s.
Lemma index_step : forall q h e, index_inv q h -> fair_index e ->
  exists q' outs, OpQueueModel.step fraction q e = Some q' /\
    all_out index_out (skipn (List.length (OpQueueModel.notified fraction q)) (OpQueueModel.notified fraction q')) = Some outs /\
    index_inv q' (h ++ heard indexing outs) /\ (forall t, t <> indexing -> heard t outs = []) /\ Forall others outs.
Proof.
  intros q h e (I & F & b & s & Sc & T & A) Fe. destruct (OpQueueProofs.step_inv fraction q e I) as (q' & E & I' & _).
  assert (K : exists ps, OpQueueModel.notified fraction q' = OpQueueModel.notified fraction q ++ ps /\ Forall fair_progress ps /\
    Forall fair_progress (OpQueueModel.channel fraction q')).
  { destruct e as [n w| |r|c|]; cbn [OpQueueModel.step] in E.
    - destruct (OpQueueModel.announce fraction _ _) as [q1|] eqn:An; [|discriminate]. injection E as <-.
      destruct (announce_notified _ _ _ An) as (X & Y). cbn [OpQueueModel.notified OpQueueModel.channel] in X, Y.
      eexists. unfold OpQueueModel.maybe_start. destruct (OpQueueModel.should_start_op unit _) as [q2 [[? ?]|]];
        cbn [OpQueueModel.notified OpQueueModel.channel]; (split; [exact X|]);
        (split; [apply collect_fair; [|constructor]; apply Forall_forall; intros x Hx; rewrite Forall_forall in F; apply F|]).
      all: try (rewrite Y; apply Forall_forall; intros x Hx; rewrite Forall_forall in F; apply F;
                rewrite <- (firstn_skipn n (OpQueueModel.channel fraction q)); apply in_or_app; right; exact Hx).
      all: rewrite <- (firstn_skipn n (OpQueueModel.channel fraction q)); apply in_or_app; left; exact Hx.
    - exists []. rewrite app_nil_r. destruct (OpQueueModel.jobs fraction q) as [|[] tl]; injection E as <-; cbn [OpQueueModel.notified OpQueueModel.channel];
        (split; [reflexivity|]); (split; [constructor|]); auto. apply Forall_app. split; [exact F|]. repeat constructor.
    - exists []. rewrite app_nil_r. destruct (OpQueueModel.jobs fraction q) as [|[] tl]; injection E as <-; cbn [OpQueueModel.notified OpQueueModel.channel];
        (split; [reflexivity|]); (split; [constructor|]); auto. apply Forall_app. split; [exact F|]. constructor; [|constructor]. destruct r. exact Fe.
    - exists []. rewrite app_nil_r. destruct (OpQueueModel.jobs fraction q) as [|[] tl]; injection E as <-; cbn [OpQueueModel.notified OpQueueModel.channel];
        (split; [reflexivity|]); (split; [constructor|]); auto. apply Forall_app. split; [exact F|]. repeat constructor.
    - exists []. rewrite app_nil_r. destruct (OpQueueModel.jobs fraction q) as [|[] tl]; injection E as <-; cbn [OpQueueModel.notified OpQueueModel.channel];
        (split; [reflexivity|]); (split; [constructor|]); auto. }
  destruct K as (ps & N & Fp & Fc). exists q'. rewrite N, skipn_app, skipn_all, Nat.sub_diag. cbn [skipn app].
  assert (S2 : exists b', OpQueueProofs.scan fraction b ps = Some b' /\ OpQueueProofs.scan fraction false (OpQueueModel.notified fraction q') = Some b').
  { destruct (OpQueueProofs.i_scan _ _ I') as (o & So & _). rewrite OpQueueProofs.scan_app in So.
    destruct (OpQueueProofs.scan fraction false (OpQueueModel.notified fraction q')) as [b'|] eqn:X; [|discriminate]. exists b'. split; [|reflexivity].
    rewrite N, OpQueueProofs.scan_app, Sc in X. exact X. }
  destruct S2 as (b' & S2 & S3). destruct (index_outs _ _ _ _ S2 Fp A) as (outs & s' & O & T' & A' & H & Ot).
  exists outs. split; [exact E|]. split; [exact O|]. split; [|auto]. split; [exact I'|]. split; [exact Fc|].
  exists b', s'. split; [exact S3|]. split; [eapply talk_app; eauto|exact A'].
Qed.

(** * Checks *)
Section Checks.
Variable diagnostic : Type.
Notation message := (FlycheckModel.message diagnostic).
Notation actor := (FlycheckModel.state diagnostic).
Notation proc := (FlycheckModel.proc diagnostic).
Notation state := (state diagnostic).

Definition good (a : actor) : Prop :=
  (FlycheckModel.control_ _ a = FlycheckModel.Collecting -> proc a = None) /\
  (forall b, proc a <> Some (FlycheckModel.Process _ b (Some FlycheckModel.ReaderPanicked))).
Definition outcome (e : FlycheckModel.event diagnostic) (a a' : actor) (new : list message) : Prop :=
  match proc a, proc a' with
  | None, None => new = [] \/ new = [FlycheckModel.DidFailToRestart _]
  | None, Some _ => new = [FlycheckModel.DidStart _] /\ e = FlycheckModel.Timeout _ true
  | Some _, Some _ => new = [] \/ exists d, new = [FlycheckModel.AddDiagnostic _ d]
  | Some _, None => new = [FlycheckModel.DidCancel _] \/ exists b, new = [FlycheckModel.DidFinish _ b]
  end.
Definition acts (e : FlycheckModel.event diagnostic) (a a' : actor) : Prop :=
  good a' /\ exists new, FlycheckModel.sent _ a' = FlycheckModel.sent _ a ++ new /\ outcome e a a' new.
Lemma acts_same : forall e a a', good a -> proc a' = proc a -> FlycheckModel.control_ _ a' = FlycheckModel.control_ _ a ->
  FlycheckModel.sent _ a' = FlycheckModel.sent _ a -> acts e a a'.
Proof.
  intros e a a' (G1 & G2) P C S. split; [unfold good; rewrite P, C; auto|]. exists []. rewrite app_nil_r. split; [exact S|].
  unfold outcome. rewrite P. destruct (proc a); auto.
Qed.
Ltac same G := apply acts_same; [exact G|reflexivity|reflexivity|reflexivity].
Lemma acts_none : forall e a a' new, proc a' = None -> FlycheckModel.sent _ a' = FlycheckModel.sent _ a ++ new -> outcome e a a' new -> acts e a a'.
Proof. intros e a a' new P S O. split; [unfold good; rewrite P; split; [auto|discriminate]|]. exists new. auto. Qed.

Lemma actor_step : forall a e, good a -> e <> FlycheckModel.Eof _ FlycheckModel.ReaderPanicked -> acts e a (FlycheckModel.step diagnostic a e).
Proof.
  intros [ib dr pr co se ou] e G Ne. pose proof G as (G1 & G2). cbn [FlycheckModel.control_ FlycheckModel.proc] in G1, G2.
  destruct e as [c| |x|en| | |sp]; unfold FlycheckModel.step; cbn [FlycheckModel.control_ FlycheckModel.proc FlycheckModel.inbox FlycheckModel.dropped FlycheckModel.sent FlycheckModel.outputs].
  - destruct dr; same G.
  - same G.
  - destruct pr as [[b [cl|]]|]; [same G| |same G]. destruct ou as [|o ou]; [same G|].
    split; [split; cbn; [intros K; specialize (G1 K); discriminate|discriminate]|]. exists []. cbn. rewrite app_nil_r. split; [reflexivity|]. left. reflexivity.
  - destruct pr as [[b [cl|]]|]; [same G| |same G].
    split; [split; cbn; [intros K; specialize (G1 K); discriminate|intros b' K; injection K as _ ->; congruence]|].
    exists []. cbn. rewrite app_nil_r. split; [reflexivity|]. left. reflexivity.
  - destruct co; [| |same G|same G].
    + destruct ib as [|[] ib]; [destruct dr; [|same G]| |]; destruct pr as [p|];
        (apply acts_none with (new := []); [reflexivity|symmetry; apply app_nil_r|left; reflexivity])
        || (apply acts_none with (new := [FlycheckModel.DidCancel _]); [reflexivity|reflexivity|left; reflexivity]).
    + specialize (G1 eq_refl). subst pr. destruct ib as [|[] ib]; [same G| |];
        (apply acts_none with (new := []); [reflexivity|symmetry; apply app_nil_r|left; reflexivity]).
  - destruct co; [|same G|same G|same G].
    destruct pr as [[[|d b] c]|]; [| |same G].
    + destruct c as [[ok|]|]; [|exfalso; exact (G2 _ eq_refl)|same G].
      apply acts_none with (new := [FlycheckModel.DidFinish _ ok]); [reflexivity|reflexivity|right; exists ok; reflexivity].
    + split; [split; cbn; [discriminate|intros b' K; injection K as _ ->; exact (G2 _ eq_refl)]|].
      exists [FlycheckModel.AddDiagnostic _ d]. split; [reflexivity|]. right. exists d. reflexivity.
  - destruct co; [same G| |same G|same G].
    specialize (G1 eq_refl). subst pr. destruct ib as [|c ib]; [|same G]. destruct sp.
    + split; [split; cbn; discriminate|]. exists [FlycheckModel.DidStart _]. split; [reflexivity|]. split; reflexivity.
    + apply acts_none with (new := [FlycheckModel.DidFailToRestart _]); [reflexivity|reflexivity|right; reflexivity].
Qed.

(** the messages of the workers of a group *)
Fixpoint cscan (g : nat -> bool) (o : bool) (l : list (nat * message)) : option bool :=
  match l with
  | [] => Some o
  | (i, m) :: tl =>
      if g i then
        match m with
        | FlycheckModel.DidStart _ => if o then None else cscan g true tl
        | FlycheckModel.DidCancel _ | FlycheckModel.DidFinish _ _ => if o then cscan g false tl else None
        | _ => cscan g o tl
        end
      else cscan g o tl
  end.
Lemma cscan_app : forall g a b o, cscan g o (a ++ b) = match cscan g o a with Some o => cscan g o b | None => None end.
Proof.
  intros g. induction a as [|[i m] a IH]; intros b o; [reflexivity|]. cbn [app cscan]. destruct (g i); [|apply IH].
  destruct m, o; auto.
Qed.
Definition cst (o : bool) : stage := if o then Shown None else Idle.

Lemma check_others : forall n m t, (forall i, t <> SaveModel.token i) -> heard t (check_out diagnostic n m) = [].
Proof.
  intros n [i m] t N. unfold check_out. cbv zeta. cbn [fst snd]. destruct m; try reflexivity.
  all: change (heard t (SpcompStatus ?b :: ?l)) with (heard t l); apply heard_other; apply N.
Qed.
Lemma checks_others : forall n l t, (forall i, t <> SaveModel.token i) -> heard t (flat_map (check_out diagnostic n) l) = [].
Proof. intros n l t N. induction l as [|m l IH]; [reflexivity|]. cbn [flat_map]. rewrite heard_app, check_others, IH by exact N. reflexivity. Qed.

Lemma cscan_talk : forall id n l o o', cscan (same_project id) o l = Some o' ->
  talk (cst o) (heard (SaveModel.token id) (flat_map (check_out diagnostic n) l)) (cst o').
Proof.
  intros id n. induction l as [|[i m] l IH]; intros o o' E; [injection E as <-; constructor|].
  cbn [flat_map]. rewrite heard_app. cbn [cscan] in E. unfold same_project in E at 1. destruct (id =? i) eqn:X.
  - apply Nat.eqb_eq in X. subst i. unfold check_out at 1. cbv zeta. cbn [fst snd]. destruct m; try (cbn [heard filter app]; apply IH; exact E).
    + destruct o; [discriminate|]. change (heard ?t (SpcompStatus ?b :: ?l)) with (heard t l). rewrite heard_own by reflexivity.
      eapply talk_app; [apply climb_talk, climb_begin|]. exact (IH true o' E).
    + destruct o; [|discriminate]. change (heard ?t (SpcompStatus ?b :: ?l)) with (heard t l). rewrite heard_own by reflexivity.
      eapply talk_app; [apply climb_talk, climb_end|]. exact (IH false o' E).
    + destruct o; [|discriminate]. change (heard ?t (SpcompStatus ?b :: ?l)) with (heard t l). rewrite heard_own by reflexivity.
      eapply talk_app; [apply climb_talk, climb_end|]. exact (IH false o' E).
  - apply Nat.eqb_neq in X.
    assert (H : heard (SaveModel.token id) (check_out diagnostic n (i, m)) = []).
    { unfold check_out. cbv zeta. cbn [fst snd]. destruct m; try reflexivity.
      all: change (heard ?t (SpcompStatus ?b :: ?l)) with (heard t l); apply heard_other; intros K; apply token_inj in K; contradiction. }
    rewrite H. cbn [app]. apply IH. exact E.
Qed.

(** the status *)
Definition told_by (o : bool) (l : option bool) : Prop := match l with None => o = false | Some b => b = negb o end.
Definition status_from (r : option bool) (l : list out) : option bool := fold_left (fun r o => match o with SpcompStatus b => Some b | _ => r end) l r.
Lemma status_others : forall l r, Forall others l -> status_from r l = r.
Proof.
  induction l as [|o l IH]; intros r F; [reflexivity|]. inversion F as [|? ? Fo Fl]; subst. cbn. destruct o; try contradiction; apply IH; exact Fl.
Qed.
Lemma status_app : forall a b r, status_from r (a ++ b) = status_from (status_from r a) b.
Proof. intros. apply fold_left_app. Qed.
Lemma cscan_status : forall n l o o' r, cscan (any_project 0) o l = Some o' -> told_by o r -> told_by o' (status_from r (flat_map (check_out diagnostic n) l)).
Proof.
  intros n. induction l as [|[i m] l IH]; intros o o' r E T; [injection E as <-; exact T|].
  cbn [flat_map]. rewrite status_app. cbn [cscan] in E. unfold any_project in E at 1. 
  assert (St : status_from r (check_out diagnostic n (i, m)) = match m with FlycheckModel.DidStart _ => Some false
                 | FlycheckModel.DidCancel _ | FlycheckModel.DidFinish _ _ => Some true | _ => r end).
  { unfold check_out. cbv zeta. cbn [fst snd]. destruct m; try reflexivity.
    all: change (status_from r (SpcompStatus ?b :: ?l)) with (status_from (Some b) l); apply status_others, report_others. }
  rewrite St. clear St. destruct m.
  - exact (IH _ _ _ E T).
  - destruct o; [discriminate|]. exact (IH _ _ (Some false) E eq_refl).
  - destruct o; [|discriminate]. exact (IH _ _ (Some true) E eq_refl).
  - destruct o; [|discriminate]. exact (IH _ _ (Some true) E eq_refl).
  - exact (IH _ _ _ E T).
Qed.

(** * The workers *)
Lemma nth_set : forall A l k j (x : A), nth_error (set_nth k x l) j = if j =? k then match nth_error l k with Some _ => Some x | None => None end else nth_error l j.
Proof.
  induction l as [|y l IH]; intros k j x; [destruct k, j; cbn; try reflexivity; destruct (_ =? _); reflexivity|].
  destruct k, j; cbn [set_nth nth_error Nat.eqb]; auto.
Qed.
Definition in_group (g : nat -> bool) (crew : list (nat * actor)) (P : actor -> Prop) : Prop := exists k id a, nth_error crew k = Some (id, a) /\ g id = true /\ P a.
Definition running (g : nat -> bool) (crew : list (nat * actor)) : Prop := in_group g crew (runs_check diagnostic).
Definition single (g : nat -> bool) (crew : list (nat * actor)) : Prop :=
  forall j k i i' a b, nth_error crew j = Some (i, a) -> nth_error crew k = Some (i', b) -> g i = true -> g i' = true ->
    runs_check diagnostic a -> runs_check diagnostic b -> j = k.
Definition crew_inv (g : nat -> bool) (crew : list (nat * actor)) (mail : list (nat * message)) (o1 : bool) : Prop :=
  Forall (fun x => good (snd x)) crew /\ single g crew /\ exists o2, cscan g o1 mail = Some o2 /\ (o2 = true <-> running g crew).

Lemma crew_work : forall g related crew mail o1 k id a e,
  (forall i j, g i = true -> g j = true -> related i j = true) ->
  crew_inv g crew mail o1 -> nth_error crew k = Some (id, a) -> e <> FlycheckModel.Eof _ FlycheckModel.ReaderPanicked ->
  (e = FlycheckModel.Timeout _ true -> forall j id' b, nth_error crew j = Some (id', b) -> related id id' = true -> j <> k -> ~ runs_check diagnostic b) ->
  let a' := FlycheckModel.step diagnostic a e in
  crew_inv g (set_nth k (id, a') crew) (mail ++ map (pair id) (skipn (List.length (FlycheckModel.sent _ a)) (FlycheckModel.sent _ a'))) o1.
Proof.
  intros g related crew mail o1 k id a e R (G & U & o2 & E & B) Nk Ne Al a'.
  assert (Ga : good a) by (rewrite Forall_forall in G; exact (G _ (nth_error_In _ _ Nk))).
  destruct (actor_step a e Ga Ne) as (Ga' & new & S & C). fold a' in Ga', S, C. unfold outcome in C.
  rewrite S, skipn_app, skipn_all, Nat.sub_diag. cbn [skipn app].
  assert (G' : Forall (fun x => good (snd x)) (set_nth k (id, a') crew)).
  { apply Forall_forall. intros x Hx. apply In_nth_error in Hx as (j & Hj). rewrite nth_set, Nk in Hj.
    destruct (j =? k); [injection Hj as <-; exact Ga'|]. rewrite Forall_forall in G. exact (G _ (nth_error_In _ _ Hj)). }
  destruct (g id) eqn:Gi.
  2: { split; [exact G'|]. split.
       - intros j1 j2 i i' x y X Y Gx Gy Rx Ry. rewrite nth_set, Nk in X, Y. destruct (j1 =? k) eqn:J1; [injection X as <- <-; congruence|].
         destruct (j2 =? k) eqn:J2; [injection Y as <- <-; congruence|]. eapply U; eauto.
       - exists o2. rewrite cscan_app, E. split.
         + clear - Gi. induction new as [|m l IH]; [reflexivity|]. cbn [map cscan]. rewrite Gi. exact IH.
         + rewrite B. split; intros (j & i & x & X & Gx & Rx).
           * exists j, i, x. rewrite nth_set, Nk. destruct (j =? k) eqn:J; [|auto]. apply Nat.eqb_eq in J. subst j. rewrite Nk in X. injection X as <- <-. congruence.
           * rewrite nth_set, Nk in X. destruct (j =? k) eqn:J; [injection X as <- <-; congruence|]. exists j, i, x. auto. }
  assert (Other : runs_check diagnostic a -> forall j i x, nth_error crew j = Some (i, x) -> g i = true -> runs_check diagnostic x -> j = k).
  { intros Ra j i x X Gx Rx. symmetry. eapply U; [exact Nk|exact X| | | |]; auto. }
  (* running after the step, and uniqueness *)
  assert (Fin : forall o3, cscan g o1 (mail ++ map (pair id) new) = Some o3 ->
    (runs_check diagnostic a' -> forall j i x, j <> k -> nth_error crew j = Some (i, x) -> g i = true -> ~ runs_check diagnostic x) ->
    (o3 = true <-> runs_check diagnostic a' \/ exists j i x, j <> k /\ nth_error crew j = Some (i, x) /\ g i = true /\ runs_check diagnostic x) ->
    crew_inv g (set_nth k (id, a') crew) (mail ++ map (pair id) new) o1).
  { intros o3 E3 On B3. split; [exact G'|]. split.
    - intros j1 j2 i i' x y X Y Gx Gy Rx Ry. rewrite nth_set, Nk in X, Y. destruct (j1 =? k) eqn:J1, (j2 =? k) eqn:J2.
      + apply Nat.eqb_eq in J1. apply Nat.eqb_eq in J2. congruence.
      + apply Nat.eqb_neq in J2. injection X as <- <-. exfalso. exact (On Rx _ _ _ J2 Y Gy Ry).
      + apply Nat.eqb_neq in J1. injection Y as <- <-. exfalso. exact (On Ry _ _ _ J1 X Gx Rx).
      + eapply U; eauto.
    - exists o3. split; [exact E3|]. rewrite B3. split.
      + intros [Ra|(j & i & x & J & X & Gx & Rx)].
        * exists k, id, a'. rewrite nth_set, Nk, Nat.eqb_refl. auto.
        * exists j, i, x. rewrite nth_set. apply Nat.eqb_neq in J. rewrite J. auto.
      + intros (j & i & x & X & Gx & Rx). rewrite nth_set, Nk in X. destruct (j =? k) eqn:J; [injection X as <- <-; auto|].
        apply Nat.eqb_neq in J. right. exists j, i, x. auto. }
  unfold runs_check in *.
  destruct (proc a) as [p|] eqn:Pa, (proc a') as [p'|] eqn:Pa'.
  - (* goes on *)
    assert (O2 : o2 = true) by (apply B; exists k, id, a; unfold runs_check; rewrite Pa; repeat split; auto; discriminate). subst o2.
    apply (Fin true).
    + rewrite cscan_app, E. destruct C as [->|(d & ->)]; cbn [map cscan]; rewrite ?Gi; reflexivity.
    + intros _ j i x J X Gx Rx. apply J. eapply Other; eauto. discriminate.
    + split; [left; discriminate|reflexivity].
  - (* ends *)
    assert (O2 : o2 = true) by (apply B; exists k, id, a; unfold runs_check; rewrite Pa; repeat split; auto; discriminate). subst o2.
    apply (Fin false).
    + rewrite cscan_app, E. destruct C as [->|(d & ->)]; cbn [map cscan]; rewrite ?Gi; reflexivity.
    + congruence.
    + split; [discriminate|]. intros [X|(j & i & x & J & X & Gx & Rx)]; [congruence|]. exfalso. apply J. eapply Other; eauto. discriminate.
  - (* starts *)
    destruct C as (-> & ->).
    assert (No : forall j i x, j <> k -> nth_error crew j = Some (i, x) -> g i = true -> proc x = None).
    { intros j i x J X Gx. destruct (proc x) eqn:Px; [|reflexivity]. exfalso. eapply (Al eq_refl j i x X); auto. rewrite Px. discriminate. }
    assert (O2 : o2 = false).
    { destruct o2; [|reflexivity]. exfalso. destruct B as (B & _). destruct (B eq_refl) as (j & i & x & X & Gx & Rx).
      destruct (Nat.eq_dec j k) as [->|J]; [rewrite Nk in X; injection X as <- <-; congruence|]. apply Rx. eapply No; eauto. }
    subst o2. apply (Fin true).
    + rewrite cscan_app, E. cbn [map cscan]. rewrite Gi. reflexivity.
    + intros _ j i x J X Gx. rewrite (No j i x J X Gx). auto.
    + split; [left; discriminate|reflexivity].
  - (* stays idle *)
    apply (Fin o2).
    + rewrite cscan_app, E. destruct C as [->| ->]; cbn [map cscan]; rewrite ?Gi; reflexivity.
    + congruence.
    + rewrite B. split.
      * intros (j & i & x & X & Gx & Rx). right. exists j, i, x. split; [|auto]. intros ->. rewrite Nk in X. injection X as <- <-. apply Rx. exact Pa.
      * intros [X|(j & i & x & J & X & Gx & Rx)]; [congruence|]. exists j, i, x. auto.
Qed.
End Checks.

(** * The server *)
Section Server.
Variable diagnostic : Type.
Notation state := (state diagnostic).
Notation event := (event diagnostic).
Notation step := (step diagnostic).
Notation run := (run diagnostic).

Definition base (s : state) : Prop :=
  files_inv (files _ s) (heard roots (client _ s)) /\ index_inv (index _ s) (heard indexing (client _ s)).
Lemma base_step : forall s e, base s -> fair diagnostic e -> exists s', step s e = Some s' /\ base s'.
Proof.
  intros s e (F & I) Fa. destruct e as [e|e|ids|k e|n].
  - destruct (files_step _ _ e F) as (outs & O & F' & Ot & _). cbn [ProgressModel.step]. rewrite O. eexists. split; [reflexivity|].
    split; cbn [files index client].
    + rewrite heard_app. exact F'.
    + rewrite heard_app, Ot, app_nil_r by (intros K; symmetry in K; exact (roots_indexing K)). exact I.
  - destruct (index_step _ _ e I Fa) as (q & outs & E & O & I' & Ot & _). cbn [ProgressModel.step]. rewrite E, O. eexists. split; [reflexivity|].
    split; cbn [files index client].
    + rewrite heard_app, Ot, app_nil_r by exact roots_indexing. exact F.
    + rewrite heard_app. exact I'.
  - eexists. split; [reflexivity|]. split; assumption.
  - cbn [ProgressModel.step]. destruct (nth_error (crew _ s) k) as [[id a]|]; eexists; (split; [reflexivity|]); split; assumption.
  - eexists. split; [reflexivity|]. split; cbn [files index client]; rewrite heard_app, checks_others, app_nil_r by (intros i K; discriminate K); assumption.
Qed.
Lemma base_start : forall dirs, base (start diagnostic dirs).
Proof.
  intros dirs. split.
  - unfold start. cbn [files client]. apply config_inv. exists None, None. cbn. repeat split; constructor.
  - split; [|split; [constructor|]].
    + destruct (OpQueueProofs.run_inv fraction []) as (s & R & I). injection R as <-. exact I.
    + exists false, Idle. cbn. repeat split; constructor.
Qed.
Lemma base_run : forall h s, base s -> Forall (fair diagnostic) h -> exists s', run s h = Some s' /\ base s'.
Proof.
  induction h as [|e h IH]; intros s B F; [exists s; auto|]. inversion F as [|? ? Fe Fh]; subst. destruct (base_step s e B Fe) as (s1 & E & B1).
  cbn [ProgressModel.run]. rewrite E. apply IH; assumption.
Qed.

(** What reports of files and of indexing do not touch *)
Lemma all_out_forall : forall A (f : A -> option (list out)) (P : out -> Prop), (forall a o, f a = Some o -> Forall P o) ->
  forall l o, all_out f l = Some o -> Forall P o.
Proof.
  intros A f P H. induction l as [|a l IH]; intros o E; [injection E as <-; constructor|]. cbn [all_out] in E.
  destruct (f a) as [x|] eqn:X; [|discriminate]. destruct (all_out f l) as [y|]; [|discriminate]. injection E as <-. apply Forall_app. eauto.
Qed.
Definition about (t : string) (o : out) : Prop := token_of o = Some t.
Lemma report_about : forall title k f, Forall (about ("rustAnalyzer/" ++ title)%string) (report_progress title k f None).
Proof. intros. unfold report_progress. destruct k; repeat constructor. Qed.
Lemma vfs_about : forall m o, vfs_out m = Some o -> Forall (about roots) o.
Proof.
  intros [v i|n d v] o E; [injection E as <-; constructor|]. cbn [vfs_out] in E. destruct (if d =? 0 then _ else _) as [k|]; [|discriminate].
  destruct (mk_fraction d n) as [f|]; [|discriminate]. apply some_inj in E. subst o. exact (report_about "Roots Scanned" k (Some f)).
Qed.
Lemma index_about : forall m o, index_out m = Some o -> Forall (about indexing) o.
Proof.
  intros [|[d n]|c] o E; cbn [index_out] in E.
  - apply some_inj in E. subst o. apply (report_about "Indexing").
  - destruct (mk_fraction d n) as [f|]; [|discriminate]. apply some_inj in E. subst o. apply (report_about "Indexing").
  - apply some_inj in E. subst o. apply (report_about "Indexing").
Qed.
Lemma about_heard : forall t u l, Forall (about t) l -> u <> t -> heard u l = [].
Proof.
  intros t u l F N. induction F as [|o l A F IH]; [reflexivity|]. cbn [heard filter]. unfold on at 1. rewrite A.
  apply String.eqb_neq in N. rewrite N. exact IH.
Qed.
Lemma about_others : forall t l, Forall (about t) l -> Forall others l.
Proof. intros t l F. eapply Forall_impl; [|exact F]. intros [] A; [exact I|exact I|discriminate A]. Qed.
(** each step either leaves the workers alone and says nothing of them, or is about them *)
Lemma step_kinds : forall s e s', step s e = Some s' ->
  match e with
  | Files _ _ | Index _ _ => crew _ s' = crew _ s /\ mail _ s' = mail _ s /\ checkers _ s' = checkers _ s /\
      exists outs t, client _ s' = client _ s ++ outs /\ Forall (about t) outs /\ (t = roots \/ t = indexing)
  | _ => True
  end.
Proof.
  intros s [e|e|ids|k e|n] s' E; try exact I; cbn [ProgressModel.step] in E.
  - destruct (all_out _ _) as [o|] eqn:A; [|discriminate]. injection E as <-. cbn. repeat apply conj; auto.
    exists o, roots. repeat apply conj; auto. exact (all_out_forall _ _ _ vfs_about _ _ A).
  - destruct (OpQueueModel.step _ _ _) as [q|]; [|discriminate]. destruct (all_out _ _) as [o|] eqn:A; [|discriminate]. injection E as <-. cbn.
    repeat apply conj; auto. exists o, indexing. repeat apply conj; auto. exact (all_out_forall _ _ _ index_about _ _ A).
Qed.

(** * Workers *)
Lemma crew_hire : forall g crew mail o ids, crew_inv diagnostic g crew mail o ->
  crew_inv diagnostic g (crew ++ map (fun i => (i, FlycheckModel.start diagnostic)) ids) mail o.
Proof.
  intros g crew mail o ids (G & U & o2 & E & B).
  assert (New : forall k i a, nth_error (crew ++ map (fun i => (i, FlycheckModel.start diagnostic)) ids) k = Some (i, a) -> runs_check diagnostic a ->
            nth_error crew k = Some (i, a)).
  { intros k i a N R. destruct (Nat.lt_ge_cases k (List.length crew)) as [L|L]; [rewrite nth_error_app1 in N by exact L; exact N|].
    rewrite nth_error_app2 in N by exact L. exfalso. apply nth_error_In in N. apply in_map_iff in N as (i' & X & _). injection X as <- <-. apply R. reflexivity. }
  split; [apply Forall_app; split; [exact G|]|].
  - apply Forall_forall. intros x X. apply in_map_iff in X as (i & <- & _). split; [reflexivity|discriminate].
  - split.
    + intros j k i i' a b X Y Gi Gi' Ra Rb. eapply U; eauto.
    + exists o2. split; [exact E|]. rewrite B. split; intros (k & i & a & N & Gi & R); exists k, i, a; repeat split; auto.
      rewrite nth_error_app1; [exact N|]. apply nth_error_Some. congruence.
Qed.

Definition talks (id : nat) (s : state) : Prop :=
  exists o, talk Idle (heard (SaveModel.token id) (client _ s)) (cst o) /\ crew_inv diagnostic (same_project id) (crew _ s) (mail _ s) o.
Definition tells (s : state) : Prop :=
  exists o, told_by o (last_status (client _ s)) /\ crew_inv diagnostic (any_project 0) (crew _ s) (mail _ s) o.
Lemma tidy_call : forall related s k e, tidy diagnostic related s [Work _ k e] ->
  e <> FlycheckModel.Eof _ FlycheckModel.ReaderPanicked /\ (e = FlycheckModel.Timeout _ true -> alone diagnostic related s k).
Proof.
  intros related s k e (T & _). split; [intros ->; exact T|intros ->; exact T].
Qed.
Lemma crew_take : forall g crew mail o n, crew_inv diagnostic g crew mail o ->
  exists o', cscan diagnostic g o (firstn n mail) = Some o' /\ crew_inv diagnostic g crew (skipn n mail) o'.
Proof.
  intros g crew mail o n (G & U & o2 & E & B). rewrite <- (firstn_skipn n mail), cscan_app in E.
  destruct (cscan diagnostic g o (firstn n mail)) as [o'|]; [|discriminate]. exists o'. split; [reflexivity|]. split; [exact G|]. split; [exact U|].
  exists o2. auto.
Qed.

Lemma talks_step : forall id s e s', talks id s -> tidy diagnostic same_project s [e] -> step s e = Some s' -> talks id s'.
Proof.
  intros id s e s' (o & T & C) Ti E. pose proof (step_kinds s e s' E) as K. destruct e as [e|e|ids|k e|n].
  1,2: destruct K as (Cr & Ma & _ & outs & t & Cl & A & Tt); exists o; rewrite Cr, Ma, Cl, heard_app, (about_heard t (SaveModel.token id) outs A), app_nil_r by
    (destruct Tt as [->| ->]; discriminate); auto.
  - injection E as <-. exists o. split; [exact T|]. apply crew_hire. exact C.
  - destruct (tidy_call _ _ _ _ Ti) as (Ne & Al). cbn [ProgressModel.step] in E. destruct (nth_error (crew _ s) k) as [[i a]|] eqn:N.
    + injection E as <-. exists o. split; [exact T|]. cbn [crew mail].
      apply (crew_work diagnostic (same_project id) same_project); auto.
      * unfold same_project. intros x y X Y. apply Nat.eqb_eq in X. apply Nat.eqb_eq in Y. apply Nat.eqb_eq. congruence.
      * intros X j id' b M R J. eapply (Al X j i id' a b); auto.
    + injection E as <-. exists o. auto.
  - injection E as <-. destruct (crew_take _ _ _ _ n C) as (o' & Sc & C'). exists o'. split; [|exact C']. cbn [client].
    rewrite heard_app. eapply talk_app; [exact T|]. apply cscan_talk. exact Sc.
Qed.
Lemma tells_step : forall s e s', tells s -> tidy diagnostic any_project s [e] -> step s e = Some s' -> tells s'.
Proof.
  intros s e s' (o & T & C) Ti E. pose proof (step_kinds s e s' E) as K. destruct e as [e|e|ids|k e|n].
  1,2: destruct K as (Cr & Ma & _ & outs & t & Cl & A & Tt); exists o; rewrite Cr, Ma, Cl; (split; [|exact C]);
    change (last_status ?l) with (status_from None l) in *; rewrite status_app, (status_others outs) by (exact (about_others _ _ A)); exact T.
  - injection E as <-. exists o. split; [exact T|]. apply crew_hire. exact C.
  - destruct (tidy_call _ _ _ _ Ti) as (Ne & Al). cbn [ProgressModel.step] in E. destruct (nth_error (crew _ s) k) as [[i a]|] eqn:N.
    + injection E as <-. exists o. split; [exact T|]. cbn [crew mail].
      apply (crew_work diagnostic (any_project 0) any_project); auto.
      intros X j id' b M R J. eapply (Al X j i id' a b); auto.
    + injection E as <-. exists o. auto.
  - injection E as <-. destruct (crew_take _ _ _ _ n C) as (o' & Sc & C'). exists o'. split; [|exact C']. cbn [client].
    change (last_status ?l) with (status_from None l) in *. rewrite status_app. exact (cscan_status diagnostic _ _ _ _ _ Sc T).
Qed.
Lemma crew_none : forall g, crew_inv diagnostic g [] [] false.
Proof.
  intros g. split; [constructor|]. split; [intros [] ? ? ? ? ? N; discriminate N|]. exists false. split; [reflexivity|].
  split; [discriminate|]. intros (k & i & a & N & _). destruct k; discriminate N.
Qed.
Lemma tidy_first : forall related s e h, tidy diagnostic related s (e :: h) -> tidy diagnostic related s [e].
Proof. intros related s e h (T & _). split; [exact T|]. destruct (step s e); exact I. Qed.
Lemma talks_run : forall id h s s', talks id s -> tidy diagnostic same_project s h -> run s h = Some s' -> talks id s'.
Proof.
  intros id. induction h as [|e h IH]; intros s s' T Ti R; [injection R as <-; exact T|]. cbn [ProgressModel.run] in R.
  destruct (step s e) as [s1|] eqn:E; [|discriminate]. apply (IH s1); [|destruct Ti as (_ & Ti); rewrite E in Ti; exact Ti|exact R].
  eapply talks_step; eauto. eapply tidy_first; eauto.
Qed.
Lemma tells_run : forall h s s', tells s -> tidy diagnostic any_project s h -> run s h = Some s' -> tells s'.
Proof.
  induction h as [|e h IH]; intros s s' T Ti R; [injection R as <-; exact T|]. cbn [ProgressModel.run] in R.
  destruct (step s e) as [s1|] eqn:E; [|discriminate]. apply (IH s1); [|destruct Ti as (_ & Ti); rewrite E in Ti; exact Ti|exact R].
  eapply tells_step; eauto. eapply tidy_first; eauto.
Qed.

(** * Tokens *)
Lemma known_run : forall h s s', Forall known (client _ s) -> run s h = Some s' -> Forall known (client _ s').
Proof.
  induction h as [|e h IH]; intros s s' K R; [injection R as <-; exact K|]. cbn [ProgressModel.run] in R.
  destruct (step s e) as [s1|] eqn:E; [|discriminate]. apply (IH s1); [|exact R]. clear R IH h s'.
  assert (Rep : forall title k f, ("rustAnalyzer/" ++ title)%string = roots \/ ("rustAnalyzer/" ++ title)%string = indexing ->
            Forall known (report_progress title k f None)).
  { intros title k f T. assert (N : false = true <-> exists i, ("rustAnalyzer/" ++ title)%string = SaveModel.token i).
    { split; [discriminate|]. intros (i & X). symmetry in X. exfalso. exact (token_apart _ _ X). }
    unfold report_progress. cbv zeta. destruct k; repeat (apply Forall_cons; [unfold known; tauto|]); apply Forall_nil. }
  assert (Chk : forall title k f i, Forall known (report_progress title k f (Some (SaveModel.token i)))).
  { intros title k f i. unfold report_progress. cbv zeta. assert (P : exists j, SaveModel.token i = SaveModel.token j) by (exists i; reflexivity).
    destruct k; repeat (apply Forall_cons; [unfold known; tauto|]); apply Forall_nil. }
  destruct e as [e|e|ids|k e|n]; cbn [ProgressModel.step] in E.
  - destruct (all_out _ _) as [o|] eqn:A; [|discriminate]. injection E as <-. cbn [client]. apply Forall_app. split; [exact K|].
    eapply all_out_forall; [|exact A]. intros [v i|m d v] o' X; [injection X as <-; constructor|]. cbn [vfs_out] in X.
    destruct (if d =? 0 then _ else _) as [k|]; [|discriminate]. destruct (mk_fraction d m) as [f|]; [|discriminate]. apply some_inj in X. subst o'. apply Rep. auto.
  - destruct (OpQueueModel.step _ _ _) as [q|]; [|discriminate]. destruct (all_out _ _) as [o|] eqn:A; [|discriminate]. injection E as <-. cbn [client].
    apply Forall_app. split; [exact K|]. eapply all_out_forall; [|exact A]. intros [|[d m]|c] o' X; cbn [index_out] in X;
      try (destruct (mk_fraction d m) as [f|]; [|discriminate]); apply some_inj in X; subst o'; apply Rep; auto.
  - injection E as <-. exact K.
  - destruct (nth_error _ _) as [[i a]|]; injection E as <-; exact K.
  - injection E as <-. cbn [client]. apply Forall_app. split; [exact K|]. induction (firstn n (mail _ s)) as [|[i m] l IH]; [constructor|].
    cbn [flat_map]. apply Forall_app. split; [|exact IH]. unfold check_out. cbv zeta. cbn [fst snd]. destruct m; try (constructor; fail).
    all: constructor; [exact I|apply Chk].
Qed.
End Server.
