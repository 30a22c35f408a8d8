(** When the two queries of PreDbModel preprocess a file in the same way. *)
From Coq Require Import List ZArith Bool String Lia.
From Verif Require Import PreTypes MacroModel EvalModel PreModel CondSpec CondProofs VisibleSpec PreEvents
  PreDbModel PreDbSpec PreDbProofs PreSim.
Import ListNotations.
Local Open Scope Z_scope.
Local Open Scope list_scope.

(** The include does not lead to a file that was already preprocessed for the present one, nor to
    the file itself. *)
Definition fresh_call (w : world) (f : Z) (i : incs_t) (path : option string) (q : bool) : Prop :=
  forall x g, path = Some x -> w_resolve w f x q = Some g -> ~ In g (i_visits i).
Definition fresh_event (v : env) (w : world) (f : Z) (e : event) : Prop :=
  let text := v_trim v (s_inline (e_sym e)) in
  fresh_call w f (incs (e_before e)) (v_chevron v text) false /\
  fresh_call w f (fst (inc_call v (v_chevron v text) false (incs (e_before e), macros (e_before e))))
    (v_quote v text) true.

Section agree.
Variable w : world.
Variable n : nat.
Variable f : Z.
Variable being : list Z.
Variable p : params.
Hypothesis Hbefore : forall g, In g being -> zget (p_outputs p) g = None.
Let v := file_env w f (params_inc w (params_query n w) f).
Let v' := with_inc v (data_inc w p f).

(** The tables of the files preprocessed so far are those of the second query. *)
Definition settled (i : incs_t) : Prop :=
  forall g, In g (i_visits i) -> g <> f -> zget (p_outputs p) g = zget (i_outputs i) g.

Lemma bad_stays i m x q : i_bad i <> None -> i_bad (fst (fst (v_inc v i m x q))) <> None.
Proof.
  intros H. cbn [v file_env v_inc]. unfold params_inc.
  destruct (w_resolve w f x q); [|exact H]. destruct (zmem _ _); [exact H|].
  destruct (params_query n w z m (i_being i)) as [res vis|t]; cbn [fst].
  - destruct (zget res z); cbn [fst i_bad set_bad]; [exact H|]. destruct (i_bad i); [discriminate|congruence].
  - cbn [set_bad i_bad]. destruct (i_bad i); [discriminate|congruence].
Qed.

Lemma call_agrees l i i' m x q :
  inside w being f l i -> (forall g, w_resolve w f x q = Some g -> ~ In g (i_visits i)) ->
  let i1 := fst (fst (v_inc v i m x q)) in
  i_bad i1 = None -> settled i1 ->
  settled i /\ same_answer v v' i i' m x q.
Proof.
  intros Hin Hfr i1 Hb Hs.
  assert (B : i_bad i = None).
  { destruct (i_bad i) eqn:E; [|reflexivity]. exfalso.
    apply (bad_stays i m x q); [congruence|exact Hb]. }
  destruct (Hin B) as (rs & V & _ & N & D & S & _).
  revert Hb Hs. unfold i1, same_answer, v'. cbn [with_inc v_inc v file_env].
  unfold params_inc, data_inc.
  destruct (w_resolve w f x q) as [inc|] eqn:R; [|intros _ Hs; split; [exact Hs|auto]].
  destruct (zmem inc (i_being i)) eqn:M.
  - intros _ Hs. split; [exact Hs|]. split; [|reflexivity].
    assert (In inc being) as X.
    { apply zmem_In in M. apply S in M. destruct M as [M|M]; [exact M|]. exfalso.
      apply (Hfr inc eq_refl). rewrite V. exact M. }
    unfold outputs_of. rewrite (Hbefore inc X). reflexivity.
  - assert (Hn : ~ In inc (i_being i)) by (rewrite <- zmem_In; congruence).
    destruct (params_query n w inc m (i_being i)) as [res vis|t] eqn:Q; cbn [fst].
    2: { intros Hb. cbn [set_bad i_bad] in Hb. rewrite B in Hb. discriminate Hb. }
    destruct (params_answered w n inc m (i_being i) res vis Hn Q) as [(runs & Vr & Cr) Kr (p0 & Zp & Ko & Kb)].
    rewrite Zp. cbn [fst]. intros _ Hs.
    assert (Nf : inc <> f).
    { intros ->. apply Hn, S. right. left. reflexivity. }
    assert (Hinc : In inc vis) by (apply Kr; congruence).
    split.
    + intros g Hg Hgf. rewrite (Hs g); [|cbn [i_visits]; apply in_or_app; left; exact Hg|exact Hgf].
      cbn [i_outputs]. rewrite zget_app.
      destruct (zget (p_outputs p0) g) eqn:E; [|reflexivity]. exfalso.
      assert (In g vis) as X by (apply Ko; congruence).
      rewrite <- Vr in X. apply (c_new _ _ _ _ Cr g X). apply S. right. rewrite <- V. exact Hg.
    + split; [|reflexivity]. f_equal. unfold outputs_of.
      rewrite (Hs inc); [|cbn [i_visits]; apply in_or_app; right; exact Hinc|exact Nf].
      cbn [i_outputs]. rewrite zget_app.
      destruct (zget (p_outputs p0) inc) eqn:E; [reflexivity|].
      exfalso. apply Ko in Hinc. congruence.
Qed.

Lemma data_keeps i m x q : fst (fst (v_inc v' i m x q)) = i.
Proof. cbn [v' with_inc v_inc]. unfold data_inc. destruct (w_resolve w f x q); reflexivity. Qed.

Lemma inside_call l i m x q : inside w being f l i ->
  inside w being f (l ++ [(x, q)]) (fst (fst (v_inc v i m x q))).
Proof.
  intros H. apply (inside_step w (params_query n w) being f); [|exact H].
  intros g m0 b res visits. apply params_answered.
Qed.

(** One optional call. *)
Lemma call_agrees_opt path l i i' m q :
  inside w being f l i -> fresh_call w f i path q ->
  let i1 := fst (inc_call v path q (i, m)) in
  i_bad i1 = None -> settled i1 ->
  settled i /\ (forall x, path = Some x -> same_answer v v' i i' m x q).
Proof.
  destruct path as [x|]; intros Hin Hfr; cbn [inc_call fst snd].
  - intros Hb Hs. destruct (call_agrees l i i' m x q Hin) as [A B];
      [intros g Hg; exact (Hfr x g eq_refl Hg)|exact Hb|exact Hs|].
    split; [exact A|]. intros y E. injection E as <-. exact B.
  - intros _ Hs. split; [exact Hs|]. discriminate.
Qed.
Lemma inside_opt path l i m q : inside w being f l i ->
  exists l', inside w being f l' (fst (inc_call v path q (i, m))).
Proof.
  intros H. destruct path as [x|]; cbn [inc_call fst snd]; [|eauto].
  eexists. apply inside_call. exact H.
Qed.
Lemma bad_opt path i m q : i_bad (fst (inc_call v path q (i, m))) = None -> i_bad i = None.
Proof.
  destruct path as [x|]; cbn [inc_call fst snd]; [|auto]. intros H.
  destruct (i_bad i) eqn:E; [|reflexivity]. exfalso. apply (bad_stays i m x q); [congruence|exact H].
Qed.
Lemma data_opt path i m q : fst (inc_call v' path q (i, m)) = i.
Proof. destruct path as [x|]; cbn [inc_call fst snd]; [apply data_keeps|reflexivity]. Qed.

Lemma reads_agree s tr s1 : reads v (w_fuel w) s tr s1 ->
  forall l, inside w being f l (incs s) -> i_bad (incs s1) = None -> settled (incs s1) ->
  (forall e, In e tr -> is_include e = true -> fresh_event v w f e) ->
  settled (incs s) /\ i_bad (incs s) = None /\
  exists tr', List.length tr' = List.length tr /\
    reads v' (w_fuel w) (set_incs no_incs s) tr' (set_incs no_incs s1).
Proof.
  intros H. induction H as [s|s t s1 s2 tr s3 Hfe Hs _ IH]; intros l Hin Hb Hse Hfr.
  { split; [exact Hse|]. split; [exact Hb|]. exists []. split; [reflexivity|constructor]. }
  pose proof (step_effect v (w_fuel w) s t s1 s2 Hfe Hs) as E.
  pose proof (fetch_tables _ _ _ Hfe) as T. injection T as T1 T2 T3.
  assert (Hfe' : fetch (set_incs no_incs s) = Some (t, set_incs no_incs s1)).
  { rewrite fetch_other, Hfe. reflexivity. }
  assert (Hfr' : forall e, In e tr -> is_include e = true -> fresh_event v w f e) by (intros e He; apply Hfr; right; exact He).
  assert (Plain : is_include (Ev (t_sym t) s1 s2) = false ->
     step v' (w_fuel w) (set_incs no_incs s) = Next (set_incs no_incs s2)).
  { intros Hi. unfold v'. rewrite step_other; [rewrite Hs; reflexivity|].
    intros t0 s0 X. rewrite Hfe in X. injection X as <- <-.
    unfold is_include, is_dir, kept in Hi. cbn [e_before e_sym] in Hi.
    destruct (skipping s1); [auto|]. right. cbn [negb andb] in Hi.
    destruct (s_kind (t_sym t)) as [| [] | | | | | | | | | | | | | | | | | |]; try reflexivity;
      vm_compute in Hi; discriminate Hi. }
  assert (Hinc : forall d1 d2 e, is_dir d1 e = true -> d1 <> d2 -> is_dir d2 e = false).
  { intros d1 d2 e A B. unfold is_dir in *. apply andb_true_iff in A. destruct A as [A1 A2]. rewrite A1.
    apply kind_eqb_eq in A2. rewrite A2. unfold kind_eqb.
    destruct (kind_eq_dec (KDir d1) (KDir d2)); [congruence|reflexivity]. }
  assert (Q : incs s2 = incs s -> is_include (Ev (t_sym t) s1 s2) = false ->
    settled (incs s) /\ i_bad (incs s) = None /\
    exists tr', List.length tr' = List.length (Ev (t_sym t) s1 s2 :: tr) /\
      reads v' (w_fuel w) (set_incs no_incs s) tr' (set_incs no_incs s3)).
  { intros J Hi. rewrite <- J in *. destruct (IH l Hin Hb Hse Hfr') as (A & B & tr' & C & D).
    split; [exact A|]. split; [exact B|]. eexists (_ :: tr'). split; [cbn; f_equal; exact C|].
    eapply reads_cons; [exact Hfe'|apply Plain; exact Hi|exact D]. }
  destruct E as [mac D M F I N J | D M I J | D M I | D U Y M].
  - apply Q; [cbn [e_after e_before] in J; congruence|].
    unfold is_include. rewrite !(Hinc MDefine _ _ D) by discriminate. reflexivity.
  - apply Q; [cbn [e_after e_before] in J; congruence|].
    unfold is_include. rewrite !(Hinc MUndef _ _ D) by discriminate. reflexivity.
  - (* an include *)
    cbn [e_after e_before e_sym] in M. rewrite T3 in M. clear Q Plain.
    set (text := v_trim v (s_inline (t_sym t))).
    set (im1 := inc_call v (v_chevron v text) false (incs s, macros s1)).
    assert (M2 : (incs s2, macros s2) = inc_call v (v_quote v text) true im1) by exact M.
    destruct (inside_opt (v_chevron v text) l (incs s) (macros s1) false Hin) as [l1 Hin1]. fold im1 in Hin1.
    destruct (inside_opt (v_quote v text) l1 (fst im1) (snd im1) true Hin1) as [l2 Hin2].
    rewrite <- (surjective_pairing im1), <- M2 in Hin2. cbn [fst] in Hin2.
    destruct (IH l2 Hin2 Hb Hse Hfr') as (A & B & tr' & C & D').
    destruct (Hfr _ (or_introl eq_refl) D) as [F1 F2]. cbn [e_before e_sym] in F1, F2.
    fold text in F1, F2. rewrite T3 in F1, F2. fold im1 in F2.
    assert (Es2 : fst (inc_call v (v_quote v text) true (fst im1, snd im1)) = incs s2).
    { rewrite <- (surjective_pairing im1), <- M2. reflexivity. }
    destruct (call_agrees_opt (v_quote v text) l1 (fst im1) no_incs (snd im1) true Hin1 F2) as [S1 A2].
    { rewrite Es2. exact B. } { rewrite Es2. exact A. }
    assert (B1 : i_bad (fst im1) = None).
    { apply (bad_opt (v_quote v text) (fst im1) (snd im1) true). rewrite Es2. exact B. }
    destruct (call_agrees_opt (v_chevron v text) l (incs s) no_incs (macros s1) false Hin F1) as [S0 A1].
    { exact B1. } { exact S1. }
    split; [exact S0|]. split; [apply (bad_opt (v_chevron v text) (incs s) (macros s1) false); exact B1|].
    eexists (_ :: tr'). split; [cbn; f_equal; exact C|].
    eapply reads_cons; [exact Hfe'| |exact D'].
    rewrite (step_fetched _ _ _ _ _ Hfe'). rewrite (step_fetched _ _ _ _ _ Hfe) in Hs.
    change (skipping (set_incs no_incs s1)) with (skipping s1).
    unfold is_include, is_dir, kept in D. cbn [e_before e_sym] in D.
    destruct (skipping s1); [discriminate D|]. cbn [negb andb] in D.
    rewrite record_other.
    assert (R : incs (record_arg t s1) = incs s /\ macros (record_arg t s1) = macros s1).
    { unfold record_arg. destruct (t_orig t); cbn; auto. }
    destruct R as [R1 R2].
    assert (Inc : forall b, process_include v' (t_sym t) b (set_incs no_incs (record_arg t s1)) =
        set_incs no_incs (process_include v (t_sym t) b (record_arg t s1))).
    { intros b. unfold v'. rewrite process_include_other.
      - fold v'. fold text. rewrite !data_opt. reflexivity.
      - rewrite R1, R2. exact A1.
      - rewrite R1, R2. fold text. fold im1. fold v'. rewrite data_opt. exact A2. }
    unfold process_active in *.
    destruct (s_kind (t_sym t)) as [| [] | | | | | | | | | | | | | | | | | |];
      try (vm_compute in D; discriminate D); cbn [process_directive] in *.
    + rewrite Inc. injection Hs as Hs. rewrite Hs. reflexivity.
    + rewrite Inc. injection Hs as Hs. rewrite Hs. reflexivity.
  - apply Q; [cbn [e_after e_before] in M; injection M as M1 M2 M3; congruence|exact Y].
Qed.
End agree.

(** Both queries do the same with [f] when none of its active includes, nor the implicit one, leads
    to a file already preprocessed for [f] or to [f] itself. *)
Lemma passes_agree w n f m being res visits p :
  ~ In f being -> params_query (S n) w f m being = QOk res visits -> zget res f = Some p ->
  let v := file_env w f (params_inc w (params_query n w) f) in
  let i0 := Incs [] (f :: being) [] [f] None in
  w_resolve w f "sourcemod"%string false <> Some f ->
  (forall i1 m1 ok tr s1 e, v_inc v i0 m "sourcemod"%string false = (i1, m1, ok) ->
     reads v (w_fuel w) (init_st i1 m1 (w_syms w f)) tr s1 -> In e tr -> is_include e = true ->
     fresh_event v w f e) ->
  data_query w f p = fmap (set_incs no_incs) (preprocess v (w_fuel w) i0 m (w_syms w f)).
Proof.
  intros Hf H Zp v i0 Hself Hfr.
  pose proof (params_answered w (S n) f m being res visits Hf H) as [(runs & Vr & Cr) Kr (p0 & Z0 & Ko & Kb)].
  assert (p0 = p) by congruence. subst p0.
  assert (Hbefore : forall g, In g being -> zget (p_outputs p) g = None).
  { intros g Hg. destruct (zget (p_outputs p) g) eqn:E; [|reflexivity]. exfalso.
    assert (In g visits) as X by (apply Ko; congruence). rewrite <- Vr in X. exact (c_new _ _ _ _ Cr g X Hg). }
  cbn [params_query] in H. fold v in H. fold i0 in H.
  unfold data_query. unfold preprocess.
  change (file_env w f (data_inc w p f)) with (with_inc v (data_inc w p f)).
  destruct (v_inc v i0 m "sourcemod"%string false) as [[i1 m1] ok] eqn:Ei.
  assert (Hin0 : inside w being f [] i0).
  { intros _. exists []. cbn [i0 i_visits i_being i_results i_outputs map In].
    split; [reflexivity|]. split; [intros g tr []|].
    split; [repeat constructor; intros []|].
    split; [intros g [<-|[]]; exact Hf|].
    split; [intros x; cbn [In]; tauto|].
    split; [intros a g tr b E; destruct a; discriminate E|].
    split; [intros g tr h []|]. split; [intros p1 q h []|].
    split; intros k; cbn; split; [congruence|intros []|congruence|intros []]. }
  pose proof (inside_call w n f being [] i0 m "sourcemod"%string false Hin0) as Hin1. fold v in Hin1. rewrite Ei in Hin1. cbn [fst] in Hin1.
  unfold preprocess in H. rewrite Ei in H.
  destruct (run (w_fuel w) v (w_fuel w) (init_st i1 m1 (w_syms w f))) as [sf|sf| |] eqn:Er; try discriminate H.
  all: destruct (run_to_reads _ _ _ _ _ Er) as (tr & s1 & Rd & St & Ln); [discriminate|].
  all: pose proof (stop_tables _ _ _ _ St) as Tf; injection Tf as Tm Tx Ti.
  all: unfold params_finish in H; destruct (i_bad (incs sf)) eqn:Bf; [discriminate H|]; injection H as <- <-.
  all: cbn [zget] in Zp; rewrite Z.eqb_refl in Zp; injection Zp as <-; cbn [p_input p_outputs] in *.
  all: set (p := Params m ((f, macros sf) :: i_outputs (incs sf)) (i_being (incs sf))) in *.
  all: assert (Sf : settled f p (incs s1)) by
    (intros g _ Hg; cbn [p p_outputs zget]; destruct (Z.eqb_spec f g); [congruence|rewrite Ti; reflexivity]).
  all: rewrite Ti in Bf.
  all: destruct (reads_agree w n f being p Hbefore _ _ _ Rd _ Hin1 Bf Sf
      (fun e He Hi => Hfr i1 m1 ok tr s1 e eq_refl Rd He Hi)) as (S1 & B1 & tr' & Ln' & Rd').
  all: pose proof (call_agrees w n f being p Hbefore [] i0 no_incs m "sourcemod"%string false Hin0) as CA.
  all: fold v in CA; rewrite Ei in CA; cbn [fst] in CA.
  all: destruct CA as [_ SA]; [intros g Hg [X|[]]; subst g; congruence|exact B1|exact S1|].
  all: unfold same_answer in SA; rewrite Ei in SA.
  all: pose proof (data_keeps w n f p no_incs m "sourcemod"%string false) as Dk.
  all: fold v in SA, Dk, Rd'.
  all: cbn [p p_input].
  all: destruct (v_inc (with_inc v (data_inc w p f)) no_incs m "sourcemod"%string false) as [[i2 m2] ok2].
  all: cbn [fst] in Dk; subst i2; destruct SA as [<- _].
  all: eapply run_of_reads; [exact Rd'| |rewrite Ln'; exact Ln].
  all: rewrite step_other; [rewrite St; reflexivity|].
  all: intros t s0 Hfe; rewrite (step_fetched _ _ _ _ _ Hfe) in St; destruct (skipping s0); [auto|right].
  all: unfold process_active in St;
    destruct (s_kind (t_sym t)) as [| [] | | | | | | | | | | | | | | | | | |]; try reflexivity; discriminate St.
Qed.
