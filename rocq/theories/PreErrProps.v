(** C74: the problems listed after preprocessing are those of the directives that were read. *)
From Coq Require Import List ZArith Bool String Lia.
From Verif Require Import PreTypes MacroModel EvalModel PreModel PreLex PreSnapshots CondSpec CondProofs VisibleSpec PreEvents PreErrSpec.
Import ListNotations.
Local Open Scope Z_scope.
Local Open Scope list_scope.

Definition problems (s : st) := (err_eval s, err_notfound s, err_include s).
Definition plus (p q : list range * list (string * range) * list (string * Z)) :=
  (fst (fst p) ++ fst (fst q), snd (fst p) ++ snd (fst q), snd p ++ snd q).
Definition found (v : env) (fuel : nat) (e : event) :=
  (condition_problems v fuel e, include_problems v e).
Definition nothing : list range * list (string * range) * list (string * Z) := ([], [], []).
Lemma plus_nothing p : plus p nothing = p.
Proof. destruct p as [[a b] c]. unfold plus. cbn. rewrite !app_nil_r. reflexivity. Qed.

Lemma fetch_problems s t s1 : fetch s = Some (t, s1) -> problems s1 = problems s.
Proof.
  unfold fetch. destruct (estack s) as [|t0 tl].
  - destruct (lex_next (lex s)) as [[y l]|]; [|discriminate].
    destruct (exp_sym s) as [[es [i f]]|]; intros H; injection H as _ <-; reflexivity.
  - intros H; injection H as _ <-. reflexivity.
Qed.
Lemma push_symbol_problems y s : problems (push_symbol y s) = problems s.
Proof. unfold push_symbol. destruct (s_kind y); reflexivity. Qed.
Lemma echo_problems y s : problems (echo y s) = problems s.
Proof. unfold echo. destruct (s_kind y); reflexivity. Qed.
Lemma process_else_problems y s s' : process_else y s = Some s' -> problems s' = problems s.
Proof. unfold process_else. destruct (conds s) as [|[| |] c]; try discriminate; intros H; injection H as <-; reflexivity. Qed.
Lemma process_endif_problems y s s' : process_endif y s = Some s' -> problems s' = problems s.
Proof. unfold process_endif. destruct (conds s) as [|c0 [|[| |] c]]; try discriminate; intros H; injection H as <-; reflexivity. Qed.
Lemma define_loop_problems rest : forall d s,
  match define_loop rest d s with DOk _ s' | DBail s' => problems s' = problems s | DHang => True end.
Proof.
  induction rest as [|[y pp] tl IH]; intros d s; cbn [define_loop]; [exact I|].
  set (s0 := set_lex (Lex tl pp) s).
  assert (X : match (match define_symbol y d with
            | None => DBail (echo y s0)
            | Some d0 => if pp then define_loop tl d0 (echo y s0) else DOk d0 (echo y s0) end) with
            | DOk _ s' | DBail s' => problems s' = problems s | DHang => True end).
  { destruct (define_symbol y d) as [d0|]; [|apply (echo_problems y s0)].
    destruct pp; [|apply (echo_problems y s0)].
    specialize (IH d0 (echo y s0)). destruct (define_loop tl d0 (echo y s0)); auto; rewrite IH; apply (echo_problems y s0). }
  destruct (s_kind y); try exact X. reflexivity.
Qed.
Lemma undef_loop_problems rest : forall s,
  match undef_loop rest s with Next s' => problems s' = problems s | Stop f => f = FFuel end.
Proof.
  induction rest as [|[y pp] tl IH]; intros s; cbn [undef_loop]; [reflexivity|].
  destruct (kind_eqb _ _); [exact (echo_problems y (set_lex (Lex tl pp) s))|].
  destruct pp; [|exact (echo_problems y (set_lex (Lex tl _) s))].
  specialize (IH (echo y (set_lex (Lex tl true) s))).
  destruct (undef_loop _ _); [rewrite IH; exact (echo_problems y (set_lex (Lex tl true) s))|exact IH].
Qed.

(** What [process_if] adds. *)
Definition eval_problems v fuel y s : list range * list (string * range) :=
  match evaluate fuel (v_chk v) (macros s) (disabled s) (pline (rstart (s_range y))) (fst (directive_symbols (lex s))) with
  | EErr r nf _ _ => ([r], nf) | _ => ([], []) end.
Lemma process_if_problems v fuel y s s' : process_if v fuel y s = Next s' ->
  problems s' = plus (problems s) (eval_problems v fuel y s, []).
Proof.
  unfold process_if, eval_problems, plus, problems. destruct (directive_symbols (lex s)) as [syms l]. cbn [fst snd].
  destruct (evaluate _ _ _ _ _ _) as [b o d|r nf o d| |]; try discriminate;
    destruct (rev syms); intros H; injection H as <-; try destruct b; cbn; rewrite ?app_nil_r; reflexivity.
Qed.
Lemma eval_problems_record v fuel y t s : eval_problems v fuel y (record_arg t s) = eval_problems v fuel y s.
Proof. unfold record_arg. destruct (t_orig t); reflexivity. Qed.
Lemma process_elseif_problems v fuel y s s' : process_elseif v fuel y s = Next s' ->
  problems s' = plus (problems s)
    (match conds s with NotActivated :: _ => eval_problems v fuel y s | _ => ([], []) end, []).
Proof.
  unfold process_elseif. destruct (conds s) as [|[| |] c]; try discriminate.
  - intros H. apply process_if_problems in H. exact H.
  - intros H; injection H as <-. symmetry. apply plus_nothing.
  - intros H; injection H as <-. symmetry. apply plus_nothing.
Qed.

(** What an #include adds. *)
Definition missing_one v path quoted (is_try : bool) line s : list (string * Z) :=
  if is_try then [] else missing v path quoted line (incs s) (macros s).
Lemma include_path_problems v p q t l s :
  problems (include_path v p q t l s) = plus (problems s) ([], [], missing_one v p q t l s).
Proof.
  unfold include_path, missing_one, missing, plus, problems. cbn [fst snd]. rewrite !app_nil_r.
  destruct p as [p|]; [|destruct t; rewrite app_nil_r; reflexivity].
  destruct (v_inc v (incs s) (macros s) p q) as [[i m] ok]. cbn [snd].
  destruct ok, t; cbn; rewrite ?app_nil_r; reflexivity.
Qed.
Lemma process_include_problems v y t s :
  problems (process_include v y t s) = plus (problems s) ([], [],
    if t then [] else
    let text := v_trim v (s_inline y) in
    let line := pline (rstart (s_range y)) in
    missing v (v_chevron v text) false line (incs s) (macros s) ++
    let (i, m) := match v_chevron v text with
                  | Some p => fst (v_inc v (incs s) (macros s) p false)
                  | None => (incs s, macros s)
                  end in
    missing v (v_quote v text) true line i m).
Proof.
  unfold process_include. cbv zeta. set (text := v_trim v (s_inline y)). set (line := pline (rstart (s_range y))).
  set (s1 := include_path v (v_chevron v text) false t line s).
  set (s2 := include_path v (v_quote v text) true t line s1).
  assert (P : forall s', problems s' = problems s2 ->
     problems s' = plus (problems s) ([], [],
    if t then [] else
    missing v (v_chevron v text) false line (incs s) (macros s) ++
    let (i, m) := match v_chevron v text with
                  | Some p => fst (v_inc v (incs s) (macros s) p false)
                  | None => (incs s, macros s)
                  end in
    missing v (v_quote v text) true line i m)).
  { intros s' ->. unfold s2. rewrite include_path_problems. unfold s1 at 1. rewrite include_path_problems.
    unfold missing_one. destruct t.
    - rewrite plus_nothing. reflexivity.
    - assert (I : (incs s1, macros s1) = match v_chevron v text with
                  | Some p => fst (v_inc v (incs s) (macros s) p false) | None => (incs s, macros s) end).
      { unfold s1. rewrite (proj1 (include_path_tables _ _ _ _ _ _)). unfold inc_call. reflexivity. }
      destruct (match v_chevron v text with Some p => _ | None => _ end) as [i m]. injection I as -> ->.
      unfold plus. cbn [fst snd]. rewrite !app_nil_r, app_assoc. reflexivity. }
  pose proof (push_symbol_problems (Sym (s_kind y) text text (s_int y) (s_range y) (s_delta y)) s2) as Q.
  destruct (0 <? _); apply P; exact Q.
Qed.

Lemma kind_neqb a b : a <> b -> kind_eqb a b = false.
Proof. intros H. destruct (kind_eqb a b) eqn:E; [|reflexivity]. apply kind_eqb_eq in E. contradiction. Qed.

Lemma step_problems v fuel s t s1 s2 : fetch s = Some (t, s1) -> step v fuel s = Next s2 ->
  problems s2 = plus (problems s) (found v fuel (Ev (t_sym t) s1 s2)).
Proof.
  intros Hf Hs. rewrite (step_fetched _ _ _ _ _ Hf) in Hs.
  rewrite <- (fetch_problems _ _ _ Hf).
  assert (R : problems (record_arg t s1) = problems s1 /\ conds (record_arg t s1) = conds s1 /\
              incs (record_arg t s1) = incs s1 /\ macros (record_arg t s1) = macros s1).
  { unfold record_arg. destruct (t_orig t); cbn; auto. }
  destruct R as (R & Rc & Ri & Rm). rewrite <- R.
  unfold found, condition_problems, include_problems, decides, kept. cbn [e_sym e_before].
  change (match evaluate fuel (v_chk v) (macros s1) (disabled s1) (pline (rstart (s_range (t_sym t))))
            (fst (directive_symbols (lex s1))) with EErr r nf _ _ => ([r], nf) | _ => ([], []) end)
    with (eval_problems v fuel (t_sym t) s1).
  rewrite <- (eval_problems_record v fuel (t_sym t) t s1), <- Rc, <- Ri, <- Rm. clear R Ri Rm.
  set (s0 := record_arg t s1) in *.
  assert (Helse : forall s', opt_step s0 (process_else (t_sym t) s0) = Next s' -> problems s' = plus (problems s0) nothing).
  { intros s'. destruct (process_else _ _) as [s''|] eqn:E; [|discriminate]. intros H; injection H as <-.
    rewrite plus_nothing. eapply process_else_problems; eauto. }
  assert (Hend : forall s', opt_step s0 (process_endif (t_sym t) s0) = Next s' -> problems s' = plus (problems s0) nothing).
  { intros s'. destruct (process_endif _ _) as [s''|] eqn:E; [|discriminate]. intros H; injection H as <-.
    rewrite plus_nothing. eapply process_endif_problems; eauto. }
  destruct (skipping s1) eqn:Sk; cbn [negb andb].
  - unfold process_negative in Hs.
    destruct (s_kind (t_sym t)) as [| [] | | | | | | | | | | | | | | | | | |] eqn:K; cbn [kind_eqb];
      try (injection Hs as <-; rewrite plus_nothing; reflexivity).
    + apply process_elseif_problems in Hs. rewrite Hs. destruct (conds s0) as [|[| |] c]; reflexivity.
    + apply Helse. exact Hs.
    + apply Hend. exact Hs.
  - unfold process_active in Hs.
    destruct (s_kind (t_sym t)) as [| d | | | | | | | | | | | | | | | | | |] eqn:K; try discriminate Hs;
      try (injection Hs as <-; rewrite plus_nothing; apply push_symbol_problems).
    + destruct d; cbn [process_directive] in Hs.
      * apply process_if_problems in Hs. exact Hs.
      * apply process_elseif_problems in Hs. rewrite Hs. destruct (conds s0) as [|[| |] c]; reflexivity.
      * apply Helse. exact Hs.
      * apply Hend. exact Hs.
      * rewrite plus_nothing. unfold process_define in Hs.
        destruct (lx_pp _); [|injection Hs as <-; apply (push_symbol_problems (t_sym t) s0)].
        pose proof (define_loop_problems (lx_rest (lex (push_symbol (t_sym t) s0))) def0 (push_symbol (t_sym t) s0)) as E.
        destruct (define_loop _ _ _) as [d s'|s'|]; try discriminate Hs.
        injection Hs as <-. rewrite push_symbol_problems in E. exact E.
      * rewrite plus_nothing. unfold process_undef in Hs.
        destruct (lx_pp _); [|injection Hs as <-; apply (push_symbol_problems (t_sym t) s0)].
        pose proof (undef_loop_problems (lx_rest (lex (push_symbol (t_sym t) s0))) (push_symbol (t_sym t) s0)) as E.
        rewrite Hs, push_symbol_problems in E. exact E.
      * injection Hs as <-. rewrite process_include_problems. reflexivity.
      * injection Hs as <-. rewrite process_include_problems. reflexivity.
      * injection Hs as <-. rewrite plus_nothing. apply push_symbol_problems.
    + injection Hs as <-. rewrite plus_nothing. reflexivity.
    + rewrite plus_nothing.
      assert (X : match mget (macros s0) (s_text (t_sym t)) with
          | None => Next (push_symbol (t_sym t) s0)
          | Some m =>
              if dmem m (disabled s0)
              then Next (push_symbol (t_sym t) (set_disabled (drem m (disabled s0)) s0))
              else
                match expand_identifier fuel (lex s0) (macros s0) t true (disabled s0) with
                | XOk diff pushed l dis =>
                    Next (set_adiff diff (set_exp_sym (Some ((t_sym t), (m_idx m, m_file m)))
                      (set_estack (pushed ++ estack s0) (set_lex l (set_disabled dis s0)))))
                | XNotFound name r l dis =>
                    Stop (FError (set_err_notfound (err_notfound s0 ++ [(name, r)]) s0))
                | XParse _ _ _ => Stop (FError s0)
                | XFuel => Stop FFuel
                end
          end = Next s2 -> problems s2 = problems s0).
      { destruct (mget _ _) as [m|].
        - destruct (dmem _ _); [intros H; injection H as <-; rewrite push_symbol_problems; reflexivity|].
          destruct (expand_identifier _ _ _ _ _ _); try discriminate. intros H; injection H as <-. reflexivity.
        - intros H; injection H as <-. apply push_symbol_problems. }
      destruct (intr s0) as [[]|]; try (apply X; exact Hs).
      injection Hs as <-. destruct (String.eqb _ _); reflexivity.
    + injection Hs as <-. rewrite plus_nothing. reflexivity.
    + injection Hs as <-. rewrite plus_nothing. reflexivity.
    + rewrite plus_nothing. destruct (intr s0) as [[]|]; injection Hs as <-; rewrite ?push_symbol_problems; reflexivity.
    + rewrite plus_nothing. destruct (intr s0) as [[]|]; injection Hs as <-; rewrite ?push_symbol_problems; reflexivity.
Qed.

Lemma reads_problems v fuel s tr s' : reads v fuel s tr s' ->
  err_eval s' = err_eval s ++ flat_map (fun e => fst (condition_problems v fuel e)) tr /\
  err_notfound s' = err_notfound s ++ flat_map (fun e => snd (condition_problems v fuel e)) tr /\
  err_include s' = err_include s ++ flat_map (include_problems v) tr.
Proof.
  induction 1 as [s|s t s1 s2 tr s3 Hf Hs _ (A & B & C)].
  - cbn. rewrite !app_nil_r. auto.
  - pose proof (step_problems _ _ _ _ _ _ Hf Hs) as P. unfold problems, plus, found in P. cbn [fst snd] in P.
    injection P as P1 P2 P3. cbn [flat_map]. rewrite A, B, C, P1, P2, P3, !app_assoc. auto.
Qed.

(** How preprocessing ends: normally nothing is added; when it gives up, at most the macro that could not be expanded. *)
Definition gave_up (fuel : nat) (s s' : st) : Prop :=
  err_eval s' = err_eval s /\ err_include s' = err_include s /\
  (err_notfound s' = err_notfound s \/
   exists t s1 name r l dis, fetch s = Some (t, s1) /\ kept (Ev (t_sym t) s1 s') = true /\ s_kind (t_sym t) = KIdent /\
     expand_identifier fuel (lex s1) (macros s1) t true (disabled s1) = XNotFound name r l dis /\
     err_notfound s' = err_notfound s ++ [(name, r)]).
Lemma gave_up_same fuel s s' : problems s' = problems s -> gave_up fuel s s'.
Proof. intros H. injection H as A B C. unfold gave_up. auto. Qed.

Lemma stop_problems v fuel s f : step v fuel s = Stop f ->
  match f with FResult s' => problems s' = problems s | FError s' => gave_up fuel s s' | _ => True end.
Proof.
  intros Hs. destruct (fetch s) as [[t s1]|] eqn:Hf; [|unfold step in Hs; rewrite Hf in Hs; injection Hs as <-; reflexivity].
  rewrite (step_fetched _ _ _ _ _ Hf) in Hs. pose proof (fetch_problems _ _ _ Hf) as F.
  assert (R : problems (record_arg t s1) = problems s /\ lex (record_arg t s1) = lex s1 /\
              macros (record_arg t s1) = macros s1 /\ disabled (record_arg t s1) = disabled s1).
  { rewrite <- F. unfold record_arg. destruct (t_orig t); cbn; auto. }
  destruct R as (R & Rl & Rm & Rd). set (s0 := record_arg t s1) in *.
  assert (G : forall s', problems s' = problems s0 -> gave_up fuel s s').
  { intros s' H. apply gave_up_same. congruence. }
  assert (Hopt : forall o, opt_step s0 o = Stop f -> f = FError s0).
  { intros [s'|]; [discriminate|]. intros H; injection H as <-. reflexivity. }
  assert (Hif : forall y q, process_if v fuel y q = Stop f -> match f with FPanic | FFuel => True | _ => False end).
  { intros y q. unfold process_if. destruct (directive_symbols (lex q)) as [syms l]. cbv zeta.
    destruct (evaluate _ _ _ _ _ _) as [b o d|r nf o d| |]; try (destruct (rev syms); discriminate);
      intros H; injection H as <-; exact I. }
  assert (Helif : process_elseif v fuel (t_sym t) s0 = Stop f ->
     match f with FResult s' => problems s' = problems s | FError s' => gave_up fuel s s' | _ => True end).
  { unfold process_elseif. destruct (conds s0) as [|[| |] c]; try discriminate.
    - intros H; injection H as <-. apply G. reflexivity.
    - intros H. apply Hif in H. destruct f; auto; contradiction. }
  destruct (skipping s1) eqn:Sk.
  - unfold process_negative in Hs.
    destruct (s_kind (t_sym t)) as [| [] | | | | | | | | | | | | | | | | | |]; try discriminate Hs; try (apply Helif; exact Hs);
      apply Hopt in Hs; subst f; apply G; reflexivity.
  - unfold process_active in Hs.
    destruct (s_kind (t_sym t)) as [| d | | | | | | | | | | | | | | | | | |] eqn:K; try discriminate Hs;
      try (injection Hs as <-; first [apply G; reflexivity | rewrite <- R; reflexivity]).
    + destruct d; cbn [process_directive] in Hs; try discriminate Hs; try (apply Helif; exact Hs);
        try (apply Hopt in Hs; subst f; apply G; reflexivity).
      * apply Hif in Hs. destruct f; auto; contradiction.
      * unfold process_define in Hs. destruct (lx_pp _); [|discriminate Hs].
        pose proof (define_loop_problems (lx_rest (lex (push_symbol (t_sym t) s0))) def0 (push_symbol (t_sym t) s0)) as E.
        destruct (define_loop _ _ _) as [d s'|s'|]; try discriminate Hs; injection Hs as <-; [|exact I].
        apply G. rewrite E. apply push_symbol_problems.
      * unfold process_undef in Hs. destruct (lx_pp _); [|discriminate Hs].
        pose proof (undef_loop_problems (lx_rest (lex (push_symbol (t_sym t) s0))) (push_symbol (t_sym t) s0)) as E.
        rewrite Hs in E. subst f. exact I.
    + assert (X : match mget (macros s0) (s_text (t_sym t)) with
          | None => Next (push_symbol (t_sym t) s0)
          | Some m =>
              if dmem m (disabled s0)
              then Next (push_symbol (t_sym t) (set_disabled (drem m (disabled s0)) s0))
              else
                match expand_identifier fuel (lex s0) (macros s0) t true (disabled s0) with
                | XOk diff pushed l dis =>
                    Next (set_adiff diff (set_exp_sym (Some ((t_sym t), (m_idx m, m_file m)))
                      (set_estack (pushed ++ estack s0) (set_lex l (set_disabled dis s0)))))
                | XNotFound name r l dis =>
                    Stop (FError (set_err_notfound (err_notfound s0 ++ [(name, r)]) s0))
                | XParse _ _ _ => Stop (FError s0)
                | XFuel => Stop FFuel
                end
          end = Stop f ->
          match f with FResult s' => problems s' = problems s | FError s' => gave_up fuel s s' | _ => True end).
      { destruct (mget _ _) as [m|]; [|discriminate]. destruct (dmem _ _); [discriminate|].
        destruct (expand_identifier _ _ _ _ _ _) as [df ps l dis|name r l dis|r l dis|] eqn:E; try discriminate;
          intros H; injection H as <-; try exact I; try (apply G; reflexivity).
        rewrite Rl, Rm, Rd in E. injection R as R1 R2 R3. unfold gave_up. cbn.
        split; [exact R1|]. split; [exact R3|]. right. exists t, s1, name, r, l, dis.
        split; [exact Hf|]. split; [unfold kept; cbn; rewrite Sk; reflexivity|]. split; [exact K|].
        split; [exact E|]. rewrite R2. reflexivity. }
      destruct (intr s0) as [[]|]; try (apply X; exact Hs). discriminate Hs.
    + destruct (intr s0) as [[]|]; discriminate Hs.
    + destruct (intr s0) as [[]|]; discriminate Hs.
Qed.

Lemma run_reads v fuel f : f <> FFuel -> forall n s, run n v fuel s = f ->
  exists tr s1, reads v fuel s tr s1 /\ step v fuel s1 = Stop f.
Proof.
  intros N. induction n as [|n IH]; intros s H; [cbn in H; congruence|]. cbn [run] in H.
  destruct (step v fuel s) as [s2|x] eqn:E.
  - destruct (IH _ H) as (tr & s1 & Hr & Hs). destruct (fetch s) as [[t0 s0]|] eqn:F.
    + exists (Ev (t_sym t0) s0 s2 :: tr), s1. split; [econstructor; eassumption|exact Hs].
    + unfold step in E. rewrite F in E. discriminate E.
  - subst x. exists [], s. split; [constructor|exact E].
Qed.

(** Nothing is lost and nothing is made up: after preprocessing a file the errors of conditions, the macros not found
    in them and the missing includes are those of the directives in the order of the file. Inactive code has none.
    When preprocessing gives up, the macro at which it did may be one more. *)
Theorem C74_problems :
  forall v fuel i m syms f s,
    preprocess v fuel i m syms = f -> f = FResult s \/ f = FError s ->
    exists tr s0 s1 more,
      reads v fuel s0 tr s1 /\ s0 = init_st (incs s0) (macros s0) syms /\
      err_eval s = flat_map (fun e => fst (condition_problems v fuel e)) tr /\
      err_notfound s = flat_map (fun e => snd (condition_problems v fuel e)) tr ++ more /\
      err_include s = flat_map (include_problems v) tr /\
      (f = FResult s -> more = []) /\
      (more = [] \/ exists t s2 name r l dis,
         fetch s1 = Some (t, s2) /\ s_kind (t_sym t) = KIdent /\ skipping s2 = false /\
         expand_identifier fuel (lex s2) (macros s2) t true (disabled s2) = XNotFound name r l dis /\ more = [(name, r)]).
Proof.
  intros v fuel i m syms f s H Hf. unfold preprocess in H.
  destruct (v_inc v i m "sourcemod" false) as [[i0 m0] ok].
  assert (N : f <> FFuel) by (destruct Hf; congruence).
  destruct (run_reads v fuel f N fuel _ H) as (tr & s1 & Hr & Hs).
  destruct (reads_problems _ _ _ _ _ Hr) as (A & B & C). cbn [init_st err_eval err_notfound err_include app] in A, B, C.
  pose proof (stop_problems _ _ _ _ Hs) as P.
  assert (Q : f = FResult s -> problems s = problems s1) by (intros ->; exact P).
  destruct Hf as [E|E]; rewrite E in P.
  - exists tr, (init_st i0 m0 syms), s1, []. injection P as P1 P2 P3. rewrite P1, P2, P3, app_nil_r.
    split; [exact Hr|]. split; [reflexivity|]. auto 8.
  - destruct P as (P1 & P3 & [P2|(t & s2 & name & r & l & dis & F & K & I & X & P2)]).
    + exists tr, (init_st i0 m0 syms), s1, []. rewrite P1, P2, P3, app_nil_r.
      split; [exact Hr|]. split; [reflexivity|]. auto 8.
    + exists tr, (init_st i0 m0 syms), s1, [(name, r)]. rewrite P1, P2, P3, B.
      split; [exact Hr|]. split; [reflexivity|]. split; [exact A|]. split; [reflexivity|]. split; [exact C|].
      split; [rewrite E; discriminate|]. right. exists t, s2, name, r, l, dis.
      unfold kept in K. cbn in K. apply negb_true_iff in K. auto 8.
Qed.
Print Assumptions C74_problems.

Local Open Scope string_scope.
(** A condition with an unknown macro, one in inactive code, an #elseif behind a branch that was taken; an include that
    is missing, once in inactive code, and one that may be missing. *)
Definition c74_env : env :=
  Env (fun i m p _ => (i, m, negb (String.eqb p "x"))) (fun t => if String.eqb t "#include <x>" || String.eqb t "#tryinclude <x>" then Some "x" else None)
      (fun _ => None) (fun s => s) 0 false.
Example C74_nontrivial :
  exists s, preprocess c74_env 200 no_incs [] (lex_source
"#if A
#endif
#if 0
#if B
#endif
#include <x>
#else
#include <x>
#endif
#tryinclude <x>
#if 1
#elseif C
#endif
") = FResult s /\
  map (fun r => pline (rstart r)) (err_eval s) = [0]%Z /\
  map (fun x => (fst x, pline (rstart (snd x)))) (err_notfound s) = [("A", 0)]%Z /\ err_include s = [("x", 7)]%Z.
Proof. eexists. split; [vm_compute; reflexivity|]. split; [vm_compute; reflexivity|]. split; vm_compute; reflexivity. Qed.
