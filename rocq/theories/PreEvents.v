(** What one iteration of the preprocessor's loop does to the macro table, the running number of
    macros and the state of the include callback. *)
From Coq Require Import List ZArith Bool String Lia.
From Verif Require Import PreTypes MacroModel EvalModel PreModel CondSpec CondProofs VisibleSpec.
Import ListNotations.
Local Open Scope Z_scope.
Local Open Scope list_scope.

(** the three components *)
Definition tables (s : st) := (macros s, idx s, incs s).

Lemma fetch_tables s t s1 : fetch s = Some (t, s1) -> tables s1 = tables s.
Proof.
  unfold fetch. destruct (estack s) as [|t0 tl].
  - destruct (lex_next (lex s)) as [[y l]|]; [|discriminate].
    destruct (exp_sym s) as [[es [i f]]|]; intros H; injection H as _ <-; reflexivity.
  - intros H; injection H as _ <-. reflexivity.
Qed.
Lemma record_tables t s : tables (record_arg t s) = tables s.
Proof. unfold record_arg. destruct (t_orig t); reflexivity. Qed.
Lemma record_lex t s : lex (record_arg t s) = lex s.
Proof. unfold record_arg. destruct (t_orig t); reflexivity. Qed.
Lemma push_symbol_tables y s : tables (push_symbol y s) = tables s.
Proof. unfold push_symbol. destruct (s_kind y); reflexivity. Qed.
Lemma push_symbol_lex y s : lex (push_symbol y s) = lex s.
Proof. unfold push_symbol. destruct (s_kind y); reflexivity. Qed.
Lemma echo_tables y s : tables (echo y s) = tables s.
Proof. unfold echo. destruct (s_kind y); reflexivity. Qed.

Lemma process_if_tables v fuel y s s' : process_if v fuel y s = Next s' -> tables s' = tables s.
Proof.
  unfold process_if. destruct (directive_symbols (lex s)) as [syms l]. simpl.
  destruct (evaluate _ _ _ _ _ _) as [b o d|r nf o d| |]; try discriminate;
    destruct (rev syms); intros H; injection H as <-; try destruct b; reflexivity.
Qed.
Lemma process_elseif_tables v fuel y s s' : process_elseif v fuel y s = Next s' -> tables s' = tables s.
Proof.
  unfold process_elseif. destruct (conds s) as [|[| |] c]; try discriminate.
  - intros H. apply process_if_tables in H. rewrite H. reflexivity.
  - intros H; injection H as <-. reflexivity.
  - intros H; injection H as <-. reflexivity.
Qed.
Lemma process_else_tables y s s' : process_else y s = Some s' -> tables s' = tables s.
Proof.
  unfold process_else. destruct (conds s) as [|[| |] c]; try discriminate;
    intros H; injection H as <-; reflexivity.
Qed.
Lemma process_endif_tables y s s' : process_endif y s = Some s' -> tables s' = tables s.
Proof.
  unfold process_endif. destruct (conds s) as [|c0 [|[| |] c]]; try discriminate;
    intros H; injection H as <-; reflexivity.
Qed.

(** the name found by the #define loop *)
Lemma define_symbol_name y d d' : define_symbol y d = Some d' ->
  d_name d' = (if match d_state d with DStart => String.eqb (d_name d) EmptyString && kind_eqb (s_kind y) KIdent | _ => false end
               then s_text y else d_name d) /\
  (d_state d' = DStart <->
   match d_state d with DStart => String.eqb (d_name d) EmptyString && kind_eqb (s_kind y) KIdent | _ => false end = true).
Proof.
  unfold define_symbol. destruct (d_state d) eqn:E.
  - destruct (String.eqb (d_name d) EmptyString && kind_eqb (s_kind y) KIdent).
    + intros H; injection H as <-. simpl. tauto.
    + destruct ((dcol (s_delta y) =? 0) && kind_eqb (s_kind y) KLParen);
        intros H; injection H as <-; simpl; split; try reflexivity; split; discriminate.
  - destruct (0 <? dcol (s_delta y)).
    + intros H; injection H as <-; simpl; split; [reflexivity|split; discriminate].
    + destruct (s_kind y) as [| | | | | | | | | | | | | | |[]|[]| | |]; try discriminate;
        try (intros H; injection H as <-; simpl; rewrite ?E; split; [reflexivity|split; discriminate]).
      destruct (s_int y) as [n|]; [|discriminate].
      destruct ((n <? 0) || (Z.of_nat (List.length (d_args d)) <=? n)); [discriminate|].
      intros H; injection H as <-; simpl; split; [reflexivity|split; discriminate].
  - intros H; injection H as <-; simpl; split; [reflexivity|split; discriminate].
Qed.

Lemma kind_eqb_eq a b : kind_eqb a b = true <-> a = b.
Proof. unfold kind_eqb. destruct (kind_eq_dec a b); split; congruence. Qed.

Lemma define_loop_tables rest : forall d s d' s',
  define_loop rest d s = DOk d' s' ->
  tables s' = tables s /\
  (d_state d <> DStart -> d_name d' = d_name d) /\
  (d_state d = DStart -> d_name d <> EmptyString -> d_name d' = d_name d) /\
  (d_state d = DStart -> d_name d = EmptyString -> d_name d' = define_name (fst (take_directive rest))).
Proof.
  induction rest as [|[y pp] tl IH]; intros d s d' s' H; [discriminate H|].
  cbn [define_loop] in H.
  destruct (kind_eqb (s_kind y) KEof) eqn:Ke.
  - apply kind_eqb_eq in Ke. rewrite Ke in H. injection H as <- <-.
    split; [reflexivity|]. repeat split; intros; auto.
    assert (E : define_name (fst (take_directive ((y, pp) :: tl))) = EmptyString).
    { cbn [take_directive]. destruct pp; [destruct (take_directive tl)|]; cbn [fst define_name]; rewrite Ke; reflexivity. }
    congruence.
  - assert (H' : match define_symbol y d with
            | None => DBail (echo y (set_lex (Lex tl pp) s))
            | Some d0 => if pp then define_loop tl d0 (echo y (set_lex (Lex tl pp) s))
                         else DOk d0 (echo y (set_lex (Lex tl pp) s)) end = DOk d' s').
    { destruct (s_kind y); try exact H. vm_compute in Ke. discriminate Ke. }
    clear H. destruct (define_symbol y d) as [d0|] eqn:Ed; [|discriminate H'].
    apply define_symbol_name in Ed. destruct Ed as [En Es].
    assert (Hd : fst (take_directive ((y, pp) :: tl)) = y :: (if pp then fst (take_directive tl) else [])).
    { cbn [take_directive]. destruct pp; [destruct (take_directive tl)|]; reflexivity. }
    rewrite Hd. clear Hd.
    assert (Hrest : tables s' = tables s /\ (d_state d0 <> DStart -> d_name d' = d_name d0) /\
       (d_state d0 = DStart -> d_name d0 <> EmptyString -> d_name d' = d_name d0) /\
       (d_state d0 = DStart -> d_name d0 = EmptyString -> d_name d' = define_name (if pp then fst (take_directive tl) else []))).
    { destruct pp.
      - apply IH in H'. destruct H' as (A & B & C & D). rewrite A, echo_tables. auto.
      - injection H' as <- <-. rewrite echo_tables. repeat split; auto. }
    destruct Hrest as (A & B & C & D). split; [exact A|]. clear A.
    destruct (d_state d) eqn:Sd.
    + destruct (String.eqb (d_name d) EmptyString && kind_eqb (s_kind y) KIdent) eqn:T.
      * assert (S0 : d_state d0 = DStart) by (apply Es; reflexivity).
        apply andb_true_iff in T. destruct T as [T1 T2]. apply String.eqb_eq in T1. apply kind_eqb_eq in T2.
        repeat split; intros; try congruence. cbn [define_name]. rewrite T2.
        destruct (String.eqb (s_text y) EmptyString) eqn:Q.
        -- apply String.eqb_eq in Q. apply D; congruence.
        -- rewrite <- En. apply C; auto. intros X. rewrite En in X. rewrite X in Q. discriminate Q.
      * assert (S0 : d_state d0 <> DStart) by (intros X; apply Es in X; discriminate X).
        repeat split; intros; try congruence.
        -- rewrite B by exact S0. congruence.
        -- rewrite B, En, H0 by exact S0. cbn [define_name].
           rewrite H0 in T. cbn in T.
           destruct (s_kind y); try reflexivity. discriminate T.
    + assert (S0 : d_state d0 <> DStart) by (intros X; apply Es in X; discriminate X).
      repeat split; intros; try discriminate. rewrite B, En by exact S0. reflexivity.
    + assert (S0 : d_state d0 <> DStart) by (intros X; apply Es in X; discriminate X).
      repeat split; intros; try discriminate. rewrite B, En by exact S0. reflexivity.
Qed.

Lemma directive_symbols_eq l : fst (directive_symbols l) = if lx_pp l then fst (take_directive (lx_rest l)) else [].
Proof. unfold directive_symbols. destruct (lx_pp l); reflexivity. Qed.

Lemma process_define_tables v y s s' : process_define v y s = Next s' ->
  exists m, macros s' = mset (macros s) (define_name (fst (directive_symbols (lex s)))) m /\
    m_file m = v_file v /\ m_idx m = idx s /\ idx s' = idx s + 1 /\ incs s' = incs s.
Proof.
  unfold process_define. rewrite directive_symbols_eq, push_symbol_lex.
  pose proof (push_symbol_tables y s) as T. injection T as T1 T2 T3.
  destruct (lx_pp (lex s)).
  - destruct (define_loop _ _ _) as [d s1|s1|] eqn:E; try discriminate.
    apply define_loop_tables in E. destruct E as (A & _ & _ & D). injection A as A1 A2 A3.
    intros H; injection H as <-. cbn [def0 d_state d_name] in D. rewrite <- (D eq_refl eq_refl).
    unfold define_finish. cbv zeta. cbn [macros set_macros set_idx idx incs reset_current_line push_current_line
      set_cur_line set_out set_cur_pos].
    rewrite A1, A2, A3, T1, T2, T3. eexists. split; [reflexivity|].
    destruct (d_found d); repeat split.
  - intros H; injection H as <-. unfold define_finish. cbv zeta.
    cbn [macros set_macros set_idx idx incs reset_current_line push_current_line
      set_cur_line set_out set_cur_pos]. rewrite T1, T2, T3.
    eexists. split; [reflexivity|]. repeat split.
Qed.

Lemma undef_loop_tables rest : forall s s', undef_loop rest s = Next s' ->
  macros s' = match undef_name (fst (take_directive rest)) with Some x => mdel (macros s) x | None => macros s end /\
  idx s' = idx s /\ incs s' = incs s.
Proof.
  induction rest as [|[y pp] tl IH]; intros s s' H; [discriminate H|]. cbn [undef_loop] in H.
  pose proof (echo_tables y (set_lex (Lex tl pp) s)) as T. injection T as T1 T2 T3.
  unfold undef_name in *.
  assert (Hd : fst (take_directive ((y, pp) :: tl)) = y :: (if pp then fst (take_directive tl) else [])).
  { cbn [take_directive]. destruct pp; [destruct (take_directive tl)|]; reflexivity. }
  rewrite Hd. cbn [find]. destruct (kind_eqb (s_kind y) KIdent) eqn:K.
  - injection H as <-. cbn [macros set_macros idx incs option_map]. rewrite T1, T2, T3. auto.
  - destruct pp.
    + apply IH in H. destruct H as (A & B & C). rewrite A, B, C, T1, T2, T3. auto.
    + injection H as <-. cbn [find option_map]. rewrite T1, T2, T3. auto.
Qed.

Lemma process_undef_tables y s s' : process_undef y s = Next s' ->
  macros s' = match undef_name (fst (directive_symbols (lex s))) with Some x => mdel (macros s) x | None => macros s end /\
  idx s' = idx s /\ incs s' = incs s.
Proof.
  unfold process_undef. rewrite directive_symbols_eq, push_symbol_lex.
  pose proof (push_symbol_tables y s) as T. injection T as T1 T2 T3.
  destruct (lx_pp (lex s)).
  - intros H. apply undef_loop_tables in H. rewrite T1, T2, T3 in H. exact H.
  - intros H; injection H as <-. cbn. auto.
Qed.

(** the two lookups of an include directive *)
Definition inc_call (v : env) (path : option string) (quoted : bool) (im : incs_t * macros_map) : incs_t * macros_map :=
  match path with
  | None => im
  | Some p => fst (v_inc v (fst im) (snd im) p quoted)
  end.
Definition inc_calls (v : env) (y : symbol) (im : incs_t * macros_map) : incs_t * macros_map :=
  let text := v_trim v (s_inline y) in
  inc_call v (v_quote v text) true (inc_call v (v_chevron v text) false im).

Lemma include_path_tables v p q t l s :
  (incs (include_path v p q t l s), macros (include_path v p q t l s)) = inc_call v p q (incs s, macros s) /\
  idx (include_path v p q t l s) = idx s.
Proof.
  unfold include_path, inc_call. destruct p as [p|]; [|auto]. cbn [fst snd].
  destruct (v_inc v (incs s) (macros s) p q) as [[i m] ok]. destruct (ok || t); cbn; auto.
Qed.

Lemma process_include_tables v y t s :
  (incs (process_include v y t s), macros (process_include v y t s)) = inc_calls v y (incs s, macros s) /\
  idx (process_include v y t s) = idx s.
Proof.
  unfold process_include, inc_calls. cbv zeta.
  set (text := v_trim v (s_inline y)).
  set (line := pline (rstart (s_range y))).
  set (s1 := include_path v (v_chevron v text) false t line s).
  set (s2 := include_path v (v_quote v text) true t line s1).
  pose proof (include_path_tables v (v_chevron v text) false t line s) as [A1 A2]. fold s1 in A1, A2.
  pose proof (include_path_tables v (v_quote v text) true t line s1) as [B1 B2]. fold s2 in B1, B2.
  pose proof (push_symbol_tables (Sym (s_kind y) text text (s_int y) (s_range y) (s_delta y)) s2) as T.
  injection T as T1 T2 T3.
  rewrite <- A1, <- B1.
  destruct (0 <? pline (rend (s_range y)) - line);
    cbn [incs macros idx push_blank set_out reset_current_line set_cur_line push_current_line set_cur_pos];
    rewrite T1, T2, T3; (split; [reflexivity|congruence]).
Qed.

(** * One event *)
Inductive effect (v : env) (e : event) : Prop :=
| eff_define m :
    is_dir MDefine e = true ->
    macros (e_after e) = mset (macros (e_before e)) (define_name (line_of e)) m ->
    m_file m = v_file v -> m_idx m = idx (e_before e) -> idx (e_after e) = idx (e_before e) + 1 ->
    incs (e_after e) = incs (e_before e) -> effect v e
| eff_undef :
    is_dir MUndef e = true ->
    macros (e_after e) = match undef_name (line_of e) with
                         | Some x => mdel (macros (e_before e)) x | None => macros (e_before e) end ->
    idx (e_after e) = idx (e_before e) -> incs (e_after e) = incs (e_before e) -> effect v e
| eff_include :
    is_include e = true ->
    (incs (e_after e), macros (e_after e)) = inc_calls v (e_sym e) (incs (e_before e), macros (e_before e)) ->
    idx (e_after e) = idx (e_before e) -> effect v e
| eff_none :
    is_dir MDefine e = false -> is_dir MUndef e = false -> is_include e = false ->
    tables (e_after e) = tables (e_before e) -> effect v e.

Lemma step_effect v fuel s t s1 s2 :
  fetch s = Some (t, s1) -> step v fuel s = Next s2 -> effect v (Ev (t_sym t) s1 s2).
Proof.
  intros Hf Hs. rewrite (step_fetched _ _ _ _ _ Hf) in Hs.
  pose proof (record_tables t s1) as T. pose proof (record_lex t s1) as L.
  assert (K : forall s', tables s' = tables (record_arg t s1) -> s2 = s' ->
     is_dir MDefine (Ev (t_sym t) s1 s2) = false -> is_dir MUndef (Ev (t_sym t) s1 s2) = false ->
     is_include (Ev (t_sym t) s1 s2) = false -> effect v (Ev (t_sym t) s1 s2)).
  { intros s' E -> A B C. apply eff_none; auto. cbn [e_after e_before]. congruence. }
  destruct (skipping s1) eqn:Sk.
  - assert (N : forall d, is_dir d (Ev (t_sym t) s1 s2) = false).
    { intros d. unfold is_dir, kept. cbn [e_before]. rewrite Sk. reflexivity. }
    assert (N' : is_include (Ev (t_sym t) s1 s2) = false) by (unfold is_include; rewrite !N; reflexivity).
    unfold process_negative in Hs.
    destruct (s_kind (t_sym t)) as [| [] | | | | | | | | | | | | | | | | | |];
      try (injection Hs as Hs; eapply K; [|symmetry; exact Hs|auto|auto|auto]; reflexivity).
    + apply process_elseif_tables in Hs. eapply K; [exact Hs|auto|auto|auto|auto].
    + destruct (process_else _ _) as [s'|] eqn:E; [|discriminate Hs]. injection Hs as Hs.
      apply process_else_tables in E. eapply K; [exact E|auto|auto|auto|auto].
    + destruct (process_endif _ _) as [s'|] eqn:E; [|discriminate Hs]. injection Hs as Hs.
      apply process_endif_tables in E. eapply K; [exact E|auto|auto|auto|auto].
  - assert (N : forall d, is_dir d (Ev (t_sym t) s1 s2) = kind_eqb (s_kind (t_sym t)) (KDir d)).
    { intros d. unfold is_dir, kept. cbn [e_before e_sym]. rewrite Sk. reflexivity. }
    unfold process_active in Hs. unfold is_include in K. rewrite !N in K.
    destruct (s_kind (t_sym t)) as [| d | | | | | | | | | | | | | | | | | |] eqn:Ks;
      try discriminate Hs;
      try (injection Hs as Hs; eapply K; [apply push_symbol_tables|symmetry; exact Hs|reflexivity|reflexivity|reflexivity]).
    + destruct d; cbn [process_directive] in Hs.
      * apply process_if_tables in Hs. eapply K; [exact Hs|auto|auto|auto|auto].
      * apply process_elseif_tables in Hs. eapply K; [exact Hs|auto|auto|auto|auto].
      * destruct (process_else _ _) as [s'|] eqn:E; [|discriminate Hs]. injection Hs as Hs.
        apply process_else_tables in E. eapply K; [exact E|auto|auto|auto|auto].
      * destruct (process_endif _ _) as [s'|] eqn:E; [|discriminate Hs]. injection Hs as Hs.
        apply process_endif_tables in E. eapply K; [exact E|auto|auto|auto|auto].
      * apply process_define_tables in Hs. destruct Hs as (m & A & B & C & D & E).
        injection T as T1 T2 T3. rewrite L, T1, T2, T3 in *.
        eapply eff_define with (m := m); auto. rewrite N. reflexivity.
      * apply process_undef_tables in Hs. destruct Hs as (A & B & C).
        injection T as T1 T2 T3. rewrite L, T1, T2, T3 in *.
        eapply eff_undef; auto. rewrite N. reflexivity.
      * injection Hs as <-. pose proof (process_include_tables v (t_sym t) false (record_arg t s1)) as [A B].
        injection T as T1 T2 T3. rewrite T1, T2, T3 in *.
        eapply eff_include; [unfold is_include; rewrite !N; reflexivity|exact A|exact B].
      * injection Hs as <-. pose proof (process_include_tables v (t_sym t) true (record_arg t s1)) as [A B].
        injection T as T1 T2 T3. rewrite T1, T2, T3 in *.
        eapply eff_include; [unfold is_include; rewrite !N; reflexivity|exact A|exact B].
      * injection Hs as Hs. eapply K; [apply push_symbol_tables|symmetry; exact Hs|reflexivity|reflexivity|reflexivity].
    + injection Hs as Hs. eapply K; [|symmetry; exact Hs|reflexivity|reflexivity|reflexivity]. reflexivity.
    + assert (Hx : match mget (macros (record_arg t s1)) (s_text (t_sym t)) with
          | None => Next (push_symbol (t_sym t) (record_arg t s1))
          | Some m =>
              if dmem m (disabled (record_arg t s1))
              then Next (push_symbol (t_sym t) (set_disabled (drem m (disabled (record_arg t s1))) (record_arg t s1)))
              else
                match expand_identifier fuel (lex (record_arg t s1)) (macros (record_arg t s1)) t true (disabled (record_arg t s1)) with
                | XOk diff pushed l dis =>
                    Next (set_adiff diff (set_exp_sym (Some ((t_sym t), (m_idx m, m_file m)))
                      (set_estack (pushed ++ estack (record_arg t s1)) (set_lex l (set_disabled dis (record_arg t s1))))))
                | XNotFound name r l dis =>
                    Stop (FError (set_err_notfound (err_notfound (record_arg t s1) ++ [(name, r)]) (record_arg t s1)))
                | XParse _ _ _ => Stop (FError (record_arg t s1))
                | XFuel => Stop FFuel
                end
          end = Next s2 -> tables s2 = tables (record_arg t s1)).
      { destruct (mget _ _) as [m|].
        - destruct (dmem _ _).
          + intros H; injection H as <-. rewrite push_symbol_tables. reflexivity.
          + destruct (expand_identifier _ _ _ _ _ _); try discriminate. intros H; injection H as <-. reflexivity.
        - intros H; injection H as <-. apply push_symbol_tables. }
      destruct (intr (record_arg t s1)) as [[]|];
        try (apply Hx in Hs; eapply K; [exact Hs|auto|auto|auto|auto]).
      injection Hs as Hs. eapply K; [|symmetry; exact Hs|reflexivity|reflexivity|reflexivity].
      destruct (String.eqb _ _); reflexivity.
    + injection Hs as Hs. eapply K; [|symmetry; exact Hs|reflexivity|reflexivity|reflexivity]. reflexivity.
    + injection Hs as Hs. eapply K; [|symmetry; exact Hs|reflexivity|reflexivity|reflexivity]. reflexivity.
    + assert (tables s2 = tables (record_arg t s1)) as E.
      { destruct (intr (record_arg t s1)) as [[]|]; injection Hs as <-; rewrite ?push_symbol_tables; reflexivity. }
      eapply K; [exact E|auto|auto|auto|auto].
    + assert (tables s2 = tables (record_arg t s1)) as E.
      { destruct (intr (record_arg t s1)) as [[]|]; injection Hs as <-; rewrite ?push_symbol_tables; reflexivity. }
      eapply K; [exact E|auto|auto|auto|auto].
Qed.
