(** The preprocessor looks at what the include callback captured only through the callback: two runs
    whose callbacks give the same tables write the same. *)
From Coq Require Import List ZArith Bool String Lia.
From Verif Require Import PreTypes MacroModel EvalModel PreModel CondSpec CondProofs VisibleSpec PreEvents.
Import ListNotations.
Local Open Scope Z_scope.
Local Open Scope list_scope.

Definition fmap (g : st -> st) (f : final) : final :=
  match f with FResult s => FResult (g s) | FError s => FError (g s) | f => f end.
Definition smap (g : st -> st) (r : step_res) : step_res :=
  match r with Next s => Next (g s) | Stop f => Stop (fmap g f) end.

(** The same environment with another callback. *)
Definition with_inc (v : env) (inc : incs_t -> macros_map -> string -> bool -> incs_t * macros_map * bool) : env :=
  Env inc (v_chevron v) (v_quote v) (v_trim v) (v_file v) (v_chk v).

Section other.
Variable v : env.
Variable inc : incs_t -> macros_map -> string -> bool -> incs_t * macros_map * bool.
Variable i : incs_t.
Let v' := with_inc v inc.

Lemma fetch_other s : fetch (set_incs i s) = option_map (fun p => (fst p, set_incs i (snd p))) (fetch s).
Proof.
  unfold fetch. cbn [estack set_incs lex exp_sym col_off]. destruct (estack s) as [|t tl]; [|reflexivity].
  destruct (lex_next (lex s)) as [[y l]|]; [|reflexivity].
  destruct (exp_sym s) as [[es [n f]]|]; reflexivity.
Qed.
Lemma record_other t s : record_arg t (set_incs i s) = set_incs i (record_arg t s).
Proof. unfold record_arg. destruct (t_orig t); reflexivity. Qed.
Lemma push_symbol_other y s : push_symbol y (set_incs i s) = set_incs i (push_symbol y s).
Proof. unfold push_symbol. destruct (s_kind y); reflexivity. Qed.
Lemma echo_other y s : echo y (set_incs i s) = set_incs i (echo y s).
Proof. unfold echo. destruct (s_kind y); reflexivity. Qed.
Lemma process_if_other fuel y s : process_if v' fuel y (set_incs i s) = smap (set_incs i) (process_if v fuel y s).
Proof.
  unfold process_if. cbn [lex set_incs]. destruct (directive_symbols (lex s)) as [syms l].
  cbv zeta. cbn [set_lex macros disabled set_incs v' with_inc v_chk].
  destruct (evaluate _ _ _ _ _ _) as [b o d|r nf o d| |]; try reflexivity; destruct (rev syms); try destruct b; reflexivity.
Qed.
Lemma process_else_other y s : process_else y (set_incs i s) = option_map (set_incs i) (process_else y s).
Proof. unfold process_else. cbn [conds set_incs]. destruct (conds s) as [|[| |] c]; reflexivity. Qed.
Lemma process_endif_other y s : process_endif y (set_incs i s) = option_map (set_incs i) (process_endif y s).
Proof. unfold process_endif. cbn [conds set_incs]. destruct (conds s) as [|c0 [|[| |] c]]; reflexivity. Qed.
Lemma process_elseif_other fuel y s :
  process_elseif v' fuel y (set_incs i s) = smap (set_incs i) (process_elseif v fuel y s).
Proof.
  unfold process_elseif. cbn [conds set_incs]. destruct (conds s) as [|[| |] c]; try reflexivity.
  apply (process_if_other fuel y (set_conds c s)).
Qed.
Definition dmap (r : dres) : dres :=
  match r with DOk d s => DOk d (set_incs i s) | DBail s => DBail (set_incs i s) | DHang => DHang end.
Lemma define_loop_other rest : forall d s, define_loop rest d (set_incs i s) = dmap (define_loop rest d s).
Proof.
  induction rest as [|[y pp] tl IH]; intros d s; [reflexivity|]. cbn [define_loop].
  change (set_lex (Lex tl pp) (set_incs i s)) with (set_incs i (set_lex (Lex tl pp) s)).
  rewrite echo_other, IH || rewrite echo_other.
  assert (X : match define_symbol y d with
            | None => DBail (set_incs i (echo y (set_lex (Lex tl pp) s)))
            | Some d0 => if pp then define_loop tl d0 (set_incs i (echo y (set_lex (Lex tl pp) s)))
                         else DOk d0 (set_incs i (echo y (set_lex (Lex tl pp) s))) end =
          dmap match define_symbol y d with
            | None => DBail (echo y (set_lex (Lex tl pp) s))
            | Some d0 => if pp then define_loop tl d0 (echo y (set_lex (Lex tl pp) s))
                         else DOk d0 (echo y (set_lex (Lex tl pp) s)) end).
  { destruct (define_symbol y d); [|reflexivity]. destruct pp; [apply IH|reflexivity]. }
  destruct (s_kind y); try exact X. reflexivity.
Qed.
Lemma process_define_other y s : process_define v' y (set_incs i s) = smap (set_incs i) (process_define v y s).
Proof.
  unfold process_define. rewrite push_symbol_other. cbn [lex set_incs].
  destruct (lx_pp (lex (push_symbol y s))).
  - rewrite define_loop_other. destruct (define_loop _ _ _) as [d s1|s1|]; try reflexivity.
  - reflexivity.
Qed.
Lemma undef_loop_other rest : forall s, undef_loop rest (set_incs i s) = smap (set_incs i) (undef_loop rest s).
Proof.
  induction rest as [|[y pp] tl IH]; intros s; [reflexivity|]. cbn [undef_loop].
  change (set_lex (Lex tl pp) (set_incs i s)) with (set_incs i (set_lex (Lex tl pp) s)). rewrite echo_other.
  destruct (kind_eqb _ _); [reflexivity|]. destruct pp; [apply IH|reflexivity].
Qed.
Lemma process_undef_other y s : process_undef y (set_incs i s) = smap (set_incs i) (process_undef y s).
Proof.
  unfold process_undef. rewrite push_symbol_other. cbn [lex set_incs].
  destruct (lx_pp (lex (push_symbol y s))); [|reflexivity]. rewrite undef_loop_other. reflexivity.
Qed.
Lemma opt_step_other s o : opt_step (set_incs i s) (option_map (set_incs i) o) = smap (set_incs i) (opt_step s o).
Proof. destruct o; reflexivity. Qed.

(** An iteration that is not an active include. *)
Definition include_kind (k : kind) : bool :=
  match k with KDir MInclude | KDir MTryinclude => true | _ => false end.
Lemma step_other fuel s :
  (forall t s1, fetch s = Some (t, s1) -> skipping s1 = true \/ include_kind (s_kind (t_sym t)) = false) ->
  step v' fuel (set_incs i s) = smap (set_incs i) (step v fuel s).
Proof.
  intros H. unfold step. rewrite fetch_other. destruct (fetch s) as [[t s1]|] eqn:F; [|reflexivity].
  cbn [option_map fst snd]. rewrite record_other. specialize (H t s1 eq_refl).
  assert (Sk : skipping (record_arg t s1) = skipping s1) by (unfold skipping, record_arg; destruct (t_orig t); reflexivity).
  set (s2 := record_arg t s1) in *. change (skipping (set_incs i s2)) with (skipping s2).
  rewrite <- Sk in H. destruct (skipping s2) eqn:S2.
  - unfold process_negative.
    destruct (s_kind (t_sym t)) as [| [] | | | | | | | | | | | | | | | | | |]; try reflexivity.
    + apply process_elseif_other.
    + rewrite process_else_other. apply opt_step_other.
    + rewrite process_endif_other. apply opt_step_other.
  - destruct H as [H|H]; [discriminate H|]. unfold process_active.
    destruct (s_kind (t_sym t)) as [| [] | | | | | | | | | | | | | | | | | |]; cbn [process_directive];
      try discriminate H; try reflexivity; try (rewrite push_symbol_other; reflexivity).
    + apply process_if_other.
    + apply process_elseif_other.
    + rewrite process_else_other. apply opt_step_other.
    + rewrite process_endif_other. apply opt_step_other.
    + apply process_define_other.
    + apply process_undef_other.
    + cbn [intr set_incs macros disabled lex].
      assert (X : forall r, (r = Next (push_symbol (t_sym t) s2) ->
         match mget (macros s2) (s_text (t_sym t)) with
          | None => Next (push_symbol (t_sym t) (set_incs i s2))
          | Some m =>
              if dmem m (disabled s2)
              then Next (push_symbol (t_sym t) (set_disabled (drem m (disabled s2)) (set_incs i s2)))
              else
                match expand_identifier fuel (lex s2) (macros s2) t true (disabled s2) with
                | XOk diff pushed l dis =>
                    Next (set_adiff diff (set_exp_sym (Some ((t_sym t), (m_idx m, m_file m)))
                      (set_estack (pushed ++ estack s2) (set_lex l (set_disabled dis (set_incs i s2))))))
                | XNotFound name r l dis =>
                    Stop (FError (set_err_notfound (err_notfound s2 ++ [(name, r)]) (set_incs i s2)))
                | XParse _ _ _ => Stop (FError (set_incs i s2))
                | XFuel => Stop FFuel
                end
          end = smap (set_incs i)
         match mget (macros s2) (s_text (t_sym t)) with
          | None => Next (push_symbol (t_sym t) s2)
          | Some m =>
              if dmem m (disabled s2)
              then Next (push_symbol (t_sym t) (set_disabled (drem m (disabled s2)) s2))
              else
                match expand_identifier fuel (lex s2) (macros s2) t true (disabled s2) with
                | XOk diff pushed l dis =>
                    Next (set_adiff diff (set_exp_sym (Some ((t_sym t), (m_idx m, m_file m)))
                      (set_estack (pushed ++ estack s2) (set_lex l (set_disabled dis s2)))))
                | XNotFound name r l dis =>
                    Stop (FError (set_err_notfound (err_notfound s2 ++ [(name, r)]) s2))
                | XParse _ _ _ => Stop (FError s2)
                | XFuel => Stop FFuel
                end
          end)).
      { intros _ _. destruct (mget _ _) as [m|]; [|rewrite push_symbol_other; reflexivity].
        destruct (dmem _ _).
        - change (set_disabled (drem m (disabled s2)) (set_incs i s2)) with (set_incs i (set_disabled (drem m (disabled s2)) s2)).
          rewrite push_symbol_other. reflexivity.
        - destruct (expand_identifier _ _ _ _ _ _); reflexivity. }
      specialize (X _ eq_refl).
      destruct (intr s2) as [[]|]; try exact X. destruct (String.eqb _ _); reflexivity.
    + cbn [intr set_incs]. change (set_intr None (set_incs i s2)) with (set_incs i (set_intr None s2)).
      destruct (intr s2) as [[]|]; rewrite ?push_symbol_other; reflexivity.
    + cbn [intr set_incs]. destruct (intr s2) as [[]|]; rewrite ?push_symbol_other; reflexivity.
Qed.
End other.

(** An active include: when both callbacks give the same table and the same answer. *)
Definition same_answer (v v' : env) (i i' : incs_t) (m : macros_map) (p : string) (q : bool) : Prop :=
  let '(_, m1, ok1) := v_inc v i m p q in let '(_, m2, ok2) := v_inc v' i' m p q in m1 = m2 /\ ok1 = ok2.

Lemma include_path_other v inc i' p q t line s :
  (forall x, p = Some x -> same_answer v (with_inc v inc) (incs s) i' (macros s) x q) ->
  exists i2, include_path (with_inc v inc) p q t line (set_incs i' s) = set_incs i2 (include_path v p q t line s) /\
    i2 = fst (inc_call (with_inc v inc) p q (i', macros s)).
Proof.
  intros H. unfold include_path, inc_call. destruct p as [p|]; [|exists i'; split; reflexivity].
  specialize (H p eq_refl). unfold same_answer in H. cbn [with_inc v_inc fst snd incs set_incs macros] in *.
  destruct (v_inc v (incs s) (macros s) p q) as [[i1 m1] ok1].
  destruct (inc i' (macros s) p q) as [[i2 m2] ok2]. destruct H as [-> ->].
  exists i2. cbn [fst]. split; [|reflexivity]. destruct (ok2 || t); reflexivity.
Qed.

Lemma include_path_table v p q t line s :
  (incs (include_path v p q t line s), macros (include_path v p q t line s)) = inc_call v p q (incs s, macros s).
Proof. apply include_path_tables. Qed.

Lemma process_include_other v inc i' y t s :
  let text := v_trim v (s_inline y) in
  let im1 := inc_call v (v_chevron v text) false (incs s, macros s) in
  let i1' := fst (inc_call (with_inc v inc) (v_chevron v text) false (i', macros s)) in
  (forall x, v_chevron v text = Some x -> same_answer v (with_inc v inc) (incs s) i' (macros s) x false) ->
  (forall x, v_quote v text = Some x -> same_answer v (with_inc v inc) (fst im1) i1' (snd im1) x true) ->
  process_include (with_inc v inc) y t (set_incs i' s) =
  set_incs (fst (inc_call (with_inc v inc) (v_quote v text) true (i1', snd im1))) (process_include v y t s).
Proof.
  intros text im1 i1' H1 H2. unfold process_include. cbv zeta.
  change (v_trim (with_inc v inc)) with (v_trim v). fold text.
  change (v_chevron (with_inc v inc)) with (v_chevron v). change (v_quote (with_inc v inc)) with (v_quote v).
  set (line := pline (rstart (s_range y))).
  destruct (include_path_other v inc i' (v_chevron v text) false t line s H1) as (i2 & E2 & F2).
  rewrite E2. set (s1 := include_path v (v_chevron v text) false t line s) in *.
  pose proof (include_path_table v (v_chevron v text) false t line s) as T. fold s1 in T. fold im1 in T.
  destruct (include_path_other v inc i2 (v_quote v text) true t line s1) as (i3 & E3 & F3).
  { intros x Hx. specialize (H2 x Hx). rewrite <- T in H2. cbn [fst snd] in H2. unfold i1' in H2. rewrite <- F2 in H2. exact H2. }
  rewrite E3, push_symbol_other.
  assert (M1 : macros s1 = snd im1) by (rewrite <- T; reflexivity).
  rewrite F3, F2, M1. unfold i1'.
  destruct (0 <? pline (rend (s_range y)) - line); reflexivity.
Qed.

Lemma run_of_reads v fuel s tr s1 fin : reads v fuel s tr s1 -> step v fuel s1 = Stop fin ->
  forall k, (List.length tr < k)%nat -> run k v fuel s = fin.
Proof.
  intros H Hs. induction H as [s|s t s1 s2 tr s3 Hf Hn _ IH]; intros k Hk.
  - destruct k; [cbn in Hk; lia|]. cbn [run]. rewrite Hs. reflexivity.
  - destruct k; [cbn in Hk; lia|]. cbn [run]. rewrite Hn. apply IH; [exact Hs|]. cbn in Hk. lia.
Qed.
Lemma run_to_reads v fuel n : forall s f, run n v fuel s = f -> f <> FFuel ->
  exists tr s1, reads v fuel s tr s1 /\ step v fuel s1 = Stop f /\ (List.length tr < n)%nat.
Proof.
  induction n as [|n IH]; intros s f H Hf; [exfalso; apply Hf; symmetry; exact H|].
  cbn [run] in H. destruct (step v fuel s) as [s'|f'] eqn:E.
  - destruct (IH _ _ H Hf) as (tr & s1 & A & B & C).
    unfold step in E. destruct (fetch s) as [[t s0]|] eqn:F; [|discriminate E].
    exists (Ev (t_sym t) s0 s' :: tr), s1. split; [|split; [exact B|cbn; lia]].
    eapply reads_cons; [exact F| |exact A]. unfold step. rewrite F. exact E.
  - subst f'. exists [], s. split; [constructor|]. split; [exact E|cbn; lia].
Qed.
