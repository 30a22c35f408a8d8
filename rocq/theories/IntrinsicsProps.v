(** C75: [using __intrinsics__.Handle;] becomes the declaration of [Handle], and other code is copied. *)
From Coq Require Import List ZArith Bool String Ascii Lia.
From Verif Require Import PreTypes MacroModel EvalModel PreModel PreLex PreSnapshots CondSpec IntrinsicsSpec.
From Verif Require PosRun MacroUseProps.
Import ListNotations.
Local Open Scope list_scope.

Lemma push_symbol_intr : forall y s, intr (push_symbol y s) = intr s.
Proof. intros y s. unfold push_symbol. destruct (s_kind y); reflexivity. Qed.
Lemma echo_intr : forall y s, intr (echo y s) = intr s.
Proof. intros y s. unfold echo. destruct (s_kind y); reflexivity. Qed.
Lemma if_intr : forall v fuel y s s', process_if v fuel y s = Next s' -> intr s' = intr s.
Proof.
  intros v fuel y s s'. unfold process_if. destruct (directive_symbols (lex s)) as [syms l]. cbv zeta.
  destruct (evaluate _ _ _ _ _ _) as [b offs dis|r nf offs dis| |]; try discriminate.
  - destruct b, (rev syms); intros H; injection H as <-; reflexivity.
  - destruct (rev syms); intros H; injection H as <-; reflexivity.
Qed.
Lemma else_intr : forall y s s', opt_step s (process_else y s) = Next s' -> intr s' = intr s.
Proof. intros y s s'. unfold process_else. destruct (conds s) as [|[] tl]; intros H; try discriminate; injection H as <-; reflexivity. Qed.
Lemma endif_intr : forall y s s', opt_step s (process_endif y s) = Next s' -> intr s' = intr s.
Proof. intros y s s'. unfold process_endif. destruct (conds s) as [|c [|[] tl]]; intros H; try discriminate; injection H as <-; reflexivity. Qed.
Lemma elseif_intr : forall v fuel y s s', process_elseif v fuel y s = Next s' -> intr s' = intr s.
Proof.
  intros v fuel y s s'. unfold process_elseif. destruct (conds s) as [|[] tl]; intros H; try discriminate; try (injection H as <-; reflexivity).
  apply if_intr in H. exact H.
Qed.
Lemma define_intr : forall v y s s', process_define v y s = Next s' -> intr s' = intr s.
Proof.
  intros v y s s'. unfold process_define. destruct (lx_pp _); [|intros H; injection H as <-; apply (push_symbol_intr y s)].
  rewrite <- (push_symbol_intr y s). generalize (push_symbol y s) as s0, def0 as d. intros s0. generalize (lx_rest (lex s0)) as l. intros l d. revert s0 d.
  induction l as [|[z pp] l IH]; intros s0 d; cbn [define_loop]; [discriminate|].
  assert (G : forall s1, intr s1 = intr s0 -> match match define_symbol z d with None => DBail s1 | Some d' => if pp then define_loop l d' s1 else DOk d' s1 end with
     | DOk d0 s2 => Next (define_finish v d0 s2) | DBail s2 => Stop (FError s2) | DHang => Stop FFuel end = Next s' -> intr s' = intr s0).
  { intros s1 E. destruct (define_symbol z d) as [d'|]; [|discriminate]. destruct pp.
    - intros H. rewrite <- E. exact (IH s1 d' H).
    - intros H. injection H as <-. unfold define_finish. destruct (d_found d'); exact E. }
  destruct (s_kind z) eqn:K; try (apply G; rewrite echo_intr; reflexivity).
  intros H. injection H as <-. unfold define_finish. destruct (d_found d); reflexivity.
Qed.
Lemma undef_intr : forall y s s', process_undef y s = Next s' -> intr s' = intr s.
Proof.
  intros y s s'. unfold process_undef. rewrite <- (push_symbol_intr y s). generalize (push_symbol y s) as s0. intros s0.
  destruct (lx_pp (lex s0)); [|intros H; injection H as <-; reflexivity]. generalize (lx_rest (lex s0)) as l. intros l. revert s0.
  induction l as [|[z pp] l IH]; intros s0; cbn [undef_loop]; [discriminate|].
  destruct (kind_eqb (s_kind z) KIdent); [intros H; injection H as <-; exact (echo_intr z _)|].
  destruct pp; [|intros H; injection H as <-; exact (echo_intr z _)]. intros H. apply IH in H. rewrite H. exact (echo_intr z _).
Qed.
Lemma include_intr : forall v y b s, intr (process_include v y b s) = intr s.
Proof.
  intros v y b s. assert (P : forall o q l s0, intr (include_path v o q b l s0) = intr s0).
  { intros o q l s0. unfold include_path. destruct o as [p|]; [|reflexivity]. destruct (v_inc v (incs s0) (macros s0) p q) as [[i m] ok]. destruct (ok || b); reflexivity. }
  unfold process_include. destruct (0 <? _)%Z.
  - change (intr (push_symbol (Sym (s_kind y) (v_trim v (s_inline y)) (v_trim v (s_inline y)) (s_int y) (s_range y) (s_delta y))
      (include_path v (v_quote v (v_trim v (s_inline y))) true b (pline (rstart (s_range y)))
         (include_path v (v_chevron v (v_trim v (s_inline y))) false b (pline (rstart (s_range y))) s))) = intr s). rewrite push_symbol_intr, !P. reflexivity.
  - rewrite push_symbol_intr, !P. reflexivity.
Qed.
Lemma directive_intr : forall v fuel d y s s', process_directive v fuel d y s = Next s' -> intr s' = intr s.
Proof.
  intros v fuel d y s s'. destruct d; cbn [process_directive]; intros H.
  all: first [exact (if_intr _ _ _ _ _ H) | exact (elseif_intr _ _ _ _ _ H) | exact (else_intr _ _ _ H) | exact (endif_intr _ _ _ H) | exact (define_intr _ _ _ _ H)
    | exact (undef_intr _ _ _ H) | injection H as <-; apply include_intr | injection H as <-; apply push_symbol_intr].
Qed.
Lemma negative_intr : forall v fuel y s s', process_negative v fuel y s = Next s' -> intr s' = intr s.
Proof.
  intros v fuel y s s'. unfold process_negative. destruct (s_kind y) eqn:K; intros H; try (injection H as <-; reflexivity).
  match type of K with _ = KDir ?d => destruct d end; try (injection H as <-; reflexivity).
  all: first [exact (elseif_intr _ _ _ _ _ H) | exact (else_intr _ _ _ H) | exact (endif_intr _ _ _ H)].
Qed.
Lemma fetch_intr : forall s t s1, fetch s = Some (t, s1) -> intr s1 = intr s.
Proof.
  intros s t s1. unfold fetch. destruct (estack s); [|intros H; injection H as <- <-; reflexivity].
  destruct (lex_next (lex s)) as [[y l]|]; [|discriminate]. destruct (exp_sym s) as [[es [i f]]|]; intros H; injection H as <- <-; reflexivity.
Qed.
Lemma record_same : forall t s, intr (record_arg t s) = intr s /\ skipping (record_arg t s) = skipping s /\ macros (record_arg t s) = macros s /\ cur_line (record_arg t s) = cur_line s.
Proof. intros t s. unfold record_arg. destruct (t_orig t); auto. Qed.

Lemma active_intr : forall v fuel t s s', process_active v fuel t s = Next s' -> intr s = None -> s_kind (t_sym t) <> KUsing -> intr s' = None.
Proof.
  intros v fuel t s s' H I K. unfold process_active in H. rewrite I in H.
  destruct (s_kind (t_sym t)); try (exfalso; apply K; reflexivity); try discriminate H; try (injection H as <-; rewrite ?push_symbol_intr; try exact I; reflexivity).
  - rewrite (directive_intr _ _ _ _ _ _ H). exact I.
  - destruct (mget (macros s) (s_text (t_sym t))) as [m|]; [|injection H as <-; rewrite push_symbol_intr; exact I].
    destruct (dmem m (disabled s)); [injection H as <-; rewrite push_symbol_intr; exact I|].
    destruct (expand_identifier _ _ _ _ _ _); try discriminate H. injection H as <-. exact I.
Qed.

(** Where the word [using] is not read, dots, semicolons and names are copied. *)
Theorem C75_untouched : forall v fuel s tr s', reads v fuel s tr s' -> intr s = None -> no_using tr ->
  intr s' = None /\ forall e, In e tr -> kept e = true -> ordinary e -> written e.
Proof.
  intros v fuel s tr s' R. induction R as [s|s t s1 s2 tr s3 F S _ IH]; intros I N; [split; [exact I|intros e []]|].
  apply Forall_cons_iff in N as (N1 & N). pose proof (fetch_intr _ _ _ F) as I1. rewrite I in I1.
  destruct (record_same t s1) as (R1 & R2 & R3 & R4). rewrite I1 in R1. unfold step in S. rewrite F in S. rewrite R2 in S.
  assert (I2 : intr s2 = None).
  { destruct (skipping s1) eqn:Sk; [rewrite (negative_intr _ _ _ _ _ S); exact R1|]. apply (active_intr _ _ _ _ _ S R1). apply N1. unfold kept. cbn. rewrite Sk. reflexivity. }
  destruct (IH I2 N) as (I3 & W). split; [exact I3|]. intros e [<-|E] K O; [|exact (W e E K O)].
  unfold kept in K. cbn [e_before] in K. destruct (skipping s1); [discriminate K|].
  assert (P : forall s', cur_line s' = cur_line s1 -> s_kind (t_sym t) <> KEof -> written (Ev (t_sym t) s1 (push_symbol (t_sym t) s'))).
  { intros s' C Ke. unfold written. cbn [e_after e_before e_sym]. rewrite (proj2 (proj2 (MacroUseProps.push_symbol_same (t_sym t) s' Ke))), C. reflexivity. }
  unfold ordinary in O. cbn [e_sym e_before] in O. unfold process_active in S. rewrite R1 in S.
  destruct O as [O|[O|[O M]]]; rewrite O in S.
  - injection S as <-. apply P; [exact R4|rewrite O; discriminate].
  - injection S as <-. apply P; [exact R4|rewrite O; discriminate].
  - rewrite R3, M in S. injection S as <-. apply P; [exact R4|rewrite O; discriminate].
Qed.
Print Assumptions C75_untouched.

Lemma one : forall v fuel s y pp r q s2 tr s3, estack s = [] -> exp_sym s = None -> skipping s = false -> lex s = Lex ((y, pp) :: r) q ->
  process_active v fuel (tok y) (set_lex (Lex r pp) s) = Next s2 -> reads v fuel s2 tr s3 ->
  exists e, reads v fuel s (e :: tr) s3 /\ e_sym e = y.
Proof.
  intros v fuel s y pp r q s2 tr s3 E X Sk L P R.
  assert (F : fetch s = Some (tok y, set_lex (Lex r pp) s)).
  { unfold fetch, lex_next. rewrite E, L, X. destruct s. cbn in X. subst. reflexivity. }
  exists (Ev y (set_lex (Lex r pp) s) s2). split; [|reflexivity]. apply (reads_cons v fuel s (tok y)) with (s2 := s2); [exact F| |exact R].
  unfold step. rewrite F. change (record_arg (tok y) (set_lex (Lex r pp) s)) with (set_lex (Lex r pp) s).
  replace (skipping (set_lex (Lex r pp) s)) with false by (symmetry; exact Sk). exact P.
Qed.
Lemma empty_end : forall w : string, (w ++ "")%string = w.
Proof. induction w; cbn; congruence. Qed.

(** The line itself: the declaration is written in its place, and nothing else changes. *)
Theorem C75_declared : forall v fuel s l x rest pps, estack s = [] -> exp_sym s = None -> skipping s = false -> intr s = None ->
  intrinsics_line l x -> List.length pps = 5%nat -> lx_rest (lex s) = combine l pps ++ rest ->
  exists tr, reads v fuel s tr (push_text (stands_for x) (set_lex (Lex rest (last pps false)) s)) /\ map e_sym tr = l.
Proof.
  intros v fuel s l x rest pps E X Sk I (Ks & y & Y & <-) Lp L.
  destruct l as [|y1 [|y2 [|y3 [|y4 [|y5 [|? ?]]]]]]; try discriminate Ks. injection Ks as K1 K2 K3 K4 K5. cbn in Y. injection Y as ->.
  destruct pps as [|p1 [|p2 [|p3 [|p4 [|p5 [|? ?]]]]]]; try discriminate Lp. cbn [combine app last] in *.
  set (r4 := (y5, p5) :: rest) in *. set (r3 := (y, p4) :: r4) in *. set (r2 := (y3, p3) :: r3) in *. set (r1 := (y2, p2) :: r2) in *.
  set (s1 := set_intr (Some IUsing) (set_lex (Lex r1 p1) s)).
  set (s2 := set_intr (Some IIntrinsics) (set_lex (Lex r2 p2) s1)).
  set (s3 := set_intr (Some IDot) (set_lex (Lex r3 p3) s2)).
  set (s4 := set_intr (Some IHandle) (push_text (stands_for (s_text y)) (set_lex (Lex r4 p4) s3))).
  set (s5 := set_intr None (set_lex (Lex rest p5) s4)).
  assert (Z : s5 = push_text (stands_for (s_text y)) (set_lex (Lex rest p5) s)) by (unfold s5; destruct s; cbn in I; subst; reflexivity). rewrite <- Z.
  assert (P5 : process_active v fuel (tok y5) (set_lex (Lex rest p5) s4) = Next s5) by (unfold process_active; cbn [tok t_sym]; rewrite K5; reflexivity).
  assert (P4 : process_active v fuel (tok y) (set_lex (Lex r4 p4) s3) = Next s4).
  { unfold process_active. cbn [tok t_sym]. rewrite K4. cbn [intr s3 set_intr set_lex]. unfold s4, stands_for. destruct (String.eqb (s_text y) "Handle"); [reflexivity|].
    unfold push_text. rewrite empty_end. destruct s; reflexivity. }
  assert (P3 : process_active v fuel (tok y3) (set_lex (Lex r3 p3) s2) = Next s3) by (unfold process_active; cbn [tok t_sym]; rewrite K3; reflexivity).
  assert (P2 : process_active v fuel (tok y2) (set_lex (Lex r2 p2) s1) = Next s2) by (unfold process_active; cbn [tok t_sym]; rewrite K2; reflexivity).
  assert (P1 : process_active v fuel (tok y1) (set_lex (Lex r1 p1) s) = Next s1) by (unfold process_active; cbn [tok t_sym]; rewrite K1; cbn [intr set_lex]; rewrite I; reflexivity).
  assert (L0 : lex s = Lex ((y1, p1) :: r1) (lx_pp (lex s))) by (rewrite <- L; destruct (lex s); reflexivity).
  destruct (one v fuel s4 y5 p5 rest p4 s5 [] s5 E X Sk eq_refl P5 (reads_nil v fuel s5)) as (e5 & R5 & Q5).
  destruct (one v fuel s3 y p4 r4 p3 s4 _ s5 E X Sk eq_refl P4 R5) as (e4 & R4 & Q4).
  destruct (one v fuel s2 y3 p3 r3 p2 s3 _ s5 E X Sk eq_refl P3 R4) as (e3 & R3 & Q3).
  destruct (one v fuel s1 y2 p2 r2 p1 s2 _ s5 E X Sk eq_refl P2 R3) as (e2 & R2 & Q2).
  destruct (one v fuel s y1 p1 r1 _ s1 _ s5 E X Sk L0 P1 R2) as (e1 & R1 & Q1).
  eexists. split; [exact R1|]. cbn [map]. congruence.
Qed.
Print Assumptions C75_declared.

(** * Concrete cases *)
Example C75_nontrivial :
  preprocessed "using __intrinsics__.Handle;
a.b;" = Some (builtin_handle ++ "
a.b;")%string /\
  preprocessed "using __intrinsics__.Other;
a.b;" = Some "
a.b;"%string.
Proof. vm_compute. auto. Qed.
Definition line_state : st := init_st no_incs [] (lex_source "using __intrinsics__.Handle;
a.b;").
Example C75_declared_nontrivial : exists l pps rest, intrinsics_line l "Handle" /\ List.length pps = 5%nat /\ lx_rest (lex line_state) = combine l pps ++ rest.
Proof.
  exists (map fst (firstn 5 (lx_rest (lex line_state)))), (map snd (firstn 5 (lx_rest (lex line_state)))), (skipn 5 (lx_rest (lex line_state))).
  split; [split; [vm_compute; reflexivity|eexists; split; vm_compute; reflexivity]|]. split; vm_compute; reflexivity.
Qed.

(** The places behind the line are not recorded: x, in column 33 of the editor and 89 of the text, stays in column 33. *)
Theorem C75_position_refuted :
  let src := "using __intrinsics__.Handle; int x;"%string in
  preprocessed src = Some (builtin_handle ++ " int x;")%string /\ PosRun.mapped src 0 33 = Some (Pos 0 33).
Proof. vm_compute. auto. Qed.
Print Assumptions C75_position_refuted.
(** The words count wherever they are: [using] and [__intrinsics__] go, and after them the name behind the next dot and the next semicolon. *)
Theorem C75_words_refuted :
  preprocessed "using x; a.b;" = Some " x; a.b;"%string /\
  preprocessed "using __intrinsics__ x = a.b + 1; c;" = Some " x = a + 1 c;"%string.
Proof. vm_compute. auto. Qed.
Print Assumptions C75_words_refuted.
