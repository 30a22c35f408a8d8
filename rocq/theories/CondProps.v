(** C16, C18: conditional compilation. *)
From Coq Require Import List ZArith Bool String Lia.
From Verif Require Import PreTypes MacroModel EvalModel EvalSpec EvalProofs PreModel PreLex PreSnapshots
  CondSpec CondProofs CondTextSpec CondTextProofs.
Import ListNotations.
Local Open Scope Z_scope.
Local Open Scope list_scope.

(** * C16 *)

(** However a run arrived at reading the symbols [tr], if their conditional directives are nested
    as the tree [f], a plain symbol is kept exactly when each chain around it selects its part, that
    is when it is in the first part whose condition holds or in the #else when none holds; a
    directive whose condition is not needed does not evaluate it. No condition on macros, includes
    or the other directives.
    Missing from the full statement: [tr] are the symbols the main loop reads. Directives that stand
    inside the arguments of a macro use are not read there (C16_refuted). *)
Theorem C16_first_branch_partial :
  forall v fuel i m syms tr s' f,
    reads v fuel (init_st i m syms) tr s' -> flat f = tr -> nested f ->
    selected (cond_holds v fuel) true f.
Proof. exact selected_run. Qed.
Print Assumptions C16_first_branch_partial.

(** At most one part of a chain is kept. *)
Fixpoint parts_kept (holds : event -> bool) (earlier cond : bool) (c : chain) : nat :=
  match c with
  | CLast _ _ => if negb earlier && cond then 1 else 0
  | CMore _ e others =>
      (if negb earlier && cond then 1 else 0) +
      parts_kept holds (earlier || cond) (branch_condition holds e) others
  end%nat.
Theorem C16_at_most_one :
  forall holds c cond, (parts_kept holds false cond c <= 1)%nat.
Proof.
  intros holds.
  assert (H1 : forall c cond, parts_kept holds true cond c = O).
  { induction c as [part e|part e others IH]; intros cond; simpl; [reflexivity|]. apply IH. }
  induction c as [part e|part e others IH]; intros cond; simpl; destruct cond; simpl; try lia.
  - rewrite H1. lia.
  - apply IH.
Qed.
Print Assumptions C16_at_most_one.

(** Inactive code leaves no trace: a symbol that is not kept defines, removes, includes, expands and
    reports nothing, writes nothing, and only the end of its line is kept. *)
Theorem C16_inactive_code_ignored :
  forall v fuel s t s1 s2,
    fetch s = Some (t, s1) -> step v fuel s = Next s2 -> skipping s1 = true ->
    conditional (s_kind (t_sym t)) = false ->
    macros s2 = macros s1 /\ lex s2 = lex s1 /\ estack s2 = estack s1 /\ offsets s2 = offsets s1 /\
    disabled s2 = disabled s1 /\ err_eval s2 = err_eval s1 /\ err_notfound s2 = err_notfound s1 /\
    err_include s2 = err_include s1 /\ idx s2 = idx s1 /\
    (if is_newline (s_kind (t_sym t))
     then out s2 = out s1 ++ [cur_line s1] /\ cur_line s2 = EmptyString
     else out s2 = out s1 /\ cur_line s2 = cur_line s1).
Proof. exact skipped_nothing. Qed.
Print Assumptions C16_inactive_code_ignored.

(** From source lines to output lines: a file [f] of lines, object-like #define, #undef and nested
    chains whose conditions are well-formed expressions on one line becomes exactly the lines that
    [renders] lists: kept lines as they are written, every other line empty. The macros known at the
    end are those of the kept directives.
    Missing from the full statement: macro uses outside of conditions, function-like macros,
    includes, conditions over several lines. *)
Theorem C16_text_partial :
  forall v d f d' ls ys eof i m,
    renders true d f d' ls -> Forall (plain d') ys -> fkind eof = KEof ->
    (forall x, d x = match mget m x with Some _ => true | None => false end) ->
    exists n, forall fuel, (n <= fuel)%nat -> exists s,
      run fuel v fuel (init_st i m (symbols f ++ ys ++ [eof])) = FResult s /\
      out s = ls ++ [whole_line ys eof] /\
      forall x, d' x = match mget (macros s) x with Some _ => true | None => false end.
Proof. exact renders_final. Qed.
Print Assumptions C16_text_partial.

(** C16 as stated is false: directives inside the arguments of a macro use. The #if has lost its
    condition when it is processed, and its #else is taken. *)
Theorem C16_refuted :
  exists s, preprocess snap_env 500 no_incs [] (lex_source
"#define F(%1) (%1)
int a = F(
#if 1
7
#else
8
#endif
);
") = FResult s /\ out s = ["#define F(%1) (%1)"; "int a = (8);"; ""]%string.
Proof. eexists. split; vm_compute; reflexivity. Qed.
Print Assumptions C16_refuted.

(** ** Cases *)

(** the events of a run, to write examples *)
Fixpoint trace (n : nat) (v : env) (fuel : nat) (s : st) : list event * st :=
  match n with
  | O => ([], s)
  | S n =>
      match fetch s, step v fuel s with
      | Some (t, s1), Next s2 => let (tr, s3) := trace n v fuel s2 in (Ev (t_sym t) s1 s2 :: tr, s3)
      | _, _ => ([], s)
      end
  end.
Lemma trace_reads v fuel : forall n s, reads v fuel s (fst (trace n v fuel s)) (snd (trace n v fuel s)).
Proof.
  induction n as [|n IH]; intros s; simpl; [constructor|].
  destruct (fetch s) as [[t s1]|] eqn:F; [|constructor].
  destruct (step v fuel s) as [s2|x] eqn:E; [|constructor].
  specialize (IH s2). destruct (trace n v fuel s2) as [tr s3]. econstructor; eassumption.
Qed.

(** the tree of a trace *)
Fixpoint parse (n : nat) (tr : list event) : forest * list event :=
  match n with
  | O => (FNil, tr)
  | S n =>
      match tr with
      | [] => (FNil, [])
      | e :: tl =>
          match s_kind (e_sym e) with
          | KDir MIf =>
              match parse_chain n tl with
              | Some (c, tl) => let (f, tl) := parse n tl in (FChain e c f, tl)
              | None => (FNil, tr)
              end
          | KDir MElse | KDir MElseif | KDir MEndif => (FNil, tr)
          | _ => let (f, tl) := parse n tl in (FPlain e f, tl)
          end
      end
  end
with parse_chain (n : nat) (tr : list event) : option (chain * list event) :=
  match n with
  | O => None
  | S n =>
      let (part, tl) := parse n tr in
      match tl with
      | [] => None
      | e :: tl =>
          match s_kind (e_sym e) with
          | KDir MEndif => Some (CLast part e, tl)
          | KDir MElse | KDir MElseif =>
              match parse_chain n tl with
              | Some (c, tl) => Some (CMore part e c, tl)
              | None => None
              end
          | _ => None
          end
      end
  end.

Definition c16_source : string :=
"#define ONE 1
#if ONE == 2
 alpha
#elseif defined TWO || ONE
 beta
 #if 0
  gamma
 #else
  delta
 #endif
#elseif 1/0
 epsilon
#else
 zeta
#endif
".
Definition c16_trace := fst (trace 60 snap_env 60 (init_st no_incs [] (lex_source c16_source))).
Definition c16_forest := fst (parse 60 c16_trace).
Definition kept_names (tr : list event) : list string :=
  map (fun e => s_text (e_sym e))
    (filter (fun e => kept e && kind_eqb (s_kind (e_sym e)) KIdent) tr).
(** The hypotheses of the first theorem are met by a file with two levels; the chain takes its
    second part, and the condition 1/0, which would crash, is not evaluated. *)
Example C16_nontrivial :
  reads snap_env 60 (init_st no_incs [] (lex_source c16_source)) c16_trace
    (snd (trace 60 snap_env 60 (init_st no_incs [] (lex_source c16_source)))) /\
  flat c16_forest = c16_trace /\ nested c16_forest /\
  List.length c16_trace = 29%nat /\ kept_names c16_trace = ["beta"; "delta"]%string.
Proof.
  split; [apply trace_reads|]. split; [vm_compute; reflexivity|].
  split; [vm_compute; intuition congruence|]. split; vm_compute; reflexivity.
Qed.

(** The hypotheses of [C16_text_partial], and the lines it gives. *)
Definition c16_text : string :=
"#if defined A
 x
#else
 y;
#endif
z".
Definition c16_syms : list fsym := Eval vm_compute in lex_source c16_text.
Definition c16_s (n : nat) : fsym :=
  nth n c16_syms (Sym KEof "" "" None (Rng (Pos 0 0) (Pos 0 0)) (Delta 0 0), false).
Definition c16_file : file :=
  LIf (c16_s 0) [c16_s 1; c16_s 2] (c16_s 3)
    (PElse (LLine [c16_s 4] (c16_s 5) LEnd) (c16_s 6) [] (c16_s 7)
      (PEndif (LLine [c16_s 8; c16_s 9] (c16_s 10) LEnd) (c16_s 11) [] (c16_s 12))) LEnd.
Example C16_text_nontrivial :
  (symbols c16_file ++ [c16_s 13; c16_s 14])%list = lex_source c16_text /\
  renders true (fun _ => false) c16_file (fun _ => false) [""; ""; ""; " y;"; ""]%string /\
  whole_line [c16_s 13] (c16_s 14) = "z"%string.
Proof.
  split; [reflexivity|]. split; [|reflexivity].
  eapply (rd_if _ _ _ _ _ _ _ _ false [""; ""; " y;"; ""]%string []); [reflexivity| | |constructor].
  - split; [repeat split; repeat constructor|]. split; [reflexivity|]. split; [reflexivity|].
    exists (EDefined "A"), 0. split; [apply (sp_defined (fst (c16_s 1)) (fst (c16_s 2))); reflexivity|].
    repeat split.
  - refine (rd_else true false false _ (fun _ => false) _ _ (c16_s 6) [] (c16_s 7) _ [""]%string [" y;"; ""]%string _ _ _ _ _);
      [| | |constructor|].
    + apply rd_line_off; [repeat constructor|reflexivity|constructor].
    + reflexivity.
    + reflexivity.
    + refine (rd_endif true false true _ _ _ (c16_s 11) [] (c16_s 12) [" y;"]%string _ _ _ _); [|reflexivity|reflexivity|constructor].
      apply (rd_line _ _ [c16_s 8; c16_s 9] (c16_s 10)); [repeat constructor|reflexivity|constructor].
Qed.

(** * C18 *)

(** The preprocessed text of [input] (lib.rs:173-199): the lines written, or after a failure the
    input itself; [None] when there is no result (panic or no end). *)
Definition result_text (input : string) (f : final) : option string :=
  match f with
  | FResult s => Some (join_lines (out s))
  | FError _ => Some input
  | FPanic | FFuel => None
  end.

Lemma reads_run v fuel s tr s' :
  reads v fuel s tr s' -> forall n, run (List.length tr + n) v fuel s = run n v fuel s'.
Proof.
  induction 1 as [s|s t s1 s2 tr s3 Hf Hs Hr IH]; intros n; [reflexivity|].
  simpl. rewrite Hs. apply IH.
Qed.
Lemma open_ifs_app : forall a b n,
  open_ifs n (a ++ b) = match open_ifs n a with Some k => open_ifs k b | None => None end.
Proof.
  induction a as [|k a IH]; intros b n; [reflexivity|].
  destruct k as [| [] | | | | | | | | | | | | | | | | | |]; simpl; try apply IH;
    destruct n; try reflexivity; apply IH.
Qed.

(** An #else, #elseif or #endif read while no #if is open makes preprocessing fail, and the text
    used is the input, whatever was read before. *)
Theorem C18_unbalanced_rejected :
  forall v fuel i m syms tr s t s1 n input,
    reads v fuel (init_st i m syms) tr s -> fetch s = Some (t, s1) ->
    open_ifs 0 (kinds tr ++ [s_kind (t_sym t)]) = None -> (List.length tr < n)%nat ->
    exists s', run n v fuel (init_st i m syms) = FError s' /\
      result_text input (run n v fuel (init_st i m syms)) = Some input.
Proof.
  intros v fuel i m syms tr s t s1 n input Hr Hf Ho Hn.
  pose proof (reads_open _ _ _ _ _ Hr) as Hc. cbn [conds init_st List.length] in Hc.
  rewrite open_ifs_app, Hc in Ho.
  assert (Hs1 : conds (record_arg t s1) = []).
  { rewrite record_conds, (fetch_conds _ _ _ Hf). destruct (conds s) as [|c l]; [reflexivity|].
    destruct (s_kind (t_sym t)) as [| [] | | | | | | | | | | | | | | | | | |]; discriminate Ho. }
  assert (Hsk : skipping s1 = false).
  { rewrite <- (skipping_conds _ _ (record_conds t s1)). unfold skipping. rewrite Hs1. reflexivity. }
  assert (Hst : exists s', step v fuel s = Stop (FError s')).
  { rewrite (step_fetched _ _ _ _ _ Hf), Hsk. unfold process_active.
    destruct (s_kind (t_sym t)) as [| [] | | | | | | | | | | | | | | | | | |];
      try (cbn in Ho; discriminate Ho); cbn [process_directive];
      unfold process_elseif, process_else, process_endif; rewrite Hs1; simpl; eexists; reflexivity. }
  destruct Hst as (s' & Hst). exists s'.
  assert (E : run n v fuel (init_st i m syms) = FError s').
  { replace n with (List.length tr + S (n - List.length tr - 1))%nat by lia.
    rewrite (reads_run _ _ _ _ _ Hr). cbn [run]. rewrite Hst. reflexivity. }
  rewrite E. split; reflexivity.
Qed.
Print Assumptions C18_unbalanced_rejected.

(** Otherwise a conditional directive never makes preprocessing fail. What remains is that its
    condition crashes or hangs the evaluation (C20).
    Missing from the full statement: that crash. *)
Theorem C18_balanced_accepted_partial :
  forall v fuel i m syms tr s t s1 f,
    reads v fuel (init_st i m syms) tr s -> fetch s = Some (t, s1) ->
    conditional (s_kind (t_sym t)) = true ->
    open_ifs 0 (kinds tr ++ [s_kind (t_sym t)]) <> None -> step v fuel s = Stop f ->
    (s_kind (t_sym t) = KDir MIf \/ s_kind (t_sym t) = KDir MElseif) /\
    let r := evaluate fuel (v_chk v) (macros s1) (disabled s1) (pline (rstart (s_range (t_sym t))))
               (fst (directive_symbols (lex s1))) in
    f = FPanic /\ r = EPanic \/ f = FFuel /\ r = EFuel.
Proof.
  intros v fuel i m syms tr s t s1 f Hr Hf Hk Ho Hs.
  pose proof (reads_open _ _ _ _ _ Hr) as Hc. cbn [conds init_st List.length] in Hc.
  rewrite open_ifs_app, Hc in Ho. rewrite <- (fetch_conds _ _ _ Hf) in Ho.
  rewrite (step_fetched _ _ _ _ _ Hf) in Hs. rewrite <- (record_conds t s1) in Ho.
  assert (Hif : forall s0 y, macros s0 = macros s1 -> disabled s0 = disabled s1 -> lex s0 = lex s1 ->
    process_if v fuel y s0 = Stop f ->
    let r := evaluate fuel (v_chk v) (macros s1) (disabled s1) (pline (rstart (s_range y)))
               (fst (directive_symbols (lex s1))) in
    f = FPanic /\ r = EPanic \/ f = FFuel /\ r = EFuel).
  { intros s0 y E1 E2 E3. rewrite <- E1, <- E2, <- E3. unfold process_if. cbv zeta.
    destruct (directive_symbols (lex s0)) as [ys l]. cbn [fst macros disabled set_lex].
    destruct (evaluate _ _ _ _ _ _); try (destruct (rev ys); discriminate);
      intros E; injection E as <-; [left|right]; split; reflexivity. }
  assert (E1 : macros (record_arg t s1) = macros s1) by (unfold record_arg; destruct (t_orig t); reflexivity).
  assert (E2 : disabled (record_arg t s1) = disabled s1) by (unfold record_arg; destruct (t_orig t); reflexivity).
  assert (E3 : lex (record_arg t s1) = lex s1) by (unfold record_arg; destruct (t_orig t); reflexivity).
  assert (Helif : forall y, process_elseif v fuel y (record_arg t s1) = Stop f -> conds (record_arg t s1) <> [] ->
    let r := evaluate fuel (v_chk v) (macros s1) (disabled s1) (pline (rstart (s_range y)))
               (fst (directive_symbols (lex s1))) in
    f = FPanic /\ r = EPanic \/ f = FFuel /\ r = EFuel).
  { intros y. unfold process_elseif. destruct (conds (record_arg t s1)) as [|[| |] c]; try discriminate; try congruence.
    intros H _. eapply Hif; [| | |exact H]; assumption. }
  assert (Hne : conds (record_arg t s1) <> [] \/ s_kind (t_sym t) = KDir MIf).
  { destruct (s_kind (t_sym t)) as [| [] | | | | | | | | | | | | | | | | | |]; try discriminate Hk;
      try (right; reflexivity); left; intros E; rewrite E in Ho; apply Ho; reflexivity. }
  destruct (skipping s1).
  - unfold process_negative in Hs.
    destruct (s_kind (t_sym t)) as [| [] | | | | | | | | | | | | | | | | | |]; try discriminate Hk.
    + discriminate Hs.
    + split; [right; reflexivity|]. apply Helif; [exact Hs|]. destruct Hne as [H|H]; [exact H|discriminate H].
    + destruct Hne as [H|H]; [|discriminate H]. unfold process_else in Hs.
      destruct (conds (record_arg t s1)) as [|[| |] c]; [congruence| | |]; discriminate Hs.
    + destruct Hne as [H|H]; [|discriminate H]. unfold process_endif in Hs.
      destruct (conds (record_arg t s1)) as [|c0 [|[| |] c]]; [congruence| | | |]; discriminate Hs.
  - unfold process_active in Hs.
    destruct (s_kind (t_sym t)) as [| [] | | | | | | | | | | | | | | | | | |]; try discriminate Hk;
      cbn [process_directive] in Hs.
    + split; [left; reflexivity|]. eapply Hif; [| | |exact Hs]; assumption.
    + split; [right; reflexivity|]. apply Helif; [exact Hs|]. destruct Hne as [H|H]; [exact H|discriminate H].
    + destruct Hne as [H|H]; [|discriminate H]. unfold process_else in Hs.
      destruct (conds (record_arg t s1)) as [|[| |] c]; [congruence| | |]; discriminate Hs.
    + destruct Hne as [H|H]; [|discriminate H]. unfold process_endif in Hs.
      destruct (conds (record_arg t s1)) as [|c0 [|[| |] c]]; [congruence| | | |]; discriminate Hs.
Qed.
Print Assumptions C18_balanced_accepted_partial.

(** Every failure has one of four causes, of which only the last is a conditional directive. *)
Definition failure_cause (tr : list event) (t : token) : Prop :=
  t_kind t = KUnknown \/ t_kind t = KDir MDefine \/ t_kind t = KIdent \/
  open_ifs 0 (kinds tr ++ [t_kind t]) = None.
Theorem C18_failures :
  forall v fuel i m syms n s',
    run n v fuel (init_st i m syms) = FError s' ->
    exists tr s t s1,
      reads v fuel (init_st i m syms) tr s /\ fetch s = Some (t, s1) /\ failure_cause tr t.
Proof.
  intros v fuel i m syms n s'.
  assert (G : forall n s, run n v fuel s = FError s' ->
    exists tr s2 t s1 s3, reads v fuel s tr s2 /\ fetch s2 = Some (t, s1) /\ step v fuel s2 = Stop (FError s3)).
  { clear n. induction n as [|n IH]; intros s H; [discriminate H|]. cbn [run] in H.
    destruct (step v fuel s) as [s2|x] eqn:E.
    - destruct (IH _ H) as (tr & s3 & t & s1 & s4 & Hr & Hf & Hs).
      destruct (fetch s) as [[t0 s0]|] eqn:F.
      + exists (Ev (t_sym t0) s0 s2 :: tr), s3, t, s1, s4. split; [econstructor; eassumption|]. split; assumption.
      + unfold step in E. rewrite F in E. discriminate E.
    - subst x. destruct (fetch s) as [[t0 s0]|] eqn:F.
      + exists [], s, t0, s0, s'. split; [constructor|]. split; assumption.
      + unfold step in E. rewrite F in E. discriminate E. }
  intros H. destruct (G _ _ H) as (tr & s & t & s1 & s3 & Hr & Hf & Hs).
  exists tr, s, t, s1. split; [exact Hr|]. split; [exact Hf|]. unfold failure_cause, t_kind.
  destruct (conditional (s_kind (t_sym t))) eqn:Hk.
  - right; right; right. destruct (open_ifs 0 (kinds tr ++ [s_kind (t_sym t)])) eqn:O; [|reflexivity].
    exfalso. pose proof (C18_balanced_accepted_partial _ _ _ _ _ _ _ _ _ (FError s3) Hr Hf Hk) as X.
    rewrite O in X. specialize (X ltac:(discriminate) Hs). destruct X as (_ & [[X _]|[X _]]); discriminate X.
  - rewrite (step_fetched _ _ _ _ _ Hf) in Hs. destruct (skipping s1).
    + exfalso. unfold process_negative in Hs.
      destruct (s_kind (t_sym t)) as [| [] | | | | | | | | | | | | | | | | | |]; try discriminate Hk; discriminate Hs.
    + unfold process_active in Hs.
      destruct (s_kind (t_sym t)) as [| [] | | | | | | | | | | | | | | | | | |]; try discriminate Hk;
        try (left; reflexivity); try (right; left; reflexivity); try (right; right; left; reflexivity);
        exfalso; try discriminate Hs.
      * cbn [process_directive] in Hs. unfold process_undef in Hs.
        assert (U : forall rest q, undef_loop rest q <> Stop (FError s3)).
        { induction rest as [|[y pp] tl IH]; intros q; simpl; [discriminate|].
          destruct (kind_eqb _ _); [discriminate|]. destruct pp; [apply IH|discriminate]. }
        destruct (lx_pp _); [exact (U _ _ Hs)|discriminate Hs].
      * destruct (intr _) as [[]|]; discriminate Hs.
      * destruct (intr _) as [[]|]; discriminate Hs.
Qed.
Print Assumptions C18_failures.

(** A stray #endif after a complete chain: the text stays as it was. *)
Definition c18_source : string :=
"#define X 1
#if X
int a = X;
#endif
#endif
int b = X;
".
Example C18_nontrivial :
  let tr := fst (trace 60 snap_env 60 (init_st no_incs [] (lex_source c18_source))) in
  let s := snd (trace 60 snap_env 60 (init_st no_incs [] (lex_source c18_source))) in
  exists t s1, fetch s = Some (t, s1) /\ List.length tr = 11%nat /\
    open_ifs 0 (kinds tr ++ [s_kind (t_sym t)]) = None /\ open_ifs 0 (kinds tr) = Some O.
Proof.
  eexists _, _. split; [vm_compute; reflexivity|].
  split; [vm_compute; reflexivity|]. split; vm_compute; reflexivity.
Qed.
(** and without the stray directive the use of X is expanded *)
Example C18_balanced_nontrivial :
  exists s, preprocess snap_env 60 no_incs [] (lex_source
"#define X 1
#if X
int a = X;
#endif
#if 0
") = FResult s /\ out s = ["#define X 1"; ""; "int a = 1;"; ""; ""]%string.
Proof. eexists. split; vm_compute; reflexivity. Qed.
