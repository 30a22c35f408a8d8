(** C17: preprocessing keeps line numbers. *)
From Coq Require Import List ZArith Bool String Ascii Lia.
From Verif Require Import PreTypes MacroModel EvalModel PreModel PreLex PreSnapshots CondSpec CondProofs PreEvents PreSim LinesSpec LinesExpand LinesProofs.
Import ListNotations.
Local Open Scope list_scope.

(** At any moment of a run over a file that keeps to the rules of [keeps_lines], the next symbol of
    the file is about to be written on the line it stands on. *)
Theorem C17_lines_kept_partial :
  forall v fuel i m syms tr s y pp rest,
    fine_env v -> fine_macros m -> lexed 0 false syms ->
    reads v fuel (init_st i m syms) tr s -> all_keep_lines true tr ->
    no_pending s = true -> lx_rest (lex s) = (y, pp) :: rest ->
    Z.of_nat (written s) = pline (rstart (s_range y)).
Proof.
  intros v fuel i m syms tr s y pp rest V Hm Hl Hr Hk Hn Hy.
  destruct (reads_lines _ _ _ _ _ _ V Hr (init_lines i m syms Hm Hl) Hk) as [_ _ L].
  destruct L as (_ & p & L); [rewrite Hy; discriminate|]. rewrite Hy in L. apply lexed_cons in L. destruct L as (L & _).
  unfold no_pending in Hn. destruct (estack s); [|discriminate]. rewrite written_wr, L. change (nls []) with 0%nat. lia.
Qed.
Print Assumptions C17_lines_kept_partial.

(** The run ends where a file should: at the end of the file in active code, or at the end of the
    file in a #define. *)
Definition ends_in_code (tr : list event) (s : st) : Prop :=
  no_pending s = true /\
  ((exists y pp, lx_rest (lex s) = [(y, pp)] /\ skipping s = false) \/
   (lx_rest (lex s) = [] /\ exists tr' e, tr = tr' ++ [e] /\ kept e = true /\ s_kind (e_sym e) = KDir MDefine)).

Lemma reads_snoc v fuel s tr e s' : reads v fuel s (tr ++ [e]) s' ->
  exists s0 t s1, reads v fuel s tr s0 /\ fetch s0 = Some (t, s1) /\ step v fuel s0 = Next s' /\ e = Ev (t_sym t) s1 s'.
Proof.
  revert s. induction tr as [|e0 tr IH]; intros s H; cbn [app] in H; inversion H as [|? t s1 s2 ? ? Hf Hs Hr]; subst.
  - inversion Hr; subst. exists s, t, s1. repeat split; auto. constructor.
  - destruct (IH _ Hr) as (s0 & t' & s1' & A & B & C & D). exists s0, t', s1'. repeat split; auto. econstructor; eauto.
Qed.
Lemma all_keep_snoc tr : forall b v fuel s e s', reads v fuel s (tr ++ [e]) s' -> b = no_pending s -> all_keep_lines b (tr ++ [e]) ->
  exists s0 t s1, reads v fuel s tr s0 /\ fetch s0 = Some (t, s1) /\ step v fuel s0 = Next s' /\ e = Ev (t_sym t) s1 s' /\
    all_keep_lines b tr /\ keeps_lines (no_pending s0) e.
Proof.
  induction tr as [|e0 tr IH]; intros b v fuel s e s' H -> Hk; cbn [app] in H; inversion H as [|? t s1 s2 ? ? Hf Hs Hr]; subst.
  - inversion Hr; subst. exists s, t, s1. destruct Hk as [Hk _]. repeat split; auto. constructor. exact (proj1 Hk). exact (proj2 Hk).
  - destruct Hk as [Hk1 Hk2]. cbn [e_after] in Hk2.
    destruct (IH _ _ _ _ _ _ Hr eq_refl Hk2) as (s0 & t' & s1' & A & B & C & D & E & F).
    exists s0, t', s1'. split; [econstructor; eauto|]. split; [exact B|]. split; [exact C|]. split; [exact D|].
    split; [|exact F]. split; [exact Hk1|exact E].
Qed.

(** Such a file has as many lines after preprocessing as before.
    Missing from the full statement: the files that do not keep to the rules (C17_..._refuted). *)
Theorem C17_same_line_count_partial :
  forall v fuel n i m syms s',
    fine_env v -> fine_macros m -> lexed 0 false syms ->
    run n v fuel (init_st i m syms) = FResult s' ->
    exists tr s, reads v fuel (init_st i m syms) tr s /\ step v fuel s = Stop (FResult s') /\
      (all_keep_lines true tr -> ends_in_code tr s ->
       newlines (join_lines (out s')) = source_newlines syms).
Proof.
  intros v fuel n i m syms s' V Hm Hl Hrun.
  destruct (run_to_reads v fuel n _ _ Hrun) as (tr & s & Hr & Hs & _); [discriminate|].
  exists tr, s. split; [exact Hr|]. split; [exact Hs|]. intros Hk [Hn Hend].
  pose proof (init_lines i m syms Hm Hl) as I0.
  pose proof (reads_lines _ _ _ _ _ _ V Hr I0 Hk) as I. set (N := source_newlines syms) in *.
  unfold no_pending in Hn. destruct (estack s) eqn:Es; [|discriminate].
  destruct Hend as [(y & pp & Hy & Sk)|(Hy & tr' & e & -> & Ke & Kk)].
  - destruct I as [_ _ L]. destruct L as (L1 & p & L2); [rewrite Hy; discriminate|].
    rewrite Hy, Es in L1, L2. apply lexed_cons in L2. destruct L2 as (_ & _ & _ & [(K & _ & T)|(_ & [] & _)]).
    rewrite src_cons, T in L1. change (nls []) with 0%nat in L1. change (newlines EmptyString) with 0%nat in L1. change (src []) with 0%nat in L1.
    assert (G : exists sx, fetch s = Some (tok y, sx) /\ out sx = out s /\ cur_line sx = cur_line s /\ conds sx = conds s).
    { unfold fetch, lex_next. rewrite Es, Hy. destruct (exp_sym s) as [[es [a b]]|]; eexists; (split; [reflexivity|]); cbn; auto. }
    destruct G as (sx & G1 & G2 & G3 & G4). rewrite (step_fetched _ _ _ _ _ G1) in Hs.
    assert (Sx : skipping sx = false) by (unfold skipping in *; rewrite G4; exact Sk). rewrite Sx in Hs.
    unfold process_active in Hs. cbn [tok t_sym] in Hs. rewrite K in Hs. injection Hs as <-.
    change (out (push_current_line (push_ws y (record_arg (tok y) sx)))) with (out sx ++ [cur_line (push_ws y sx)]).
    rewrite join_newlines, G2.
    pose proof (wr_push_ws y sx) as W. unfold wr in W, L1. change (out (push_ws y sx)) with (out sx) in W. rewrite G2, G3 in W. lia.
  - destruct (all_keep_snoc _ _ _ _ _ _ _ Hr eq_refl Hk) as (s0 & t & s1 & A & B & C & D & E & F).
    pose proof (reads_lines _ _ _ _ _ _ V A I0 E) as I1. subst e.
    destruct (step_lines _ _ _ _ _ _ _ V I1 B C F) as [_ X].
    unfold kept in Ke. cbn [e_before e_sym] in *. destruct (skipping s1); [discriminate Ke|].
    destruct (X eq_refl Kk Hy) as [X1 X2].
    unfold step, fetch in Hs. rewrite Es in Hs. unfold lex_next in Hs. rewrite Hy in Hs. injection Hs as <-.
    change (out (set_exp_sym None s)) with (out s). unfold wr in X1. rewrite X2 in X1. change (newlines EmptyString) with 0%nat in X1.
    destruct (exists_last (l := out s)) as (l & c & El).
    { intros El. rewrite El in X1. cbn in X1. discriminate. }
    rewrite El in *. rewrite join_newlines. rewrite app_length, sumnl_app, sumnl_cons in X1. cbn [List.length] in X1. change (sumnl []) with 0%nat in X1. lia.
Qed.
Print Assumptions C17_same_line_count_partial.

(** A file whose preprocessing fails is handed on as it is: nothing to prove for it. *)

(** * A file that keeps to the rules *)
Fixpoint trace (n : nat) (v : env) (fuel : nat) (s : st) : list event * st :=
  match n with
  | O => ([], s)
  | S n =>
      match fetch s, step v fuel s with
      | Some (t, s1), Next s2 => let (tr, s3) := trace n v fuel s2 in (Ev (t_sym t) s1 s2 :: tr, s3)
      | _, _ => ([], s)
      end
  end.
Lemma trace_reads v fuel n : forall s, reads v fuel s (fst (trace n v fuel s)) (snd (trace n v fuel s)).
Proof.
  induction n as [|n IH]; intros s; [constructor|]. cbn [trace].
  destruct (fetch s) as [[t s1]|] eqn:E; [|constructor]. destruct (step v fuel s) as [s2|] eqn:F; [|constructor].
  specialize (IH s2). destruct (trace n v fuel s2) as [tr s3]. cbn [fst snd] in *. econstructor; eauto.
Qed.

Definition keepsb (fresh : bool) (e : event) : bool :=
  match s_kind (e_sym e) with KDir _ => fresh | _ => true end &&
  if kept e then
    match s_kind (e_sym e) with
    | KDir MUndef => forallb (fun y => negb (kind_eqb (s_kind y) KNewline)) (taken e)
    | KDir MDefine => forallb (fun y => kind_eqb (s_kind y) KNewline || Nat.eqb (newlines (s_inline y)) 0) (taken e)
    | KIdent => forallb (fun y => Nat.eqb (newlines (s_text y)) 0) (removelast (taken e))
    | _ => true
    end
  else kind_eqb (s_kind (e_sym e)) KNewline || Nat.eqb (newlines (s_text (e_sym e))) 0.
Fixpoint all_keepb (fresh : bool) (tr : list event) : bool :=
  match tr with [] => true | e :: tl => keepsb fresh e && all_keepb (no_pending (e_after e)) tl end.
Lemma all_keepb_sound tr : forall b, all_keepb b tr = true -> all_keep_lines b tr.
Proof.
  induction tr as [|e tr IH]; intros b H; [exact I|]. cbn [all_keepb] in H. apply andb_prop in H. destruct H as [H1 H2].
  split; [|apply IH, H2]. unfold keepsb in H1. apply andb_prop in H1. destruct H1 as [H3 H4]. split.
  - destruct (s_kind (e_sym e)); auto.
  - destruct (kept e).
    + destruct (s_kind (e_sym e)) as [| [] | | | | | | | | | | | | | | | | | |]; try exact I.
      * rewrite forallb_forall in H4. apply Forall_forall. intros y Hy. specialize (H4 y Hy). apply orb_prop in H4.
        destruct H4 as [H4|H4]; [left; apply kind_eqb_eq, H4|right; apply Nat.eqb_eq, H4].
      * rewrite forallb_forall in H4. apply Forall_forall. intros y Hy. specialize (H4 y Hy).
        destruct (kind_eqb (s_kind y) KNewline) eqn:E; [discriminate H4|]. intros X. apply kind_eqb_eq in X. congruence.
      * rewrite forallb_forall in H4. apply Forall_forall. intros y Hy. apply Nat.eqb_eq, H4, Hy.
    + apply orb_prop in H4. destruct H4 as [H4|H4]; [left; apply kind_eqb_eq, H4|right; apply Nat.eqb_eq, H4].
Qed.
Local Open Scope string_scope.

Definition kept_source : string :=
"#define ADD(%1,%2) %1 + \
  %2
#include <a>
#if ADD(1, 2) == 3
int a = ADD(1 /* one */, 2);
/* two
lines */ int b = ADD
;
#else
int c;
#if 0
#endif
#endif
#undef ADD
#define LAST 1".

Lemma kept_source_lexed : lexed 0 false (lex_source kept_source).
Proof. vm_compute. repeat split; intros; try discriminate; reflexivity. Qed.
Definition kept_trace := trace 200 snap_env 500 (init_st no_incs [] (lex_source kept_source)).

Example C17_nontrivial :
  lexed 0 false (lex_source kept_source) /\ all_keep_lines true (fst kept_trace) /\
  ends_in_code (fst kept_trace) (snd kept_trace) /\
  option_map newlines (preprocessed kept_source) = Some 14%nat /\ newlines kept_source = 14%nat.
Proof.
  split; [exact kept_source_lexed|].
  split; [apply all_keepb_sound; vm_compute; reflexivity|]. split; [|vm_compute; auto].
  split; [vm_compute; reflexivity|]. right. split; [vm_compute; reflexivity|].
  exists (removelast (fst kept_trace)), (last (fst kept_trace) (Ev (Sym KEof "" "" None zero_range (Delta 0 0)) (snd kept_trace) (snd kept_trace))).
  split; [|vm_compute; auto].
  apply app_removelast_last. intros X. apply (f_equal (@List.length _)) in X. vm_compute in X. discriminate X.
Qed.

(** * Files that do not *)

(** The arguments of a macro use on two lines become one line: all that follows is one line off. *)
Theorem C17_arguments_refuted : preprocessed
"#define ADD(%1,%2) %1 + %2
int a = ADD(1,
  2);
int b;" = Some
"#define ADD(%1,%2) %1 + %2
int a = 1 +  2;
int b;".
Proof. vm_compute. reflexivity. Qed.
Print Assumptions C17_arguments_refuted.

(** A comment over two lines in inactive code is left out with its line end. *)
Theorem C17_comment_refuted : preprocessed
"#if 0
/* a
b */
#endif
int c;" = Some
"


int c;".
Proof. vm_compute. reflexivity. Qed.
Print Assumptions C17_comment_refuted.

(** #undef without a name: the end of the line is lost. *)
Theorem C17_undef_refuted : preprocessed
"#undef
int c;" = Some "#undefint c;".
Proof. vm_compute. reflexivity. Qed.
Print Assumptions C17_undef_refuted.

(** Inactive code at the end of the file: the last line is left out. *)
Theorem C17_open_chain_refuted : preprocessed
"int a;
#if 0
int b;" = Some
"int a;
".
Proof. vm_compute. reflexivity. Qed.
Print Assumptions C17_open_chain_refuted.

(** An argument over two lines used twice as a string: one line too many. *)
Theorem C17_stringize_refuted : preprocessed
"#define M(%1) #%1 #%1
char a[] = M(b
c);" = Some
"#define M(%1) #%1 #%1
char a[] = ""b
c"" ""b
c"";".
Proof. vm_compute. reflexivity. Qed.
Print Assumptions C17_stringize_refuted.
