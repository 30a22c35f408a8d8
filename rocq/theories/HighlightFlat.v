(** C58: macros without parameters whose text mentions no macro. *)
From Coq Require Import List ZArith Bool String Lia.
From Verif Require Import PreTypes MacroModel EvalModel PreModel LinesExpand LinesProofs HighlightSpec HighlightProofs.
Import ListNotations.
Local Open Scope Z_scope.
Local Open Scope list_scope.

Definition inert_t (macros : macros_map) (t : token) : bool := inert macros (t_kind t) (t_text t).

Lemma mget_in (m : macros_map) x mac : mget m x = Some mac -> In (x, mac) m.
Proof.
  induction m as [|[n y] m IH]; cbn; [discriminate|]. destruct (String.eqb_spec n x) as [->|N]; [|auto].
  intros H; injection H as <-. left. reflexivity.
Qed.
Lemma flat_get name macros x m : flat name macros = true -> mget macros x = Some m ->
  name x = true /\ m_params m = None /\ forallb (fun r => inert macros (r_kind r) (r_text r)) (m_body m) = true.
Proof.
  intros F G. unfold flat in F. rewrite forallb_forall in F. specialize (F _ (mget_in _ _ _ G)). cbn [fst snd] in F.
  apply andb_true_iff in F. destruct F as [F F3]. apply andb_true_iff in F. destruct F as [F1 F2].
  split; [exact F1|]. split; [|exact F3].
  destruct (m_params m); [discriminate F2|reflexivity].
Qed.
Lemma inert_none macros t : inert_t macros t = true -> mget macros (t_text t) = None.
Proof. unfold inert_t, inert. destruct (t_kind t); try discriminate; destruct (mget macros (t_text t)); congruence. Qed.

Lemma body_symbols_inert macros body : forall prev, forallb (fun r => inert macros (r_kind r) (r_text r)) body = true ->
  Forall (fun y => inert macros (s_kind y) (s_text y) = true /\ s_inline y = s_text y) (body_symbols body prev).
Proof.
  induction body as [|r body IH]; intros prev F; [constructor|]. cbn [forallb] in F. apply andb_true_iff in F. destruct F as [F1 F2].
  cbn [body_symbols]. cbv zeta. constructor; [split; [exact F1|reflexivity]|]. apply IH, F2.
Qed.

Definition inert_q (macros : macros_map) (q : qtok) : Prop := inert_t macros (q_tok q) = true /\ t_inline (q_tok q) = t_text (q_tok q).
Lemma removelast_incl {A} (l : list A) x : In x (removelast l) -> In x l.
Proof. induction l as [|y l IH]; [intros []|]. cbn. destruct l; [intros []|]. cbn in *. intros [->|H]; auto. Qed.

Lemma expansion_inert macros m d prev : forallb (fun r => inert macros (r_kind r) (r_text r)) (m_body m) = true ->
  Forall (inert_q macros) (expand_non_macro_define m d prev).
Proof.
  intros F. pose proof (body_symbols_inert macros (m_body m) prev F) as B. unfold expand_non_macro_define.
  set (ctx := match body_symbols (m_body m) prev with [] => [] | s :: tl => _ end).
  assert (C : Forall (inert_q macros) ctx).
  { subst ctx. destruct (body_symbols (m_body m) prev) as [|y tl]; [constructor|]. inversion B as [|? ? B1 B2]; subst.
    constructor; [exact B1|]. apply Forall_forall. intros q I. apply in_map_iff in I. destruct I as (z & <- & I).
    rewrite Forall_forall in B2. exact (B2 z I). }
  clearbody ctx. destruct (rev ctx) as [|x r]; [exact C|]. destruct (is_newline _); [|exact C].
  apply Forall_forall. intros q I. rewrite Forall_forall in C. apply C, removelast_incl, I.
Qed.

(** While the text of a macro is put together. *)
Record xinert (macros : macros_map) (s : xstate) : Prop := XInert {
  xi_ctx : Forall (Forall (inert_q macros)) (x_ctx s);
  xi_out : Forall (fun t => inert_t macros t = true) (x_out s);
  xi_popped : x_popped s = [] }.

Lemma x_iter_inert macros t0 allow s s' : xinert macros s -> x_iter macros t0 allow s = XNext s' -> xinert macros s'.
Proof.
  intros [A B C]. unfold x_iter. destruct (x_ctx s) as [|cur stack] eqn:E; [discriminate|].
  inversion A as [|? ? A1 A2]; subst.
  destruct (_ <=? _)%nat; [discriminate|]. destruct cur as [|[t d] cur].
  { intros H; injection H as <-. constructor; assumption. }
  inversion A1 as [|? ? A3 A4]; subst. cbn [q_tok] in A3. destruct A3 as [A3 A5]. cbn [q_tok] in A3, A5.
  pose proof (inert_none _ _ A3) as N.
  assert (K : Forall (Forall (inert_q macros)) (cur :: stack)) by (constructor; assumption).
  assert (SK : forall x, inert_t macros x = true ->
    XNext (XSt (cur :: stack) (x_out s ++ [x]) (x_popped s) (x_lex s) (x_dis s) (x_diff s)) = XNext s' -> xinert macros s').
  { intros x X H. injection H as <-. constructor; [exact K| |exact C]. apply Forall_app. split; [exact B|]. constructor; [exact X|constructor]. }
  assert (S0 : XNext (XSt (cur :: stack) (x_out s) (x_popped s) (x_lex s) (x_dis s) (x_diff s)) = XNext s' -> xinert macros s').
  { intros H. injection H as <-. constructor; [exact K|exact B|exact C]. }
  assert (SD : inert_t macros (t_set_delta t d) = true) by exact A3.
  assert (SL : forall k r dl, t_kind t = KLit k -> inert_t macros (tok (Sym (KLit k) (t_inline t) (t_inline t) (s_int (t_sym t)) r dl)) = true).
  { intros k r dl KD. unfold inert_t, inert. change (t_kind (tok _)) with (KLit k). change (t_text (tok _)) with (t_inline t). rewrite A5, N. reflexivity. }
  rewrite N.
  destruct (t_kind t) as [| | | | | | | | | | | | | | | |[]| | |] eqn:KD; try exact S0; try (apply SK; exact SD);
    try (apply SK; apply SL; reflexivity).
  destruct allow; [apply SK; exact SD|discriminate].
Qed.

Lemma x_loop_inert macros t0 allow fuel : forall s diff pushed l dis, xinert macros s ->
  x_loop fuel macros t0 allow s = XOk diff pushed l dis -> Forall (fun t => inert_t macros t = true) pushed.
Proof.
  induction fuel as [|fuel IH]; intros s diff pushed l dis I; [discriminate|]. cbn [x_loop].
  destruct (x_iter macros t0 allow s) as [s'|r] eqn:E.
  - apply IH. eapply x_iter_inert; eassumption.
  - intros ->. destruct I as [A B C].
    assert (F : x_finish s = XOk diff pushed l dis -> Forall (fun t => inert_t macros t = true) pushed).
    { unfold x_finish. rewrite C. cbn [rev]. rewrite app_nil_r. intros H; injection H as _ <- _ _. exact B. }
    revert E. unfold x_iter. destruct (x_ctx s) as [|cur stack] eqn:X; [intros H; apply F; congruence|].
    inversion A as [|? ? A1 A2]; subst.
    destruct (_ <=? _)%nat; [intros H; apply F; congruence|]. destruct cur as [|[t d] cur]; [discriminate|].
    inversion A1 as [|? ? A3 A4]; subst. destruct A3 as [A3 _]. cbn [q_tok] in A3. rewrite (inert_none _ _ A3).
    destruct (t_kind t) as [| | | | | | | | | | | | | | | |[]| | |]; try discriminate. destruct allow; discriminate.
Qed.

(** a name found in the table *)
Lemma expand_known_inert name fuel l macros y m allow dis diff pushed lf dis' : flat name macros = true ->
  mget macros (s_text y) = Some m -> s_kind y = KIdent ->
  expand_identifier fuel l macros (tok y) allow dis = XOk diff pushed lf dis' ->
  Forall (fun t => inert_t macros t = true) pushed.
Proof.
  intros F G K H. unfold expand_identifier in H. destruct fuel as [|fuel]; [discriminate H|]. cbn [x_loop] in H.
  unfold x_iter at 1 in H. cbn [x_ctx List.length Nat.leb] in H. change (t_kind (tok y)) with (s_kind y) in H. rewrite K in H.
  change (t_text (tok y)) with (s_text y) in H. rewrite G in H.
  destruct (flat_get _ _ _ _ F G) as (_ & P & B). rewrite P in H. eapply x_loop_inert; [|exact H].
  constructor; cbn [x_ctx x_out x_popped]; [|constructor|reflexivity].
  constructor; [|repeat constructor]. apply expansion_inert, B.
Qed.

(** * Conditions *)

Lemma cond_flat fuel : forall name chk xf macros s, flat name macros = true ->
  Forall (fun t => inert_t macros t = true) (e_stack s) ->
  Forall (lexed name) (map fst (lx_rest (e_iter s))) ->
  cond_settled fuel chk xf macros s = true.
Proof.
  induction fuel as [|fuel IH]; intros name chk xf macros s F I L; [reflexivity|]. cbn [cond_settled].
  destruct (e_iter1 chk xf macros s) as [s'|s'|r] eqn:E; try reflexivity.
  destruct (e_fetch s) as [[y s1]|] eqn:FE; [|rewrite (e_iter1_none _ _ _ _ FE) in E; discriminate E].
  destruct (e_iter1_records _ _ _ _ _ _ _ FE E) as ((D & SD) & _).
  destruct (e_fetch_cases _ _ _ FE) as (_ & _ & _ & C).
  (* the symbol looked at *)
  assert (Y : lexed name y \/ inert macros (s_kind y) (s_text y) = true).
  { destruct C as [(t & C1 & -> & C2)|(C1 & C2)].
    - right. rewrite C1 in I. inversion I; subst. assumption.
    - left. unfold lex_next in C2. destruct (lx_rest (e_iter s)) as [|[z pp] tl]; [discriminate C2|]. injection C2 as -> _. inversion L; assumption. }
  assert (I1 : Forall (fun t => inert_t macros t = true) (e_stack s1)).
  { destruct C as [(t & C1 & _)|(C1 & C2)].
    - rewrite C1 in I. inversion I; assumption.
    - unfold e_fetch in FE. rewrite C1 in FE. destruct (lex_next (e_iter s)) as [[z l]|]; [|discriminate FE]. injection FE as _ <-. constructor. }
  assert (L1 : Forall (lexed name) (map fst (lx_rest (e_iter s')))).
  { assert (L2 : Forall (lexed name) (map fst (lx_rest (e_iter s1)))).
    { destruct C as [(t & _ & _ & C2)|(C1 & C2)]; [rewrite C2; exact L|]. unfold lex_next in C2.
      destruct (lx_rest (e_iter s)) as [|[z pp] tl]; [discriminate C2|]. injection C2 as _ <-. inversion L; assumption. }
    rewrite SD, map_app in L2. apply Forall_app in L2. tauto. }
  (* what is not an identifier is not the name of a macro *)
  assert (W : s_kind y <> KIdent -> wordless (s_kind y) = false -> mget macros (s_text y) = None).
  { intros N1 N2. destruct Y as [[Y|[Y|Y]]|Y].
    - congruence.
    - congruence.
    - destruct (mget macros (s_text y)) as [m|] eqn:G; [|reflexivity]. destruct (flat_get _ _ _ _ F G) as (X & _). congruence.
    - apply (inert_none macros (tok y)). exact Y. }
  apply andb_true_iff. split.
  - destruct C as [(t & C1 & C3 & C2)|(C1 & C2)].
    + rewrite C1 in *. inversion I as [|? ? T _]; subst. unfold known_in_cond. change (s_text (t_sym t)) with (t_text t).
      rewrite (inert_none _ _ T). destruct (wordless _); reflexivity.
    + rewrite C1, C2. destruct (s_kind y) eqn:K; try reflexivity. unfold known_in_cond. rewrite K. cbn [wordless].
      rewrite W; [reflexivity|discriminate|reflexivity].
  - apply (IH name); [exact F| |exact L1]. revert E. unfold e_iter1. rewrite FE.
    assert (X : forall allow diff pushed l dis, expand_identifier xf (e_iter s1) macros (tok y) allow (e_dis s1) = XOk diff pushed l dis ->
        wordless (s_kind y) = false -> Forall (fun t => inert_t macros t = true) (pushed ++ e_stack s1)).
    { intros allow diff pushed l dis X NW. apply Forall_app. split; [|exact I1].
      destruct (kind_eq_dec (s_kind y) KIdent) as [K|K].
      - destruct (mget macros (s_text y)) as [m|] eqn:G; [eapply expand_known_inert; eassumption|].
        unfold expand_identifier in X. destruct xf as [|xf]; [discriminate X|]. cbn [x_loop] in X.
        unfold x_iter at 1 in X. cbn [x_ctx List.length Nat.leb] in X. change (t_kind (tok y)) with (s_kind y) in X. rewrite K in X.
        change (t_text (tok y)) with (s_text y) in X. rewrite G in X. destruct allow; [|discriminate X].
        eapply x_loop_inert; [|exact X]. constructor; cbn [x_ctx x_out x_popped app]; [repeat constructor| |reflexivity].
        constructor; [|constructor]. unfold inert_t, inert, t_kind, t_text. cbn [t_sym t_set_delta tok s_kind s_text]. rewrite K, G. reflexivity.
      - specialize (W K NW). unfold expand_identifier in X. destruct xf as [|xf]; [discriminate X|]. cbn [x_loop] in X.
        assert (T : inert_t macros (t_set_delta (tok y) (t_delta (tok y))) = true).
        { unfold inert_t, inert, t_kind, t_text. cbn [t_sym t_set_delta tok s_kind s_text]. rewrite W. destruct (s_kind y); try reflexivity; discriminate NW. }
        unfold x_iter at 1 in X. cbn [x_ctx List.length Nat.leb] in X. change (t_kind (tok y)) with (s_kind y) in X.
        assert (Z0 : forall o, Forall (fun t => inert_t macros t = true) o ->
          forall diff pushed l dis, x_loop xf macros (tok y) allow (XSt [[]] o [] (e_iter s1) (e_dis s1) 0) = XOk diff pushed l dis ->
          Forall (fun t => inert_t macros t = true) pushed).
        { intros o O d0 p0 l0 dd H. eapply x_loop_inert; [|exact H]. constructor; cbn [x_ctx x_out x_popped]; [repeat constructor|exact O|reflexivity]. }
        destruct (s_kind y) as [| | | | | | | | | | | | | | | |[]| | |]; try discriminate NW; try congruence;
          first [eapply (Z0 []); [constructor|exact X] | eapply (Z0 [t_set_delta (tok y) (t_delta (tok y))]); [constructor; [exact T|constructor]|exact X]]. }
    destruct (s_kind y) as [| | | | | | | | | | | | | | |op|[]| | |]; try discriminate;
      try (intros H; injection H as <-; exact I1).
    all: try (destruct (close_paren _ _ _ _) as [[[stk| |] ops] un]; try discriminate; intros H; injection H as <-; exact I1).
    all: try (destruct (convert op) as [c|]; [|discriminate]; destruct (reduce _ _ _ _) as [[stk| |] ops]; try discriminate; intros H; injection H as <-; exact I1).
    all: destruct (mget macros (s_text y)) as [m|]; destruct (e_def s1);
      try (intros H; injection H as <-; exact I1);
      try (destruct (dmem m (e_dis s1)); [intros H; injection H as <-; exact I1|]);
      (destruct (expand_identifier _ _ _ _ _ _) as [diff pushed l dis|? ? ? ?|? ? ?|] eqn:XE; try discriminate;
       intros H; injection H as <-; cbn [e_stack]; eapply X; [reflexivity || exact XE|reflexivity]).
Qed.

(** * Files *)

Record fl (name : string -> bool) (s : st) : Prop := Fl {
  fl_stack : Forall (fun t => inert_t (macros s) t = true) (estack s);
  fl_lex : Forall (lexed name) (rest_of s) }.

Lemma active_tables v fuel t s s' : is_dir (t_kind t) = false -> process_active v fuel t s = Next s' -> macros s' = macros s.
Proof.
  unfold process_active, t_kind, is_dir. destruct (s_kind (t_sym t)) eqn:K; try discriminate; intros _;
    try (intros H; injection H as <-; unfold push_symbol; rewrite ?K; reflexivity).
  - destruct (intr s) as [[]|]; try (intros H; injection H as <-; destruct (String.eqb _ _); reflexivity);
      (destruct (mget _ _) as [m|]; [destruct (dmem _ _); [|destruct (expand_identifier _ _ _ _ _ _); try discriminate]|];
       intros H; injection H as <-; unfold push_symbol; rewrite ?K; reflexivity).
  - destruct (intr s) as [[]|]; intros H; injection H as <-; unfold push_symbol; rewrite ?K; reflexivity.
  - destruct (intr s) as [[]|]; intros H; injection H as <-; unfold push_symbol; rewrite ?K; reflexivity.
Qed.
Lemma negative_tables v fuel y s s' : is_dir (s_kind y) = false -> process_negative v fuel y s = Next s' -> macros s' = macros s.
Proof. unfold process_negative, is_dir. destruct (s_kind y); try discriminate; intros _ H; injection H as <-; reflexivity. Qed.

Lemma process_if_stack v fuel y s s' : process_if v fuel y s = Next s' -> estack s' = estack s.
Proof.
  unfold process_if. destruct (directive_symbols (lex s)) as [ys l]. cbv zeta.
  destruct (evaluate _ _ _ _ _ _) as [b offs dis|r nf offs dis| |]; try discriminate; [destruct b|]; destruct (rev ys); intros H; injection H as <-; reflexivity.
Qed.
Lemma process_if_rest v fuel y s s' : process_if v fuel y s = Next s' -> exists ys, rest_of s = ys ++ rest_of s'.
Proof.
  intros P. pose proof (cond_records _ _ _ _ _ P) as R. destruct (directive_symbols (lex s)) as [ys l] eqn:D.
  destruct R as (offs & _ & _ & _ & <-). exists ys. apply directive_symbols_split, D.
Qed.

Lemma flat_settled n : forall name v fuel s, fl name s -> always_flat name n v fuel s = true -> settled n v fuel s = true.
Proof.
  induction n as [|n IH]; intros name v fuel s [S L] A; [reflexivity|]. cbn [always_flat settled] in *.
  apply andb_true_iff in A. destruct A as [F A]. fold (settled_here v fuel s). apply andb_true_iff. split.
  - unfold settled_here. destruct (estack s) as [|t tl].
    + destruct (lex_next (lex s)) as [[y l]|] eqn:LN; [|reflexivity]. destruct (looks_at_condition s y); [|reflexivity].
      apply (cond_flat fuel name); [exact F|constructor|]. cbn [cond_start e_iter lx_rest]. rewrite map_map. cbn [fst]. rewrite map_id.
      unfold lex_next, rest_of in *. destruct (lx_rest (lex s)) as [|[z pp] rest]; [discriminate LN|]. injection LN as -> <-.
      cbn [map fst] in L. inversion L as [|? ? _ L2]; subst.
      destruct (directive_symbols (Lex rest pp)) as [ys l'] eqn:D. cbn [fst]. apply directive_symbols_split in D. cbn [lx_rest] in D.
      rewrite D in L2. apply Forall_app in L2. tauto.
    + inversion S as [|? ? T _]; subst. pose proof (inert_none _ _ T) as N.
      assert (K : known_in_code s (t_sym t) = None).
      { unfold known_in_code. change (s_text (t_sym t)) with (t_text t). rewrite N. destruct (s_kind (t_sym t)); try reflexivity.
        destruct (skipping s); [reflexivity|]. destruct (intr s) as [[]|]; reflexivity. }
      rewrite K. unfold inert_t, inert in T. destruct (t_kind t); try reflexivity. discriminate T.
  - destruct (step v fuel s) as [s'|f] eqn:ST; [|reflexivity]. apply (IH name); [|exact A].
    unfold step in ST. destruct (estack s) as [|t tl] eqn:E.
    + destruct (lex_next (lex s)) as [[y l]|] eqn:LN.
      2:{ unfold fetch in ST. rewrite E, LN in ST. discriminate ST. }
      destruct (fetch s) as [[t s1]|] eqn:FE; [|discriminate ST].
      assert (B : t = tok y /\ lex s1 = l /\ estack s1 = [] /\ macros s1 = macros s /\ Forall (lexed name) (rest_of s1) /\ lexed name y).
      { unfold fetch in FE. rewrite E, LN in FE. unfold lex_next, rest_of in *. destruct (lx_rest (lex s)) as [|[z pp] rest]; [discriminate LN|].
        injection LN as -> <-. cbn [map fst] in L. inversion L as [|? ? L1 L2]; subst.
        destruct (exp_sym s) as [[es [i f]]|]; injection FE as <- <-; repeat split; auto. }
      destruct B as (-> & L1 & E1 & M1 & L2 & LY). change (record_arg (tok y) s1) with s1 in ST. change (t_sym (tok y)) with y in ST.
      destruct (looks_at_condition s1 y) eqn:LC.
      * assert (P : exists s2, estack s2 = [] /\ rest_of s2 = rest_of s1 /\ process_if v fuel y s2 = Next s').
        { unfold looks_at_condition in LC. destruct (s_kind y) as [|[]| | | | | | | | | | | | | | | | | |] eqn:K; try discriminate LC.
          - destruct (skipping s1) eqn:SK; [discriminate LC|]. exists s1. split; [exact E1|]. split; [reflexivity|].
            unfold process_active in ST. cbn [t_sym tok] in ST. rewrite K in ST. exact ST.
          - destruct (conds s1) as [|[| |] c] eqn:CC; try discriminate LC. exists (set_conds c s1). split; [exact E1|]. split; [reflexivity|].
            unfold skipping in ST. rewrite CC in ST. unfold process_negative in ST. rewrite K in ST. unfold process_elseif in ST. rewrite CC in ST. exact ST. }
        destruct P as (s2 & P1 & P2 & P3). constructor.
        -- rewrite (process_if_stack _ _ _ _ _ P3), P1. constructor.
        -- destruct (process_if_rest _ _ _ _ _ P3) as (ys & R). rewrite <- P2, R in L2. apply Forall_app in L2. tauto.
      * destruct (known_in_code s1 y) as [m|] eqn:KN.
        -- assert (SK : skipping s1 = false).
           { unfold known_in_code in KN. destruct (s_kind y); try discriminate KN. destruct (skipping s1); [discriminate KN|reflexivity]. }
           rewrite SK in ST. destruct (active_use v fuel (tok y) s1 s' m KN ST) as (_ & _ & D & RS).
           constructor.
           ++ unfold known_in_code in KN. unfold process_active in ST. cbn [t_sym tok] in ST.
              destruct (s_kind y) eqn:K; try discriminate KN. rewrite SK in KN.
              assert (H : match mget (macros s1) (s_text y) with Some m0 => if dmem m0 (disabled s1) then None else Some m0 | None => None end = Some m /\
                 match mget (macros s1) (s_text y) with
                 | Some m0 => if dmem m0 (disabled s1) then Next (push_symbol y (set_disabled (drem m0 (disabled s1)) s1))
                    else match expand_identifier fuel (lex s1) (macros s1) (tok y) true (disabled s1) with
                         | XOk diff pushed l dis => Next (set_adiff diff (set_exp_sym (Some (y, (m_idx m0, m_file m0)))
                              (set_estack (pushed ++ estack s1) (set_lex l (set_disabled dis s1)))))
                         | XNotFound nm r l dis => Stop (FError (set_err_notfound (err_notfound s1 ++ [(nm, r)]) s1))
                         | XParse _ _ _ => Stop (FError s1)
                         | XFuel => Stop FFuel end
                 | None => Next (push_symbol y s1) end = Next s').
              { destruct (intr s1) as [[]|]; try discriminate KN; split; assumption. }
              destruct H as [H1 H2]. destruct (mget (macros s1) (s_text y)) as [m0|] eqn:G; [|discriminate H1].
              destruct (dmem m0 (disabled s1)); [discriminate H1|].
              destruct (expand_identifier _ _ _ _ _ _) as [diff pushed l0 dis|? ? ? ?|? ? ?|] eqn:X; try discriminate H2. injection H2 as <-.
              cbn. rewrite E1, app_nil_r. eapply expand_known_inert; [rewrite M1; exact F|rewrite M1 in *; exact G|exact K|exact X].
           ++ apply rest_app in RS. rewrite RS in L2. apply Forall_app in L2. tauto.
        -- assert (FR : frame s1 s').
           { destruct (skipping s1) eqn:SK; [eapply negative_frame; eassumption|]. eapply (active_frame v fuel (tok y)); eassumption. }
           destruct FR as [(_ & _ & D & RS) ES]. constructor; [rewrite ES, E1; constructor|].
           apply rest_app in RS. rewrite RS in L2. apply Forall_app in L2. tauto.
    + inversion S as [|? ? T S2]; subst. destruct (stack_fetch _ _ _ E) as (s1 & FE & FR & ET & SK1 & M1 & D1 & C1 & N1). rewrite FE in ST.
      pose proof (inert_none _ _ T) as N.
      assert (ND : is_dir (t_kind t) = false) by (unfold inert_t, inert in T; destruct (t_kind t); try reflexivity; discriminate T).
      assert (K : known_in_code (record_arg t s1) (t_sym t) = None).
      { unfold known_in_code. change (s_text (t_sym t)) with (t_text t). rewrite M1, N. destruct (s_kind (t_sym t)); try reflexivity.
        destruct (skipping (record_arg t s1)); [reflexivity|]. destruct (intr (record_arg t s1)) as [[]|]; reflexivity. }
      assert (LC : looks_at_condition (record_arg t s1) (t_sym t) = false).
      { unfold looks_at_condition. unfold t_kind, is_dir in ND. destruct (s_kind (t_sym t)); try reflexivity. discriminate ND. }
      assert (X : frame (record_arg t s1) s' /\ macros s' = macros (record_arg t s1)).
      { destruct (skipping (record_arg t s1)) eqn:SK; split.
        - eapply negative_frame; eassumption.
        - eapply negative_tables; [exact ND|exact ST].
        - eapply active_frame; eassumption.
        - eapply active_tables; eassumption. }
      destruct X as [[(_ & _ & D & RS) ES] MS]. destruct FR as (_ & _ & D0 & RS0). constructor.
      * rewrite ES, ET, MS, M1. exact S2.
      * apply rest_app in RS, RS0. rewrite RS0, RS in L. rewrite !Forall_app in L. tauto.
Qed.
