(** C22 and C23: what using a macro writes. *)
From Coq Require Import List ZArith Bool String Ascii Lia.
From Verif Require Import PreTypes MacroModel EvalModel PreModel PreLex PreSnapshots CondSpec CondProofs PreEvents VisibleSpec VisibleProps MacroSpec MacroCall MacroRun LinesProps.
Import ListNotations.
Local Open Scope list_scope.

(** * The table never holds a macro with more than ten parameters *)
Lemma set_nth_len l : forall i x, List.length (set_nth l i x) = List.length l.
Proof. induction l as [|a l IH]; intros [|i] x; cbn; auto. Qed.
Lemma define_symbol_args y d d' : define_symbol y d = Some d' -> List.length (d_args d') = List.length (d_args d).
Proof.
  unfold define_symbol. destruct (d_state d).
  - destruct (_ && _); [intros H; injection H as <-; reflexivity|]. destruct (_ && _); intros H; injection H as <-; reflexivity.
  - destruct (0 <? _)%Z; [intros H; injection H as <-; reflexivity|].
    destruct (s_kind y) as [| | | | | | | | | | | | | | |[]|[]| | |]; try discriminate; try (intros H; injection H as <-; reflexivity).
    destruct (s_int y); [|discriminate]. destruct (_ || _); [discriminate|]. intros H; injection H as <-. apply set_nth_len.
  - intros H; injection H as <-; reflexivity.
Qed.
Lemma define_loop_args rest : forall d s d' s', define_loop rest d s = DOk d' s' -> List.length (d_args d') = List.length (d_args d).
Proof.
  induction rest as [|[y pp] tl IH]; intros d s d' s' H; [discriminate|]. cbn [define_loop] in H.
  destruct (kind_eqb (s_kind y) KEof) eqn:K.
  - apply kind_eqb_eq in K. rewrite K in H. injection H as <- _. reflexivity.
  - assert (X : match define_symbol y d with
            | None => DBail (echo y (set_lex (Lex tl pp) s))
            | Some d0 => if pp then define_loop tl d0 (echo y (set_lex (Lex tl pp) s)) else DOk d0 (echo y (set_lex (Lex tl pp) s)) end = DOk d' s').
    { destruct (s_kind y); try exact H. vm_compute in K. discriminate K. }
    destruct (define_symbol y d) as [d0|] eqn:E; [|discriminate]. apply define_symbol_args in E. rewrite <- E.
    destruct pp; [apply IH in X; exact X|injection X as <- _; reflexivity].
Qed.
Lemma filter_len {A} (f : A -> bool) l : (List.length (filter f l) <= List.length l)%nat.
Proof. induction l as [|a l IH]; [apply le_n|]. cbn. destruct (f a); cbn; lia. Qed.
Lemma fits_set m n x : fits m -> (m_nb x <= 10)%nat -> fits (mset m n x).
Proof. intros F N k y E. rewrite mget_mset in E. destruct (String.eqb n k); [congruence|eauto]. Qed.
Lemma define_finish_fits v d s : fits (macros s) -> List.length (d_args d) = 10%nat -> fits (macros (define_finish v d s)).
Proof.
  intros F L. unfold define_finish. cbn. apply fits_set; [exact F|]. destruct (d_found d); cbn; [|lia].
  rewrite <- L. apply filter_len.
Qed.
Lemma process_define_fits v y s s' : fits (macros s) -> process_define v y s = Next s' -> fits (macros s').
Proof.
  intros F. unfold process_define. pose proof (push_symbol_tables y s) as T. injection T as T1 T2 T3.
  destruct (lx_pp _).
  - destruct (define_loop _ _ _) as [d s1| |] eqn:E; try discriminate. intros H; injection H as <-.
    pose proof (define_loop_args _ _ _ _ _ E) as L. destruct (define_loop_tables _ _ _ _ _ E) as [T _]. injection T as T4 T5 T6.
    apply define_finish_fits; [rewrite T4, T1; exact F|exact L].
  - intros H; injection H as <-. apply define_finish_fits; [rewrite T1; exact F|reflexivity].
Qed.
Definition fits_env (v : env) : Prop := forall i m p q, fits m -> fits (snd (fst (v_inc v i m p q))).
Lemma inc_call_fits v p q im : fits_env v -> fits (snd im) -> fits (snd (inc_call v p q im)).
Proof.
  intros FE F. unfold inc_call. destruct p as [p|]; [|exact F]. specialize (FE (fst im) (snd im) p q F).
  destruct (v_inc v (fst im) (snd im) p q) as [[i m] ok]. exact FE.
Qed.
Lemma step_fits v fuel s t s1 s2 : fits_env v -> fetch s = Some (t, s1) -> step v fuel s = Next s2 -> fits (macros s) -> fits (macros s2).
Proof.
  intros FE Hf Hs F. pose proof (fetch_tables _ _ _ Hf) as T. injection T as T1 T2 T3. rewrite <- T1 in F.
  destruct (step_effect _ _ _ _ _ _ Hf Hs) as [m D E _ _ _ _|D E _ _|D E _|_ _ _ E]; cbn [e_before e_after e_sym] in *.
  - unfold is_dir in D. apply andb_prop in D as [D1 D2]. apply kind_eqb_eq in D2. unfold kept in D1. cbn [e_before e_sym] in *.
    rewrite (step_fetched _ _ _ _ _ Hf) in Hs. destruct (skipping s1); [discriminate|].
    unfold process_active in Hs. rewrite D2 in Hs. cbn [process_directive] in Hs.
    eapply process_define_fits; [|exact Hs]. unfold record_arg. destruct (t_orig t); exact F.
  - rewrite E. destruct (undef_name _) as [x|]; [|exact F]. intros n k G. rewrite mget_mdel in G. destruct (String.eqb x n); [discriminate|eauto].
  - replace (macros s2) with (snd (incs s2, macros s2)) by reflexivity. rewrite E. unfold inc_calls.
    apply inc_call_fits, inc_call_fits; auto.
  - injection E as -> _ _. exact F.
Qed.
Theorem reads_fits v fuel s tr s' : fits_env v -> reads v fuel s tr s' -> fits (macros s) -> fits (macros s').
Proof. intros FE H. induction H as [|s t s1 s2 tr s3 Hf Hs _ IH]; auto. intros F. apply IH. eapply step_fits; eauto. Qed.

(** * Writing what was expanded *)
Lemma made_of_app a b w1 w2 : made_of a w1 -> made_of b w2 -> made_of (a ++ b) (w1 ++ w2).
Proof. induction 1 as [|k x l n w _ IH]; intros H; [exact H|]. cbn. rewrite !string_assoc. constructor. apply IH, H. Qed.

(** What stays the same. *)
Definition same (s s' : st) : Prop :=
  lex s' = lex s /\ macros s' = macros s /\ disabled s' = disabled s /\ conds s' = conds s /\ intr s' = intr s /\ out s' = out s /\ idx s' = idx s.
Lemma same_trans a b c : same a b -> same b c -> same a c.
Proof. unfold same. intuition congruence. Qed.
Lemma push_symbol_same y s : s_kind y <> KEof -> same s (push_symbol y s) /\ estack (push_symbol y s) = estack s /\
  cur_line (push_symbol y s) = (cur_line s ++ spaces (Z.to_nat (Z.abs (dcol (s_delta y)))) ++ s_text y)%string.
Proof. intros K. unfold push_symbol. destruct (s_kind y); try congruence; cbn; rewrite string_assoc; repeat split. Qed.

Definition writable (m : macros_map) (t : token) : Prop :=
  copied (t_kind t) = true /\ (t_kind t = KIdent -> mget m (t_text t) = None).

Lemma step_write v fuel s t tl : estack s = t :: tl -> skipping s = false -> intr s = None -> writable (macros s) t ->
  exists s2 n, step v fuel s = Next s2 /\ same s s2 /\ estack s2 = tl /\ cur_line s2 = (cur_line s ++ spaces n ++ t_text t)%string.
Proof.
  intros E S I [C W]. unfold step, fetch. rewrite E.
  set (s1 := set_col_off _ (set_estack tl s)).
  assert (R : same s (record_arg t s1) /\ estack (record_arg t s1) = tl /\ cur_line (record_arg t s1) = cur_line s).
  { unfold record_arg. destruct (t_orig t); unfold s1; repeat split. }
  set (s2 := record_arg t s1) in *. clearbody s2. destruct R as (R1 & R2 & R3).
  assert (S2 : skipping s2 = false) by (unfold skipping in *; destruct R1 as (_ & _ & _ & -> & _); exact S). rewrite S2.
  assert (I2 : intr s2 = None) by (destruct R1 as (_ & _ & _ & _ & -> & _); exact I).
  assert (M2 : macros s2 = macros s) by apply R1.
  assert (P : forall s', same s2 s' -> estack s' = estack s2 -> cur_line s' = cur_line s2 -> t_kind t <> KEof ->
     exists s3 n, Next (push_symbol (t_sym t) s') = Next s3 /\ same s s3 /\ estack s3 = tl /\ cur_line s3 = (cur_line s ++ spaces n ++ t_text t)%string).
  { intros s' A B D K. destruct (push_symbol_same (t_sym t) s' K) as (P1 & P2 & P3).
    eexists. eexists. split; [reflexivity|]. split; [eapply same_trans; [exact R1|eapply same_trans; [exact A|exact P1]]|]. split; [congruence|].
    rewrite P3, D, R3. reflexivity. }
  unfold process_active. fold (t_kind t).
  destruct (t_kind t) eqn:K; try discriminate C; rewrite ?I2; try (apply P; [repeat split; cbn; auto|reflexivity|reflexivity|discriminate]).
  change (s_text (t_sym t)) with (t_text t). rewrite M2, (W eq_refl). apply P; [repeat split|reflexivity|reflexivity|discriminate].
Qed.

Lemma write_all v fuel : forall l s, estack s = l -> skipping s = false -> intr s = None -> Forall (writable (macros s)) l ->
  exists tr s' w, reads v fuel s tr s' /\ same s s' /\ estack s' = [] /\ cur_line s' = (cur_line s ++ w)%string /\
    made_of (map shown_token l) w.
Proof.
  induction l as [|t l IH]; intros s E S I W.
  - exists [], s, EmptyString. split; [constructor|]. split; [repeat split|]. split; [exact E|]. split; [|constructor].
    induction (cur_line s); cbn; congruence.
  - inversion W as [|? ? W1 W2]; subst. destruct (step_write v fuel s t l E S I W1) as (s2 & n & St & Sa & E2 & C2).
    assert (S2 : skipping s2 = false) by (unfold skipping in *; destruct Sa as (_ & _ & _ & -> & _); exact S).
    assert (I2 : intr s2 = None) by (destruct Sa as (_ & _ & _ & _ & -> & _); exact I).
    assert (M2 : macros s2 = macros s) by apply Sa.
    destruct (IH s2 E2 S2 I2) as (tr & s' & w & R & Sa2 & E3 & C3 & M3); [rewrite M2; exact W2|].
    assert (F : exists s1, fetch s = Some (t, s1)) by (unfold fetch; rewrite E; eauto). destruct F as (s1 & F).
    eexists. exists s', (spaces n ++ t_text t ++ w)%string. split; [econstructor; [exact F|exact St|exact R]|].
    split; [eapply same_trans; eauto|]. split; [exact E3|]. split; [rewrite C3, C2, !string_assoc; reflexivity|]. cbn. constructor. exact M3.
Qed.

(** What is left of an expansion has no macro names. *)
Lemma expands_names macros d l out : expands macros true d l out -> Forall (fun p => fst p = KIdent -> mget macros (snd p) = None) out.
Proof.
  induction 1 as [d|d t tl out L H IH|d t tl out L NI H IH|d t tl out KI G A H IH
    |d t tl m o1 o2 KI G P H1 IH1 H IH|d t tl m params first more rest body o1 o2 KI G P C R F H1 IH1 H IH].
  - constructor.
  - exact IH.
  - constructor; [|exact IH]. cbn. congruence.
  - constructor; [|exact IH]. intros _. unfold shown. cbn. rewrite KI. exact G.
  - apply Forall_app. auto.
  - apply Forall_app. auto.
Qed.
Lemma writable_pushed m d l out pushed : expands m true d l out -> Forall (fun p => copied (fst p) = true) out ->
  map shown_token pushed = out -> Forall (writable m) pushed.
Proof.
  intros H C E. apply expands_names in H. subst out. rewrite Forall_map in *. rewrite Forall_forall in *. intros t T. split; [apply C, T|apply H, T].
Qed.

(** The preprocessor is about to read the name [y] of macro [m] from the file, in active code and not
    within [using __intrinsics__]; [rest] follows. *)
Record at_name (s : st) (y : symbol) (m : macro) (rest : list (symbol * bool)) : Prop := AtName {
  an_estack : estack s = []; an_active : skipping s = false; an_intr : intr s = None;
  an_next : exists pp, lx_rest (lex s) = (y, pp) :: rest;
  an_kind : s_kind y = KIdent; an_macro : mget (macros s) (s_text y) = Some m;
  an_enabled : dmem m (disabled s) = false }.

Lemma read_name v fuel s y m rest : at_name s y m rest -> exists s1 pp,
  fetch s = Some (tok y, s1) /\ lex s1 = Lex rest pp /\ estack s1 = [] /\ skipping s1 = false /\ intr s1 = None /\
  macros s1 = macros s /\ disabled s1 = disabled s /\ cur_line s1 = cur_line s /\ conds s1 = conds s /\ out s1 = out s /\
  forall diff pushed l, expand_identifier fuel (Lex rest pp) (macros s) (tok y) true (disabled s) = XOk diff pushed l (disabled s) ->
    exists s2, step v fuel s = Next s2 /\ estack s2 = pushed /\ lex s2 = l /\ skipping s2 = false /\ intr s2 = None /\
      macros s2 = macros s /\ disabled s2 = disabled s /\ cur_line s2 = cur_line s /\ conds s2 = conds s /\ out s2 = out s.
Proof.
  intros [E S I (pp & N) K M D]. unfold step, fetch, lex_next. rewrite E, N.
  assert (X : exists s1, match exp_sym s with
      | None => Some (tok y, set_lex (Lex rest pp) (set_exp_sym None s))
      | Some (es, (i, f)) => Some (tok y, set_adiff 0 (set_col_off None (set_offsets (offsets s ++ [(pline (rstart (s_range y)),
          Offset (s_range es) (match col_off s with Some o => o | None => 0 end - (pcol (rend (s_range es)) - pcol (rstart (s_range es))))%Z (adiff s) i f)])
           (set_lex (Lex rest pp) (set_exp_sym None s))))) end = Some (tok y, s1) /\
     lex s1 = Lex rest pp /\ estack s1 = [] /\ conds s1 = conds s /\ intr s1 = None /\
     macros s1 = macros s /\ disabled s1 = disabled s /\ cur_line s1 = cur_line s /\ out s1 = out s).
  { destruct (exp_sym s) as [[es [i f]]|]; eexists; (split; [reflexivity|]); cbn; repeat split; assumption. }
  destruct X as (s1 & X & A1 & A2 & A3 & A4 & A5 & A6 & A7 & A8).
  assert (S1 : skipping s1 = false) by (unfold skipping in *; rewrite A3; exact S).
  exists s1, pp. split; [exact X|]. repeat split; try assumption. intros diff pushed l EX.
  cbv zeta. rewrite X. change (record_arg (tok y) s1) with s1. rewrite S1.
  unfold process_active. cbn [tok t_sym]. rewrite K, A4, A5, M, A6, D, A1.
  change {| t_sym := y; t_orig := None |} with (tok y). rewrite EX. eexists. split; [reflexivity|]. cbn. rewrite A2, app_nil_r. repeat split; try assumption.
Qed.

(** What using a macro amounts to: after reading on from [s] the text [w] was written, which is made
    of the tokens [toks], the file is read up to [rest], and nothing else has changed. *)
Definition use_writes (v : env) (fuel : nat) (s : st) (toks : list (kind * string)) (rest : list (symbol * bool)) : Prop :=
  exists tr s' w, reads v fuel s tr s' /\ cur_line s' = (cur_line s ++ w)%string /\ made_of toks w /\
    lx_rest (lex s') = rest /\ estack s' = [] /\ macros s' = macros s /\ out s' = out s /\ conds s' = conds s /\ disabled s' = disabled s.

Lemma use_written v fuel s y m rest b d l out' : at_name s y m rest ->
  (forall pp, exists diff pushed pp', map shown_token pushed = out' /\
     expand_identifier fuel (Lex rest pp) (macros s) (tok y) true (disabled s) = XOk diff pushed (Lex b pp') (disabled s)) ->
  expands (macros s) true d l out' -> Forall (fun p => copied (fst p) = true) out' -> 
  use_writes v fuel s out' b.
Proof.
  intros AN X H C. destruct (read_name v fuel s y m rest AN) as (s1 & pp & F & _ & _ & _ & _ & _ & _ & _ & _ & _ & G).
  destruct (X pp) as (diff & pushed & pp' & E & X').
  destruct (G _ _ _ X') as (s2 & St & E2 & L2 & S2 & I2 & M2 & D2 & C2 & K2 & O2).
  destruct (write_all v fuel pushed s2 E2 S2 I2) as (tr & s' & w & R & Sa & E3 & C3 & MO).
  { rewrite M2. eapply writable_pushed; eauto. }
  exists (Ev (t_sym (tok y)) s1 s2 :: tr), s', w. destruct Sa as (a1 & a2 & a3 & a4 & a5 & a6 & a7).
  split; [econstructor; eauto|]. split; [rewrite C3, C2; reflexivity|]. split; [rewrite <- E; exact MO|].
  rewrite a1, L2. repeat split; congruence.
Qed.

(** C22. The name of a function-like macro followed by its arguments: the file is read up to the
    closing parenthesis and the text written is made of the tokens of the body in which each %n was
    replaced by the n-th argument and each #%n by that argument in quotes, macros in the result being
    expanded in turn.
    Missing from the full statement: bodies that are not [regular], more than four macros inside one
    another, commas within brackets and braces (they do separate: C22_brackets_refuted), and the
    spaces between the tokens (C22_merged_refuted). *)
Theorem C22_arguments_substituted_partial :
  forall v s y m a b params first more body out',
    at_name s y m (a ++ b) -> fits (macros s) -> m_params m = Some params ->
    call (see y) first more [] (map (fun p => see (fst p)) a) ->
    regular (lay (to_ (see y)) (m_body m)) = true ->
    filled (argument params (shared (pred (m_nb m)) first more)) (see y) true (lay (to_ (see y)) (m_body m)) = Some body ->
    expands (macros s) true 3 body out' -> Forall (fun p => copied (fst p) = true) out' ->
    exists k, forall fuel, (k <= fuel)%nat -> use_writes v fuel s out' b.
Proof.
  intros v s y m a b params first more body out' AN FIT P C R F H CO.
  assert (X : forall pp, exists k pushed diff, map shown_token pushed = out' /\
    forall fuel, (k <= fuel)%nat ->
      expand_identifier fuel (Lex (a ++ b) pp) (macros s) (tok y) true (disabled s) = XOk diff pushed (Lex b (last_flag pp a)) (disabled s)).
  { intros pp. destruct AN as [_ _ _ _ K M D]. eapply (use_call (macros s) true (tok y)); eauto. }
  destruct (X true) as (k1 & p1 & d1 & E1 & X1). destruct (X false) as (k2 & p2 & d2 & E2 & X2).
  exists (Nat.max k1 k2). intros fuel L. eapply use_written; [exact AN| |exact H|exact CO].
  intros [|]; [exists d1, p1, (last_flag true a)|exists d2, p2, (last_flag false a)]; (split; [assumption|]); [apply X1|apply X2]; lia.
Qed.
Print Assumptions C22_arguments_substituted_partial.

(** The hypothesis on the table holds throughout a run. *)
Theorem C22_tables_fit :
  forall v fuel i m syms tr s, (forall n x, mget m n = Some x -> (m_nb x <= 10)%nat) ->
    (forall j t p q, (forall n x, mget t n = Some x -> (m_nb x <= 10)%nat) ->
       forall n x, mget (snd (fst (v_inc v j t p q))) n = Some x -> (m_nb x <= 10)%nat) ->
    reads v fuel (init_st i m syms) tr s ->
    forall n x, mget (macros s) n = Some x -> (m_nb x <= 10)%nat.
Proof. intros v fuel i m syms tr s F FE H. exact (reads_fits v fuel _ _ _ FE H F). Qed.
Print Assumptions C22_tables_fit.

(** * C23 *)
Lemma unfolded_eq macros d r tl : unfolded macros d (r :: tl) =
  match r_kind r with
  | KNewline | KLineCont | KComment _ => unfolded macros d tl
  | KIdent =>
      match mget macros (r_text r) with
      | None => option_map (cons (KIdent, r_text r)) (unfolded macros d tl)
      | Some m =>
          match m_params m, d with
          | None, S d' => match unfolded macros d' (m_body m), unfolded macros d tl with
                          | Some a, Some b => Some (a ++ b) | _, _ => None end
          | _, _ => None
          end
      end
  | k => option_map (cons (k, r_text r)) (unfolded macros d tl)
  end.
Proof. destruct d; reflexivity. Qed.
Lemma unfolded_nil macros d : unfolded macros d [] = Some [].
Proof. destruct d; reflexivity. Qed.

Lemma unfolded_expands macros d : forall body out' line, unfolded macros d body = Some out' ->
  expands macros true d (lay line body) out'.
Proof.
  induction d as [d IHd] using lt_wf_ind. induction body as [|r tl IH]; intros out' line E.
  - rewrite unfolded_nil in E. injection E as <-. constructor.
  - rewrite unfolded_eq in E.
    assert (TOK : forall k o, r_kind r = k -> option_map (cons (k, r_text r)) (unfolded macros d tl) = Some o ->
       match k with KNewline | KLineCont | KComment _ | KIdent => False | _ => True end ->
       expands macros true d (lay line (r :: tl)) o).
    { intros k o K O N. destruct (unfolded macros d tl) as [o'|] eqn:U; [|discriminate]. injection O as <-.
      cbn [lay]. replace (k, r_text r) with (shown (STok (r_kind r) (r_text r) (r_text r) (r_int r) (dcol (r_delta r)) line (Z.max 0 (line + dline (r_delta r))))).
      2:{ unfold shown. cbn. rewrite K. destruct k as [| | | | | | | | | | | | | | | |[]| | |]; reflexivity. }
      apply ex_token; [unfold is_layout; cbn; rewrite K; destruct k; tauto|cbn; rewrite K; destruct k; congruence || tauto|apply IH; reflexivity]. }
    destruct (r_kind r) eqn:K; try (eapply TOK; [reflexivity|exact E|exact I]);
      try (cbn [lay]; rewrite K; apply ex_layout; [reflexivity|apply IH, E]).
    + cbn [lay]. rewrite K. destruct (mget macros (r_text r)) as [m|] eqn:G.
      * destruct (m_params m) eqn:P; [discriminate|]. destruct d as [|d]; [discriminate|].
        destruct (unfolded macros d (m_body m)) as [o1|] eqn:U1; [|discriminate]. destruct (unfolded macros (S d) tl) as [o2|] eqn:U2; [|discriminate].
        injection E as <-. eapply ex_object; [reflexivity|exact G|exact P|apply IHd; [lia|exact U1]|apply IH; reflexivity].
      * destruct (unfolded macros d tl) as [o2|] eqn:U2; [|discriminate]. injection E as <-.
        match goal with |- expands _ _ _ (?t :: _) _ => change (KIdent, r_text r) with (shown t) end.
        apply ex_name; [reflexivity|exact G|reflexivity|apply IH; reflexivity].
Qed.

(** C23. The name of an object-like macro: the text written is made of the tokens of its body, in
    order, object-like macros used in it being replaced recursively; nothing of the file behind the
    name is read.
    Missing from the full statement: the spaces between the tokens (C23_merged_refuted,
    C23_comment_refuted). *)
Theorem C23_object_expanded_partial :
  forall v s y m rest out',
    at_name s y m rest -> fits (macros s) -> m_params m = None ->
    unfolded (macros s) 3 (m_body m) = Some out' -> Forall (fun p => copied (fst p) = true) out' ->
    exists k, forall fuel, (k <= fuel)%nat -> use_writes v fuel s out' rest.
Proof.
  intros v s y m rest out' AN FIT P U CO.
  pose proof (unfolded_expands (macros s) 3 (m_body m) out' (to_ (see y)) U) as H.
  assert (X : forall pp, exists k pushed diff, map shown_token pushed = out' /\
    forall fuel, (k <= fuel)%nat ->
      expand_identifier fuel (Lex rest pp) (macros s) (tok y) true (disabled s) = XOk diff pushed (Lex rest pp) (disabled s)).
  { intros pp. destruct AN as [_ _ _ _ K M D]. eapply (use_object (macros s) true (tok y)); eauto. }
  destruct (X true) as (k1 & p1 & d1 & E1 & X1). destruct (X false) as (k2 & p2 & d2 & E2 & X2).
  exists (Nat.max k1 k2). intros fuel L. eapply use_written; [exact AN| |exact H|exact CO].
  intros [|]; [exists d1, p1, true|exists d2, p2, false]; (split; [assumption|]); [apply X1|apply X2]; lia.
Qed.
Print Assumptions C23_object_expanded_partial.

(** * What a #define records *)
Fixpoint define_all (ys : list symbol) (d : def) : option def :=
  match ys with [] => Some d | y :: tl => match define_symbol y d with Some d' => define_all tl d' | None => None end end.
Lemma define_all_app a b d : define_all (a ++ b) d = match define_all a d with Some d' => define_all b d' | None => None end.
Proof. revert d. induction a as [|y a IH]; intros d; [reflexivity|]. cbn. destruct (define_symbol y d); [apply IH|reflexivity]. Qed.

Lemma define_loop_step y pp tl d s : s_kind y <> KEof -> define_loop ((y, pp) :: tl) d s =
  match define_symbol y d with
  | None => DBail (echo y (set_lex (Lex tl pp) s))
  | Some d0 => if pp then define_loop tl d0 (echo y (set_lex (Lex tl pp) s)) else DOk d0 (echo y (set_lex (Lex tl pp) s))
  end.
Proof. intros K. cbn [define_loop]. destruct (s_kind y); congruence. Qed.

Lemma define_loop_all ys last rest : Forall (fun y => s_kind y <> KEof) (ys ++ [last]) -> forall d d' s,
  define_all (ys ++ [last]) d = Some d' ->
  exists s', define_loop (map (fun y => (y, true)) ys ++ (last, false) :: rest) d s = DOk d' s' /\ tables s' = tables s.
Proof.
  induction ys as [|y ys IH]; intros K d d' s E; cbn [app map define_all] in *; inversion K as [|? ? K1 K2]; subst.
  - rewrite define_loop_step by exact K1. destruct (define_symbol last d) as [d0|]; [|discriminate]. injection E as ->.
    eexists. split; [reflexivity|]. rewrite echo_tables. reflexivity.
  - rewrite define_loop_step by exact K1. destruct (define_symbol y d) as [d0|]; [|discriminate].
    destruct (IH K2 _ _ (echo y (set_lex (Lex (map (fun y => (y, true)) ys ++ (last, false) :: rest) true) s)) E) as (s' & A & B). exists s'. split; [exact A|]. rewrite B, echo_tables. reflexivity.
Qed.

Lemma define_body ys : forall n b a f i, define_all ys (Def n b a f DBody i) = Some (Def n (b ++ map rsym_of ys) a f DBody i).
Proof.
  induction ys as [|y ys IH]; intros n b a f i; [rewrite app_nil_r; reflexivity|]. cbn [define_all define_symbol d_state]. cbn [d_name d_body d_args d_found d_idx].
  rewrite IH, <- app_assoc. reflexivity.
Qed.

Lemma set_nth_map (f : Z -> Z) v x : forall l k, (forall j, nth_error l j = Some v -> j = k) -> nth_error l k = Some v ->
  set_nth (map f l) k x = map (fun n => if (v =? n)%Z then x else f n) l.
Proof.
  induction l as [|a l IH]; intros [|k] U E; cbn in E; try discriminate.
  - injection E as ->. cbn. rewrite Z.eqb_refl. f_equal. apply map_ext_in. intros n N. apply In_nth_error in N as (j & N).
    destruct (Z.eqb_spec v n) as [<-|]; [|reflexivity]. specialize (U (S j) N). discriminate.
  - cbn. destruct (Z.eqb_spec v a) as [<-|]; [specialize (U 0%nat eq_refl); discriminate|]. f_equal. apply IH; [|exact E].
    intros j J. specialize (U (S j) J). congruence.
Qed.
Definition ten : list Z := [0; 1; 2; 3; 4; 5; 6; 7; 8; 9]%Z.
Lemma set_nth_ten f v x : (0 <= v < 10)%Z -> set_nth (map f ten) (Z.to_nat v) x = map (fun n => if (v =? n)%Z then x else f n) ten.
Proof.
  intros V. assert (C : (v = 0 \/ v = 1 \/ v = 2 \/ v = 3 \/ v = 4 \/ v = 5 \/ v = 6 \/ v = 7 \/ v = 8 \/ v = 9)%Z) by lia.
  decompose [or] C; subst v; reflexivity.
Qed.

Lemma place_none vs : forall at_ n, ~ In n vs -> place at_ vs n = (-1)%Z.
Proof. induction vs as [|v vs IH]; intros at_ n N; [reflexivity|]. cbn. destruct (Z.eqb_spec v n); [cbn in N; tauto|]. apply IH. cbn in N; tauto. Qed.

Lemma define_header vs hs : header vs hs -> NoDup vs -> forall n b f i g,
  exists i', define_all hs (Def n b (map g ten) f DParams i) =
    Some (Def n b (map (fun k => if in_dec Z.eq_dec k vs then place i vs k else g k) ten) true DParams i').
Proof.
  intros H. induction H as [p m v Kp Gp Km Gm Iv V|p m v c vs tl Kp Gp Km Gm Iv V Kc Gc H IH]; intros ND n b f i g.
  - exists i. cbn [define_all]. unfold define_symbol at 1. cbn [d_state]. rewrite Gp, Kp. cbn [Z.ltb Z.compare].
    unfold define_symbol. cbn [d_state]. rewrite Gm, Km, Iv. cbn [Z.ltb Z.compare d_args d_name d_body d_found d_idx].
    rewrite map_length. change (Z.of_nat (List.length ten)) with 10%Z.
    destruct (Z.ltb_spec v 0), (Z.leb_spec 10 v); try lia. cbn [orb]. rewrite set_nth_ten by lia. do 2 f_equal. apply map_ext. intros k.
    cbn [place]. destruct (Z.eqb_spec v k), (in_dec Z.eq_dec k [v]) as [I|I]; cbn in I; try reflexivity; tauto.
  - cbn [define_all]. unfold define_symbol at 1. cbn [d_state]. rewrite Gp, Kp. cbn [Z.ltb Z.compare].
    unfold define_symbol at 1. cbn [d_state]. rewrite Gm, Km, Iv. cbn [Z.ltb Z.compare d_args d_name d_body d_found d_idx].
    rewrite map_length. change (Z.of_nat (List.length ten)) with 10%Z.
    destruct (Z.ltb_spec v 0), (Z.leb_spec 10 v); try lia. cbn [orb]. rewrite set_nth_ten by lia.
    unfold define_symbol at 1. cbn [d_state]. rewrite Gc, Kc. cbn [Z.ltb Z.compare d_args d_name d_body d_found d_idx].
    inversion ND as [|? ? N1 N2]; subst. destruct (IH N2 n b true (i + 1)%Z (fun k => if (v =? k)%Z then i else g k)) as (i' & E).
    exists i'. rewrite E. do 2 f_equal. apply map_ext. intros k. cbn [place].
    destruct (in_dec Z.eq_dec k vs) as [I1|I1], (in_dec Z.eq_dec k (v :: vs)) as [I2|I2], (Z.eqb_spec v k) as [->|NE]; cbn in I2; try reflexivity; tauto.
Qed.

Lemma header_kinds vs hs : header vs hs -> Forall (fun y => s_kind y <> KEof) hs.
Proof. induction 1; repeat constructor; try congruence. Qed.
Lemma header_range vs hs : header vs hs -> Forall (fun v => 0 <= v < 10)%Z vs.
Proof. induction 1; constructor; auto. Qed.

Lemma place_range vs : forall i n, (0 <= i)%Z -> place i vs n = (-1)%Z /\ ~ In n vs \/ (i <= place i vs n)%Z /\ In n vs.
Proof.
  induction vs as [|v vs IH]; intros i n I; [left; auto|]. cbn. destruct (Z.eqb_spec v n) as [->|NE]; [right; split; [lia|auto]|].
  destruct (IH (i + 1)%Z n) as [[A B]|[A B]]; [lia|left; tauto|right; split; [lia|auto]].
Qed.
Lemma count_places vs : Forall (fun v => 0 <= v < 10)%Z vs -> NoDup vs -> count_params (places vs) = List.length vs.
Proof.
  intros R ND. unfold count_params, places. fold ten.
  assert (E : List.length (filter (fun n => negb (n =? -1)) (map (place 0 vs) ten))%Z = List.length (filter (fun n => if in_dec Z.eq_dec n vs then true else false) ten)).
  { generalize ten. induction l as [|a l IH]; [reflexivity|]. cbn. destruct (place_range vs 0%Z a) as [[A B]|[A B]]; [lia| |].
    - rewrite A. cbn. destruct (in_dec Z.eq_dec a vs); [tauto|]. exact IH.
    - destruct (Z.eqb_spec (place 0 vs a) (-1)); [lia|]. cbn. destruct (in_dec Z.eq_dec a vs); [|tauto]. cbn. f_equal. exact IH. }
  rewrite E. apply Nat.le_antisymm.
  - apply NoDup_incl_length.
    + apply NoDup_filter. unfold ten. repeat constructor; cbn; lia.
    + intros x X. apply filter_In in X as [_ X]. destruct (in_dec Z.eq_dec x vs); [assumption|discriminate].
  - apply NoDup_incl_length; [exact ND|]. intros x X. apply filter_In. split.
    + rewrite Forall_forall in R. specialize (R x X). unfold ten. cbn. lia.
    + destruct (in_dec Z.eq_dec x vs); tauto.
Qed.

Lemma step_define v fuel s y pp ys last rest d' :
  estack s = [] -> skipping s = false -> lx_rest (lex s) = (y, pp) :: map (fun y => (y, true)) ys ++ (last, false) :: rest -> pp = true ->
  s_kind y = KDir MDefine -> Forall (fun y => s_kind y <> KEof) (ys ++ [last]) -> define_all (ys ++ [last]) def0 = Some d' ->
  exists s', step v fuel s = Next s' /\ mget (macros s') (d_name d') =
    Some (if d_found d' then Macro (v_file v) (idx s) (Some (d_args d')) (count_params (d_args d')) (d_body d')
          else Macro (v_file v) (idx s) None 0 (d_body d')).
Proof.
  intros E S N -> K KE D. unfold step, fetch, lex_next. rewrite E, N.
  set (l := Lex (map (fun y => (y, true)) ys ++ (last, false) :: rest) true).
  assert (X : exists s1, match exp_sym s with
      | None => Some (tok y, set_lex l (set_exp_sym None s))
      | Some (es, (i, f)) => Some (tok y, set_adiff 0 (set_col_off None (set_offsets (offsets s ++ [(pline (rstart (s_range y)),
          Offset (s_range es) (match col_off s with Some o => o | None => 0 end - (pcol (rend (s_range es)) - pcol (rstart (s_range es))))%Z (adiff s) i f)])
           (set_lex l (set_exp_sym None s))))) end = Some (tok y, s1) /\
     lex s1 = l /\ conds s1 = conds s /\ tables s1 = tables s).
  { destruct (exp_sym s) as [[es [i f]]|]; eexists; (split; [reflexivity|]); cbn; repeat split; assumption. }
  destruct X as (s1 & X & A1 & A3 & A4). cbv zeta. rewrite X. change (record_arg (tok y) s1) with s1.
  assert (S1 : skipping s1 = false) by (unfold skipping in *; rewrite A3; exact S). rewrite S1.
  unfold process_active. cbn [tok t_sym]. rewrite K. cbn [process_directive]. unfold process_define.
  pose proof (push_symbol_tables y s1) as T. pose proof (push_symbol_lex y s1) as TL. set (s2 := push_symbol y s1) in *. clearbody s2.
  rewrite TL, A1. unfold l. cbn [lx_pp lx_rest].
  destruct (define_loop_all ys last rest KE def0 d' s2 D) as (s3 & B & B'). rewrite B. eexists. split; [reflexivity|].
  assert (I3 : idx s3 = idx s) by (rewrite T, A4 in B'; injection B' as _ -> _; reflexivity).
  unfold define_finish. cbn [macros set_macros]. rewrite mget_mset, String.eqb_refl. cbn [idx reset_current_line push_current_line]. rewrite <- I3. reflexivity.
Qed.

(** #define NAME(%a,%b,...) body: each parameter is recorded with its place, and the body as it is. *)
Theorem C22_header_recorded :
  forall v fuel s y name lp hs rp body last rest vs,
    estack s = [] -> skipping s = false -> s_kind y = KDir MDefine ->
    lx_rest (lex s) = (y, true) :: map (fun y => (y, true)) (name :: lp :: hs ++ rp :: body) ++ (last, false) :: rest ->
    s_kind name = KIdent -> s_text name <> EmptyString ->
    s_kind lp = KLParen -> dcol (s_delta lp) = 0%Z -> header vs hs -> NoDup vs ->
    s_kind rp = KRParen -> dcol (s_delta rp) = 0%Z -> Forall (fun y => s_kind y <> KEof) (body ++ [last]) ->
    exists s', step v fuel s = Next s' /\
      mget (macros s') (s_text name) =
        Some (Macro (v_file v) (idx s) (Some (places vs)) (List.length vs) (map rsym_of (body ++ [last]))).
Proof.
  intros v fuel s y name lp hs rp body last rest vs E S K N Kn Nn Kl Gl H ND Kr Gr KE.
  destruct (define_header vs hs H ND (s_text name) [] false 0%Z (fun _ => (-1)%Z)) as (i' & D).
  assert (D' : define_all ((name :: lp :: hs ++ rp :: body) ++ [last]) def0 =
     Some (Def (s_text name) (map rsym_of (body ++ [last])) (places vs) true DBody i')).
  { cbn [app define_all]. unfold define_symbol at 1. cbn [d_state def0]. rewrite Kn.
    change (String.eqb (d_name def0) EmptyString && kind_eqb KIdent KIdent) with true. cbv iota.
    unfold define_symbol at 1. cbn [d_state d_name d_body d_args d_found d_idx].
    destruct (String.eqb_spec (s_text name) EmptyString); [contradiction|]. cbn [andb]. rewrite Gl, Kl.
    change ((0 =? 0)%Z && kind_eqb KLParen KLParen) with true. cbv iota.
    rewrite <- app_assoc. rewrite define_all_app. change (d_args def0) with (map (fun _ : Z => (-1)%Z) ten). change (d_body def0) with (@nil rsym). change (d_found def0) with false. change (d_idx def0) with 0%Z. rewrite D.
    cbn [app define_all]. unfold define_symbol at 1. cbn [d_state]. rewrite Gr, Kr. cbn [Z.ltb Z.compare d_name d_body d_args d_found d_idx].
    rewrite define_body. cbn [app]. do 2 f_equal. unfold places. fold ten. apply map_ext. intros k.
    destruct (in_dec Z.eq_dec k vs); [reflexivity|]. rewrite place_none by assumption. reflexivity. }
  destruct (fun F => step_define v fuel s y true (name :: lp :: hs ++ rp :: body) last rest _ E S N eq_refl K F D') as (s' & A & B).
  { cbn [app]. constructor; [congruence|]. constructor; [congruence|]. rewrite <- app_assoc. apply Forall_app. split; [eapply header_kinds; eauto|]. cbn [app]. constructor; [congruence|exact KE]. }
  exists s'. split; [exact A|]. cbn [d_name d_found d_args d_body] in B. rewrite count_places in B; [exact B| |exact ND]. eapply header_range; eauto.
Qed.
Print Assumptions C22_header_recorded.

(** #define NAME body: the body is recorded as it is, without parameters. *)
Theorem C23_body_recorded :
  forall v fuel s y name body last rest,
    estack s = [] -> skipping s = false -> s_kind y = KDir MDefine ->
    lx_rest (lex s) = (y, true) :: map (fun y => (y, true)) (name :: body) ++ (last, false) :: rest ->
    s_kind name = KIdent -> s_text name <> EmptyString ->
    (match body ++ [last] with b :: _ => s_kind b <> KLParen \/ dcol (s_delta b) <> 0%Z | [] => True end) ->
    Forall (fun y => s_kind y <> KEof) (body ++ [last]) ->
    exists s', step v fuel s = Next s' /\
      mget (macros s') (s_text name) = Some (Macro (v_file v) (idx s) None 0 (map rsym_of (body ++ [last]))).
Proof.
  intros v fuel s y name body last rest E S K N Kn Nn Hd KE.
  destruct (body ++ [last]) as [|b tl] eqn:EB; [destruct body; discriminate|].
  assert (D' : define_all ((name :: body) ++ [last]) def0 = Some (Def (s_text name) (map rsym_of (b :: tl)) (d_args def0) false DBody 0)).
  { cbn [app]. rewrite EB. cbn [define_all]. unfold define_symbol at 1. cbn [d_state def0]. rewrite Kn.
    change (String.eqb (d_name def0) EmptyString && kind_eqb KIdent KIdent) with true. cbv iota.
    unfold define_symbol at 1. cbn [d_state d_name d_body d_args d_found d_idx].
    destruct (String.eqb_spec (s_text name) EmptyString); [contradiction|]. cbn [andb].
    replace ((dcol (s_delta b) =? 0)%Z && kind_eqb (s_kind b) KLParen) with false.
    - rewrite define_body. reflexivity.
    - symmetry. apply andb_false_iff. destruct Hd as [Hd|Hd]; [right|left; apply Z.eqb_neq; exact Hd].
      destruct (kind_eqb (s_kind b) KLParen) eqn:Q; [|reflexivity]. apply kind_eqb_eq in Q. contradiction. }
  destruct (fun F => step_define v fuel s y true (name :: body) last rest _ E S N eq_refl K F D') as (s' & A & B).
  { cbn [app]. rewrite EB. constructor; [congruence|exact KE]. }
  exists s'. split; [exact A|exact B].
Qed.
Print Assumptions C23_body_recorded.

(** * Examples and counterexamples *)
Local Open Scope string_scope.
(** A state at a use of a macro, reached by reading a source: the hypotheses of C22 hold there. *)
Definition use_source := "#define FOO(%1,%2) (%2 - %1) #%2
#define TWO 2
 FOO(TWO, f(a, b));".
Definition use_state := snd (trace 2 snap_env 500 (init_st no_incs [] (lex_source use_source))).
Definition use_next (k : nat) := nth k (map fst (lx_rest (lex use_state))) (Sym KEof "" "" None zero_range (Delta 0 0)).
Definition use_macro := match mget (macros use_state) "FOO" with Some m => m | None => Macro 0 0 None 0 [] end.
Definition use_tokens := map (fun p => see (fst p)) (skipn 1 (firstn 11 (lx_rest (lex use_state)))).

Example C22_nontrivial :
  at_name use_state (use_next 0) use_macro (skipn 1 (lx_rest (lex use_state))) /\
  m_params use_macro = Some (places [1; 2]%Z) /\ m_nb use_macro = 2%nat /\
  regular (lay (to_ (see (use_next 0))) (m_body use_macro)) = true /\
  (exists first more, call (see (use_next 0)) first more [] use_tokens /\
     map (map text_) (shared 1 first more) = [["TWO"]; ["f"; "("; "a"; ","; "b"; ")"]] /\
     exists body, filled (argument (places [1; 2]%Z) (shared 1 first more)) (see (use_next 0)) true
        (lay (to_ (see (use_next 0))) (m_body use_macro)) = Some body /\
       exists o, expands (macros use_state) true 3 body o /\
         map snd o = ["("; "f"; "("; "a"; ","; "b"; ")"; "-"; "2"; ")"; """f(a, b)"""]) /\
  preprocessed use_source = Some "#define FOO(%1,%2) (%2 - %1) #%2
#define TWO 2
 (f(a, b) - 2) ""f(a, b)"";".
Proof.
  split; [constructor; try (vm_compute; reflexivity); exists false; vm_compute; reflexivity|].
  split; [vm_compute; reflexivity|]. split; [vm_compute; reflexivity|]. split; [vm_compute; reflexivity|].
  split; [|vm_compute; reflexivity].
  exists [see (use_next 2)], [(see (use_next 3), map (fun k => see (use_next k)) [4; 5; 6; 7; 8; 9]%nat)].
  split.
  - replace use_tokens with (([] ++ see (use_next 1) :: [see (use_next 2)] ++
      joined [(see (use_next 3), map (fun k => see (use_next k)) [4; 5; 6; 7; 8; 9]%nat)] ++ see (use_next 10) :: [])%list)
      by (vm_compute; reflexivity).
    apply (Call (see (use_next 0)) _ _ _ [] (see (use_next 1)) (see (use_next 10))); try (vm_compute; reflexivity); [constructor|].
    constructor; [|constructor]. split; vm_compute; reflexivity.
  - split; [vm_compute; reflexivity|]. eexists. split; [vm_compute; reflexivity|].
    eexists. split.
    + repeat first [ apply ex_end | eapply ex_layout; [reflexivity|] | eapply ex_token; [reflexivity|discriminate|]
                   | eapply ex_name; [reflexivity|vm_compute; reflexivity|reflexivity|]
                   | eapply ex_object; [reflexivity|vm_compute; reflexivity|reflexivity| |] ].
    + vm_compute. reflexivity.
Qed.

Definition deep_source := "#define D 1 + x
#define C (D)
#define B C*C
#define A B; B
 A;".
Definition deep_state := snd (trace 4 snap_env 500 (init_st no_incs [] (lex_source deep_source))).
Definition deep_macro := match mget (macros deep_state) "A" with Some m => m | None => Macro 0 0 None 0 [] end.
Example C23_nontrivial :
  (exists y rest, at_name deep_state y deep_macro rest) /\ m_params deep_macro = None /\
  option_map (map snd) (unfolded (macros deep_state) 3 (m_body deep_macro)) =
    Some ["("; "1"; "+"; "x"; ")"; "*"; "("; "1"; "+"; "x"; ")"; ";"; "("; "1"; "+"; "x"; ")"; "*"; "("; "1"; "+"; "x"; ")"] /\
  option_map (String.substring 59 60) (preprocessed deep_source) = Some " ( 1 + x)* ( 1 + x); ( 1 + x)* ( 1 + x);".
Proof.
  split; [|split; [vm_compute; reflexivity|split; vm_compute; reflexivity]].
  exists (fst (hd (Sym KEof "" "" None zero_range (Delta 0 0), false) (lx_rest (lex deep_state)))), (tl (lx_rest (lex deep_state))).
  constructor; try (vm_compute; reflexivity). exists false. vm_compute. reflexivity.
Qed.

(** In an argument the first token of the body takes the distance of the macro's name: tokens merge. *)
Theorem C22_merged_refuted : preprocessed "#define FOO(%1) %1
FOO(new x);" = Some "#define FOO(%1) %1
newx;".
Proof. vm_compute. reflexivity. Qed.
Print Assumptions C22_merged_refuted.
(** A comma inside square brackets separates arguments. *)
Theorem C22_brackets_refuted : preprocessed "#define FOO(%1,%2) %1 - %2
int a = FOO(b[1,2], 3);" = Some "#define FOO(%1,%2) %1 - %2
int a = b [ 1 - 2], 3;".
Proof. vm_compute. reflexivity. Qed.
Print Assumptions C22_brackets_refuted.
(** % as an operator before a number: the expansion fails and the whole file is left as it is. *)
Theorem C22_modulo_refuted : preprocessed "#define FOO(%1) %1 % 2
int a = FOO(3);" = Some "#define FOO(%1) %1 % 2
int a = FOO(3);".
Proof. vm_compute. reflexivity. Qed.
Print Assumptions C22_modulo_refuted.
(** A macro with an empty list of parameters leaves the parentheses of its call. *)
Theorem C22_no_parameters_refuted : preprocessed "#define FOO() 5
int a = FOO();" = Some "#define FOO() 5
int a = 5();".
Proof. vm_compute. reflexivity. Qed.
Print Assumptions C22_no_parameters_refuted.
(** A macro's name that is not called: tokens looked at in search of a parenthesis come back in
    another order, or not at all. *)
Theorem C22_uncalled_refuted :
  preprocessed "#define FOO(%1) 5
int a = FOO /*c*/ ;" = Some "#define FOO(%1) 5
int a = FOO ; /*c*/" /\
  preprocessed "#define FOO(%1) (%1)
#define M FOO x y
 M;" = Some "#define FOO(%1) (%1)
#define M FOO x y
 FOO y x;" /\
  preprocessed "#define FOO(%1) (%1)
FOO /*c*/" = Some "#define FOO(%1) (%1)
FOO".
Proof. vm_compute. auto. Qed.
Print Assumptions C22_uncalled_refuted.
(** The first token of a nested macro's body takes the distance of the macro's name, not of its use. *)
Theorem C23_merged_refuted : preprocessed "#define B y
#define A int B
A;" = Some "#define B y
#define A int B
inty;".
Proof. vm_compute. reflexivity. Qed.
Print Assumptions C23_merged_refuted.
(** A comment between two names goes away and so does the space it stands for. *)
Theorem C23_comment_refuted : preprocessed "#define A int/**/x
 A;" = Some "#define A int/**/x
 intx;".
Proof. vm_compute. reflexivity. Qed.
Print Assumptions C23_comment_refuted.
(** The fifth level is dropped without a message. *)
Theorem C23_depth_refuted : preprocessed "#define A5 e f
#define A4 d A5
#define A3 c A4
#define A2 b A3
#define A1 a A2
 A1;" = Some "#define A5 e f
#define A4 d A5
#define A3 c A4
#define A2 b A3
#define A1 a A2
 a b c d;".
Proof. vm_compute. reflexivity. Qed.
Print Assumptions C23_depth_refuted.
