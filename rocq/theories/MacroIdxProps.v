(** C45: the number of a macro; also when both passes agree (C24). *)
From Coq Require Import List ZArith Bool String Lia.
From Verif Require Import PreTypes MacroModel EvalModel PreModel PreLex CondSpec CondProofs VisibleSpec PreEvents
  PreDbModel PreDbSpec PreDbProofs VisibleProps PreSim PreDbAgree MacroIdxSpec.
Import ListNotations.
Local Open Scope Z_scope.
Local Open Scope list_scope.

(** * C24: both passes *)

(** A file is preprocessed twice: once to collect the macros and once for its text. Both do the same
    when no active include of the file, nor the implicit one, leads to a file already preprocessed
    for it or to itself. Otherwise they differ (C24_second_include_refuted,
    C24_self_include_refuted). *)
Theorem C24_passes_agree :
  forall w n f m before res visits p,
    ~ In f before -> params_query (S n) w f m before = QOk res visits -> zget res f = Some p ->
    let v := file_env w f (params_inc w (params_query n w) f) in
    let i0 := Incs [] (f :: before) [] [f] None in
    w_resolve w f "sourcemod"%string false <> Some f ->
    (forall i1 m1 ok tr s1 e, v_inc v i0 m "sourcemod"%string false = (i1, m1, ok) ->
       reads v (w_fuel w) (init_st i1 m1 (w_syms w f)) tr s1 -> In e tr -> is_include e = true ->
       fresh_event v w f e) ->
    data_query w f p = fmap (set_incs no_incs) (preprocess v (w_fuel w) i0 m (w_syms w f)).
Proof. exact passes_agree. Qed.
Print Assumptions C24_passes_agree.

(** The file "sourcemod" includes itself, implicitly; its text is made with its final macros known
    from the start. Its guard is inactive in the text that is analysed, and [B] is replaced before
    its #define. *)
Theorem C24_self_include_refuted :
  text_of (preprocess_file 10 (project
    [("main", "int a;"); ("sourcemod",
"B
#if !defined GUARD
#define GUARD
int api;
#endif
#define B 2")]%string) (Some 0) 1) =
  Some
"2




#define B 2"%string.
Proof. vm_compute. reflexivity. Qed.
Print Assumptions C24_self_include_refuted.

(** * C45 *)

Lemma latest_bound ex tr : forall n x o k,
  latest ex n tr x o = Some (Bound k) ->
  (o = Some (Bound k) /\ ~ In x (define_names tr)) \/
  (n <= k < n + Z.of_nat (List.length (defines tr)) /\
   nth_error (define_names tr) (Z.to_nat (k - n)) = Some x /\
   forall j, k < j -> nth_error (define_names tr) (Z.to_nat (j - n)) <> Some x).
Proof.
  induction tr as [|e tr IH]; intros n x o k H; [left; split; [exact H|intros []]|].
  cbn [latest] in H. unfold define_names in *. cbn [defines filter].
  change (filter (is_dir MDefine) tr) with (defines tr).
  destruct (is_dir MDefine e) eqn:D.
  - cbn [map List.length].
    apply IH in H. destruct H as [[H Nin]|(A & B & C)].
    + destruct (String.eqb (define_name (line_of e)) x) eqn:Q.
      * injection H as <-. right. apply String.eqb_eq in Q.
        replace (n - n) with 0 by lia. split; [lia|]. split; [cbn; congruence|].
        intros j Hj E. replace (Z.to_nat (j - n)) with (S (Z.to_nat (j - (n + 1)))) in E by lia.
        cbn [nth_error] in E. apply nth_error_In in E. contradiction.
      * left. split; [exact H|]. intros [X|X]; [|contradiction].
        rewrite X, String.eqb_refl in Q. discriminate Q.
    + right. split; [lia|]. replace (Z.to_nat (k - n)) with (S (Z.to_nat (k - (n + 1)))) by lia.
      split; [exact B|]. intros j Hj.
      replace (Z.to_nat (j - n)) with (S (Z.to_nat (j - (n + 1)))) by lia. apply C. lia.
  - assert (X : forall o', latest ex n tr x o' = Some (Bound k) -> (o' = o \/ forall q, o' <> Some (Bound q)) ->
      (o = Some (Bound k) /\ ~ In x (map (fun e => define_name (line_of e)) (defines tr))) \/
      (n <= k < n + Z.of_nat (List.length (defines tr)) /\
       nth_error (map (fun e => define_name (line_of e)) (defines tr)) (Z.to_nat (k - n)) = Some x /\
       forall j, k < j -> nth_error (map (fun e => define_name (line_of e)) (defines tr)) (Z.to_nat (j - n)) <> Some x)).
    { intros o' H' Ho. apply IH in H'. destruct H' as [[H' N]|H']; [left|right; exact H'].
      destruct Ho as [->|Ho]; [auto|]. exfalso. exact (Ho k H'). }
    destruct (is_dir MUndef e).
    + eapply X; [exact H|]. destruct (undef_name (line_of e)) as [y|]; [|auto].
      destruct (String.eqb y x); [right; discriminate|auto].
    + destruct (is_include e).
      * eapply X; [exact H|]. destruct (ex e x); [right; discriminate|auto].
      * eapply X; [exact H|auto].
Qed.

(** The macro that stands for a name is numbered by the position of its #define among the active
    #define directives of its file, and it is the last of that name so far. *)
Theorem C45_number_is_position :
  forall v fuel table i m syms tr s x n,
    only_adds v table -> reads v fuel (init_st i m syms) tr s ->
    latest (exports v table) 0 tr x None = Some (Bound n) ->
    (exists mac, mget (macros s) x = Some mac /\ m_file mac = v_file v /\ m_idx mac = n) /\
    0 <= n < Z.of_nat (List.length (defines tr)) /\
    nth_error (define_names tr) (Z.to_nat n) = Some x /\
    (forall j, n < j -> nth_error (define_names tr) (Z.to_nat j) <> Some x).
Proof.
  intros v fuel table i m syms tr s x n Ha H L.
  pose proof (C24_latest_directive_wins v fuel table i m syms tr s x Ha H) as A. rewrite L in A.
  split; [exact A|]. apply latest_bound in L. destruct L as [[L _]|(B & C & D)]; [discriminate L|].
  rewrite Z.sub_0_r in C. split; [lia|]. split; [exact C|].
  intros j Hj. specialize (D j Hj). rewrite Z.sub_0_r in D. exact D.
Qed.
Print Assumptions C45_number_is_position.

Lemma define_names_app a b : define_names (a ++ b) = define_names a ++ define_names b.
Proof. unfold define_names, defines. rewrite filter_app, map_app. reflexivity. Qed.
Lemma reads_app v fuel s a s1 : reads v fuel s a s1 -> forall b s2, reads v fuel s1 b s2 -> reads v fuel s (a ++ b) s2.
Proof.
  induction 1; intros b s4 H2; cbn; [exact H2|]. eapply reads_cons; eauto.
Qed.

Lemma item_macros_some l : item_macros (map Some l) = l.
Proof. induction l; cbn; congruence. Qed.

(** Jumping from a use: [tr] is what was read before the use, [rest] what follows. When the parser
    finds in the preprocessed text the active #define directives, each with its name, the item tree
    lists under the number recorded for the use a #define of the name that was used. *)
Theorem C45_jump_reaches_define :
  forall v fuel table i m syms tr s t s1 s2 rest s3 nodes n,
    only_adds v table -> reads v fuel (init_st i m syms) tr s ->
    fetch s = Some (t, s1) -> step v fuel s = Next s2 -> skipping s1 = false ->
    s_kind (t_sym t) = KIdent -> intr s1 <> Some IDot ->
    reads v fuel s2 rest s3 ->
    nodes = map Some (define_names (tr ++ Ev (t_sym t) s1 s2 :: rest)) ->
    latest (exports v table) 0 tr (s_text (t_sym t)) None = Some (Bound n) ->
    (as_is s1 s2 (t_sym t) /\ disabled s1 <> []) \/
    (exp_sym s2 = Some (t_sym t, (n, v_file v)) /\ get_macro nodes n = Some (s_text (t_sym t)) /\
     nth_error (define_names tr) (Z.to_nat n) = Some (s_text (t_sym t))).
Proof.
  intros v fuel table i m syms tr s t s1 s2 rest s3 nodes n Ha H Hf Hs Sk K I Hrest -> L.
  pose proof (C24_use_follows_latest v fuel table i m syms tr s t s1 s2 Ha H Hf Hs Sk K I) as U.
  rewrite L in U.
  destruct (C45_number_is_position v fuel table i m syms tr s _ n Ha H L) as (_ & B & C & _).
  destruct U as [[U (mac & _ & _ & D)]|[_ U]].
  - left. split; [exact U|]. intros E. rewrite E in D. discriminate D.
  - right. split; [exact U|]. split; [|exact C].
    unfold get_macro. destruct (Z.ltb_spec n 0); [lia|].
    rewrite item_macros_some, define_names_app, nth_error_app1; [exact C|].
    unfold define_names. rewrite map_length. lia.
Qed.
Print Assumptions C45_jump_reaches_define.

(** What an active #define leaves in the text: one line with the directive as written, whatever its
    body; so the parser has it to find. *)
Lemma define_loop_written rest : forall d s d' s', define_loop rest d s = DOk d' s' ->
  cur_line s' = (cur_line s ++ written (fst (take_directive rest)))%string /\ out s' = out s.
Proof.
  assert (E0 : forall x : string, (x ++ "")%string = x) by (induction x; cbn; congruence).
  induction rest as [|[y pp] tl IH]; intros d s d' s' H; [discriminate H|].
  cbn [define_loop] in H.
  assert (Hd : fst (take_directive ((y, pp) :: tl)) = y :: (if pp then fst (take_directive tl) else [])).
  { cbn [take_directive]. destruct pp; [destruct (take_directive tl)|]; reflexivity. }
  rewrite Hd. clear Hd.
  destruct (kind_eqb (s_kind y) KEof) eqn:Ke.
  - apply kind_eqb_eq in Ke. rewrite Ke in H. injection H as <- <-. cbn [written]. rewrite Ke, E0. auto.
  - assert (H' : match define_symbol y d with
            | None => DBail (echo y (set_lex (Lex tl pp) s))
            | Some d0 => if pp then define_loop tl d0 (echo y (set_lex (Lex tl pp) s))
                         else DOk d0 (echo y (set_lex (Lex tl pp) s)) end = DOk d' s').
    { destruct (s_kind y); try exact H. vm_compute in Ke. discriminate Ke. }
    clear H. destruct (define_symbol y d) as [d0|]; [|discriminate H'].
    set (s1 := echo y (set_lex (Lex tl pp) s)) in *.
    assert (O1 : out s1 = out s) by (unfold s1, echo; destruct (s_kind y); reflexivity).
    assert (R : cur_line s' = (cur_line s1 ++ written (if pp then fst (take_directive tl) else []))%string /\ out s' = out s1).
    { destruct pp; [eapply IH; exact H'|]. injection H' as <- <-. cbn [written]. rewrite E0. auto. }
    destruct R as [R1 R2]. split; [|congruence]. rewrite R1. cbn [written]. unfold s1, echo, spaced.
    destruct (s_kind y); cbn; rewrite ?string_assoc; try reflexivity.
    vm_compute in Ke. discriminate Ke.
Qed.
Theorem C45_define_written :
  forall v fuel s t s1 s2,
    fetch s = Some (t, s1) -> step v fuel s = Next s2 -> is_dir MDefine (Ev (t_sym t) s1 s2) = true ->
    out s2 = out s1 ++ [(cur_line s1 ++ spaced (t_sym t) ++ written (line_of (Ev (t_sym t) s1 s2)))%string] /\
    cur_line s2 = EmptyString.
Proof.
  intros v fuel s t s1 s2 Hf Hs D. rewrite (step_fetched _ _ _ _ _ Hf) in Hs.
  unfold is_dir, kept in D. cbn [e_before e_sym] in D. destruct (skipping s1); [discriminate D|].
  cbn [negb andb] in D. apply kind_eqb_eq in D. unfold process_active in Hs. rewrite D in Hs.
  cbn [process_directive] in Hs. unfold process_define in Hs. unfold line_of. cbn [e_before].
  assert (R : lex (record_arg t s1) = lex s1 /\ cur_line (record_arg t s1) = cur_line s1 /\ out (record_arg t s1) = out s1).
  { unfold record_arg. destruct (t_orig t); cbn; auto. }
  destruct R as (R1 & R2 & R3).
  set (s0 := push_symbol (t_sym t) (record_arg t s1)) in *.
  assert (P : lex s0 = lex s1 /\ cur_line s0 = (cur_line s1 ++ spaced (t_sym t))%string /\ out s0 = out s1).
  { unfold s0, push_symbol. rewrite D. cbn. rewrite R1, R2, R3. unfold spaced. rewrite string_assoc. auto. }
  destruct P as (P1 & P2 & P3). rewrite P1 in Hs. rewrite directive_symbols_eq.
  assert (E0 : forall x : string, (x ++ "")%string = x) by (induction x; cbn; congruence).
  destruct (lx_pp (lex s1)).
  - destruct (define_loop _ _ _) as [d s'|s'|] eqn:E; try discriminate Hs.
    apply define_loop_written in E. destruct E as [E1 E2]. injection Hs as <-.
    unfold define_finish. cbv zeta. cbn [out cur_line set_macros set_idx reset_current_line push_current_line set_cur_line set_out set_cur_pos].
    rewrite E1, E2, P2, P3, string_assoc. auto.
  - injection Hs as <-. cbn. rewrite P2, P3, E0. auto.
Qed.
Print Assumptions C45_define_written.

(** ** Macros of other files *)
Definition incs_ok (w : world) (i : incs_t) : Prop :=
  (forall g p, zget (i_results i) g = Some p -> params_ok w p) /\
  (forall g, table_ok w (outputs_of (i_outputs i) g)).

Lemma table_ok_extend w m t : table_ok w m -> table_ok w t -> table_ok w (mextend m t).
Proof.
  intros A B x mac H. rewrite mget_mextend in H. destruct (mget t x) eqn:E; [|auto].
  injection H as <-. auto.
Qed.
Lemma outputs_app w a b : (forall g, table_ok w (outputs_of a g)) -> (forall g, table_ok w (outputs_of b g)) ->
  forall g, table_ok w (outputs_of (a ++ b) g).
Proof.
  intros A B g. unfold outputs_of in *. rewrite zget_app. specialize (A g). specialize (B g).
  destruct (zget a g); assumption.
Qed.

Lemma tables_ok w n : forall f m being res visits, table_ok w m ->
  params_query n w f m being = QOk res visits -> forall g p, zget res g = Some p -> params_ok w p.
Proof.
  induction n as [|n IH]; intros f m being res visits Hm H; [discriminate H|].
  cbn [params_query] in H.
  set (v := file_env w f (params_inc w (params_query n w) f)) in *.
  set (i0 := Incs [] (f :: being) [] [f] None) in *.
  assert (Hcall : forall i m p q, incs_ok w i -> table_ok w m ->
     incs_ok w (fst (fst (v_inc v i m p q))) /\ table_ok w (snd (fst (v_inc v i m p q)))).
  { intros i m0 p q Hi Hm0. cbn [v file_env v_inc]. unfold params_inc.
    destruct (w_resolve w f p q) as [inc|]; [|auto]. destruct (zmem inc (i_being i)); [auto|].
    destruct (params_query n w inc m0 (i_being i)) as [r vis|tb] eqn:Q; cbn [fst snd]; [|auto].
    destruct (zget r inc) as [p0|] eqn:Zi; cbn [fst snd]; [|auto].
    pose proof (IH inc m0 (i_being i) r vis Hm0 Q) as R. destruct (R inc p0 Zi) as [R1 R2].
    destruct Hi as [I1 I2]. split.
    - split; cbn [i_results i_outputs].
      + intros g p1 Hg. rewrite zget_app in Hg. destruct (zget r g) eqn:E; [injection Hg as <-|]; eauto.
      + apply outputs_app; assumption.
    - apply table_ok_extend; auto. }
  assert (Hopt : forall path q i m, incs_ok w i -> table_ok w m ->
     incs_ok w (fst (inc_call v path q (i, m))) /\ table_ok w (snd (inc_call v path q (i, m)))).
  { intros [x|] q i m0 Hi Hm0; cbn [inc_call fst snd]; auto. }
  destruct (v_inc v i0 m "sourcemod"%string false) as [[i1 m1] ok] eqn:Ei.
  pose proof (Hcall i0 m "sourcemod"%string false) as H1. rewrite Ei in H1. cbn [fst snd] in H1.
  destruct H1 as [Oi1 Om1]; [|exact Hm|].
  { split; cbn; [discriminate|]. intros g x mac X. discriminate X. }
  assert (Hrun : forall s tr s', reads v (w_fuel w) s tr s' -> forall pre,
     reads v (w_fuel w) (init_st i1 m1 (w_syms w f)) pre s ->
     table_ok w (macros s) -> idx s = Z.of_nat (List.length (defines pre)) -> incs_ok w (incs s) ->
     table_ok w (macros s') /\ incs_ok w (incs s')).
  { intros s tr s' Hr. induction Hr as [s|s t s1 s2 tr s3 Hf Hs _ IHr]; intros pre Hpre Ht Hx Hi; [auto|].
    pose proof (step_effect v (w_fuel w) s t s1 s2 Hf Hs) as E.
    pose proof (fetch_tables _ _ _ Hf) as T. injection T as T1 T2 T3.
    set (e := Ev (t_sym t) s1 s2) in *.
    assert (Hpre' : reads v (w_fuel w) (init_st i1 m1 (w_syms w f)) (pre ++ [e]) s2).
    { eapply reads_app; [exact Hpre|]. eapply reads_cons; [exact Hf|exact Hs|constructor]. }
    assert (Hd : forall b, is_dir MDefine e = b -> List.length (defines (pre ++ [e])) = (List.length (defines pre) + if b then 1 else 0)%nat).
    { intros b Hb. unfold defines. rewrite filter_app, app_length. cbn [filter]. rewrite Hb. destruct b; reflexivity. }
    assert (Hinc : forall d1 d2, is_dir d1 e = true -> d1 <> d2 -> is_dir d2 e = false).
    { intros d1 d2 A B. unfold is_dir in *. apply andb_true_iff in A. destruct A as [A1 A2]. rewrite A1.
      apply kind_eqb_eq in A2. rewrite A2. unfold kind_eqb.
      destruct (kind_eq_dec (KDir d1) (KDir d2)); [congruence|reflexivity]. }
    apply (IHr (pre ++ [e])); [exact Hpre'| | |];
      destruct E as [mac D M F I N J | D M I J | D M I | D U Y M]; cbn [e e_after e_before e_sym] in *.
    - rewrite M, T1. intros x mac0 X. rewrite mget_mset in X.
      destruct (String.eqb (define_name (line_of e)) x) eqn:Q.
      + injection X as <-. apply String.eqb_eq in Q. unfold named. rewrite I, F, T2, Hx. split; [lia|].
        exists (pre ++ [e]). split.
        * exists n, i0, m, i1, m1, ok, s2. split; [exact Ei|exact Hpre'].
        * rewrite define_names_app. unfold define_names at 2. unfold defines at 1.
          change (filter (is_dir MDefine) [e]) with (if is_dir MDefine e then [e] else []). rewrite D.
          rewrite nth_error_app2; unfold define_names; rewrite map_length; [|lia].
          rewrite Nat2Z.id, Nat.sub_diag. cbn. congruence.
      + auto.
    - rewrite M, T1. destruct (undef_name (line_of e)) as [z|]; [|exact Ht].
      intros x mac0 X. rewrite mget_mdel in X. destruct (String.eqb z x); [discriminate X|auto].
    - assert (O : incs_ok w (incs s2) /\ table_ok w (macros s2)).
      { assert (M' : (incs s2, macros s2) = inc_calls v (t_sym t) (incs s, macros s)) by (rewrite <- T1, <- T3; exact M).
        unfold inc_calls in M'. cbv zeta in M'.
        set (text := v_trim v (s_inline (t_sym t))) in *.
        destruct (Hopt (v_chevron v text) false (incs s) (macros s) Hi Ht) as [A B].
        destruct (Hopt (v_quote v text) true _ _ A B) as [A' B'].
        rewrite <- surjective_pairing, <- M' in A', B'. auto. }
      apply O.
    - injection M as M1 M2 M3. rewrite M1, T1. exact Ht.
    - rewrite (Hd true D), N, T2, Hx. lia.
    - rewrite (Hd false (Hinc MUndef MDefine D ltac:(discriminate))), I, T2, Hx. lia.
    - assert (Z : is_dir MDefine e = false).
      { unfold is_include in D. apply orb_true_iff in D. destruct D as [D|D]; (eapply Hinc; [exact D|discriminate]). }
      rewrite (Hd false Z), I, T2, Hx. lia.
    - injection M as M1 M2 M3. rewrite (Hd false D), M2, T2, Hx. lia.
    - rewrite J, T3. exact Hi.
    - rewrite J, T3. exact Hi.
    - assert (O : incs_ok w (incs s2) /\ table_ok w (macros s2)).
      { assert (M' : (incs s2, macros s2) = inc_calls v (t_sym t) (incs s, macros s)) by (rewrite <- T1, <- T3; exact M).
        unfold inc_calls in M'. cbv zeta in M'.
        set (text := v_trim v (s_inline (t_sym t))) in *.
        destruct (Hopt (v_chevron v text) false (incs s) (macros s) Hi Ht) as [A B].
        destruct (Hopt (v_quote v text) true _ _ A B) as [A' B'].
        rewrite <- surjective_pairing, <- M' in A', B'. auto. }
      apply O.
    - injection M as M1 M2 M3. rewrite M3, T3. exact Hi. }
  unfold preprocess in H. rewrite Ei in H.
  assert (Hfin : exists sf, (run (w_fuel w) v (w_fuel w) (init_st i1 m1 (w_syms w f)) = FResult sf \/
     run (w_fuel w) v (w_fuel w) (init_st i1 m1 (w_syms w f)) = FError sf) /\ params_finish f m sf = QOk res visits).
  { destruct (run _ _ _ _); try discriminate H; eauto. }
  destruct Hfin as (sf & Hsf & Hq).
  assert (Hrd : exists fin tr s1, (fin = FResult sf \/ fin = FError sf) /\
     reads v (w_fuel w) (init_st i1 m1 (w_syms w f)) tr s1 /\ step v (w_fuel w) s1 = Stop fin).
  { destruct Hsf as [Hsf|Hsf]; destruct (run_reads _ _ _ _ _ Hsf) as (tr & s1 & A & B); try discriminate; eauto 8. }
  destruct Hrd as (fin & tr & s1 & Hfin & Rd & St). apply stop_tables in St.
  assert (T : tables sf = tables s1) by (destruct Hfin as [-> | ->]; exact St). injection T as T1 _ T3.
  destruct (Hrun _ _ _ Rd [] (reads_nil _ _ _) Om1 eq_refl Oi1) as [O1 [O2 O3]].
  unfold params_finish in Hq. destruct (i_bad (incs sf)); [discriminate Hq|]. injection Hq as <- _.
  intros g p Hg. cbn [zget] in Hg. destruct (Z.eqb_spec f g) as [->|Nf].
  - injection Hg as <-. split; cbn [p_input p_outputs]; [exact Hm|].
    intros h. unfold outputs_of. cbn [zget]. destruct (g =? h); [rewrite T1; exact O1|].
    rewrite T3. apply O3.
  - apply (O2 g p). rewrite <- T3. exact Hg.
Qed.

(** Whatever the includes: the macro that the text of [f] uses for a name defined elsewhere carries
    the file and number of an active #define of that name in the first pass over that file. By
    C24_passes_agree the numbers of the first pass are those of the text of that file, when it does
    not include a file twice; without that they differ (C45_second_include_refuted). *)
Theorem C45_other_file_partial :
  forall n w root res visits f p tr i1 m1 ok s t s1 s2,
    params_query n w root [] [] = QOk res visits -> zget res f = Some p ->
    let v := file_env w f (data_inc w p f) in
    v_inc v no_incs (p_input p) "sourcemod"%string false = (i1, m1, ok) ->
    reads v (w_fuel w) (init_st i1 m1 (w_syms w f)) tr s ->
    fetch s = Some (t, s1) -> step v (w_fuel w) s = Next s2 -> skipping s1 = false ->
    s_kind (t_sym t) = KIdent -> intr s1 <> Some IDot ->
    as_is s1 s2 (t_sym t) \/
    exists k g, exp_sym s2 = Some (t_sym t, (k, g)) /\ 0 <= k /\
      ((g = f /\ nth_error (define_names tr) (Z.to_nat k) = Some (s_text (t_sym t))) \/
       exists tr', some_run w g tr' /\ nth_error (define_names tr') (Z.to_nat k) = Some (s_text (t_sym t))).
Proof.
  intros n w root res visits f p tr i1 m1 ok s t s1 s2 Hq Zp v Ei Rd Hf Hs Sk K I.
  assert (P : params_ok w p).
  { eapply tables_ok; [|exact Hq|exact Zp]. intros x mac X. discriminate X. }
  destruct P as [P1 P2].
  pose proof (proj1 C24_queries_only_add w p f) as Ha. fold v in Ha.
  assert (Om1 : table_ok w m1).
  { pose proof (Ha no_incs (p_input p) "sourcemod"%string false) as X. rewrite Ei in X. cbn [fst snd] in X. rewrite X.
    apply table_ok_extend; [exact P1|]. destruct (w_resolve w f "sourcemod" false); [apply P2|].
    intros x mac Y. discriminate Y. }
  pose proof (C24_use_follows_latest v (w_fuel w) _ i1 m1 (w_syms w f) tr s t s1 s2 Ha Rd Hf Hs Sk K I) as U.
  set (ex := exports v _) in U.
  assert (Hn : forall mac, named w (s_text (t_sym t)) mac ->
      replaced s1 s2 (t_sym t) (m_idx mac) (m_file mac) ->
      exists k g, exp_sym s2 = Some (t_sym t, (k, g)) /\ 0 <= k /\
      ((g = f /\ nth_error (define_names tr) (Z.to_nat k) = Some (s_text (t_sym t))) \/
       exists tr', some_run w g tr' /\ nth_error (define_names tr') (Z.to_nat k) = Some (s_text (t_sym t)))).
  { intros mac [N1 (tr' & N2 & N3)] [_ R]. exists (m_idx mac), (m_file mac). split; [exact R|]. split; [exact N1|]. eauto. }
  destruct (latest ex 0 tr (s_text (t_sym t)) None) as [[k| |mac]|] eqn:L.
  - destruct U as [[U _]|[_ U]]; [left; exact U|]. right. exists k, (v_file v). split; [exact U|].
    apply latest_bound in L. destruct L as [[L _]|(B & C & _)]; [discriminate L|].
    rewrite Z.sub_0_r in C. split; [lia|]. left. split; [reflexivity|exact C].
  - left. exact U.
  - destruct U as [[U _]|U]; [left; exact U|]. right. apply (Hn mac); [|exact U].
    assert (X : forall e x mac, ex e x = Some mac -> named w x mac).
    { intros e x mac0. unfold ex, exports. cbv zeta.
      assert (Y : forall path q mac1, match path with
         | Some p0 => mget (match w_resolve w f p0 q with Some inc => outputs_of (p_outputs p) inc | None => [] end) x
         | None => None end = Some mac1 -> named w x mac1).
      { clear -P2. intros [p0|] q mac1 H; [|discriminate H]. destruct (w_resolve w f p0 q); [|discriminate H].
        exact (P2 z x mac1 H). }
      destruct (match v_quote v _ with Some p0 => _ | None => _ end) eqn:Q.
      - intros H. injection H as <-. eapply Y; exact Q.
      - intros H. eapply Y; exact H. }
    assert (G : forall evs o z, latest ex z evs (s_text (t_sym t)) o = Some (Brought mac) ->
       (o = Some (Brought mac) \/ named w (s_text (t_sym t)) mac)).
    { induction evs as [|e tr0 IH]; intros o z H; [left; exact H|]. cbn [latest] in H. apply IH in H.
      destruct H as [H|H]; [|auto]. destruct (is_dir MDefine e).
      - destruct (String.eqb _ _); [discriminate H|auto].
      - destruct (is_dir MUndef e).
        + destruct (undef_name _) as [y|]; [|auto]. destruct (String.eqb _ _); [discriminate H|auto].
        + destruct (is_include e); [|auto]. destruct (ex e (s_text (t_sym t))) eqn:Q; [|auto].
          injection H as <-. right. eapply X; exact Q. }
    destruct (G tr None 0 L) as [X0|X0]; [discriminate X0|exact X0].
  - destruct (mget m1 (s_text (t_sym t))) as [mac|] eqn:G.
    + destruct U as [[U _]|U]; [left; exact U|]. right. apply (Hn mac); [|exact U]. apply Om1. exact G.
    + left. exact U.
Qed.
Print Assumptions C45_other_file_partial.

(** What the preprocessor recorded for the uses in the text of a file: name, number and file. *)
Definition recorded (r : presult) : option (list (Z * Z)) :=
  match r with
  | PRun (FResult s) | PRun (FError s) => Some (map (fun o => (o_idx (snd o), o_file (snd o))) (offsets s))
  | _ => None
  end.
Local Open Scope string_scope.

(** Definitions before and after, inactive ones between them, a use of the file's own macro and of
    one of an included file that itself skips a definition. *)
Example C45_nontrivial :
  let w := project
    [("main",
"#define A 1
#if 0
#define SKIPPED 2
#endif
#define B 3
#include <inc>
#define C 4
int x = B + I;
"); ("inc",
"#define H 1
#if defined B
#define I 5
#endif
")] in
  recorded (preprocess_file 10 w (Some 0%Z) 0%Z) = Some [(1, 0); (1, 1)]%Z /\
  get_macro [Some "A"; Some "B"; Some "C"] 1 = Some "B" /\ get_macro [Some "H"; Some "I"] 1 = Some "I".
Proof. vm_compute. auto. Qed.

(** When the preprocessing fails the text is the source itself, in which the parser finds the
    #define directives of inactive code as well: number 0 was recorded for [B], the item tree lists
    [A] under it. (The last #endif has no #if.) *)
Theorem C45_failed_preprocessing_refuted :
  let w := project [("main",
"#if 0
#define A 1
#endif
#define B 2
int x = B;
#endif
")] in
  (match preprocess_file 10 w (Some 0%Z) 0%Z with PRun (FError _) => True | _ => False end) /\
  recorded (preprocess_file 10 w (Some 0%Z) 0%Z) = Some [(0, 0)]%Z /\
  get_macro [Some "A"; Some "B"] 0 = Some "A".
Proof. vm_compute. auto. Qed.
Print Assumptions C45_failed_preprocessing_refuted.

(** A #define without a name, or with a comment before the name, takes a number in the preprocessor;
    the item tree passes over a node without a name. Number 1 was recorded for [A]; the item tree
    has only number 0. *)
Theorem C45_nameless_define_refuted :
  let w := project [("main",
"#define
#define A 1
int x = A;
")] in
  recorded (preprocess_file 10 w (Some 0%Z) 0%Z) = Some [(1, 0)]%Z /\
  get_macro [None; Some "A"] 1 = None /\ get_macro [None; Some "A"] 0 = Some "A".
Proof. vm_compute. auto. Qed.
Print Assumptions C45_nameless_define_refuted.

(** Including a file twice makes the two passes over "main" differ: the first pass sees [X] as 2 and
    numbers [A], [B] 2 and 3; the text is made with [X] as 1, so that [A] is not in it and [B] is
    number 2. The file "use" was given number 3 for [B]. *)
Theorem C45_second_include_refuted :
  let w := project
    [("main",
"#define X 1
#include <inc>
#undef X
#define X 2
#include <inc>
#if X == 2
#define A 1
#endif
#define B 2
#include <use>
"); ("inc", "int a;"); ("use", "int x = B;
")] in
  recorded (preprocess_file 10 w (Some 0%Z) 2%Z) = Some [(3, 0)]%Z /\
  text_of (preprocess_file 10 w (Some 0%Z) 0%Z) = Some
"#define X 1
#include <inc>
#undef X
#define X 2
#include <inc>



#define B 2
#include <use>
" /\
  get_macro [Some "X"; Some "X"; Some "B"] 3 = None.
Proof. vm_compute. auto. Qed.
Print Assumptions C45_second_include_refuted.
