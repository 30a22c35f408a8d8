(** Line numbers along a run, for C17. *)
From Coq Require Import List ZArith Bool String Ascii Lia.
From Verif Require Import PreTypes MacroModel EvalModel PreModel CondSpec CondProofs PreEvents LinesSpec LinesExpand.
Import ListNotations.
Local Open Scope list_scope.

Definition sumnl (l : list string) : nat := list_sum (map newlines l).
Definition wr (s : st) : nat := (List.length (out s) + sumnl (out s) + newlines (cur_line s))%nat.

Lemma sumnl_cons x l : sumnl (x :: l) = (newlines x + sumnl l)%nat.
Proof. reflexivity. Qed.
Lemma join_newlines l c : newlines (join_lines (l ++ [c])) = (List.length l + sumnl l + newlines c)%nat.
Proof.
  induction l as [|x l IH]; [reflexivity|]. cbn [app]. destruct (l ++ [c]) as [|y tl] eqn:E; [destruct l; discriminate E|].
  change (join_lines (x :: y :: tl)) with (x ++ nl ++ join_lines (y :: tl))%string.
  rewrite !newlines_app, IH, sumnl_cons. cbn [List.length]. change (newlines nl) with 1%nat. lia.
Qed.
Lemma written_wr s : written s = wr s.
Proof. apply join_newlines. Qed.

Lemma sumnl_app a b : sumnl (a ++ b) = (sumnl a + sumnl b)%nat.
Proof. unfold sumnl. rewrite map_app, list_sum_app. reflexivity. Qed.
Lemma sumnl_blank n : sumnl (repeat EmptyString n) = O.
Proof. induction n; [reflexivity|exact IHn]. Qed.

(** * Writing *)
Lemma wr_push_text t s : wr (push_text t s) = (wr s + newlines t)%nat.
Proof. unfold wr, push_text. cbn [out cur_line set_cur_line set_out set_cur_pos pline pcol]. rewrite newlines_app. lia. Qed.
Lemma wr_push_ws y s : wr (push_ws y s) = wr s.
Proof. unfold wr, push_ws. cbn [out cur_line set_cur_line set_out set_cur_pos pline pcol]. rewrite newlines_app, newlines_spaces. lia. Qed.
Lemma wr_push_line s : wr (reset_current_line (push_current_line s)) = S (wr s).
Proof. unfold wr, reset_current_line, push_current_line. cbn [out cur_line set_cur_line set_out set_cur_pos pline pcol]. rewrite app_length, sumnl_app, sumnl_cons. change (newlines EmptyString) with 0%nat. cbn [List.length]. change (sumnl []) with 0%nat. lia. Qed.
Lemma wr_push_blank n s : wr (push_blank n s) = (wr s + n)%nat.
Proof. unfold wr, push_blank. cbn [out cur_line set_cur_line set_out set_cur_pos pline pcol]. rewrite app_length, repeat_length, sumnl_app, sumnl_blank. lia. Qed.
Lemma wr_push_symbol y s : s_kind y <> KEof -> wr (push_symbol y s) = (wr s + newlines (s_text y))%nat.
Proof.
  intros K. unfold push_symbol. destruct (s_kind y); try congruence;
    rewrite wr_push_text; f_equal; exact (wr_push_ws y s).
Qed.
Lemma wr_echo y s : wr (echo y s) = (wr s + match s_kind y with KNewline | KEof => 0 | _ => newlines (s_text y) end)%nat.
Proof.
  unfold echo. pose proof (wr_push_ws y s). destruct (s_kind y); rewrite ?wr_push_text; lia.
Qed.

(** * Symbols that follow each other *)
Definition src (l : list (symbol * bool)) : nat := source_newlines l.
Lemma src_cons y pp tl : src ((y, pp) :: tl) = (newlines (s_text y) + src tl)%nat.
Proof. reflexivity. Qed.
Lemma src_app a b : src (a ++ b) = (src a + src b)%nat.
Proof. unfold src, source_newlines. rewrite map_app, list_sum_app. reflexivity. Qed.
Lemma src_toks C : nls (ltoks C) = src C.
Proof. unfold nls, ltoks, src, source_newlines. rewrite map_map. reflexivity. Qed.

Lemma lexed_cons ln pp y pp' tl : lexed ln pp ((y, pp') :: tl) ->
  pline (rstart (s_range y)) = ln /\ pline (rend (s_range y)) = (ln + Z.of_nat (newlines (s_text y)))%Z /\ fine y /\
  ((s_kind y = KEof /\ tl = [] /\ s_text y = EmptyString) \/
   (s_kind y <> KEof /\ lexed (ln + Z.of_nat (newlines (s_text y))) pp' tl /\
    (s_kind y = KNewline -> pp' = false) /\ (forall d, s_kind y = KDir d -> pp' = true) /\
    (pp = true -> s_kind y <> KNewline -> pp' = true))).
Proof.
  intros (A & B & C & D). repeat (split; [assumption|]).
  destruct (s_kind y); try (left; tauto); right; (split; [discriminate|]); destruct D as [D1 D2];
    (split; [exact D2|]); repeat split; try congruence.
Qed.

Lemma lexed_app C : forall ln pp R, lexed ln pp (C ++ R) -> R <> [] -> exists pp', lexed (ln + Z.of_nat (src C)) pp' R.
Proof.
  induction C as [|[y p] C IH]; intros ln pp R H HR.
  - exists pp. cbn in *. replace (ln + 0)%Z with ln by lia. exact H.
  - cbn [app] in H. apply lexed_cons in H. destruct H as (_ & _ & _ & [(_ & E & _)|(_ & H & _)]).
    + apply app_eq_nil in E. destruct E. contradiction.
    + destruct (IH _ _ _ H HR) as (pp' & X). exists pp'. rewrite src_cons.
      replace (ln + Z.of_nat (newlines (s_text y) + src C))%Z with (ln + Z.of_nat (newlines (s_text y)) + Z.of_nat (src C))%Z by lia.
      exact X.
Qed.
Lemma lexed_fine C : forall ln pp R, lexed ln pp (C ++ R) -> Forall fine_t (ltoks C).
Proof.
  induction C as [|[y p] C IH]; intros ln pp R H; [constructor|].
  cbn [app] in H. apply lexed_cons in H. destruct H as (_ & _ & F & [(_ & E & _)|(_ & H & _)]).
  - apply app_eq_nil in E. destruct E as [-> _]. constructor; [exact F|constructor].
  - constructor; [exact F|]. eapply IH, H.
Qed.
Lemma lexed_all C : forall ln pp, lexed ln pp C -> Forall clean (removelast (ltoks C)) -> Forall clean (ltoks C).
Proof.
  induction C as [|[y p] C IH]; intros ln pp H F; [constructor|].
  apply lexed_cons in H. destruct H as (_ & _ & Fy & [(K & -> & E)|(_ & H & _)]).
  - constructor; [|constructor]. apply fine_clean; [exact Fy|]. cbn. unfold t_text. cbn. rewrite E. reflexivity.
  - cbn [ltoks map] in F. destruct C as [|z C]; [destruct H|]. cbn [map removelast] in F.
    inversion F; subst. constructor; [assumption|]. eapply IH; [exact H|]. assumption.
Qed.
Lemma lexed_nonempty ln pp l : lexed ln pp l -> l <> [].
Proof. destruct l; [intros []|discriminate]. Qed.

Lemma take_directive_lexed rest : forall ln ys l, lexed ln true rest -> take_directive rest = (ys, l) ->
  exists la tl, rev ys = la :: tl /\
    exists n, pline (rend (s_range la)) = (ln + Z.of_nat n)%Z /\ src rest = (n + src (lx_rest l))%nat /\
      (lx_rest l <> [] -> lexed (ln + Z.of_nat n) (lx_pp l) (lx_rest l)).
Proof.
  induction rest as [|[y pp] tl IH]; intros ln ys l H; [destruct H|].
  apply lexed_cons in H. destruct H as (_ & B & _ & D). cbn [take_directive].
  assert (One : forall l0, src tl = src (lx_rest l0) -> (lx_rest l0 <> [] -> lexed (ln + Z.of_nat (newlines (s_text y))) (lx_pp l0) (lx_rest l0)) ->
    exists la tl0, rev [y] = la :: tl0 /\
    exists n, pline (rend (s_range la)) = (ln + Z.of_nat n)%Z /\ src ((y, pp) :: tl) = (n + src (lx_rest l0))%nat /\
      (lx_rest l0 <> [] -> lexed (ln + Z.of_nat n) (lx_pp l0) (lx_rest l0))).
  { intros l0 E1 E2. exists y, []. split; [reflexivity|]. exists (newlines (s_text y)). rewrite src_cons, E1. auto. }
  destruct pp.
  - destruct (take_directive tl) as [ys0 l0] eqn:E. intros H; injection H as <- <-.
    destruct D as [(_ & -> & _)|(_ & D & _)].
    + injection E as <- <-. apply One; [reflexivity|]. cbn. congruence.
    + destruct (IH _ _ _ D eq_refl) as (la & tl0 & R & n & P1 & P2 & P3).
      exists la, (tl0 ++ [y]). split; [cbn [rev]; rewrite R; reflexivity|].
      exists (newlines (s_text y) + n)%nat. rewrite src_cons, P2. split; [lia|]. split; [lia|].
      intros HR. specialize (P3 HR). replace (ln + Z.of_nat (newlines (s_text y) + n))%Z with (ln + Z.of_nat (newlines (s_text y)) + Z.of_nat n)%Z by lia.
      exact P3.
  - intros H; injection H as <- <-. apply One; [reflexivity|]. cbn [lx_rest lx_pp]. intros HR.
    destruct D as [(_ & -> & _)|(_ & D & _)]; [congruence|exact D].
Qed.

(** * The invariant *)

(** [N] line ends in the whole file; what was written, what is pending and what is to be read add up
    to it, and the next symbol to be read stands on the line where the text stands. *)
Record lines_ok (N : nat) (s : st) : Prop := LinesOk {
  lo_stack : Forall fine_t (estack s);
  lo_macros : fine_macros (macros s);
  lo_lines : lx_rest (lex s) <> [] -> (wr s + nls (estack s) + src (lx_rest (lex s)) = N)%nat /\
             exists pp, lexed (Z.of_nat (wr s + nls (estack s))) pp (lx_rest (lex s))
}.

(** The same with [t] fetched. *)
Record fetched_ok (N : nat) (t : token) (s : st) : Prop := FetchedOk {
  fo_tok : fine_t t;
  fo_stack : Forall fine_t (estack s);
  fo_macros : fine_macros (macros s);
  fo_lines : lx_rest (lex s) <> [] -> (wr s + newlines (t_text t) + nls (estack s) + src (lx_rest (lex s)) = N)%nat /\
             exists pp, lexed (Z.of_nat (wr s + newlines (t_text t) + nls (estack s))) pp (lx_rest (lex s))
}.
(** ... from the lexer, and it is a directive *)
Record fresh_dir (N : nat) (t : token) (s : st) : Prop := FreshDir {
  fd_stack : estack s = [];
  fd_pp : lx_pp (lex s) = true;
  fd_start : pline (rstart (t_range t)) = Z.of_nat (wr s);
  fd_end : pline (rend (t_range t)) = Z.of_nat (wr s + newlines (t_text t));
  fd_lexed : lexed (Z.of_nat (wr s + newlines (t_text t))) true (lx_rest (lex s));
  fd_sum : (wr s + newlines (t_text t) + src (lx_rest (lex s)) = N)%nat
}.

Lemma fetch_fields s t s1 : fetch s = Some (t, s1) ->
  out s1 = out s /\ cur_line s1 = cur_line s /\ macros s1 = macros s /\
  ((estack s = t :: estack s1 /\ lex s1 = lex s) \/
   (estack s = [] /\ estack s1 = [] /\ exists pp, t = tok (t_sym t) /\ lx_rest (lex s) = (t_sym t, pp) :: lx_rest (lex s1) /\ lx_pp (lex s1) = pp)).
Proof.
  unfold fetch. destruct (estack s) as [|t0 tl] eqn:E.
  - unfold lex_next. destruct (lx_rest (lex s)) as [|[y pp] rest]; [discriminate|].
    destruct (exp_sym s) as [[es [i f]]|]; intros H; injection H as <- <-; cbn;
      (repeat (split; [reflexivity|])); right; (split; [reflexivity|]); (split; [exact E|]); exists pp; repeat split.
  - intros H; injection H as <- <-. cbn. repeat (split; [reflexivity|]). left. auto.
Qed.

Lemma fetch_ok N s t s1 : lines_ok N s -> fetch s = Some (t, s1) -> fetched_ok N t s1.
Proof.
  intros [A B C] H. destruct (fetch_fields _ _ _ H) as (E1 & E2 & E3 & D).
  assert (W : wr s1 = wr s) by (unfold wr; rewrite E1, E2; reflexivity).
  destruct D as [(D1 & D2)|(D1 & D2 & pp & D3 & D4 & D5)].
  - rewrite D1 in A, C. inversion A; subst. constructor; auto; [rewrite E3; assumption|].
    rewrite D2. intros HR. destruct (C HR) as (C1 & pp & C2). rewrite nls_cons in C1, C2. rewrite W. split; [lia|].
    exists pp. rewrite <- Nat.add_assoc. exact C2.
  - destruct C as (C1 & p0 & C2); [rewrite D4; discriminate|]. rewrite D1, D4 in C1, C2. cbn [nls map list_sum fold_right] in C1, C2.
    rewrite src_cons in C1. apply lexed_cons in C2. destruct C2 as (_ & _ & F & C2).
    constructor; [exact F|rewrite D2; constructor|rewrite E3; exact B|].
    intros HR. rewrite W, D2. cbn [nls map list_sum fold_right]. split; [unfold t_text; change (nls []) with 0%nat in *; lia|].
    destruct C2 as [(_ & X & _)|(_ & X & _)]; [contradiction|]. exists pp.
    unfold t_text. change (nls []) with 0%nat in *.
    replace (Z.of_nat (wr s + newlines (s_text (t_sym t)) + 0)) with (Z.of_nat (wr s + 0) + Z.of_nat (newlines (s_text (t_sym t))))%Z by lia.
    exact X.
Qed.

Lemma fetch_dir N s t s1 d : lines_ok N s -> fetch s = Some (t, s1) -> no_pending s = true -> t_kind t = KDir d -> fresh_dir N t s1.
Proof.
  intros [A B C] H Hn K. destruct (fetch_fields _ _ _ H) as (E1 & E2 & E3 & D).
  assert (W : wr s1 = wr s) by (unfold wr; rewrite E1, E2; reflexivity).
  unfold no_pending in Hn. destruct (estack s) as [|z w] eqn:Es; [|discriminate Hn].
  destruct D as [(D1 & D2)|(_ & D2 & pp & D3 & D4 & D5)]; [discriminate D1|].
  destruct C as (C1 & p0 & C2); [rewrite D4; discriminate|]. rewrite D4 in C1, C2. change (nls []) with 0%nat in *.
  rewrite src_cons in C1. apply lexed_cons in C2. destruct C2 as (S1 & S2 & F & C2). rewrite Nat.add_0_r in *.
  destruct C2 as [(K' & _)|(_ & X & _ & X2 & _)]; [unfold t_kind in K; congruence|].
  specialize (X2 _ K). rewrite X2 in *.
  constructor.
  - exact D2.
  - exact D5.
  - rewrite W. exact S1.
  - rewrite W. unfold t_range, t_text. rewrite S2. lia.
  - rewrite W. unfold t_text. replace (Z.of_nat (wr s + newlines (s_text (t_sym t)))) with (Z.of_nat (wr s) + Z.of_nat (newlines (s_text (t_sym t))))%Z by lia. exact X.
  - rewrite W. unfold t_text. lia.
Qed.

(** * One iteration *)

(** The text grew by the symbol, nothing else changed. *)
Lemma step_plain N t s s2 : fetched_ok N t s ->
  estack s2 = estack s -> macros s2 = macros s -> lex s2 = lex s ->
  wr s2 = (wr s + newlines (t_text t))%nat -> lines_ok N s2.
Proof. intros [A B C D] E1 E2 E3 E4. constructor; rewrite ?E1, ?E2, ?E3, ?E4; auto. Qed.
Lemma step_dropped N t s s2 : fetched_ok N t s -> newlines (t_text t) = O ->
  estack s2 = estack s -> macros s2 = macros s -> lex s2 = lex s -> wr s2 = wr s -> lines_ok N s2.
Proof. intros F Z E1 E2 E3 E4. eapply step_plain; eauto. lia. Qed.

Lemma process_if_ok N v fuel t s s2 d : fetched_ok N t s -> fresh_dir N t s -> t_kind t = KDir d ->
  process_if v fuel (t_sym t) s = Next s2 -> lines_ok N s2.
Proof.
  intros F [A P S1 S2 L M] K. unfold process_if, directive_symbols. rewrite P.
  destruct (take_directive (lx_rest (lex s))) as [ys l] eqn:E.
  destruct (take_directive_lexed _ _ _ _ L E) as (la & tl & R & n & Q1 & Q2 & Q3).
  assert (X : forall s', estack s' = estack s -> macros s' = macros s -> lex s' = l -> wr s' = wr s ->
     lines_ok N (push_blank (Z.to_nat (pline (rend (s_range la)) - pline (rstart (s_range (t_sym t))))) s')).
  { intros s' X1 X2 X3 X4. destruct F as [F1 F2 F3 F4].
    assert (Wn : wr (push_blank (Z.to_nat (pline (rend (s_range la)) - pline (rstart (s_range (t_sym t))))) s') = (wr s + newlines (t_text t) + n)%nat).
    { rewrite wr_push_blank, X4, Q1. unfold t_range in S1. rewrite S1. lia. }
    constructor; cbn [push_blank set_out estack macros lex].
    - rewrite X1. exact F2.
    - rewrite X2. exact F3.
    - rewrite X3. intros HR. fold (push_blank (Z.to_nat (pline (rend (s_range la)) - pline (rstart (s_range (t_sym t))))) s').
      change (set_out (out s' ++ repeat EmptyString (Z.to_nat (pline (rend (s_range la)) - pline (rstart (s_range (t_sym t)))))) s')
        with (push_blank (Z.to_nat (pline (rend (s_range la)) - pline (rstart (s_range (t_sym t))))) s').
      rewrite Wn, X1, A. change (nls []) with 0%nat. split; [lia|]. exists (lx_pp l).
      replace (Z.of_nat (wr s + newlines (t_text t) + n + 0)) with (Z.of_nat (wr s + newlines (t_text t)) + Z.of_nat n)%Z by lia.
      apply Q3, HR. }
  rewrite R. cbn [macros set_lex disabled].
  destruct (evaluate _ _ _ _ _ _) as [b o dd|r nf o dd| |]; try discriminate; intros H; injection H as <-;
    try destruct b; apply X; reflexivity.
Qed.

Lemma fine_dir_text t d : fine_t t -> t_kind t = KDir d -> spans (KDir d) = false -> newlines (t_text t) = O.
Proof. intros F K S. unfold fine_t, fine, t_kind, t_text in *. rewrite K in F. destruct F as (_ & _ & F). apply F, S. Qed.

Lemma process_elseif_ok N v fuel t s s2 : fetched_ok N t s -> fresh_dir N t s -> t_kind t = KDir MElseif ->
  process_elseif v fuel (t_sym t) s = Next s2 -> lines_ok N s2.
Proof.
  intros F D K. unfold process_elseif. pose proof (fine_dir_text t _ (fo_tok _ _ _ F) K eq_refl) as Z.
  destruct (conds s) as [|c0 cs]; [discriminate|]. destruct c0.
  - intros H. eapply process_if_ok in H; [exact H| | |exact K].
    + destruct F as [F1 F2 F3 F4]. constructor; assumption.
    + destruct D as [D1 D2 D3 D4 D5 D6]. constructor; assumption.
  - intros H; injection H as <-. eapply step_dropped; [exact F|exact Z|reflexivity..].
  - intros H; injection H as <-. eapply step_dropped; [exact F|exact Z|reflexivity..].
Qed.
Lemma process_else_ok N t s s2 : fetched_ok N t s -> t_kind t = KDir MElse -> process_else (t_sym t) s = Some s2 -> lines_ok N s2.
Proof.
  intros F K H. pose proof (fine_dir_text t _ (fo_tok _ _ _ F) K eq_refl) as Z.
  unfold process_else in H. destruct (conds s) as [|[| |] c]; try discriminate;
    injection H as <-; (eapply step_dropped; [exact F|exact Z|reflexivity..]).
Qed.
Lemma process_endif_ok N t s s2 : fetched_ok N t s -> t_kind t = KDir MEndif -> process_endif (t_sym t) s = Some s2 -> lines_ok N s2.
Proof.
  intros F K H. pose proof (fine_dir_text t _ (fo_tok _ _ _ F) K eq_refl) as Z.
  unfold process_endif in H. destruct (conds s) as [|c0 [|[| |] c]]; try discriminate;
    injection H as <-; (eapply step_dropped; [exact F|exact Z|reflexivity..]).
Qed.

(** #define *)
Definition open_body (b : list rsym) : Prop := Forall (fun r => r_kind r <> KNewline /\ newlines (r_text r) = O) b.
Lemma open_fine b : open_body b -> fine_body b.
Proof.
  induction 1 as [|r tl [K H] _ IH]; [exact I|]. cbn [fine_body]. destruct (r_kind r); try congruence; auto.
Qed.
Lemma open_fine_newline b r : open_body b -> r_kind r = KNewline -> fine_body (b ++ [r]).
Proof.
  intros H K. induction H as [|r0 tl [K0 H] _ IH]; cbn [app fine_body].
  - rewrite K. reflexivity.
  - destruct (r_kind r0); try congruence; auto.
Qed.
Lemma define_symbol_body y d d' : define_symbol y d = Some d' -> d_body d' = d_body d \/ d_body d' = d_body d ++ [rsym_of y].
Proof.
  unfold define_symbol. destruct (d_state d).
  - destruct (_ && _); [intros H; injection H as <-; auto|]. destruct (_ && _); intros H; injection H as <-; auto.
  - destruct (0 <? _)%Z; [intros H; injection H as <-; auto|].
    destruct (s_kind y) as [| | | | | | | | | | | | | | |[]|[]| | |]; try discriminate;
      try (intros H; injection H as <-; auto; fail).
    destruct (s_int y); [|discriminate]. destruct (_ || _); [discriminate|]. intros H; injection H as <-; auto.
  - intros H; injection H as <-; auto.
Qed.

Lemma echo_fields y s : estack (echo y s) = estack s /\ macros (echo y s) = macros s /\ lex (echo y s) = lex s.
Proof. unfold echo. destruct (s_kind y); cbn; auto. Qed.
Lemma push_symbol_fields y s : estack (push_symbol y s) = estack s /\ macros (push_symbol y s) = macros s /\ lex (push_symbol y s) = lex s.
Proof. unfold push_symbol. destruct (s_kind y); cbn; auto. Qed.

Lemma define_loop_le rest : forall d s d' s', define_loop rest d s = DOk d' s' -> (List.length (lx_rest (lex s')) <= List.length rest)%nat.
Proof.
  induction rest as [|[z p] tl IH]; intros d s d' s'; [discriminate|]. cbn [define_loop].
  destruct (echo_fields z (set_lex (Lex tl p) s)) as (_ & _ & X).
  assert (Y : match define_symbol z d with
            | None => DBail (echo z (set_lex (Lex tl p) s))
            | Some d0 => if p then define_loop tl d0 (echo z (set_lex (Lex tl p) s))
                         else DOk d0 (echo z (set_lex (Lex tl p) s)) end = DOk d' s' -> (List.length (lx_rest (lex s')) <= S (List.length tl))%nat).
  { destruct (define_symbol z d); [|discriminate]. destruct p.
    - intros H. apply IH in H. lia.
    - intros H; injection H as <- <-. rewrite X. cbn. lia. }
  cbn [List.length]. destruct (s_kind z); try exact Y. intros H; injection H as <- <-. cbn. lia.
Qed.
Lemma define_loop_ok rest : forall ln d s d' s', lexed ln true rest -> open_body (d_body d) ->
  define_loop rest d s = DOk d' s' ->
  Forall (fun y => s_kind y = KNewline \/ newlines (s_inline y) = O) (firstn (List.length rest - List.length (lx_rest (lex s'))) (map fst rest)) ->
  estack s' = estack s /\ macros s' = macros s /\ fine_body (d_body d') /\
  (lx_rest (lex s') = [] -> wr s' = (wr s + src rest)%nat) /\
  (lx_rest (lex s') <> [] ->
    (S (wr s') + src (lx_rest (lex s')) = wr s + src rest)%nat /\
    exists pp n, lexed (ln + Z.of_nat n) pp (lx_rest (lex s')) /\ S (wr s') = (wr s + n)%nat).
Proof.
  induction rest as [|[y pp] tl IH]; intros ln d s d' s' L Hb; [destruct L|].
  apply lexed_cons in L. destruct L as (_ & _ & F & L). cbn [define_loop].
  destruct L as [(K & -> & T)|(K & L & P1 & P2 & P3)].
  - rewrite K. intros H; injection H as <- <-. intros _. cbn [set_lex estack macros lex lx_rest].
    repeat (split; [reflexivity|]). split; [apply open_fine, Hb|]. split; [|congruence].
    intros _. rewrite src_cons, T. change (wr s = wr s + (0 + 0))%nat. lia.
  - assert (X : match define_symbol y d with
            | None => DBail (echo y (set_lex (Lex tl pp) s))
            | Some d0 => if pp then define_loop tl d0 (echo y (set_lex (Lex tl pp) s))
                         else DOk d0 (echo y (set_lex (Lex tl pp) s)) end = DOk d' s' ->
       Forall (fun y => s_kind y = KNewline \/ newlines (s_inline y) = O) (firstn (S (List.length tl) - List.length (lx_rest (lex s'))) (y :: map fst tl)) ->
       estack s' = estack s /\ macros s' = macros s /\ fine_body (d_body d') /\
  (lx_rest (lex s') = [] -> wr s' = (wr s + src ((y, pp) :: tl))%nat) /\
  (lx_rest (lex s') <> [] ->
    (S (wr s') + src (lx_rest (lex s')) = wr s + src ((y, pp) :: tl))%nat /\
    exists pp n, lexed (ln + Z.of_nat n) pp (lx_rest (lex s')) /\ S (wr s') = (wr s + n)%nat)).
    { destruct (echo_fields y (set_lex (Lex tl pp) s)) as (G1 & G2 & G3).
      pose proof (wr_echo y (set_lex (Lex tl pp) s)) as G4. change (wr (set_lex (Lex tl pp) s)) with (wr s) in G4.
      destruct (define_symbol y d) as [d0|] eqn:Ed; [|discriminate]. apply define_symbol_body in Ed.
      destruct pp.
      - assert (Kn : s_kind y <> KNewline) by (intros X; specialize (P1 X); discriminate).
        intros H Hn.
        pose proof (define_loop_le _ _ _ _ _ H) as Le.
        replace (S (List.length tl) - List.length (lx_rest (lex s')))%nat with (S (List.length tl - List.length (lx_rest (lex s')))) in Hn by lia.
        cbn [firstn] in Hn. inversion Hn as [|? ? Ki Hn']; subst.
        assert (Hb0 : open_body (d_body d0)).
        { destruct Ed as [->| ->]; [exact Hb|]. apply Forall_app. split; [exact Hb|]. constructor; [|constructor].
          unfold rsym_of. cbn. split; [exact Kn|]. tauto. }
        apply (IH _ _ _ _ _ L Hb0) in H; [|exact Hn']. destruct H as (H1 & H2 & H3 & H4 & H5).
        assert (G5 : wr (echo y (set_lex (Lex tl true) s)) = (wr s + newlines (s_text y))%nat).
        { rewrite G4. destruct (s_kind y); congruence. }
        rewrite H1, H2, G1, G2. repeat (split; [reflexivity|]). split; [exact H3|]. rewrite src_cons. split.
        + intros HR. rewrite (H4 HR), G5. lia.
        + intros HR. destruct (H5 HR) as (H6 & p & n & H7 & H8). rewrite G5 in H6, H8. split; [lia|].
          exists p, (newlines (s_text y) + n)%nat. split; [|lia].
          replace (ln + Z.of_nat (newlines (s_text y) + n))%Z with (ln + Z.of_nat (newlines (s_text y)) + Z.of_nat n)%Z by lia. exact H7.
      - assert (Kn : s_kind y = KNewline).
        { destruct (kind_eq_dec (s_kind y) KNewline) as [X|X]; [exact X|]. specialize (P3 eq_refl X). discriminate. }
        intros H; injection H as <- <-. intros _. rewrite G1, G2, G3. cbn [set_lex estack macros lex lx_rest].
        repeat (split; [reflexivity|]). rewrite Kn in G4. unfold fine in F. rewrite Kn in F. split.
        + destruct Ed as [->| ->]; [apply open_fine, Hb|]. apply open_fine_newline; [exact Hb|exact Kn].
        + split; [intros ->; destruct L|]. intros _. rewrite src_cons, F, G4. split; [lia|]. exists false, 1%nat. rewrite F in L. split; [exact L|lia]. }
    destruct (s_kind y); try exact X. congruence.
Qed.

Lemma fine_mset m n x : fine_macros m -> fine_body (m_body x) -> fine_macros (mset m n x).
Proof.
  intros H Hx. constructor; [exact Hx|]. unfold mdel, fine_macros in *. rewrite Forall_forall in *. intros p Hp. apply filter_In in Hp. apply H, Hp.
Qed.
Lemma fine_mdel m n : fine_macros m -> fine_macros (mdel m n).
Proof.
  intros H. unfold mdel, fine_macros in *. rewrite Forall_forall in *. intros p Hp. apply filter_In in Hp. apply H, Hp.
Qed.

Lemma process_define_ok N v t s s2 : fetched_ok N t s -> fresh_dir N t s -> t_kind t = KDir MDefine ->
  process_define v (t_sym t) s = Next s2 ->
  Forall (fun y => s_kind y = KNewline \/ newlines (s_inline y) = O)
    (firstn (List.length (lx_rest (lex s)) - List.length (lx_rest (lex s2))) (map fst (lx_rest (lex s)))) ->
  lines_ok N s2 /\ (lx_rest (lex s2) = [] -> wr s2 = S N /\ cur_line s2 = EmptyString).
Proof.
  intros F [A P S1 S2 L M] K. pose proof (fine_dir_text t _ (fo_tok _ _ _ F) K eq_refl) as Z. unfold process_define.
  destruct (push_symbol_fields (t_sym t) s) as (G1 & G2 & G3). rewrite G3, P.
  assert (W0 : wr (push_symbol (t_sym t) s) = (wr s + newlines (t_text t))%nat) by (apply wr_push_symbol; unfold t_kind in K; rewrite K; discriminate).
  destruct (define_loop _ _ _) as [d s'|s'|] eqn:E; try discriminate. intros H; injection H as <-. intros Hn.
  change (lex (define_finish v d s')) with (lex s') in Hn.
  assert (Hd : open_body (d_body def0)) by constructor.
  destruct (define_loop_ok _ _ _ _ _ _ L Hd E Hn) as (H1 & H2 & H3 & H4 & H5).
  rewrite G1, A in H1. rewrite G2 in H2.
  assert (W : wr (define_finish v d s') = S (wr s')) by exact (wr_push_line s').
  assert (Fm : fine_macros (macros (define_finish v d s'))).
  { unfold define_finish. cbn [set_macros macros]. apply fine_mset; [change (fine_macros (macros s')); rewrite H2; exact (fo_macros _ _ _ F)|].
    destruct (d_found d); exact H3. }
  split.
  - constructor.
    + change (estack (define_finish v d s')) with (estack s'). rewrite H1. constructor.
    + exact Fm.
    + change (lex (define_finish v d s')) with (lex s'). change (estack (define_finish v d s')) with (estack s').
      rewrite H1, W. change (nls []) with 0%nat. intros HR. destruct (H5 HR) as (H6 & p & n & H7 & H8).
      rewrite W0 in H6, H8. split; [lia|]. exists p.
      replace (Z.of_nat (S (wr s') + 0)) with (Z.of_nat (wr s + newlines (t_text t)) + Z.of_nat n)%Z by lia. exact H7.
  - change (lex (define_finish v d s')) with (lex s'). intros HR. rewrite W, (H4 HR), W0. split; [lia|reflexivity].
Qed.

(** #undef *)
Lemma undef_loop_ok rest : forall ln s s', lexed ln true rest -> undef_loop rest s = Next s' ->
  Forall (fun y => s_kind y <> KNewline) (firstn (List.length rest - List.length (lx_rest (lex s'))) (map fst rest)) ->
  estack s' = estack s /\ (macros s' = macros s \/ exists n, macros s' = mdel (macros s) n) /\
  (lx_rest (lex s') <> [] ->
    (wr s' + src (lx_rest (lex s')) = wr s + src rest)%nat /\
    exists pp n, lexed (ln + Z.of_nat n) pp (lx_rest (lex s')) /\ wr s' = (wr s + n)%nat).
Proof.
  induction rest as [|[y pp] tl IH]; intros ln s s' L; [destruct L|].
  apply lexed_cons in L. destruct L as (_ & _ & F & L). cbn [undef_loop].
  destruct (echo_fields y (set_lex (Lex tl pp) s)) as (G1 & G2 & G3). cbn [set_lex estack macros lex] in G1, G2, G3.
  pose proof (wr_echo y (set_lex (Lex tl pp) s)) as G4. change (wr (set_lex (Lex tl pp) s)) with (wr s) in G4.
  set (e := echo y (set_lex (Lex tl pp) s)) in *.
  assert (One : forall s1, estack s1 = estack e -> (macros s1 = macros e \/ exists n, macros s1 = mdel (macros e) n) ->
     lex s1 = lex e -> wr s1 = wr e ->
     Forall (fun y => s_kind y <> KNewline) (firstn (S (List.length tl) - List.length (lx_rest (lex s1))) (y :: map fst tl)) ->
     estack s1 = estack s /\ (macros s1 = macros s \/ exists n, macros s1 = mdel (macros s) n) /\
  (lx_rest (lex s1) <> [] ->
    (wr s1 + src (lx_rest (lex s1)) = wr s + src ((y, pp) :: tl))%nat /\
    exists pp n, lexed (ln + Z.of_nat n) pp (lx_rest (lex s1)) /\ wr s1 = (wr s + n)%nat)).
  { intros s1 X1 X2 X3 X4 X5. rewrite X1, G1. rewrite G2 in X2. split; [reflexivity|]. split; [exact X2|].
    rewrite X3, G3 in X5. cbn [lx_rest] in X5. replace (S (List.length tl) - List.length tl)%nat with 1%nat in X5 by lia.
    cbn [firstn] in X5. inversion X5; subst. rewrite X3, G3. cbn [lx_rest]. intros HR.
    destruct L as [(_ & -> & _)|(K & L & _)]; [congruence|]. rewrite X4, G4, src_cons.
    assert (Q : match s_kind y with KNewline | KEof => 0%nat | _ => newlines (s_text y) end = newlines (s_text y)) by (destruct (s_kind y); congruence).
    rewrite Q. split; [lia|]. exists pp, (newlines (s_text y)). auto. }
  cbn [map fst List.length].
  destruct (kind_eqb (s_kind y) KIdent).
  - intros H; injection H as <-. apply One; cbn; eauto.
  - destruct pp.
    + intros H Hn. destruct L as [(K & -> & T)|(K & L & P1 & P2 & P3)]; [discriminate H|].
      assert (Le : (List.length (lx_rest (lex s')) <= List.length tl)%nat).
      { clear - H. revert H. generalize e. clear e. induction tl as [|[z p] tl IH]; intros e; [discriminate|]. cbn [undef_loop].
        destruct (echo_fields z (set_lex (Lex tl p) e)) as (_ & _ & X).
        destruct (kind_eqb _ _).
        - intros H; injection H as <-. cbn [set_macros lex]. rewrite X. cbn. lia.
        - destruct p.
          + intros H. apply IH in H. cbn. lia.
          + intros H; injection H as <-. rewrite X. cbn. lia. }
      replace (S (List.length tl) - List.length (lx_rest (lex s')))%nat with (S (List.length tl - List.length (lx_rest (lex s')))) in Hn by lia.
      cbn [firstn] in Hn. inversion Hn as [|? ? Kn Hn']; subst.
      destruct (IH _ _ _ L H Hn') as (H1 & H2 & H3). rewrite G1 in H1. rewrite G2 in H2. split; [exact H1|]. split; [exact H2|].
      intros HR. destruct (H3 HR) as (H4 & p & n & H5 & H6).
      assert (Q : match s_kind y with KNewline | KEof => 0%nat | _ => newlines (s_text y) end = newlines (s_text y)) by (destruct (s_kind y); congruence).
      rewrite Q in G4. rewrite src_cons. split; [lia|]. exists p, (newlines (s_text y) + n)%nat. split; [|lia].
      replace (ln + Z.of_nat (newlines (s_text y) + n))%Z with (ln + Z.of_nat (newlines (s_text y)) + Z.of_nat n)%Z by lia. exact H5.
    + intros H; injection H as <-. apply One; auto.
Qed.

Lemma process_undef_ok N t s s2 : fetched_ok N t s -> fresh_dir N t s -> t_kind t = KDir MUndef ->
  process_undef (t_sym t) s = Next s2 ->
  Forall (fun y => s_kind y <> KNewline) (firstn (List.length (lx_rest (lex s)) - List.length (lx_rest (lex s2))) (map fst (lx_rest (lex s)))) ->
  lines_ok N s2.
Proof.
  intros F [A P S1 S2 L M] K. unfold process_undef.
  destruct (push_symbol_fields (t_sym t) s) as (G1 & G2 & G3). rewrite G3, P.
  assert (W0 : wr (push_symbol (t_sym t) s) = (wr s + newlines (t_text t))%nat) by (apply wr_push_symbol; unfold t_kind in K; rewrite K; discriminate).
  intros H Hn. destruct (undef_loop_ok _ _ _ _ L H Hn) as (H1 & H2 & H3). rewrite G1, A in H1. rewrite G2 in H2.
  constructor.
  - rewrite H1. constructor.
  - destruct H2 as [->|(n & ->)]; [exact (fo_macros _ _ _ F)|apply fine_mdel; exact (fo_macros _ _ _ F)].
  - intros HR. destruct (H3 HR) as (H4 & p & n & H5 & H6). rewrite H1. change (nls []) with 0%nat. split; [lia|].
    exists p. replace (Z.of_nat (wr s2 + 0)) with (Z.of_nat (wr s + newlines (t_text t)) + Z.of_nat n)%Z by lia. exact H5.
Qed.

(** #include *)
Lemma include_path_ok v p q i l s : fine_env v -> fine_macros (macros s) ->
  fine_macros (macros (include_path v p q i l s)) /\ estack (include_path v p q i l s) = estack s /\
  lex (include_path v p q i l s) = lex s /\ wr (include_path v p q i l s) = wr s.
Proof.
  intros [V _] H. unfold include_path. destruct p as [p|]; [|auto]. specialize (V (incs s) (macros s) p q H).
  destruct (v_inc v (incs s) (macros s) p q) as [[i' m] ok]. cbn [fst snd] in V. destruct (ok || i); cbn; auto.
Qed.
Lemma process_include_ok N v t s i d : fine_env v -> fetched_ok N t s -> fresh_dir N t s -> t_kind t = KDir d ->
  lines_ok N (process_include v (t_sym t) i s).
Proof.
  intros V F [A P S1 S2 L M] K. unfold process_include. cbv zeta.
  set (line := pline (rstart (s_range (t_sym t)))). set (text := v_trim v (s_inline (t_sym t))).
  destruct (include_path_ok v (v_chevron v text) false i line s V (fo_macros _ _ _ F)) as (I1 & I2 & I3 & I4).
  set (sa := include_path v (v_chevron v text) false i line s) in *.
  destruct (include_path_ok v (v_quote v text) true i line sa V I1) as (J1 & J2 & J3 & J4).
  set (sb := include_path v (v_quote v text) true i line sa) in *.
  set (y := Sym (s_kind (t_sym t)) text text (s_int (t_sym t)) (s_range (t_sym t)) (s_delta (t_sym t))).
  destruct (push_symbol_fields y sb) as (G1 & G2 & G3).
  assert (T0 : newlines text = O).
  { destruct V as [_ V]. apply V. pose proof (fo_tok _ _ _ F) as X. unfold fine_t, fine, t_kind in *. rewrite K in X. exact (proj1 X). }
  assert (W0 : wr (push_symbol y sb) = wr s).
  { rewrite wr_push_symbol; [|cbn; unfold t_kind in K; rewrite K; discriminate]. cbn [s_text y]. lia. }
  set (sc := push_symbol y sb) in *.
  assert (Dl : (pline (rend (s_range (t_sym t))) - line)%Z = Z.of_nat (newlines (t_text t))).
  { unfold t_range in S1, S2. unfold line. rewrite S1, S2. lia. }
  rewrite Dl.
  assert (X : forall s', estack s' = estack sc -> macros s' = macros sc -> lex s' = lex sc -> wr s' = (wr s + newlines (t_text t))%nat -> lines_ok N s').
  { intros s' E1 E2 E3 E4. constructor.
    - rewrite E1, G1, J2, I2, A. constructor.
    - rewrite E2, G2. exact J1.
    - rewrite E1, E3, E4, G1, G3, J2, J3, I2, I3, A. change (nls []) with 0%nat. intros HR. rewrite Nat.add_0_r.
      split; [exact M|]. exists true. exact L. }
  destruct (Z.ltb_spec 0 (Z.of_nat (newlines (t_text t)))) as [H|H].
  - apply X; try reflexivity. rewrite wr_push_blank, wr_push_line, W0. lia.
  - apply X; try reflexivity. lia.
Qed.

Lemma record_fields t s : estack (record_arg t s) = estack s /\ macros (record_arg t s) = macros s /\
  lex (record_arg t s) = lex s /\ wr (record_arg t s) = wr s /\ skipping (record_arg t s) = skipping s.
Proof. unfold record_arg. destruct (t_orig t); repeat split. Qed.

Lemma handle_text_newlines : newlines handle_text = O.
Proof. reflexivity. Qed.

Lemma step_lines N v fuel s t s1 s2 : fine_env v -> lines_ok N s -> fetch s = Some (t, s1) -> step v fuel s = Next s2 ->
  keeps_lines (no_pending s) (Ev (t_sym t) s1 s2) ->
  lines_ok N s2 /\
  (skipping s1 = false -> t_kind t = KDir MDefine -> lx_rest (lex s2) = [] -> wr s2 = S N /\ cur_line s2 = EmptyString).
Proof.
  intros V I Hf Hs [Hd Hk]. cbn [e_sym e_before e_after] in Hd, Hk. unfold kept in Hk. cbn [e_before] in Hk.
  unfold taken in Hk. cbn [e_before e_after] in Hk.
  rewrite (step_fetched _ _ _ _ _ Hf) in Hs.
  pose proof (fetch_ok _ _ _ _ I Hf) as F0.
  assert (D0 : forall d, t_kind t = KDir d -> fresh_dir N t s1).
  { intros d K. eapply fetch_dir; [exact I|exact Hf| |exact K]. unfold t_kind in K. rewrite K in Hd. exact Hd. }
  destruct (record_fields t s1) as (R1 & R2 & R3 & R4 & R5).
  assert (F : fetched_ok N t (record_arg t s1)).
  { destruct F0 as [A B C D]. constructor; rewrite ?R1, ?R2, ?R3, ?R4; assumption. }
  assert (D : forall d, t_kind t = KDir d -> fresh_dir N t (record_arg t s1)).
  { intros d K. destruct (D0 d K) as [A1 A2 A3 A4 A5 A6]. constructor; rewrite ?R1, ?R2, ?R3, ?R4; assumption. }
  rewrite <- R3 in Hk. set (s0 := record_arg t s1) in *. clearbody s0. clear R1 R2 R3 R4 R5 F0 D0.
  destruct (skipping s1) eqn:Sk; cbn [negb] in Hk.
  - split; [|discriminate]. unfold process_negative in Hs.
    assert (Drop : s_kind (t_sym t) <> KNewline -> newlines (t_text t) = O) by (intros K; destruct Hk; [contradiction|assumption]).
    destruct (s_kind (t_sym t)) as [| [] | | | | | | | | | | | | | | | | | |] eqn:K;
      try (injection Hs as <-; eapply step_dropped; [exact F|apply Drop; discriminate|reflexivity..]).
    + eapply process_elseif_ok; [exact F|eapply D; exact K|exact K|exact Hs].
    + destruct (process_else _ _) as [s'|] eqn:E; [|discriminate Hs]. injection Hs as <-. eapply process_else_ok; [exact F|exact K|exact E].
    + destruct (process_endif _ _) as [s'|] eqn:E; [|discriminate Hs]. injection Hs as <-. eapply process_endif_ok; [exact F|exact K|exact E].
    + injection Hs as <-. eapply step_plain; [exact F|reflexivity..|].
      pose proof (fo_tok _ _ _ F) as X. unfold fine_t, fine in X. rewrite K in X. unfold t_text. rewrite X.
      transitivity (S (wr s0)); [exact (wr_push_line s0)|lia].
  - assert (Ps : forall s', s_kind (t_sym t) <> KEof -> estack s' = estack s0 -> macros s' = macros s0 -> lex s' = lex s0 -> wr s' = wr s0 ->
       lines_ok N (push_symbol (t_sym t) s')).
    { intros s' K E1 E2 E3 E4. destruct (push_symbol_fields (t_sym t) s') as (G1 & G2 & G3).
      eapply step_plain; [exact F|congruence..|]. rewrite wr_push_symbol by exact K. unfold t_text. lia. }
    unfold process_active in Hs.
    destruct (s_kind (t_sym t)) as [| d | | | | | | | | | | | | | | | | | |] eqn:K; try discriminate Hs;
      try (split; [|intros _ X; unfold t_kind in X; congruence]; injection Hs as <-; apply Ps; [discriminate|reflexivity..]).
    + destruct (kind_eq_dec (KDir d) (KDir MDefine)) as [Ed|Ed].
      * injection Ed as ->. cbn [process_directive] in Hs.
        destruct (process_define_ok N v t s0 s2 F (D _ K) K Hs Hk) as [X1 X2]. split; [exact X1|]. intros _ _. exact X2.
      * split; [|intros _ X; unfold t_kind in X; congruence].
        destruct d; cbn [process_directive] in Hs; try congruence.
        -- eapply process_if_ok; [exact F|eapply D; exact K|exact K|exact Hs].
        -- eapply process_elseif_ok; [exact F|eapply D; exact K|exact K|exact Hs].
        -- destruct (process_else _ _) as [s'|] eqn:E; [|discriminate Hs]. injection Hs as <-. eapply process_else_ok; [exact F|exact K|exact E].
        -- destruct (process_endif _ _) as [s'|] eqn:E; [|discriminate Hs]. injection Hs as <-. eapply process_endif_ok; [exact F|exact K|exact E].
        -- eapply process_undef_ok; [exact F|eapply D; exact K|exact K|exact Hs|exact Hk].
        -- injection Hs as <-. eapply process_include_ok; [exact V|exact F|eapply D; exact K|exact K].
        -- injection Hs as <-. eapply process_include_ok; [exact V|exact F|eapply D; exact K|exact K].
        -- injection Hs as <-. apply Ps; [discriminate|reflexivity..].
    + split; [|intros _ X; unfold t_kind in X; congruence]. injection Hs as <-. eapply step_plain; [exact F|reflexivity..|].
      pose proof (fo_tok _ _ _ F) as X. unfold fine_t, fine in X. rewrite K in X. unfold t_text. rewrite X.
      rewrite wr_push_line, wr_push_ws. lia.
    + split; [|intros _ X; unfold t_kind in X; congruence].
      assert (T0 : newlines (t_text t) = O).
      { pose proof (fo_tok _ _ _ F) as X. unfold fine_t, fine in X. rewrite K in X. apply X. reflexivity. }
      assert (X : match mget (macros s0) (s_text (t_sym t)) with
          | None => Next (push_symbol (t_sym t) s0)
          | Some m =>
              if dmem m (disabled s0)
              then Next (push_symbol (t_sym t) (set_disabled (drem m (disabled s0)) s0))
              else
                match expand_identifier fuel (lex s0) (macros s0) t true (disabled s0) with
                | XOk diff pushed l dis =>
                    Next (set_adiff diff (set_exp_sym (Some ((t_sym t), (m_idx m, m_file m)))
                      (set_estack (pushed ++ estack s0) (set_lex l (set_disabled dis s0)))))
                | XNotFound name r l dis =>
                    Stop (FError (set_err_notfound (err_notfound s0 ++ [(name, r)]) s0))
                | XParse _ _ _ => Stop (FError s0)
                | XFuel => Stop FFuel
                end
          end = Next s2 -> lines_ok N s2).
      { destruct (mget _ _) as [m|].
        - destruct (dmem _ _); [intros H; injection H as <-; apply Ps; [discriminate|reflexivity..]|].
          destruct (expand_identifier _ _ _ _ _ _) as [diff pushed l dis|n r l dis|r l dis|] eqn:E; try discriminate.
          intros H; injection H as <-. cbn [set_adiff set_exp_sym set_estack set_lex lex lx_rest] in Hk.
          destruct F as [F1 F2 F3 F4].
          destruct (expand_identifier_lines _ _ _ _ _ _ _ _ _ _ F3 F1 K E) as (C & EC & HC).
          assert (Tk : firstn (List.length (lx_rest (lex s0)) - List.length (lx_rest l)) (map fst (lx_rest (lex s0))) = map fst C).
          { rewrite EC, app_length, Nat.add_sub, map_app, <- (map_length fst C). rewrite firstn_app, Nat.sub_diag, firstn_all. cbn. apply app_nil_r. }
          rewrite Tk in Hk.
          assert (FC : Forall fine_t (ltoks C)).
          { destruct (lx_rest (lex s0)) as [|z w] eqn:Er.
            - symmetry in EC. apply app_eq_nil in EC. destruct EC as [-> _]. constructor.
            - destruct F4 as (_ & pp & F4); [discriminate|]. rewrite EC in F4. eapply lexed_fine, F4. }
          assert (LC : Forall clean (removelast (ltoks C))).
          { clear - FC Hk. induction C as [|p C IH]; [constructor|]. cbn [ltoks map removelast] in *.
            destruct C as [|p' C]; [constructor|]. cbn [map] in *. inversion FC; subst. inversion Hk; subst.
            constructor; [apply fine_clean; assumption|]. apply IH; assumption. }
          destruct (HC FC LC) as [H1 H2].
          { intros HR. rewrite HR, app_nil_r in EC. destruct C as [|z w] eqn:Er; [constructor|].
            rewrite <- Er in *. destruct F4 as (_ & pp & F4); [rewrite EC, Er; discriminate|]. rewrite EC in F4. eapply lexed_all; [exact F4|exact LC]. }
          constructor; cbn [set_adiff set_exp_sym set_estack set_lex lex lx_rest estack macros set_disabled].
          + apply Forall_app. split; [exact H2|exact F2].
          + exact F3.
          + intros HR. change (wr (set_adiff diff (set_exp_sym (Some (t_sym t, (m_idx m, m_file m))) (set_estack (pushed ++ estack s0) (set_lex l (set_disabled dis s0)))))) with (wr s0).
            destruct F4 as (F5 & pp & F6). { rewrite EC. intros X. apply app_eq_nil in X. destruct X. contradiction. }
            rewrite EC in F5, F6. rewrite src_app in F5. rewrite nls_app, H1, src_toks.
            destruct (lexed_app _ _ _ _ F6 HR) as (pp' & F7). split; [lia|]. exists pp'.
            replace (Z.of_nat (wr s0 + (src C + nls (estack s0)))) with (Z.of_nat (wr s0 + newlines (t_text t) + nls (estack s0)) + Z.of_nat (src C))%Z by lia.
            exact F7.
        - intros H; injection H as <-. apply Ps; [discriminate|reflexivity..]. }
      destruct (intr s0) as [[]|]; try (apply X; exact Hs).
      injection Hs as <-. destruct (String.eqb _ _); (eapply step_dropped; [exact F|exact T0|try reflexivity..]).
      change (wr (push_text handle_text s0) = wr s0). rewrite wr_push_text, handle_text_newlines. lia.
    + split; [|intros _ X; unfold t_kind in X; congruence]. injection Hs as <-. eapply step_dropped; [exact F| |reflexivity..].
      pose proof (fo_tok _ _ _ F) as X. unfold fine_t, fine in X. rewrite K in X. apply X. reflexivity.
    + split; [|intros _ X; unfold t_kind in X; congruence]. injection Hs as <-. eapply step_dropped; [exact F| |reflexivity..].
      pose proof (fo_tok _ _ _ F) as X. unfold fine_t, fine in X. rewrite K in X. apply X. reflexivity.
    + split; [|intros _ X; unfold t_kind in X; congruence].
      assert (T0 : newlines (t_text t) = O).
      { pose proof (fo_tok _ _ _ F) as X. unfold fine_t, fine in X. rewrite K in X. apply X. reflexivity. }
      destruct (intr s0) as [[]|]; injection Hs as <-; try (apply Ps; [discriminate|reflexivity..]);
        (eapply step_dropped; [exact F|exact T0|reflexivity..]).
    + split; [|intros _ X; unfold t_kind in X; congruence].
      assert (T0 : newlines (t_text t) = O).
      { pose proof (fo_tok _ _ _ F) as X. unfold fine_t, fine in X. rewrite K in X. apply X. reflexivity. }
      destruct (intr s0) as [[]|]; injection Hs as <-; try (apply Ps; [discriminate|reflexivity..]);
        (eapply step_dropped; [exact F|exact T0|reflexivity..]).
Qed.

Lemma reads_lines N v fuel s tr s' : fine_env v -> reads v fuel s tr s' -> lines_ok N s ->
  all_keep_lines (no_pending s) tr -> lines_ok N s'.
Proof.
  intros V H. induction H as [s|s t s1 s2 tr s3 Hf Hs _ IH]; intros I Hk; [exact I|].
  destruct Hk as [Hk1 Hk2]. cbn [e_after] in Hk2. apply IH; [|exact Hk2].
  exact (proj1 (step_lines _ _ _ _ _ _ _ V I Hf Hs Hk1)).
Qed.
Lemma init_lines i m syms : fine_macros m -> lexed 0 false syms -> lines_ok (source_newlines syms) (init_st i m syms).
Proof.
  intros Hm Hl. constructor; cbn.
  - constructor.
  - exact Hm.
  - intros _. split; [reflexivity|]. exists false. exact Hl.
Qed.
