(** Macro expansion and line ends, for C17. *)
From Coq Require Import List ZArith Bool String Ascii Lia.
From Verif Require Import PreTypes MacroModel PreModel CondSpec LinesSpec.
Import ListNotations.
Local Open Scope list_scope.

Lemma newlines_app a b : newlines (a ++ b)%string = (newlines a + newlines b)%nat.
Proof. induction a as [|c a IH]; [reflexivity|]. cbn. rewrite IH. destruct (Ascii.eqb _ _); reflexivity. Qed.
Lemma newlines_spaces n : newlines (spaces n) = O.
Proof. induction n; [reflexivity|exact IHn]. Qed.

Definition nls (l : list token) : nat := list_sum (map (fun t => newlines (t_text t)) l).
Lemma nls_app a b : nls (a ++ b) = (nls a + nls b)%nat.
Proof. unfold nls. rewrite map_app, list_sum_app. reflexivity. Qed.
Lemma nls_cons t l : nls (t :: l) = (newlines (t_text t) + nls l)%nat.
Proof. reflexivity. Qed.
Lemma nls_rev a : nls (rev a) = nls a.
Proof. induction a as [|t a IH]; [reflexivity|]. cbn [rev]. rewrite nls_app, IH, !nls_cons. cbn. lia. Qed.

Definition clean (t : token) : Prop :=
  t_kind t <> KNewline /\ newlines (t_text t) = O /\ newlines (t_inline t) = O.
Definition fine_t (t : token) : Prop := fine (t_sym t).
Lemma clean_fine t : clean t -> fine_t t.
Proof. intros (K & A & B). unfold fine_t, fine, t_kind, t_text, t_inline in *. destruct (s_kind (t_sym t)); try congruence; repeat split; auto. Qed.
Lemma fine_clean t : fine_t t -> newlines (t_text t) = O -> clean t.
Proof.
  intros H E. unfold clean, fine_t, fine, t_kind, t_text, t_inline in *.
  destruct (s_kind (t_sym t)); try (destruct H as (H1 & H2 & H3); repeat split; [discriminate|assumption|auto]). congruence.
Qed.
Lemma fine_single t : fine_t t -> spans (t_kind t) = false -> t_kind t <> KNewline -> clean t.
Proof.
  intros H E K. unfold clean, fine_t, fine, t_kind, t_text, t_inline in *.
  destruct (s_kind (t_sym t)); try congruence; try discriminate E; (destruct H as (H1 & H2 & H3); repeat split; auto; discriminate).
Qed.
Lemma nls_clean l : Forall clean l -> nls l = O.
Proof. induction 1 as [|t l (_ & H & _) _ IH]; [reflexivity|]. rewrite nls_cons. lia. Qed.

(** * Bodies *)
Definition cleans (c : list qtok) : Prop := Forall (fun q => clean (q_tok q)) c.

Lemma body_symbols_len b : forall prev, List.length (body_symbols b prev) = List.length b.
Proof. induction b; intros; [reflexivity|]. cbn. auto. Qed.

Lemma to_symbol_clean r prev : r_kind r <> KNewline -> newlines (r_text r) = O -> clean (tok (to_symbol r prev)).
Proof. intros K H. repeat split; assumption. Qed.

Lemma fine_body_split b : fine_body b ->
  exists b0 b1, b = b0 ++ b1 /\ Forall (fun r => r_kind r <> KNewline /\ newlines (r_text r) = O) b0 /\
    (b1 = [] \/ exists r, b1 = [r] /\ r_kind r = KNewline).
Proof.
  induction b as [|r tl IH]; intros H.
  - exists [], []. auto.
  - cbn [fine_body] in H.
    assert (X : r_kind r <> KNewline -> newlines (r_text r) = O /\ fine_body tl ->
      exists b0 b1, r :: tl = b0 ++ b1 /\ Forall (fun r => r_kind r <> KNewline /\ newlines (r_text r) = O) b0 /\
    (b1 = [] \/ exists r, b1 = [r] /\ r_kind r = KNewline)).
    { intros K [H1 H2]. destruct (IH H2) as (b0 & b1 & -> & A & B). exists (r :: b0), b1. auto. }
    destruct (r_kind r) eqn:K; try (apply X; [discriminate|exact H]).
    subst tl. exists [], [r]. split; [reflexivity|]. split; [constructor|]. right. exists r. auto.
Qed.

Lemma body_symbols_app b0 : forall b1 prev, exists prev',
  body_symbols (b0 ++ b1) prev = body_symbols b0 prev ++ body_symbols b1 prev'.
Proof.
  induction b0 as [|r tl IH]; intros b1 prev; [exists prev; reflexivity|].
  cbn [app body_symbols]. destruct (IH b1 (s_range (to_symbol r prev))) as (p' & E). exists p'. cbv zeta. rewrite E. reflexivity.
Qed.
Lemma body_symbols_clean b : Forall (fun r => r_kind r <> KNewline /\ newlines (r_text r) = O) b ->
  forall prev, Forall (fun s => clean (tok s)) (body_symbols b prev).
Proof.
  induction 1 as [|r tl [K H] _ IH]; intros prev; [constructor|]. cbn [body_symbols]. cbv zeta. constructor; [|apply IH].
  apply to_symbol_clean; assumption.
Qed.

Definition ctx_of (d : delta) (l : list symbol) : list qtok :=
  match l with [] => [] | s :: tl => QTok (tok s) d :: map (fun s => QTok (tok s) (s_delta s)) tl end.
Lemma ctx_of_toks d l : map q_tok (ctx_of d l) = map tok l.
Proof. destruct l; [reflexivity|]. cbn. f_equal. rewrite map_map. reflexivity. Qed.

Lemma cleans_map c : cleans c <-> Forall clean (map q_tok c).
Proof. unfold cleans. rewrite Forall_map. reflexivity. Qed.

Lemma Forall_removelast {A} (P : A -> Prop) l : Forall P l -> Forall P (removelast l).
Proof.
  induction 1 as [|x l H1 H2 IH]; [constructor|]. cbn [removelast]. destruct l; [constructor|]. constructor; assumption.
Qed.

Lemma rev_cons_inv {A} (l : list A) x y : rev l = x :: y -> l = rev y ++ [x].
Proof. intros H. rewrite <- (rev_involutive l), H. reflexivity. Qed.

Lemma non_macro_clean m d prev : fine_body (m_body m) -> cleans (expand_non_macro_define m d prev).
Proof.
  intros H. apply fine_body_split in H. destruct H as (b0 & b1 & E & H0 & H1).
  unfold expand_non_macro_define. fold (ctx_of d (body_symbols (m_body m) prev)).
  set (ctx := ctx_of d (body_symbols (m_body m) prev)).
  destruct (body_symbols_app b0 b1 prev) as (p' & Eb). rewrite <- E in Eb.
  assert (T : map q_tok ctx = map tok (body_symbols b0 prev) ++ map tok (body_symbols b1 p')).
  { unfold ctx. rewrite ctx_of_toks, Eb, map_app. reflexivity. }
  assert (C0 : Forall clean (map tok (body_symbols b0 prev))).
  { rewrite Forall_map. apply body_symbols_clean, H0. }
  destruct H1 as [-> |(r & -> & K)].
  - cbn [body_symbols map] in T. rewrite app_nil_r in T.
    assert (C : cleans ctx) by (apply cleans_map; rewrite T; exact C0).
    destruct (rev ctx) as [|x y]; [exact C|]. destruct (is_newline _); [|exact C]. apply Forall_removelast, C.
  - cbn [body_symbols map] in T.
    destruct (rev ctx) as [|x y] eqn:R.
    + assert (ctx = []) as -> by (rewrite <- (rev_involutive ctx), R; reflexivity). constructor.
    + apply rev_cons_inv in R. rewrite R in *. rewrite map_app in T. cbn [map] in T.
      apply app_inj_tail in T. destruct T as [T1 T2].
      rewrite T2. unfold t_kind, tok, t_sym, to_symbol. cbn [s_kind]. rewrite K. cbn [is_newline].
      unfold pop_back. rewrite removelast_last. apply cleans_map. rewrite T1. exact C0.
Qed.

Lemma stringize_args_clean a : forall b, Forall clean a -> newlines (stringize_args b a) = O.
Proof.
  induction a as [|t tl IH]; intros b H; [reflexivity|]. inversion H as [|? ? (_ & _ & H1) H2]; subst.
  cbn [stringize_args]. rewrite !newlines_app, H1, (IH false H2).
  destruct (_ && _); [rewrite newlines_spaces|]; reflexivity.
Qed.
Lemma stringize_clean a : Forall clean a -> newlines (stringize a) = O.
Proof. intros H. unfold stringize. rewrite !newlines_app, (stringize_args_clean a true H). reflexivity. Qed.

Lemma arg_tokens_clean a : forall j i d1 d2 depth, Forall clean a -> cleans (arg_tokens a j i d1 d2 depth).
Proof.
  induction a as [|t tl IH]; intros j i d1 d2 depth H; [constructor|]. inversion H as [|? ? H1 H2]; subst.
  cbn [arg_tokens]. constructor; [|apply IH, H2]. cbn [q_tok].
  destruct (t_orig t); [exact H1|]. destruct depth; exact H1.
Qed.

Lemma expand_loop_clean args params sym d depth len : Forall (Forall clean) args ->
  forall body i ctx cp sd ctx',
  (forall pre y post, body = pre ++ y :: post ->
     clean (tok y) \/ (s_kind y = KNewline /\ (i + List.length pre)%nat = (len - 1)%nat)) ->
  cleans ctx ->
  expand_macro_loop args params sym d depth len body i ctx cp sd = Some ctx' -> cleans ctx'.
Proof.
  intros Ha. induction body as [|child tl IH]; intros i ctx cp sd ctx' Hb Hc H.
  - injection H as <-. exact Hc.
  - assert (Hb' : forall pre y post, tl = pre ++ y :: post ->
       clean (tok y) \/ (s_kind y = KNewline /\ (S i + List.length pre)%nat = (len - 1)%nat)).
    { intros pre y post E. destruct (Hb (child :: pre) y post) as [C|[K L]]; [rewrite E; reflexivity|left; exact C|right].
      split; [exact K|]. cbn in L. lia. }
    destruct (Hb [] child tl eq_refl) as [C|[K L]].
    + assert (Hp : cleans (ctx ++ [QTok (tok child) (s_delta child)])) by (apply Forall_app; split; [exact Hc|repeat constructor; apply C]).
      assert (G : forall q cp' sd', q_tok q = tok child ->
         expand_macro_loop args params sym d depth len tl (S i) (ctx ++ [q]) cp' sd' = Some ctx' -> cleans ctx').
      { intros q cp' sd' Eq. apply IH; [exact Hb'|]. apply Forall_app. split; [exact Hc|]. constructor; [|constructor]. rewrite Eq. exact C. }
      cbn [expand_macro_loop] in H.
      assert (D : forall k, (if is_newline k && Nat.eqb i (len - 1)
          then expand_macro_loop args params sym d depth len tl (S i) ctx cp sd
          else expand_macro_loop args params sym d depth len tl (S i)
             (ctx ++ [match i with O => QTok (tok child) d | _ => QTok (tok child) (s_delta child) end]) 0 None) = Some ctx' -> cleans ctx').
      { intros k. destruct (is_newline k && _); [apply IH; assumption|]. apply G. destruct i; reflexivity. }
      destruct (s_kind child) as [| | | | | | | | | | | | | | |o|l| | |]; try (match type of H with context [is_newline ?k] => exact (D k H) end).
      * destruct o; try (match type of H with context [is_newline ?k] => exact (D k H) end).
        -- destruct (Z.eqb _ _); eapply IH; try exact H; assumption.
        -- eapply IH; try exact H; assumption.
      * destruct l; try (match type of H with context [is_newline ?k] => exact (D k H) end).
        destruct (Z.eqb cp 1); [|eapply IH; try exact H; assumption].
        destruct (rev ctx) as [|percent rest]; [discriminate H|].
        destruct (s_int child) as [n|]; [|discriminate H].
        destruct ((n <? 0)%Z || (10 <=? n)%Z); [discriminate H|].
        destruct ((nth (Z.to_nat n) params (-1) <? 0)%Z || (10 <=? nth (Z.to_nat n) params (-1))%Z); [discriminate H|].
        assert (Hn : Forall clean (nth (Z.to_nat (nth (Z.to_nat n) params (-1)%Z)) args [])).
        { destruct (nth_in_or_default (Z.to_nat (nth (Z.to_nat n) params (-1)%Z)) args []) as [I| ->]; [|constructor].
          rewrite Forall_forall in Ha. apply Ha, I. }
        destruct sd as [sdelta|].
        -- eapply IH; [exact Hb'| |exact H]. apply Forall_app. split; [apply Forall_removelast, Forall_removelast, Hc|].
           constructor; [|constructor]. unfold clean, t_kind, t_text, t_inline. cbn [q_tok tok t_sym s_kind s_text s_inline].
           rewrite (stringize_clean _ Hn). repeat split. discriminate.
        -- eapply IH; [exact Hb'| |exact H]. apply Forall_app. split; [apply Forall_removelast, Hc|].
           apply arg_tokens_clean, Hn.
    + cbn [expand_macro_loop] in H. rewrite K in H. cbn [List.length] in L. rewrite Nat.add_0_r in L.
      replace (Nat.eqb i (len - 1)) with true in H by (symmetry; apply Nat.eqb_eq; exact L).
      cbn [is_newline andb] in H. eapply IH; [exact Hb'|exact Hc|exact H].
Qed.

Lemma expand_macro_clean args m params sym d depth ctx : Forall (Forall clean) args -> fine_body (m_body m) ->
  expand_macro args m params sym d depth = Some ctx -> cleans ctx.
Proof.
  intros Ha Hb. unfold expand_macro. apply (expand_loop_clean args params sym d depth _ Ha); [|constructor].
  apply fine_body_split in Hb. destruct Hb as (b0 & b1 & E & H0 & H1). rewrite E.
  intros pre y post Ey. destruct (body_symbols_app b0 b1 (s_range sym)) as (p' & Eb).
  destruct H1 as [-> |(r & -> & K)].
  - left. rewrite app_nil_r in Ey. pose proof (body_symbols_clean b0 H0 (s_range sym)) as F. rewrite Ey in F.
    apply Forall_app in F. destruct F as [_ F]. inversion F; assumption.
  - rewrite Eb in Ey. cbn [body_symbols] in Ey.
    destruct (exists_last (l := y :: post)) as (post' & z & Ez); [discriminate|].
    rewrite Ez, app_assoc in Ey. apply app_inj_tail in Ey. destruct Ey as [Ey Ez'].
    destruct post' as [|y' post'].
    + cbn in Ez. injection Ez as -> ->. right. rewrite <- Ez'. split; [exact K|].
      rewrite app_nil_r in Ey. rewrite <- Ey, body_symbols_len, app_length. cbn. lia.
    + cbn in Ez. injection Ez as <- ->. left.
      pose proof (body_symbols_clean b0 H0 (s_range sym)) as F. rewrite Ey in F.
      apply Forall_app in F. destruct F as [_ F]. inversion F; assumption.
Qed.

(** * Collecting arguments *)
Definition toks (l : lexer) : list token := map (fun p => tok (fst p)) (lx_rest l).

Inductive pulls : src -> list token -> src -> Prop :=
| pulls_nil q : pulls q [] q
| pulls_cons q t q1 l q2 : pull q = Some (t, q1) -> pulls q1 l q2 -> pulls q (t :: l) q2.

Lemma pull_stream q t q1 : pull q = Some (t, q1) ->
  exists D, lx_rest (q_lex q) = D ++ lx_rest (q_lex q1) /\
    map q_tok (q_ctx q) ++ q_popped q ++ map (fun p => tok (fst p)) D = t :: map q_tok (q_ctx q1) ++ q_popped q1 /\
    (D <> [] -> q_ctx q1 = [] /\ q_popped q1 = []).
Proof.
  unfold pull. destruct (q_ctx q) as [|x tl].
  - destruct (q_popped q) as [|y ps].
    + unfold lex_next. destruct (lx_rest (q_lex q)) as [|[y pp] tl]; [discriminate|]. intros H; injection H as <- <-.
      exists [(y, pp)]. cbn. auto.
    + intros H; injection H as <- <-. exists []. cbn. rewrite app_nil_r. split; [reflexivity|]. split; [reflexivity|]. congruence.
  - intros H; injection H as <- <-. exists []. cbn. rewrite app_nil_r. split; [reflexivity|]. split; [reflexivity|]. congruence.
Qed.

Lemma pulls_stream q T q0 : pulls q T q0 ->
  exists D, lx_rest (q_lex q) = D ++ lx_rest (q_lex q0) /\
    map q_tok (q_ctx q) ++ q_popped q ++ map (fun p => tok (fst p)) D = T ++ map q_tok (q_ctx q0) ++ q_popped q0.
Proof.
  induction 1 as [q|q t q1 l q2 Hp _ (D & E1 & E2)].
  - exists []. cbn. rewrite app_nil_r. auto.
  - destruct (pull_stream _ _ _ Hp) as (D0 & F1 & F2 & F3). exists (D0 ++ D). split.
    + rewrite F1, E1, app_assoc. reflexivity.
    + rewrite map_app. transitivity ((map q_tok (q_ctx q) ++ q_popped q ++ map (fun p => tok (fst p)) D0) ++ map (fun p => tok (fst p)) D).
      { rewrite <- !app_assoc. reflexivity. }
      rewrite F2. cbn [app]. f_equal. rewrite <- E2, <- !app_assoc. reflexivity.
Qed.

Lemma pulls_ctx q T q0 : pulls q T q0 -> exists c, map q_tok (q_ctx q) = c ++ map q_tok (q_ctx q0).
Proof.
  induction 1 as [q|q t q1 l q2 Hp _ (c & E)]; [exists []; reflexivity|].
  revert Hp. unfold pull. destruct (q_ctx q) as [|x tl] eqn:Q.
  - assert (X : forall q', q_ctx q' = [] -> q' = q1 -> exists c0, map q_tok [] = c0 ++ map q_tok (q_ctx q2)).
    { intros q' Hq <-. rewrite Hq in E. exists c. exact E. }
    destruct (q_popped q).
    + destruct (lex_next _) as [[y l0]|]; [|discriminate]. intros H; injection H as _ H2. eapply X; [|exact H2]. reflexivity.
    + intros H; injection H as _ H2. eapply X; [|exact H2]. reflexivity.
  - intros H; injection H as <- <-. cbn [q_ctx] in E. exists (q_tok x :: c). cbn. rewrite E. reflexivity.
Qed.

Lemma push_arg_in args : forall i t a x, In a (push_arg args i t) -> In x a -> (exists a0, In a0 args /\ In x a0) \/ x = t.
Proof.
  induction args as [|b tl IH]; intros i t a x Ha Hx; [destruct i; destruct Ha|].
  destruct i; cbn [push_arg] in Ha; destruct Ha as [<-|Ha].
  - apply in_app_or in Hx. destruct Hx as [Hx|[<-|[]]]; [left; exists b; cbn; auto|auto].
  - left. exists a. cbn. auto.
  - left. exists b. cbn. auto.
  - destruct (IH i t a x Ha Hx) as [(a0 & I & J)|E]; [left; exists a0; cbn; auto|auto].
Qed.

(** The arguments consist of tokens that were pulled; the last one pulled is the closing
    parenthesis unless everything was pulled. *)
Lemma collect_some fuel sym nb : forall q temp depth argi args first args' diff q',
  collect fuel sym nb q temp depth argi args first = CSome args' diff q' ->
  exists T, pulls q T q' /\
    (forall a t, In a args' -> In t a -> (exists a0, In a0 args /\ In t a0) \/ In t T) /\
    ((q_ctx q' = [] /\ q_popped q' = [] /\ lx_rest (q_lex q') = []) \/ exists T0 rp, T = T0 ++ [rp] /\ t_kind rp = KRParen).
Proof.
  induction fuel as [|fuel IH]; intros q temp depth argi args first args' diff q'; [discriminate|].
  cbn [collect]. destruct (pull q) as [[t q1]|] eqn:Hp.
  - assert (G : forall temp depth argi args0 first,
       (args0 = args \/ exists k, args0 = push_arg args k t) ->
       collect fuel sym nb q1 temp depth argi args0 first = CSome args' diff q' ->
       exists T, pulls q T q' /\
         (forall a t, In a args' -> In t a -> (exists a0, In a0 args /\ In t a0) \/ In t T) /\
         ((q_ctx q' = [] /\ q_popped q' = [] /\ lx_rest (q_lex q') = []) \/ exists T0 rp, T = T0 ++ [rp] /\ t_kind rp = KRParen)).
    { intros temp0 depth0 argi0 args0 first0 Ea H. apply IH in H. destruct H as (T & A & B & C).
      exists (t :: T). split; [econstructor; eauto|]. split.
      - intros a x Ia Ix. destruct (B a x Ia Ix) as [(a0 & I & J)|I]; [|right; right; exact I].
        destruct Ea as [->|(k & ->)]; [left; exists a0; auto|].
        destruct (push_arg_in _ _ _ _ _ I J) as [X| ->]; [left; exact X|right; left; reflexivity].
      - destruct C as [C|(T0 & rp & -> & K)]; [left; exact C|right]. exists (t :: T0), rp. auto. }
    assert (B : forall first, match t_kind t with
          | KLParen => collect fuel sym nb q1 temp (depth + 1) argi (if (1 <? depth + 1)%Z then push_arg args argi t else args) first
          | KRParen => if (depth - 1 =? 0)%Z
              then CSome (if (1 <? depth)%Z then push_arg args argi t else args) (paren_diff first (Some (pcol (rend (t_range t))))) q1
              else collect fuel sym nb q1 temp (depth - 1) argi (if (1 <? depth)%Z then push_arg args argi t else args) first
          | KComma => if (depth =? 1)%Z then
                if (S argi <? nb)%nat then collect fuel sym nb q1 temp depth (S argi) args first
                else collect fuel sym nb q1 temp depth argi (push_arg args argi t) first
              else if (1 <? depth)%Z then collect fuel sym nb q1 temp depth argi (push_arg args argi t) first
              else collect fuel sym nb q1 temp depth argi args first
          | _ => collect fuel sym nb q1 temp depth argi (if (0 <? depth)%Z then push_arg args argi t else args) first
          end = CSome args' diff q' -> exists T, pulls q T q' /\
         (forall a t, In a args' -> In t a -> (exists a0, In a0 args /\ In t a0) \/ In t T) /\
         ((q_ctx q' = [] /\ q_popped q' = [] /\ lx_rest (q_lex q') = []) \/ exists T0 rp, T = T0 ++ [rp] /\ t_kind rp = KRParen)).
    { intros f. destruct (t_kind t) eqn:K; try (apply G; destruct (_ <? _)%Z; eauto).
      - destruct (depth - 1 =? 0)%Z; [|apply G; destruct (_ <? _)%Z; eauto].
        intros H; injection H as <- <- <-. exists [t]. split; [econstructor; [exact Hp|constructor]|]. split.
        + intros a x Ia Ix. destruct (1 <? depth)%Z; [|left; exists a; auto].
          destruct (push_arg_in _ _ _ _ _ Ia Ix) as [X| ->]; [left; exact X|right; left; reflexivity].
        + right. exists [], t. auto.
      - destruct (depth =? 1)%Z.
        + destruct (_ <? _)%nat; apply G; eauto.
        + destruct (1 <? depth)%Z; apply G; eauto. }
    destruct first as [f|]; [exact (B (Some f))|].
    destruct (t_kind t) as [| | | | | | | | | | | | | | | | |[]| |] eqn:K; try discriminate.
    + destruct (_ =? _)%Z; [|discriminate]. specialize (B (Some (pcol (rstart (t_range t))))). exact B.
    + apply G. auto.
  - intros H; injection H as <- <- <-. exists []. split; [constructor|]. split.
    + intros a x Ia Ix. left. exists a. auto.
    + left. revert Hp. unfold pull. destruct (q_ctx q); [|discriminate]. destruct (q_popped q); [|discriminate].
      unfold lex_next. destruct (lx_rest (q_lex q)) as [|[? ?] ?]; [auto|discriminate].
Qed.

(** What was pulled in vain is put back, on top of what was left. *)
Lemma collect_none fuel sym nb : forall q temp depth argi args first q',
  collect fuel sym nb q temp depth argi args first = CNone q' ->
  exists T q0, pulls q T q0 /\ q_ctx q' = q_ctx q0 /\ q_popped q' = (temp ++ T) ++ q_popped q0 /\ q_lex q' = q_lex q0.
Proof.
  induction fuel as [|fuel IH]; intros q temp depth argi args first q'; [discriminate|].
  cbn [collect]. destruct (pull q) as [[t q1]|] eqn:Hp; [|discriminate].
  destruct first as [f|].
  - assert (N : forall n q temp depth argi args f q', collect n sym nb q temp depth argi args (Some f) <> CNone q').
    { clear. induction n as [|n IHn]; intros; [discriminate|]. cbn [collect].
      destruct (pull q) as [[t q1]|]; [|discriminate].
      destruct (t_kind t); try apply IHn.
      - destruct (_ =? _)%Z; [discriminate|apply IHn].
      - destruct (_ =? _)%Z; [destruct (_ <? _)%nat; apply IHn|destruct (_ <? _)%Z; apply IHn]. }
    intros H. exfalso. destruct (t_kind t); try (eapply N; exact H).
    + destruct (_ =? _)%Z; [discriminate H|eapply N; exact H].
    + destruct (_ =? _)%Z; [destruct (_ <? _)%nat; eapply N; exact H|destruct (_ <? _)%Z; eapply N; exact H].
  - assert (N : forall n q temp depth argi args f q', collect n sym nb q temp depth argi args (Some f) <> CNone q').
    { clear. induction n as [|n IHn]; intros; [discriminate|]. cbn [collect].
      destruct (pull q) as [[t q1]|]; [|discriminate].
      destruct (t_kind t); try apply IHn.
      - destruct (_ =? _)%Z; [discriminate|apply IHn].
      - destruct (_ =? _)%Z; [destruct (_ <? _)%nat; apply IHn|destruct (_ <? _)%Z; apply IHn]. }
    assert (Bk : CNone (Src (q_ctx q1) ((temp ++ [t]) ++ q_popped q1) (q_lex q1)) = CNone q' ->
       exists T q0, pulls q T q0 /\ q_ctx q' = q_ctx q0 /\ q_popped q' = (temp ++ T) ++ q_popped q0 /\ q_lex q' = q_lex q0).
    { intros H; injection H as <-. exists [t], q1. split; [econstructor; [exact Hp|constructor]|]. auto. }
    destruct (t_kind t) as [| | | | | | | | | | | | | | | | |[]| |]; try exact Bk.
    + destruct (_ =? _)%Z; [intros H; exfalso; eapply N; exact H|exact Bk].
    + intros H. apply IH in H. destruct H as (T & q0 & A & B & C & D). exists (t :: T), q0.
      split; [econstructor; eauto|]. split; [exact B|]. split; [|exact D]. rewrite C, <- !app_assoc. reflexivity.
Qed.

(** * The expansion loop *)
Lemma removelast_app_clean {A} (P : A -> Prop) a b : Forall P (removelast (a ++ b)) ->
  (b <> [] -> Forall P a) /\ (b = [] -> Forall P (removelast a)) /\ Forall P (removelast b).
Proof.
  destruct b as [|x b].
  - rewrite app_nil_r. intros H. split; [congruence|]. split; [auto|constructor].
  - rewrite removelast_app by discriminate. intros H. apply Forall_app in H. destruct H as [H1 H2].
    split; [auto|]. split; [discriminate|exact H2].
Qed.
Lemma removelast_app_intro {A} (P : A -> Prop) a b : Forall P a -> Forall P (removelast b) -> Forall P (removelast (a ++ b)).
Proof.
  intros Ha Hb. destruct b as [|x b]; [rewrite app_nil_r; apply Forall_removelast, Ha|].
  rewrite removelast_app by discriminate. apply Forall_app. auto.
Qed.

Definition ltoks (C : list (symbol * bool)) : list token := map (fun p => tok (fst p)) C.

(** [C] is what is still to be taken from the lexer, [R] what will be left of it. *)
Record okx (s : xstate) (C R : list (symbol * bool)) : Prop := OkX {
  ox_lex : lx_rest (x_lex s) = C ++ R;
  ox_ctx : Forall cleans (x_ctx s);
  ox_out : Forall clean (x_out s);
  ox_last : Forall clean (removelast (x_popped s ++ ltoks C));
  ox_all : R = [] -> Forall clean (x_popped s ++ ltoks C);
  ox_fine : Forall fine_t (x_popped s ++ ltoks C)
}.
Definition pending (s : xstate) (C : list (symbol * bool)) : nat := nls (x_popped s ++ ltoks C).

Lemma x_iter_suffix macros t0 allow s s' : x_iter macros t0 allow s = XNext s' ->
  exists D, lx_rest (x_lex s) = D ++ lx_rest (x_lex s').
Proof.
  unfold x_iter. destruct (x_ctx s) as [|cur stack]; [discriminate|]. destruct (_ <=? _)%nat; [discriminate|].
  assert (Z : forall s0 s', lx_rest (x_lex s0) = lx_rest (x_lex s) -> XNext s0 = XNext s' ->
     exists D, lx_rest (x_lex s) = D ++ lx_rest (x_lex s')).
  { intros s0 s1 E H; injection H as <-. exists []. cbn. auto. }
  destruct cur as [|[t d] cur]; [apply Z; reflexivity|].
  destruct (t_kind t) as [| | | | | | | | | | | | | | | |[]| | |]; try (apply Z; reflexivity).
  destruct (mget _ _) as [m|]; [|destruct allow; [apply Z; reflexivity|discriminate]].
  destruct (m_params m) as [params|]; [|apply Z; reflexivity].
  destruct (collect_arguments _ _ _) as [q|args diff q|] eqn:E; [| |discriminate].
  - apply collect_none in E. destruct E as (T & q0 & P & _ & _ & L). apply pulls_stream in P. destruct P as (D & P & _).
    cbn [q_lex] in P. intros H; injection H as <-. cbn [x_lex]. rewrite L. exists D. exact P.
  - apply collect_some in E. destruct E as (T & P & _). apply pulls_stream in P. destruct P as (D & P & _).
    destruct (expand_macro _ _ _ _ _ _) as [ctx|]; [|discriminate].
    cbn [q_lex] in P. intros H; injection H as <-. cbn [x_lex]. exists D. exact P.
Qed.
Lemma x_loop_suffix macros t0 allow fuel : forall s diff pushed lf dis,
  x_loop fuel macros t0 allow s = XOk diff pushed lf dis -> exists C, lx_rest (x_lex s) = C ++ lx_rest lf.
Proof.
  induction fuel as [|fuel IH]; intros s diff pushed lf dis; [discriminate|]. cbn [x_loop].
  destruct (x_iter macros t0 allow s) as [s'|r] eqn:E.
  - intros H. apply IH in H. destruct H as (C & H). apply x_iter_suffix in E. destruct E as (D & E).
    exists (D ++ C). rewrite E, H, app_assoc. reflexivity.
  - intros ->. revert E. unfold x_iter. destruct (x_ctx s) as [|cur stack].
    { unfold x_finish. intros H; injection H as <- <- <- <-. exists []. reflexivity. }
    destruct (_ <=? _)%nat. { unfold x_finish. intros H; injection H as <- <- <- <-. exists []. reflexivity. }
    destruct cur as [|[t d] cur]; [discriminate|].
    destruct (t_kind t) as [| | | | | | | | | | | | | | | |[]| | |]; try discriminate.
    destruct (mget _ _) as [m|]; [|destruct allow; discriminate].
    destruct (m_params m) as [params|]; [|discriminate].
    destruct (collect_arguments _ _ _) as [q|args diff' q|]; try discriminate.
    destruct (expand_macro _ _ _ _ _ _); discriminate.
Qed.

Lemma fine_macros_get m n x : fine_macros m -> mget m n = Some x -> fine_body (m_body x).
Proof.
  induction 1 as [|[k y] tl H _ IH]; cbn [mget]; [discriminate|].
  destruct (String.eqb k n); [intros E; injection E as <-; exact H|exact IH].
Qed.

Lemma pulled_split (ctx : list qtok) popped (D C0 : list (symbol * bool)) T (ctx0 : list qtok) popped0 :
  map q_tok ctx ++ popped ++ ltoks D = T ++ map q_tok ctx0 ++ popped0 ->
  map q_tok ctx ++ popped ++ ltoks (D ++ C0) = T ++ map q_tok ctx0 ++ popped0 ++ ltoks C0.
Proof.
  intros H. unfold ltoks in *. rewrite map_app.
  transitivity ((map q_tok ctx ++ popped ++ map (fun p => tok (fst p)) D) ++ map (fun p => tok (fst p)) C0).
  { rewrite <- !app_assoc. reflexivity. }
  rewrite H, <- !app_assoc. reflexivity.
Qed.

Lemma x_iter_ok macros t0 allow s s' C C' R : fine_macros macros ->
  okx s C R -> x_iter macros t0 allow s = XNext s' -> lx_rest (x_lex s') = C' ++ R ->
  okx s' C' R /\ pending s' C' = pending s C.
Proof.
  intros Hm [L Hc Ho Hl Ha Hf]. unfold x_iter. destruct (x_ctx s) as [|cur stack] eqn:Hx; [discriminate|].
  destruct (_ <=? _)%nat; [discriminate|].
  (* states that differ in the contexts and the output only *)
  assert (Same : forall ctx' out' dis diff, Forall cleans ctx' -> Forall clean out' ->
     XNext (XSt ctx' out' (x_popped s) (x_lex s) dis diff) = XNext s' -> lx_rest (x_lex s') = C' ++ R ->
     okx s' C' R /\ pending s' C' = pending s C).
  { intros ctx' out' dis diff H1 H2 H; injection H as <-. cbn [x_lex]. rewrite L. intros E.
    apply app_inv_tail in E. subst C'. split; [|reflexivity]. constructor; cbn; assumption. }
  inversion Hc as [|? ? Hcur Hst]; subst.
  destruct cur as [|[t d] cur]; [apply Same; assumption|].
  inversion Hcur as [|? ? Ht Hcur']; subst. cbn [q_tok] in Ht.
  assert (Emit : forall x, clean x ->
     XNext (XSt (cur :: stack) (x_out s ++ [x]) (x_popped s) (x_lex s) (x_dis s) (x_diff s)) = XNext s' ->
     lx_rest (x_lex s') = C' ++ R -> okx s' C' R /\ pending s' C' = pending s C).
  { intros x Hxc. apply Same; [constructor; assumption|]. apply Forall_app. auto. }
  assert (Ed : clean (t_set_delta t d)) by (destruct Ht as (K1 & K2 & K3); repeat split; assumption).
  assert (Es : clean (tok (Sym (t_kind t) (t_inline t) (t_inline t) (s_int (t_sym t))
                (Rng (rstart (t_range t)) (Pos (pline (rstart (t_range t))) (pcol (rstart (t_range t)) + Z.of_nat (String.length (t_inline t)))))
                (t_delta t0)))).
  { destruct Ht as (K1 & K2 & K3). repeat split; assumption. }
  destruct (t_kind t) as [| | | | | | | | | | | | | | | |[]| | |] eqn:K;
    try (apply Emit; exact Ed); try (apply Emit; exact Es);
    try (apply Same; [constructor; assumption|assumption]).
  destruct (mget macros (t_text t)) as [m|] eqn:Em; [|destruct allow; [apply Emit; exact Ed|discriminate]].
  pose proof (fine_macros_get _ _ _ Hm Em) as Hb.
  destruct (m_params m) as [params|].
  2: { apply Same; [|assumption]. constructor; [apply non_macro_clean, Hb|]. constructor; assumption. }
  apply cleans_map in Hcur'.
  destruct (collect_arguments (t_sym t) (m_nb m) (Src cur (x_popped s) (x_lex s))) as [q|args diff q|] eqn:E; [| |discriminate].
  - (* not a call *)
    apply collect_none in E. destruct E as (T & q0 & P & E1 & E2 & E3). cbn [app] in E2.
    destruct (pulls_ctx _ _ _ P) as (c & Ec). cbn [q_ctx] in Ec.
    destruct (pulls_stream _ _ _ P) as (D & D1 & D2). cbn [q_ctx q_popped q_lex] in D1, D2.
    intros H; injection H as <-. cbn [x_lex x_ctx x_out x_popped]. rewrite E3. intros EC.
    rewrite EC, L in D1. rewrite app_assoc in D1. apply app_inv_tail in D1. subst C.
    fold (ltoks D) in D2. apply (pulled_split _ _ _ C') in D2.
    assert (F0 : Forall clean (map q_tok (q_ctx q0))) by (rewrite Ec in Hcur'; apply Forall_app in Hcur'; tauto).
    assert (Al : Forall clean (removelast (map q_tok cur ++ x_popped s ++ ltoks (D ++ C')))) by (apply removelast_app_intro; assumption).
    assert (Af : Forall fine_t (map q_tok cur ++ x_popped s ++ ltoks (D ++ C'))).
    { apply Forall_app. split; [|exact Hf]. eapply Forall_impl; [|exact Hcur']. apply clean_fine. }
    rewrite D2 in Al, Af.
    split.
    + constructor; cbn [x_lex x_ctx x_out x_popped]; rewrite ?E1, ?E2, ?E3.
      * exact EC.
      * constructor; [apply cleans_map; exact F0|assumption].
      * apply Forall_app. split; [assumption|]. constructor; [exact Ht|constructor].
      * rewrite <- app_assoc.
        destruct (removelast_app_clean _ _ _ Al) as (A1 & A2 & A3).
        destruct (q_popped q0 ++ ltoks C') as [|x b] eqn:B.
        -- rewrite app_nil_r in *. destruct (map q_tok (q_ctx q0)) as [|z w]; [apply A2; reflexivity|].
           apply Forall_removelast, A1. discriminate.
        -- rewrite <- B in *. apply removelast_app_intro.
           ++ apply A1. rewrite B. intros X. apply app_eq_nil in X. destruct X. discriminate.
           ++ destruct (removelast_app_clean _ _ _ A3) as (_ & _ & A4). exact A4.
      * intros ER. specialize (Ha ER).
        assert (X : Forall clean (map q_tok cur ++ x_popped s ++ ltoks (D ++ C'))) by (apply Forall_app; auto).
        rewrite D2 in X. rewrite !Forall_app in X. rewrite !Forall_app. tauto.
      * rewrite !Forall_app in Af. rewrite !Forall_app. tauto.
    + unfold pending. cbn [x_popped]. rewrite E2.
      assert (X : nls (map q_tok cur ++ x_popped s ++ ltoks (D ++ C')) = nls (x_popped s ++ ltoks (D ++ C')))
        by (rewrite nls_app, (nls_clean _ Hcur'); reflexivity).
      rewrite <- X, D2, !nls_app, (nls_clean _ F0). lia.
  - (* a call *)
    apply collect_some in E. destruct E as (T & P & Hargs & Hlast).
    destruct (pulls_ctx _ _ _ P) as (c & Ec). cbn [q_ctx] in Ec.
    destruct (pulls_stream _ _ _ P) as (D & D1 & D2). cbn [q_ctx q_popped q_lex] in D1, D2.
    destruct (expand_macro args m params (t_sym t) (t_delta t0) (List.length stack)) as [ctx|] eqn:Ex; [|discriminate].
    intros H; injection H as <-. cbn [x_lex x_ctx x_out x_popped]. intros EC.
    rewrite EC, L in D1. rewrite app_assoc in D1. apply app_inv_tail in D1. subst C.
    fold (ltoks D) in D2. apply (pulled_split _ _ _ C') in D2.
    assert (F0 : Forall clean (map q_tok (q_ctx q))) by (rewrite Ec in Hcur'; apply Forall_app in Hcur'; tauto).
    assert (Al : Forall clean (removelast (map q_tok cur ++ x_popped s ++ ltoks (D ++ C')))) by (apply removelast_app_intro; assumption).
    assert (Af : Forall fine_t (map q_tok cur ++ x_popped s ++ ltoks (D ++ C'))).
    { apply Forall_app. split; [|exact Hf]. eapply Forall_impl; [|exact Hcur']. apply clean_fine. }
    rewrite D2 in Al, Af.
    destruct (removelast_app_clean _ _ _ Al) as (A1 & A2 & A3).
    assert (Tc : Forall clean T).
    { destruct Hlast as [(B1 & B2 & B3)|(T0 & rp & -> & Kr)].
      - rewrite EC in B3. apply app_eq_nil in B3. destruct B3 as [B3 B4]. specialize (Ha B4).
        assert (X : Forall clean (map q_tok cur ++ x_popped s ++ ltoks (D ++ C'))) by (apply Forall_app; auto).
        rewrite D2 in X. apply Forall_app in X. tauto.
      - destruct (map q_tok (q_ctx q) ++ q_popped q ++ ltoks C') as [|z w]; [|apply A1; discriminate].
        specialize (A2 eq_refl). rewrite removelast_last in A2. apply Forall_app. split; [exact A2|].
        constructor; [|constructor]. apply Forall_app in Af. destruct Af as [Af _]. apply Forall_app in Af. destruct Af as [_ Af].
        inversion Af; subst. apply fine_single; [assumption|rewrite Kr; reflexivity|rewrite Kr; discriminate]. }
    assert (Hn : Forall (Forall clean) args).
    { rewrite Forall_forall. intros a Ia. rewrite Forall_forall. intros x Ix.
      destruct (Hargs a x Ia Ix) as [(a0 & I0 & I1)|I].
      - unfold no_args in I0. apply repeat_spec in I0. subst a0. destruct I1.
      - rewrite Forall_forall in Tc. apply Tc, I. }
    pose proof (expand_macro_clean _ _ _ _ _ _ _ Hn Hb Ex) as Hctx.
    split.
    + constructor; cbn [x_lex x_ctx x_out x_popped].
      * exact EC.
      * constructor; [exact Hctx|]. constructor; [apply cleans_map; exact F0|assumption].
      * assumption.
      * destruct (removelast_app_clean _ _ _ A3) as (_ & _ & A4). exact A4.
      * intros ER. specialize (Ha ER).
        assert (X : Forall clean (map q_tok cur ++ x_popped s ++ ltoks (D ++ C'))) by (apply Forall_app; auto).
        rewrite D2 in X. rewrite !Forall_app in X. rewrite !Forall_app. tauto.
      * rewrite !Forall_app in Af. rewrite !Forall_app. tauto.
    + unfold pending. cbn [x_popped].
      assert (X : nls (map q_tok cur ++ x_popped s ++ ltoks (D ++ C')) = nls (x_popped s ++ ltoks (D ++ C')))
        by (rewrite nls_app, (nls_clean _ Hcur'); reflexivity).
      rewrite <- X, D2, !nls_app, (nls_clean _ F0), (nls_clean _ Tc). lia.
Qed.

Lemma x_loop_ok macros t0 allow fuel : fine_macros macros -> forall s C lf diff pushed dis,
  okx s C (lx_rest lf) -> x_loop fuel macros t0 allow s = XOk diff pushed lf dis ->
  nls pushed = pending s C /\ Forall fine_t pushed.
Proof.
  intros Hm. induction fuel as [|fuel IH]; intros s C lf diff pushed dis O H; [discriminate H|].
  cbn [x_loop] in H. destruct (x_iter macros t0 allow s) as [s'|r] eqn:E.
  - destruct (x_loop_suffix _ _ _ _ _ _ _ _ _ H) as (C' & E').
    destruct (x_iter_ok _ _ _ _ _ _ _ _ Hm O E E') as [O' P]. rewrite <- P. eapply IH; eauto.
  - subst r. assert (F : x_finish s = XOk diff pushed lf dis).
    { revert E. unfold x_iter. destruct (x_ctx s) as [|cur stack]. { congruence. }
      destruct (_ <=? _)%nat. { congruence. }
      destruct cur as [|[t d] cur]; [discriminate|].
      destruct (t_kind t) as [| | | | | | | | | | | | | | | |[]| | |]; try discriminate.
      destruct (mget _ _) as [m|]; [|destruct allow; discriminate].
      destruct (m_params m) as [params|]; [|discriminate].
      destruct (collect_arguments _ _ _) as [q|args diff' q|]; try discriminate.
      destruct (expand_macro _ _ _ _ _ _); discriminate. }
    unfold x_finish in F. injection F as <- <- <- <-. destruct O as [L Hc Ho Hl Ha Hf].
    assert (C = []) as -> by (destruct C as [|p C]; [reflexivity|apply (f_equal (@List.length _)) in L; cbn in L; rewrite app_length in L; lia]).
    unfold pending. cbn [ltoks map] in *. rewrite app_nil_r in *.
    rewrite nls_app, nls_rev, (nls_clean _ Ho). split; [reflexivity|].
    apply Forall_app. split; [eapply Forall_impl; [|exact Ho]; apply clean_fine|]. apply Forall_rev. exact Hf.
Qed.

(** An expansion whose symbols, but for the last it looked at, have no line end puts on the stack as
    many line ends as it took from the lexer. *)
Lemma expand_identifier_lines fuel l macros t allow dis diff pushed lf dis' :
  fine_macros macros -> fine_t t -> t_kind t = KIdent ->
  expand_identifier fuel l macros t allow dis = XOk diff pushed lf dis' ->
  exists C, lx_rest l = C ++ lx_rest lf /\
    (Forall fine_t (ltoks C) -> Forall clean (removelast (ltoks C)) ->
     (lx_rest lf = [] -> Forall clean (ltoks C)) ->
     nls pushed = nls (ltoks C) /\ Forall fine_t pushed).
Proof.
  intros Hm Hf K H. unfold expand_identifier in H.
  destruct (x_loop_suffix _ _ _ _ _ _ _ _ _ H) as (C & E). cbn [x_lex] in E. exists C. split; [exact E|].
  intros F1 F2 F3. eapply x_loop_ok in H; [exact H|exact Hm|]. constructor; cbn [x_lex x_ctx x_out x_popped app].
  - exact E.
  - constructor; [|constructor]. constructor; [|constructor]. cbn [q_tok]. apply fine_single; rewrite ?K; [exact Hf|reflexivity|discriminate].
  - constructor.
  - exact F2.
  - exact F3.
  - exact F1.
Qed.
