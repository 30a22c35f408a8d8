(** The expansion loop of macros.rs gives what MacroSpec.expands says, for C22 and C23. *)
From Coq Require Import List ZArith Bool String Ascii Lia.
From Verif Require Import PreTypes MacroModel MacroProofs LinesExpand MacroSpec MacroCall.
Import ListNotations.
Local Open Scope list_scope.

(** Macros have at most ten parameters. *)
Definition fits (macros : macros_map) : Prop := forall n m, mget macros n = Some m -> (m_nb m <= 10)%nat.

Lemma joined_cons {A} (c : A) a more : joined ((c, a) :: more) = c :: a ++ joined more.
Proof. reflexivity. Qed.
Definition map_more {A B} (f : A -> B) (more : list (A * list A)) := map (fun ca => (f (fst ca), map f (snd ca))) more.
Lemma map_joined {A B} (f : A -> B) more : map f (joined more) = joined (map_more f more).
Proof.
  induction more as [|[c a] more IH]; [reflexivity|]. rewrite joined_cons. cbn [map map_more fst snd].
  rewrite map_app, IH. reflexivity.
Qed.
Lemma map_shared {A B} (f : A -> B) more : forall e first,
  map (map f) (shared e first more) = shared e (map f first) (map_more f more).
Proof.
  induction more as [|[c a] more IH]; intros e first; [reflexivity|]. destruct e as [|e].
  - cbn [shared map map_more fst snd]. rewrite map_app. f_equal. f_equal. exact (map_joined f ((c, a) :: more)).
  - cbn [shared map map_more fst snd]. rewrite IH. reflexivity.
Qed.
Lemma map_eq_joined {A B} (f : A -> B) (more : list (B * list B)) : forall l rest, map f l = joined more ++ rest ->
  exists more' l', l = joined more' ++ l' /\ map_more f more' = more /\ map f l' = rest.
Proof.
  induction more as [|[c a] more IH]; intros l rest E.
  - exists [], l. auto.
  - rewrite joined_cons in E. cbn [app] in E. rewrite <- app_assoc in E. destruct l as [|x l]; [discriminate|]. cbn [map] in E. injection E as E1 E.
    apply map_eq_app in E as (l1 & l2 & -> & <- & E2). destruct (IH _ _ E2) as (m' & l' & -> & <- & <-).
    exists ((x, l1) :: m'), l'. rewrite joined_cons. cbn. rewrite E1, <- app_assoc. auto.
Qed.

Lemma argument_padded params args k n :
  argument params (map (map look) (args ++ repeat [] k)) n = argument params (map (map look) args) n.
Proof.
  unfold argument. destruct n as [n|]; [|reflexivity]. destruct (_ && _); [|reflexivity]. cbv zeta. destruct (_ && _); [|reflexivity].
  f_equal. generalize (Z.to_nat (nth (Z.to_nat n) params (-1)%Z)). intros j. rewrite map_app.
  destruct (Nat.ltb_spec j (List.length (map (map look) args))) as [L|L].
  - apply app_nth1. exact L.
  - rewrite app_nth2 by exact L. rewrite (nth_overflow (map (map look) args)) by exact L.
    generalize (j - List.length (map (map look) args))%nat. induction k as [|k IH]; intros [|i]; cbn; auto.
Qed.
Lemma filled_ext f g name : (forall v, f v = g v) -> forall n body front, (List.length body <= n)%nat ->
  filled f name front body = filled g name front body.
Proof.
  intros E. induction n as [|n IH]; intros body front L.
  - destruct body; [reflexivity|cbn in L; lia].
  - destruct body as [|a tl]; [reflexivity|]. cbn [List.length] in L. cbn [filled].
    rewrite (IH tl false) by lia.
    destruct (is_hash a).
    + destruct tl as [|p [|m tl]]; try reflexivity. rewrite E, (IH tl false) by (cbn in L; lia). reflexivity.
    + destruct (is_percent a); [|reflexivity]. destruct tl as [|m tl]; [reflexivity|]. rewrite E, (IH tl false) by (cbn in L; lia). reflexivity.
Qed.

(** The calls of the specification are the calls the collector sees. *)
Lemma call_tokens t first more rest toks0 : call (look t) first more rest (map look toks0) ->
  exists com lp first' more' rp rest', toks0 = com ++ lp :: first' ++ joined more' ++ rp :: rest' /\
    Forall (fun t => t_kind t = KComment true) com /\ t_kind lp = KLParen /\ t_kind rp = KRParen /\
    pline (rstart (t_range lp)) = pline (rend (t_range t)) /\ map look first' = first /\ map_more look more' = more /\
    map look rest' = rest /\ one_argument 0 (map look first') = true /\ fine_more more'.
Proof.
  intros H. inversion H as [com lp rp FC KL LI KR FO FM E]. symmetry in E.
  apply map_eq_app in E as (com' & l1 & -> & <- & E). destruct l1 as [|lp' l1]; [discriminate|]. cbn [map] in E. injection E as <- E.
  apply map_eq_app in E as (first' & l2 & -> & <- & E). apply map_eq_joined in E as (more' & l3 & -> & <- & E).
  destruct l3 as [|rp' rest']; [discriminate|]. cbn [map] in E. injection E as <- E.
  exists com', lp', first', more', rp', rest'. split; [reflexivity|]. split.
  - clear -FC. induction com' as [|c com' IH]; [constructor|]. inversion FC; subst. constructor; auto.
  - repeat split; try assumption. unfold fine_more. clear -FM. induction more' as [|ca more' IH]; [constructor|]. inversion FM; subst. constructor; auto.
Qed.

(** The newline at the end of a body makes no difference. *)
Lemma call_newline t first more rest n l : k_ n = KNewline -> call t first more rest (l ++ [n]) ->
  exists rest', rest = rest' ++ [n] /\ call t first more rest' l.
Proof.
  intros K H. inversion H as [com lp rp FC KL LI KR FO FM E]. symmetry in E.
  destruct (exists_last (l := rp :: rest)) as (r0 & x & R); [discriminate|].
  rewrite R in E.
  replace (com ++ lp :: first ++ joined more ++ r0 ++ [x]) with ((com ++ lp :: first ++ joined more ++ r0) ++ [x]) in E
    by (rewrite <- !app_assoc; cbn [app]; rewrite <- !app_assoc; reflexivity).
  apply app_inj_tail in E as [-> ->]. destruct r0 as [|y r0]; injection R as -> R.
  - congruence.
  - exists r0. split; [exact R|]. constructor; assumption.
Qed.
Lemma almost_inv cur t tl : almost cur (t :: tl) ->
  (exists q cur', cur = q :: cur' /\ look (q_tok q) = t /\ almost cur' tl) \/ (cur = [] /\ tl = [] /\ k_ t = KNewline).
Proof.
  intros [E|(n & K & E)].
  - destruct cur as [|q cur]; [discriminate|]. cbn in E. injection E as E1 E. left. exists q, cur. repeat split; [exact E1|left; exact E].
  - destruct cur as [|q cur]; cbn in E; injection E as E1 E.
    + right. subst. auto.
    + left. exists q, cur. repeat split; [exact E1|right; exists n; auto].
Qed.
Lemma call_prefix t first more rest l : call t first more rest l -> exists l0, l = l0 ++ rest /\ call t first more [] l0.
Proof.
  intros H. inversion H as [com lp rp FC KL LI KR FO FM E]. exists (com ++ lp :: first ++ joined more ++ [rp]). split.
  - rewrite <- !app_assoc. cbn [app]. rewrite <- !app_assoc. reflexivity.
  - constructor; assumption.
Qed.
Lemma almost_call t first more rest cur l : call t first more rest l -> almost cur l ->
  exists c1 c2, cur = c1 ++ c2 /\ call t first more [] (looks c1) /\ almost c2 rest.
Proof.
  intros C A.
  assert (X : exists r, call t first more r (looks cur) /\ (r = rest \/ exists n, k_ n = KNewline /\ r ++ [n] = rest)).
  { destruct A as [<-|(n & K & <-)]; [exists rest; auto|]. destruct (call_newline _ _ _ _ _ _ K C) as (r & -> & C').
    exists r. split; [exact C'|right; exists n; auto]. }
  destruct X as (r & C' & RR). destruct (call_prefix _ _ _ _ _ C') as (l0 & E & C0). apply map_eq_app in E as (c1 & c2 & -> & <- & <-).
  exists c1, c2. split; [reflexivity|]. split; [exact C0|]. destruct RR as [<-|(n & K & <-)]; [left; reflexivity|right; exists n; auto].
Qed.

Definition shown_token (t : token) : kind * string := (t_kind t, t_text t).
Lemma looks_map c : looks c = map look (map q_tok c). Proof. unfold looks. rewrite map_map. reflexivity. Qed.

Section Run.
Variables (macros : macros_map) (t0 : token) (allow : bool).
Hypothesis FIT : fits macros.

(** [becomes s s']: the loop gets from [s] to [s']. *)
Inductive becomes : xstate -> xstate -> Prop :=
| b_refl s : becomes s s
| b_step s s1 s2 : x_iter macros t0 allow s = XNext s1 -> becomes s1 s2 -> becomes s s2.
Lemma becomes_trans a b c : becomes a b -> becomes b c -> becomes a c.
Proof. induction 1; [auto|]. intros. econstructor; eauto. Qed.
Lemma becomes_loop a b : becomes a b -> exists k, forall fuel, x_loop (k + fuel) macros t0 allow a = x_loop fuel macros t0 allow b.
Proof.
  induction 1 as [s|s s1 s2 E _ (k & IH)]; [exists 0%nat; reflexivity|]. exists (S k). intros fuel. cbn [Nat.add x_loop]. rewrite E. apply IH.
Qed.

Lemma limit_off {A} (x : A) stk : (List.length stk < 5)%nat -> (6 <=? List.length (x :: stk))%nat = false.
Proof. intros. apply Nat.leb_gt. cbn. lia. Qed.

(** Calling a function-like macro, wherever its arguments come from. *)
Lemma iter_call t dd cur stk o pp lx dis diff m params q' first more rest body toks0 :
  (List.length stk < 5)%nat -> t_kind t = KIdent -> mget macros (t_text t) = Some m -> m_params m = Some params ->
  pulls (Src cur pp lx) toks0 q' -> call (look t) first more rest (map look toks0) -> rest = [] ->
  regular (lay (to_ (look t)) (m_body m)) = true ->
  filled (argument params (shared (pred (m_nb m)) first more)) (look t) true (lay (to_ (look t)) (m_body m)) = Some body ->
  exists c diff', x_iter macros t0 allow (XSt ((QTok t dd :: cur) :: stk) o pp lx dis diff)
      = XNext (XSt (c :: q_ctx q' :: stk) o (q_popped q') (q_lex q') dis diff') /\ almost c body.
Proof.
  intros L KI G P PU C -> R F. destruct (call_tokens _ _ _ _ _ C) as (com & lp & first' & more' & rp & rest' & -> & FC & KL & KR & LI & <- & <- & E & FO & FM).
  destruct rest'; [|discriminate]. 
  replace (com ++ lp :: first' ++ joined more' ++ [rp]) with (com ++ lp :: first' ++ joined more' ++ [rp]) in PU by reflexivity.
  destruct (collect_call (t_sym t) (m_nb m) _ _ _ _ _ _ _ PU (FIT _ _ G) FC KL KR LI FO FM) as (k & CO).
  destruct (expand_filled (shared (pred (m_nb m)) first' more' ++ repeat [] k) m params (t_sym t) (t_delta t0) (List.length stk) body) as (c & X & A).
  - exact R.
  - etransitivity; [|exact F]. apply (filled_ext _ _ _) with (n := List.length (lay (to_ (look t)) (m_body m))); [|apply le_n].
    intros v. rewrite argument_padded, map_shared. reflexivity.
  - exists c. eexists. split; [|exact A]. unfold x_iter. cbn [x_ctx]. rewrite (limit_off _ _ L), KI, G, P. cbn [x_popped x_lex x_out x_dis x_diff]. rewrite CO, X. reflexivity.
Qed.

Theorem context_expands d l out : expands macros allow d l out -> forall cur stk o pp lx dis diff,
  almost cur l -> (List.length stk + d < 5)%nat ->
  exists new diff', becomes (XSt (cur :: stk) o pp lx dis diff) (XSt stk (o ++ new) pp lx dis diff') /\ map shown_token new = out.
Proof.
  assert (STOP : forall stk o pp lx dis diff, (List.length stk < 5)%nat ->
    exists new diff', becomes (XSt ([] :: stk) o pp lx dis diff) (XSt stk (o ++ new) pp lx dis diff') /\ map shown_token new = []).
  { intros stk o pp lx dis diff LE. exists [], diff. rewrite app_nil_r. split; [|reflexivity].
    econstructor; [|constructor]. unfold x_iter. cbn [x_ctx]. rewrite limit_off by lia. reflexivity. }
  intros H. induction H as [d|d t tl out L H IH|d t tl out L NI H IH|d t tl out KI G A H IH
    |d t tl m o1 o2 KI G P H1 IH1 H IH|d t tl m params first more rest body o1 o2 KI G P C R F H1 IH1 H IH];
    intros cur stk o pp lx dis diff E LE.
  - destruct E as [E|(n & _ & E)]; destruct cur; try discriminate. apply STOP. lia.
  - destruct (almost_inv _ _ _ E) as [([t' dd] & cur' & -> & <- & E')|(-> & -> & K)].
    + destruct (IH cur' stk o pp lx dis diff E' LE) as (new & diff' & B & S). exists new, diff'. split; [|exact S].
      eapply b_step; [|exact B]. unfold x_iter. cbn [x_ctx q_tok] in *. rewrite limit_off by lia. unfold is_layout in L. rewrite look_kind in L.
      destruct (t_kind t'); try discriminate; reflexivity.
    + inversion H; subst. apply STOP. lia.
  - destruct (almost_inv _ _ _ E) as [([t' dd] & cur' & -> & <- & E')|(-> & -> & K)]; [|unfold is_layout in L; rewrite K in L; discriminate].
    cbn [q_tok] in *.
    assert (X : exists x, shown_token x = shown (look t') /\
      x_iter macros t0 allow (XSt ((QTok t' dd :: cur') :: stk) o pp lx dis diff) = XNext (XSt (cur' :: stk) (o ++ [x]) pp lx dis diff)).
    { unfold x_iter. cbn [x_ctx]. rewrite limit_off by lia. unfold is_layout in L. rewrite look_kind in *. unfold shown. rewrite look_kind.
      destruct (t_kind t') as [| | | | | | | | | | | | | | |op|li| | |] eqn:K; try discriminate L; try congruence;
        try (exists (t_set_delta t' dd); split; [rewrite <- K; reflexivity|reflexivity]).
      destruct li; try (exists (t_set_delta t' dd); split; [rewrite <- K; reflexivity|reflexivity]); (eexists; split; [|reflexivity]); reflexivity. }
    destruct X as (x & SX & X). destruct (IH cur' stk (o ++ [x]) pp lx dis diff E' LE) as (new & diff' & B & S).
    exists (x :: new), diff'. rewrite <- app_assoc in B. split; [eapply b_step; [exact X|exact B]|]. cbn. rewrite SX, S. reflexivity.
  - destruct (almost_inv _ _ _ E) as [([t' dd] & cur' & -> & <- & E')|(-> & -> & K)]; [|congruence].
    cbn [q_tok] in *. rewrite look_kind in KI. change (text_ (look t')) with (t_text t') in G.
    destruct (IH cur' stk (o ++ [t_set_delta t' dd]) pp lx dis diff E' LE) as (new & diff' & B & S).
    exists (t_set_delta t' dd :: new), diff'. rewrite <- app_assoc in B. split; [|cbn; rewrite S; unfold shown; rewrite look_kind, KI; unfold shown_token; cbn; unfold t_kind in KI; rewrite <- KI; reflexivity].
    eapply b_step; [|exact B]. unfold x_iter. cbn [x_ctx]. rewrite limit_off by lia. rewrite KI, G, A. reflexivity.
  - destruct (almost_inv _ _ _ E) as [([t' dd] & cur' & -> & <- & E')|(-> & -> & K)]; [|congruence].
    cbn [q_tok] in *. rewrite look_kind in KI. change (text_ (look t')) with (t_text t') in G.
    destruct (IH1 (expand_non_macro_define m (t_delta t0) (t_range t')) (cur' :: stk) o pp lx dis diff) as (n1 & d1 & B1 & S1); [apply non_macro_almost|cbn; lia|].
    destruct (IH cur' stk (o ++ n1) pp lx dis d1 E' LE) as (n2 & d2 & B2 & S2).
    exists (n1 ++ n2), d2. rewrite map_app, S1, S2, app_assoc. split; [|reflexivity].
    eapply b_step; [|eapply becomes_trans; [exact B1|exact B2]]. unfold x_iter. cbn [x_ctx]. rewrite limit_off by lia. rewrite KI, G, P. reflexivity.
  - destruct (almost_inv _ _ _ E) as [([t' dd] & cur' & -> & <- & E')|(-> & -> & K)]; [|congruence].
    cbn [q_tok] in *. destruct (almost_call _ _ _ _ _ _ C E') as (c1 & c2 & -> & C1 & A2).
    destruct (iter_call t' dd (c1 ++ c2) stk o pp lx dis diff m params (Src c2 pp lx) first more [] body (map q_tok c1)) as (c & d0 & X & A);
      try assumption; [lia|apply pulls_ctx_app|rewrite <- looks_map; exact C1|reflexivity|].
    destruct (IH1 c (c2 :: stk) o pp lx dis d0 A) as (n1 & d1 & B1 & S1); [cbn; lia|].
    destruct (IH c2 stk (o ++ n1) pp lx dis d1 A2 LE) as (n2 & d2 & B2 & S2).
    exists (n1 ++ n2), d2. rewrite map_app, S1, S2, app_assoc. split; [|reflexivity].
    eapply b_step; [exact X|eapply becomes_trans; [exact B1|exact B2]].
Qed.

Lemma finish o pp lx dis diff k : x_loop (S k) macros t0 allow (XSt [] o pp lx dis diff) = XOk diff (o ++ rev pp) lx dis.
Proof. reflexivity. Qed.
End Run.

(** Using an object-like macro. *)
Theorem use_object macros allow t l dis m d out :
  fits macros -> t_kind t = KIdent -> mget macros (t_text t) = Some m -> m_params m = None ->
  expands macros allow d (lay (pline (rend (t_range t))) (m_body m)) out -> (d <= 3)%nat ->
  exists k pushed diff, map shown_token pushed = out /\
    forall fuel, (k <= fuel)%nat -> expand_identifier fuel l macros t allow dis = XOk diff pushed l dis.
Proof.
  intros FIT KI G P H D.
  destruct (context_expands macros t allow FIT d _ out H (expand_non_macro_define m (t_delta t) (t_range t)) [[]] [] [] l dis 0) as (new & diff & B & S);
    [apply non_macro_almost|cbn; lia|].
  assert (B0 : becomes macros t allow (XSt [[QTok t (t_delta t)]] [] [] l dis 0) (XSt [[]] ([] ++ new) [] l dis diff)).
  { eapply b_step; [|exact B]. unfold x_iter. cbn [x_ctx List.length Nat.leb]. rewrite KI, G, P. reflexivity. }
  destruct (becomes_loop _ _ _ _ _ B0) as (k & E). exists (k + 2)%nat, new, diff. split; [exact S|]. intros fuel LE.
  replace fuel with (k + (1 + (1 + (fuel - k - 2))))%nat by lia. unfold expand_identifier. rewrite E. cbn. unfold x_finish. cbn. rewrite app_nil_r. reflexivity.
Qed.

(** Using a function-like macro in the source text. *)
Theorem use_call macros allow t a b pp dis m params first more body d out :
  fits macros -> t_kind t = KIdent -> mget macros (t_text t) = Some m -> m_params m = Some params ->
  call (look t) first more [] (map (fun p => see (fst p)) a) ->
  regular (lay (pline (rend (t_range t))) (m_body m)) = true ->
  filled (argument params (shared (pred (m_nb m)) first more)) (look t) true (lay (pline (rend (t_range t))) (m_body m)) = Some body ->
  expands macros allow d body out -> (d <= 3)%nat ->
  exists k pushed diff, map shown_token pushed = out /\
    forall fuel, (k <= fuel)%nat ->
      expand_identifier fuel (Lex (a ++ b) pp) macros t allow dis = XOk diff pushed (Lex b (last_flag pp a)) dis.
Proof.
  intros FIT KI G P C R F H D.
  destruct (iter_call macros t allow FIT t (t_delta t) [] [] [] [] (Lex (a ++ b) pp) dis 0 m params (Src [] [] (Lex b (last_flag pp a))) first more [] body
    (map (fun p => tok (fst p)) a)) as (c & d0 & X & A); try assumption; [cbn; lia|apply pulls_lex_app|rewrite map_map; exact C|reflexivity|].
  cbn [q_ctx q_popped q_lex] in X.
  destruct (context_expands macros t allow FIT d _ out H c [[]] [] [] (Lex b (last_flag pp a)) dis d0) as (new & diff & B & S); [exact A|cbn; lia|].
  destruct (becomes_loop _ _ _ _ _ (b_step _ _ _ _ _ _ X B)) as (k & E). exists (k + 2)%nat, new, diff. split; [exact S|]. intros fuel LE.
  replace fuel with (k + (1 + (1 + (fuel - k - 2))))%nat by lia. unfold expand_identifier. rewrite E. cbn. unfold x_finish. cbn. rewrite app_nil_r. reflexivity.
Qed.
