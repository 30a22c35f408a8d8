From Coq Require Import List ZArith Bool String Lia.
From Verif Require Import PreTypes MacroModel MacroProofs EvalModel EvalSafeSpec.
Import ListNotations.
Local Open Scope Z_scope.

(** tokens an expansion may leave on the stack *)
Definition flat (k : kind) : Prop :=
  condition_kind k /\ ~ divides k /\ ~ paren k /\ k <> KIdent.
Definition inner (k : kind) : Prop :=
  condition_kind k /\ ~ divides k /\ ~ paren k.

Lemma body_symbols_kinds body : forall prev,
  map s_kind (body_symbols body prev) = map r_kind body.
Proof. induction body as [|r tl IH]; intros prev; simpl; [reflexivity|]. rewrite IH. reflexivity. Qed.

Lemma removelast_Forall {A} (P : A -> Prop) l : Forall P l -> Forall P (removelast l).
Proof.
  induction l as [|x l IH]; intros H; [exact H|]. inversion H; subst.
  simpl. destruct l; [constructor|]. constructor; auto.
Qed.

Lemma non_macro_inner m d prev : tame m ->
  Forall (fun q => inner (t_kind (q_tok q))) (expand_non_macro_define m d prev).
Proof.
  intros (_ & Hb). unfold expand_non_macro_define.
  assert (H : Forall (fun s => inner (s_kind s)) (body_symbols (m_body m) prev)).
  { apply Forall_map. rewrite body_symbols_kinds. apply Forall_map. exact Hb. }
  set (ctx := match body_symbols (m_body m) prev with
              | [] => []
              | s :: tl => QTok (tok s) d :: map (fun s => QTok (tok s) (s_delta s)) tl
              end).
  assert (Hctx : Forall (fun q => inner (t_kind (q_tok q))) ctx).
  { subst ctx. destruct (body_symbols (m_body m) prev) as [|s tl]; [constructor|].
    inversion H; subst. constructor; [assumption|]. apply Forall_map. exact H3. }
  destruct (rev ctx); [exact Hctx|].
  destruct (is_newline _); [apply removelast_Forall|]; exact Hctx.
Qed.

(** an expansion with tame macros leaves only flat tokens and does not read the lexer *)
Lemma x_loop_flat ms t0 : tame_table ms -> forall n ctx o l d i,
  Forall (Forall (fun q => inner (t_kind (q_tok q)))) ctx ->
  Forall (fun t => flat (t_kind t)) o ->
  match x_loop n ms t0 false (XSt ctx o [] l d i) with
  | XOk _ pushed l' _ => Forall (fun t => flat (t_kind t)) pushed /\ l' = l
  | _ => True
  end.
Proof.
  intros Hms. induction n as [|n IH]; intros ctx o l d i Hctx Ho; [exact I|].
  simpl. unfold x_iter. simpl x_ctx.
  destruct ctx as [|cur stack]; [simpl; rewrite app_nil_r; auto|].
  destruct (6 <=? _)%nat; [simpl; rewrite app_nil_r; auto|].
  inversion Hctx as [|? ? Hcur Hstack]; subst.
  destruct cur as [|[t dl] cur]; [apply IH; assumption|].
  inversion Hcur as [|? ? Ht Hcur']; subst. simpl in Ht.
  assert (Hc' : Forall (Forall (fun q => inner (t_kind (q_tok q)))) (cur :: stack))
    by (constructor; assumption).
  assert (Hpush : forall x, t_kind x = t_kind t -> t_kind t <> KIdent ->
            Forall (fun t => flat (t_kind t)) (o ++ [x])).
  { intros x Hx Hne. apply Forall_app; split; [exact Ho|]. constructor; [|constructor].
    rewrite Hx. destruct Ht as (A & B & C). repeat split; assumption. }
  assert (Hset : t_kind (t_set_delta t dl) = t_kind t) by reflexivity.
  destruct (t_kind t) eqn:Ek;
    try (apply IH; [exact Hc'|apply Hpush; [exact Hset|discriminate]]);
    try (apply IH; assumption).
  - destruct (mget ms (t_text t)) as [m|] eqn:Em; [|exact I].
    destruct (Hms _ _ Em) as (Hpar & Hb). rewrite Hpar. apply IH; [|exact Ho].
    constructor; [|exact Hc']. apply non_macro_inner. split; assumption.
  - destruct l0; (apply IH; [exact Hc'|apply Hpush; [first [reflexivity | exact Hset | exact Ek]|discriminate]]).
Qed.

Lemma expand_flat fuel ms l y dis diff pushed l' dis' : tame_table ms -> inner (s_kind y) ->
  expand_identifier fuel l ms (tok y) false dis = XOk diff pushed l' dis' ->
  Forall (fun t => flat (t_kind t)) pushed /\ l' = l.
Proof.
  intros Hms Hy H. unfold expand_identifier in H.
  pose proof (x_loop_flat ms (tok y) Hms fuel [[QTok (tok y) (t_delta (tok y))]] [] l dis 0) as X.
  rewrite H in X. apply X; repeat constructor; simpl; apply Hy.
Qed.

(** operators *)
Definition op_ok (o : preop) : Prop := o <> PSlash /\ o <> PPercent.
Definition opens (ops : list preop) : nat :=
  List.length (filter (fun o => match o with PLParen => true | _ => false end) ops).

Lemma process_op_ok o stk : op_ok o -> o <> PLParen -> process_op false o stk <> PrPanic.
Proof.
  intros (A & B) C. unfold process_op.
  assert (Har : forall z, arith false z <> OpPanic).
  { intros z. unfold arith. destruct (in_i32 z); discriminate. }
  assert (Hsh : forall r, shift_amount false r <> None).
  { intros r. unfold shift_amount. destruct (_ && _); discriminate. }
  destruct (is_unary o) eqn:U.
  - destruct stk as [|r tl]; [discriminate|].
    assert (H : unop false o r <> OpPanic) by (destruct o; try discriminate; apply Har).
    destruct (unop false o r); [discriminate|congruence].
  - destruct stk as [|r [|l tl]]; try discriminate.
    assert (H : binop false o l r <> OpPanic).
    { destruct o; try discriminate; try congruence; simpl; try apply Har;
        (destruct (shift_amount false r) eqn:E; [discriminate|exfalso; exact (Hsh r E)]). }
    destruct (binop false o l r); [discriminate|congruence].
Qed.

Lemma close_paren_ok ops : forall stk un, Forall op_ok ops ->
  match close_paren false ops stk un with
  | (PrPanic, _, _) => False
  | (PrErr, _, _) => True
  | (PrOk _, ops', _) => Forall op_ok ops' /\ opens ops' = pred (opens ops)
  end.
Proof.
  induction ops as [|o ops IH]; intros stk un H; simpl; [auto|].
  inversion H; subst.
  destruct (process_op false o stk) eqn:E; destruct o; try (split; [assumption|reflexivity]);
    try (apply IH; assumption); try exact I;
    exfalso; revert E; (apply process_op_ok; [assumption|discriminate]).
Qed.

Lemma reduce_ok cur ops : forall stk, Forall op_ok ops ->
  match reduce false cur ops stk with
  | (PrPanic, _) => False
  | (PrErr, _) => True
  | (PrOk _, ops') => Forall op_ok ops' /\ opens ops' = opens ops
  end.
Proof.
  induction ops as [|o ops IH]; intros stk H; simpl; [auto|].
  inversion H; subst.
  destruct (pops cur o); destruct (process_op false o stk) eqn:E; destruct o; try (split; [assumption|reflexivity]);
    try (apply IH; assumption); try exact I;
    exfalso; revert E; (apply process_op_ok; [assumption|discriminate]).
Qed.

Lemma drain_ok ops : forall stk, Forall op_ok ops -> opens ops = 0%nat -> drain false ops stk <> PrPanic.
Proof.
  induction ops as [|o ops IH]; intros stk H Ho; simpl; [discriminate|].
  inversion H; subst.
  assert (Hne : o <> PLParen) by (intros ->; discriminate Ho).
  assert (Ho' : opens ops = 0%nat) by (destruct o; try exact Ho; congruence).
  pose proof (process_op_ok o stk H2 Hne).
  destruct (process_op false o stk); [apply IH; assumption|discriminate|congruence].
Qed.

Definition outcome (r : eres) : Prop :=
  match r with EOk _ _ _ | EErr _ _ _ _ => True | EPanic | EFuel => False end.

Definition src_ok (y : symbol) : Prop := condition_kind (s_kind y) /\ ~ divides (s_kind y).

Record inv (s : evst) : Prop := {
  i_ops : Forall op_ok (e_ops s);
  i_stack : Forall (fun t => flat (t_kind t)) (e_stack s);
  i_iter : Forall src_ok (map fst (lx_rest (e_iter s)));
  i_close : still_open (opens (e_ops s)) (map fst (lx_rest (e_iter s))) = 0%nat
}.

Definition settles ms (s : evst) : Prop :=
  exists n r, outcome r /\ forall fuel xf, (n <= fuel)%nat -> (n <= xf)%nat ->
    e_loop fuel false xf ms s = r.

Lemma settles_next ms s s' :
  (exists k, forall xf, (k <= xf)%nat -> e_iter1 false xf ms s = ENext s') -> settles ms s' -> settles ms s.
Proof.
  intros (k & H) (n & r & Ho & Hr). exists (S (n + k)), r. split; [exact Ho|].
  intros [|fuel] xf Hf Hx; [lia|]. simpl. rewrite H by lia. apply Hr; lia.
Qed.
Lemma settles_stop ms s r :
  (exists k, forall xf, (k <= xf)%nat -> e_iter1 false xf ms s = EStop r) -> outcome r -> settles ms s.
Proof.
  intros (k & H) Ho. exists (S k), r. split; [exact Ho|].
  intros [|fuel] xf Hf Hx; [lia|]. simpl. rewrite H by lia. reflexivity.
Qed.

Lemma op_cur_ok o c (un : bool) : convert o = Some c -> ~ divides (KOp o) ->
  op_ok (if un then match unary_of o with Some u => u | None => c end else c) /\
  (if un then match unary_of o with Some u => u | None => c end else c) <> PLParen.
Proof.
  intros H Hd. assert (o <> OSlash) by (intros ->; apply Hd; left; reflexivity).
  assert (o <> OPercent) by (intros ->; apply Hd; right; reflexivity).
  unfold op_ok. destruct un, o; simpl in *; injection H as <- || discriminate H; repeat split; congruence.
Qed.

(** one token, wherever it comes from *)
Definition after (y : symbol) (s : evst) : Prop :=
  Forall op_ok (e_ops s) /\ Forall (fun t => flat (t_kind t)) (e_stack s) /\
  Forall src_ok (map fst (lx_rest (e_iter s))) /\
  still_open (match s_kind y with KLParen => S (opens (e_ops s)) | KRParen => pred (opens (e_ops s))
              | _ => opens (e_ops s) end) (map fst (lx_rest (e_iter s))) = 0%nat.

(** what follows from processing [y] in state [s] *)
Lemma iter_cases ms s0 y s : tame_table ms ->
  e_fetch s0 = Some (y, s) -> after y s -> src_ok y ->
  (forall s', inv s' -> e_iter s' = e_iter s ->
     (s_kind y <> KIdent -> e_stack s' = e_stack s) -> settles ms s') ->
  settles ms s0.
Proof.
  intros Hms Hf (Hops & Hst & Hit & Hcl) (Hk & Hd) Hnext.
  assert (Step : forall s', (forall xf, e_iter1 false xf ms s0 = ENext s') ->
      inv s' -> e_iter s' = e_iter s -> e_stack s' = e_stack s -> settles ms s0).
  { intros s' H1 H2 H3 H4. eapply settles_next; [exists 0%nat; intros; apply H1|]. apply Hnext; auto. }
  assert (Halt : forall r, (forall xf, e_iter1 false xf ms s0 = EStop r) -> outcome r -> settles ms s0).
  { intros r H1 H2. eapply settles_stop; [exists 0%nat; intros; apply H1|exact H2]. }
  destruct (s_kind y) eqn:Ek; try contradiction Hk;
    try (eapply Halt; [intros; unfold e_iter1; rewrite Hf, Ek; reflexivity|exact I]);
    try (eapply Step; [intros; unfold e_iter1; rewrite Hf, Ek; reflexivity| | | ];
         [constructor; assumption|reflexivity|reflexivity]).
  - (* identifier *)
    destruct (e_def s) eqn:Edef.
    + destruct (mget ms (s_text y)) as [m|] eqn:Em;
        (eapply Step; [intros; unfold e_iter1; rewrite Hf, Ek, Edef, Em; reflexivity| | | ];
         [constructor; assumption|reflexivity|reflexivity]).
    + destruct (mget ms (s_text y)) as [m|] eqn:Em.
      * destruct (dmem m (e_dis s)) eqn:Edis.
        { eapply Step; [intros; unfold e_iter1; rewrite Hf, Ek, Edef, Em, Edis; reflexivity| | | ];
          [constructor; assumption|reflexivity|reflexivity]. }
        destruct (expand_identifier_ends (e_iter s) ms (tok y) false (e_dis s)) as (n & r & Hr & Hx).
        assert (Hin : inner (s_kind y)).
        { rewrite Ek. repeat split; simpl; auto; intros [H|H]; discriminate. }
        destruct r as [diff pushed l' dis'|nm rr l' dis'|rr l' dis'|]; [| | |congruence].
        -- destruct (expand_flat n ms (e_iter s) y (e_dis s) diff pushed l' dis' Hms Hin (Hx n (le_n n)))
             as (Hfl & ->).
           eapply settles_next.
           { exists n. intros xf Hxf. unfold e_iter1. rewrite Hf, Ek, Edef, Em, Edis, (Hx xf Hxf). reflexivity. }
           apply Hnext; [|reflexivity|congruence].
           constructor; simpl; auto. apply Forall_app; auto.
        -- eapply settles_stop; [exists n; intros xf Hxf; unfold e_iter1; rewrite Hf, Ek, Edef, Em, Edis, (Hx xf Hxf); reflexivity|exact I].
        -- eapply settles_stop; [exists n; intros xf Hxf; unfold e_iter1; rewrite Hf, Ek, Edef, Em, Edis, (Hx xf Hxf); reflexivity|exact I].
      * destruct (expand_identifier_ends (e_iter s) ms (tok y) false (e_dis s)) as (n & r & Hr & Hx).
        assert (Hin : inner (s_kind y)).
        { rewrite Ek. repeat split; simpl; auto; intros [H|H]; discriminate. }
        destruct r as [diff pushed l' dis'|nm rr l' dis'|rr l' dis'|]; [| | |congruence].
        -- destruct (expand_flat n ms (e_iter s) y (e_dis s) diff pushed l' dis' Hms Hin (Hx n (le_n n)))
             as (Hfl & ->).
           eapply settles_next.
           { exists n. intros xf Hxf. unfold e_iter1. rewrite Hf, Ek, Edef, Em, (Hx xf Hxf). reflexivity. }
           apply Hnext; [|reflexivity|congruence].
           constructor; simpl; auto. apply Forall_app; auto.
        -- eapply settles_stop; [exists n; intros xf Hxf; unfold e_iter1; rewrite Hf, Ek, Edef, Em, (Hx xf Hxf); reflexivity|exact I].
        -- eapply settles_stop; [exists n; intros xf Hxf; unfold e_iter1; rewrite Hf, Ek, Edef, Em, (Hx xf Hxf); reflexivity|exact I].
  - (* ( *)
    eapply Step; [intros; unfold e_iter1; rewrite Hf, Ek; reflexivity| |reflexivity|reflexivity].
    constructor; simpl; auto. constructor; [split; discriminate|assumption].
  - (* ) *)
    pose proof (close_paren_ok (e_ops s) (e_out s) (e_unary s) Hops) as Hc.
    destruct (close_paren false (e_ops s) (e_out s) (e_unary s)) as [[[stk| |] ops] un] eqn:Ec;
      [|eapply Halt; [intros; unfold e_iter1; rewrite Hf, Ek, Ec; reflexivity|exact I]|contradiction].
    eapply Step; [intros; unfold e_iter1; rewrite Hf, Ek, Ec; reflexivity| |reflexivity|reflexivity].
    destruct Hc as (Hc1 & Hc2). constructor; simpl; auto. rewrite Hc2. exact Hcl.
  - (* operator *)
    destruct (convert o) as [c|] eqn:Ecv;
      [|eapply Halt; [intros; unfold e_iter1; rewrite Hf, Ek, Ecv; reflexivity|exact I]].
    set (cur := if e_unary s then match unary_of o with Some u => u | None => c end else c).
    pose proof (reduce_ok cur (e_ops s) (e_out s) Hops) as Hr.
    destruct (op_cur_ok o c (e_unary s) Ecv Hd) as (Hco & Hcp). fold cur in Hco, Hcp.
    destruct (reduce false cur (e_ops s) (e_out s)) as [[stk| |] ops] eqn:Er;
      [|eapply Halt; [intros; unfold e_iter1; rewrite Hf, Ek, Ecv; fold cur; rewrite Er; reflexivity|exact I]
       |contradiction].
    eapply Step; [intros; unfold e_iter1; rewrite Hf, Ek, Ecv; fold cur; rewrite Er; reflexivity| |reflexivity|reflexivity].
    destruct Hr as (Hr1 & Hr2). constructor; simpl; auto.
    replace (opens (cur :: ops)) with (opens ops); [rewrite Hr2; exact Hcl|].
    unfold opens. simpl. destruct cur; try reflexivity. congruence.
  - (* literals *)
    destruct l;
      try (eapply Halt; [intros; unfold e_iter1; rewrite Hf, Ek; reflexivity|exact I]);
      (eapply Step; [intros; unfold e_iter1; rewrite Hf, Ek; reflexivity| | | ];
         [constructor; assumption|reflexivity|reflexivity]).
Qed.

Lemma all_settle ms : tame_table ms -> forall s, inv s -> settles ms s.
Proof.
  intros Hms.
  assert (H : forall n k s, List.length (lx_rest (e_iter s)) = n -> List.length (e_stack s) = k ->
            inv s -> settles ms s).
  2:{ intros s Hs. eapply H; [reflexivity|reflexivity|exact Hs]. }
  induction n as [n IHn] using (well_founded_induction Wf_nat.lt_wf).
  induction k as [k IHk] using (well_founded_induction Wf_nat.lt_wf).
  intros s Hn Hk [Hops Hst Hit Hcl].
  destruct (e_stack s) as [|t tl] eqn:Est.
  - destruct (lx_rest (e_iter s)) as [|[y pp] rest] eqn:Eit.
    + (* the end *)
      assert (Hf : e_fetch s = None) by (unfold e_fetch; rewrite Est; unfold lex_next; rewrite Eit; reflexivity).
      simpl in Hcl. pose proof (drain_ok (e_ops s) (e_out s) Hops Hcl) as Hd.
      exists 1%nat, (e_finish false s). split.
      * unfold e_finish. destruct (drain false (e_ops s) (e_out s)) as [[|v vs]| |]; try exact I. congruence.
      * intros [|fuel] xf H1 H2; [lia|]. simpl. unfold e_iter1. rewrite Hf. reflexivity.
    + eapply iter_cases; [exact Hms|unfold e_fetch; rewrite Est; unfold lex_next; rewrite Eit; reflexivity
        | | |].
      * simpl in *. inversion Hit; subst. repeat split; simpl; auto.
      * simpl in Hit. inversion Hit; subst. assumption.
      * simpl. intros s' Hs' Hi' _. eapply IHn; [|reflexivity|reflexivity|exact Hs'].
        rewrite Hi'. simpl. subst n. simpl. lia.
  - inversion Hst as [|? ? Ht Htl]; subst.
    destruct Ht as (A & B & C & D).
    assert (Hpar : match t_kind t with KLParen => S (opens (e_ops s)) | KRParen => pred (opens (e_ops s))
              | _ => opens (e_ops s) end = opens (e_ops s)).
    { destruct (t_kind t); try reflexivity; exfalso; apply C; [left|right]; reflexivity. }
    eapply iter_cases; [exact Hms|unfold e_fetch; rewrite Est; reflexivity| | |].
    + repeat split; simpl; auto. unfold t_kind in Hpar. rewrite Hpar. exact Hcl.
    + split; assumption.
    + simpl. intros s' Hs' Hi' Hstk. eapply IHk; [|rewrite Hi'; reflexivity|reflexivity|exact Hs'].
      rewrite Hstk by exact D. simpl. lia.
Qed.

Lemma evaluate_settles ms dis line ys : tame_table ms -> Forall src_ok ys -> still_open 0 ys = 0%nat ->
  exists n r, outcome r /\ forall fuel, (n <= fuel)%nat -> evaluate fuel false ms dis line ys = r.
Proof.
  intros Hms Hys Hcl.
  assert (Hmap : map fst (map (fun y : symbol => (y, false)) ys) = ys)
    by (rewrite map_map; apply map_id).
  destruct (all_settle ms Hms
    (EvSt [] [] true false [] (Lex (map (fun y => (y, false)) ys) false)
          (Rng (Pos line 0) (Pos line 1000)) [] dis)) as (n & r & Ho & Hr).
  - constructor; simpl; try constructor; rewrite Hmap; assumption.
  - exists n, r. split; [exact Ho|]. intros fuel Hf. unfold evaluate. apply Hr; assumption.
Qed.

(** ** What goes wrong otherwise *)

(** a symbol that is neither handled nor an identifier comes back for ever *)
Definition bounces (y : symbol) : Prop :=
  match s_kind y with
  | KUnknown | KUsing | KIntrinsics | KSemi | KDot | KComma | KOther _ => True
  | _ => False
  end.

Lemma bounce_expand y l ms dis n : bounces y ->
  expand_identifier (S (S (S n))) l ms (tok y) false dis
    = XOk 0 [t_set_delta (tok y) (s_delta y)] l dis.
Proof.
  intros Hb. unfold bounces in Hb. unfold expand_identifier.
  destruct y as [k tx inl int r dl]. simpl in Hb.
  destruct k; try contradiction Hb; reflexivity.
Qed.

Lemma bounce_loop y chk ms : bounces y -> mget ms (s_text y) = None -> forall fuel xf out ops un l cur offs dis,
  e_loop fuel chk xf ms (EvSt out ops un false [tok y] l cur offs dis) = EFuel.
Proof.
  intros Hb Hg. induction fuel as [|fuel IH]; intros xf out ops un l cur offs dis; [reflexivity|].
  simpl e_loop. unfold e_iter1. unfold e_fetch. cbn [e_stack t_sym tok]. cbv iota beta.
  assert (Hexp : expand_identifier xf l ms (tok y) false dis = XFuel \/
          expand_identifier xf l ms (tok y) false dis = XOk 0 [tok y] l dis).
  { destruct xf as [|[|[|xf]]].
    - left; reflexivity.
    - left. unfold bounces in Hb. destruct y as [k tx inl int r dl]. simpl in Hb.
      destruct k; try contradiction Hb; reflexivity.
    - left. unfold bounces in Hb. destruct y as [k tx inl int r dl]. simpl in Hb.
      destruct k; try contradiction Hb; reflexivity.
    - right. rewrite bounce_expand by exact Hb. destruct y; reflexivity. }
  unfold bounces in Hb. simpl t_sym. cbn [e_def e_stack e_iter e_dis e_out e_ops e_unary e_cur e_offs].
  rewrite Hg.
  destruct (s_kind y) eqn:Ek; try contradiction Hb;
    destruct Hexp as [-> | ->]; try reflexivity; simpl app; apply IH.
Qed.
