(** The body made by the lowering says what the syntax tree says. *)
From Coq Require Import List String Ascii Bool Arith ZArith Lia.
From Verif Require Import TypeRefModel LowerModel LowerSpec LowerProofs LowerProps LowerHir OffsetModel WrittenSpec WrittenLower SaidSpec.
From Verif Require HirModel.
Import ListNotations.
Local Open Scope string_scope.
Local Open Scope nat_scope.
Local Open Scope list_scope.

Section main.
Variable e : env.
Notation sayss s := (says e (expr_source s)).
Notation tellss s := (tells e (expr_source s)).

(** ** Expressions *)
Definition sd (n : ts) (lo hi : nat) (s : state) (i : nat) : Prop := lo <= i < hi /\ forall k, i < k -> sayss s n (to_expr k s i).
Definition sd_opt (n : ts) (lo hi : nat) (s : state) (a : option nat) : Prop :=
  match a with Some i => counted e n = true /\ sd n lo hi s i | None => counted e n = false end.
Definition sds (l : list ts) (lo hi : nat) (s : state) (is : list nat) : Prop :=
  Forall (fun j => j < hi) is /\ forall k, hi <= k -> Forall2 (sayss s) l (map (to_expr k s) is).

Lemma sd_widen : forall n lo hi lo' hi' s i, sd n lo hi s i -> lo' <= lo -> hi <= hi' -> sd n lo' hi' s i.
Proof. intros n lo hi lo' hi' s i [R H] A B. split; [lia|exact H]. Qed.
Lemma sds_cons : forall n l lo m hi s i is, sd n lo m s i -> sds l m hi s is -> m <= hi -> sds (n :: l) lo hi s (i :: is).
Proof.
  intros n l lo m hi s i is [R H] [F K] L. split; [constructor; [lia|exact F]|]. intros k Lk. cbn [map]. constructor; [apply H; lia|exact (K k Lk)].
Qed.
Lemma sd_missing : forall n m s i, counted e n = false -> i = m -> nth i (exprs s) EMissing = EMissing -> sd n m (S m) s i.
Proof.
  intros n m s i C -> E. split; [lia|]. intros [|k] L; [lia|]. cbn [to_expr]. rewrite E. apply says_nothing. exact C.
Qed.
Lemma sd_collect : forall n, does (maybe_collect (annotate e n)) (sd_opt n) -> does (collect (annotate e n)) (sd n).
Proof.
  intros n H. unfold collect. eapply does_bind; [exact H|]. intros [j|].
  - apply does_ret. intros m s lo L _ [_ P]. exact P.
  - eapply does_impl; [apply does_missing|]. cbn. intros m hi s i _ [-> [-> [E S]]] lo L _ C.
    exact (sd_widen _ _ _ _ _ _ _ (sd_missing n m s m C eq_refl E) L (le_n _)).
Qed.
Lemma sd_all : forall l, (forall x, In x l -> does (maybe_collect (annotate e x)) (sd_opt x)) ->
  does (collect_all (map (annotate e) l)) (sds l).
Proof.
  induction l as [|x l IH]; intros H; cbn [map collect_all].
  - apply does_ret. split; constructor.
  - eapply does_bind; [exact (sd_collect x (H x (or_introl eq_refl)))|]. intros i. eapply does_bind; [apply IH; intros y Y; apply H; right; exact Y|].
    intros r. apply does_ret. intros hi s mid L2 _ Q lo L1 _ P. exact (sds_cons _ _ _ _ _ _ _ _ P Q L2).
Qed.
Lemma sd_some : forall l, (forall x, In x l -> does (maybe_collect (annotate e x)) (sd_opt x)) ->
  does (collect_some (map (annotate e) l)) (sds (filter (counted e) l)).
Proof.
  induction l as [|x l IH]; intros H; cbn [map collect_some filter].
  - apply does_ret. split; constructor.
  - eapply does_bind; [exact (H x (or_introl eq_refl))|]. intros i. eapply does_bind; [apply IH; intros y Y; apply H; right; exact Y|].
    intros r. apply does_ret. intros hi s mid L2 _ Q lo L1 _ P. destruct i as [i|].
    + destruct P as [-> P]. exact (sds_cons _ _ _ _ _ _ _ _ P Q L2).
    + cbn [sd_opt] in P. rewrite P. destruct Q as [F K]. split; [exact F|exact K].
Qed.

Ltac fu := match goal with |- forall k, _ < k -> _ => let k := fresh "k" in let L := fresh in intros [|k] L; [lia|] end.
Theorem sd_node : forall k n, size n <= k -> does (maybe_collect (annotate e n)) (sd_opt n).
Proof.
  induction k as [|k IH]; intros n S; [destruct n; cbn in S; lia|].
  assert (C : forall x, In x (map snd (kids_of n)) -> does (maybe_collect (annotate e x)) (sd_opt x)).
  { intros x J. apply IH. pose proof (in_sizes _ _ J). rewrite (size_kids n) in S. lia. }
  assert (Gr : forall y x, In y (map snd (kids_of n)) -> In x (map snd (kids_of y)) -> does (maybe_collect (annotate e x)) (sd_opt x)).
  { intros y x J J'. apply IH. pose proof (in_sizes _ _ J). pose proof (in_sizes _ _ J'). rewrite (size_kids n) in S. rewrite (size_kids y) in H. lia. }
  assert (Ct : forall lo hi s a, (some a = counted e n -> sd_opt n lo hi s a) -> True) by (intros; exact Logic.I). clear Ct.
  assert (Ex : does (maybe_collect (annotate e n)) (fun lo hi s a => some a = counted e n)).
  { intros st a st' F E. destruct (just_maybe e n st a st' F E) as (F' & G' & _). split; [exact F'|]. split; [exact G'|]. intros s _.
    exact (counted_exact e (size n) n (le_n _) _ _ _ E). }
  assert (Wk : does (maybe_collect (annotate e n)) (fun lo hi s a => match a with Some i => sd n lo hi s i | None => True end)).
  2:{ intros st a st' F E. destruct (Ex st a st' F E) as (F' & G' & K1). destruct (Wk st a st' F E) as (_ & _ & K2).
      split; [exact F'|]. split; [exact G'|]. intros s Gs. specialize (K1 s Gs). specialize (K2 s Gs). cbv beta in K1, K2. unfold sd_opt.
      destruct a as [i|]; cbn [some] in K1; [split; [symmetry; exact K1|exact K2]|symmetry; exact K1]. }
  clear IH S Ex. destruct n as [kd p t l]. set (n := T kd p t l) in *. cbn [kids_of] in C, Gr. unfold n at 1. rewrite run_eq.
  set (R := fun (lo hi : nat) (s : state) (a : option nat) => match a with Some i => sd n lo hi s i | None => True end).
  assert (Cf : forall f x, field f l = Some x -> does (collect (annotate e x)) (sd x)).
  { intros f x F. apply sd_collect, C. exact (field_in _ _ _ F). }
  assert (Cm : forall f x, field f l = Some x -> does (maybe_collect (annotate e x)) (sd_opt x)).
  { intros f x F. apply C. exact (field_in _ _ _ F). }
  assert (W : forall f k (Q : nat -> nat -> state -> option nat -> Prop), (forall m s, Q m m s None) ->
     (forall c, field f l = Some c -> does (k (annotate e c)) Q) -> does (with_field f (ann e l) k) Q).
  { intros f k0 Q Q0 H. apply does_with; [exact Q0|]. intros c F. rewrite field_ann in F. destruct (field f l) as [x|] eqn:E; [|discriminate].
    injection F as <-. apply H. reflexivity. }
  assert (Some1 : does (ret None) R) by (apply does_ret; intros; exact Logic.I).
  Local Ltac nonek := intros; exact Logic.I.
  Local Ltac wf_ := match goal with W : forall f k Q, _ |- does (with_field ?f _ _) _ => apply W; [nonek|] end.
  Local Ltac own := apply does_some_alloc; let i := fresh "i" in let s := fresh "s" in let E := fresh "E" in let S := fresh "S" in
    intros i s E S; intros; split; [lia|]; fu; cbn [to_expr]; rewrite E.
  Local Ltac justs := repeat (eapply does_bind; [first [apply just_bindings|apply just_cases|apply just_all|apply just_collect|apply just_maybe|apply just_opt]|intros]).
  Local Ltac stm := justs; own; apply says_statement; reflexivity.
  Local Ltac use := match goal with H : sd ?c _ _ ?s ?j |- says _ _ ?c (to_expr _ ?s ?j) => apply H; destruct H; lia end.
  Local Ltac uses := match goal with H : sds ?c _ _ ?s ?j |- Forall2 _ ?c (map (to_expr _ ?s) ?j) => apply H; lia end.
  destruct kd; cbn [step]; try exact Some1.
  - wf_. intros a Fa. wf_. intros b Fb. eapply does_bind; [exact (Cf _ _ Fa)|intros i]. eapply does_bind; [exact (Cf _ _ Fb)|intros j].
    own. eapply says_named; [exact Fa|exact Fb|use|use].
  - destruct (block_id e p); [|apply does_panic]. rewrite snd_ann, (filter_ann e (fun x => negb (is_kind x anon_LBRACE || is_kind x anon_RBRACE))). stm.
  - rewrite of_kind_ann. stm.
  - rewrite of_kind_ann. stm.
  - rewrite fields_ann. justs. wf_. intros. wf_. intros. wf_. intros. stm.
  - wf_. intros. wf_. intros. stm.
  - wf_. intros. wf_. intros. stm.
  - own. apply says_leave. left. reflexivity.
  - own. apply says_leave. right. reflexivity.
  - wf_. intros. wf_. intros. rewrite field_ann. stm.
  - wf_. intros. rewrite of_kind_ann. stm.
  - wf_. intros x F. eapply does_bind; [exact (Cm _ _ F)|intros a]. own. eapply says_control; [left; split; reflexivity|exact F|].
    destruct a as [a|]; cbn [sd_opt] in *; [destruct H1 as [-> H1]; constructor; use|rewrite H1; constructor].
  - wf_. intros x F. eapply does_bind; [exact (Cm _ _ F)|intros a]. own. eapply says_control; [right; split; reflexivity|exact F|].
    destruct a as [a|]; cbn [sd_opt] in *; [destruct H1 as [-> H1]; constructor; use|rewrite H1; constructor].
  - destruct l as [|[f x] l]; [exact Some1|]. unfold ann. cbn [map]. eapply does_bind; [exact (sd_collect _ (C x (or_introl eq_refl)))|intros i].
    apply does_ret. intros hi s lo L _ [Q1 Q2]. split; [lia|]. intros k0 Lk. apply says_expression. exact (Q2 k0 Lk).
  - wf_. intros a Fa. eapply does_bind; [exact (Cf _ _ Fa)|intros i]. wf_. intros b Fb. eapply does_bind; [exact (Cf _ _ Fb)|intros j].
    own. eapply says_binary; [left; reflexivity|exact Fa|exact Fb|use|use].
  - wf_. intros a Fa. eapply does_bind; [exact (Cf _ _ Fa)|intros i]. wf_. intros b Fb. eapply does_bind; [exact (Cf _ _ Fb)|intros j].
    own. eapply says_binary; [right; reflexivity|exact Fa|exact Fb|use|use].
  - wf_. intros f Ff. wf_. intros args Fa. rewrite !annotate_kind, !annotate_kids, snd_ann.
    assert (Args : does (collect_some (map (annotate e) (map snd (kids_of args)))) (sds (filter (counted e) (map snd (kids_of args))))).
    { apply sd_some. intros x. apply Gr. exact (field_in _ _ _ Fa). }
    destruct (kind_of f) eqn:K; try apply does_panic.
    + apply does_with; [nonek|]. intros t0 Ft. apply does_with; [nonek|]. intros m Fm. rewrite field_ann in Ft, Fm.
      destruct (field "target" (kids_of f)) as [t'|] eqn:Et; [|discriminate]. destruct (field "field" (kids_of f)) as [m'|] eqn:Em; [|discriminate].
      injection Ft as <-. injection Fm as <-. eapply does_bind; [exact Args|intros is].
      eapply does_bind; [exact (sd_collect _ (Gr f t' (field_in _ _ _ Ff) (field_in _ _ _ Et)))|intros j]. rewrite annotate_ptr, annotate_text.
      own. eapply says_method; [eassumption|exact Ff|exact K|exact Fa|exact Et|exact Em|use|].
      match goal with H : sds _ _ _ _ is |- _ => apply H; lia end.
    + eapply does_bind; [exact (Cf _ _ Ff)|intros i]. eapply does_bind; [exact Args|intros is].
      own. eapply says_call; [exact Ff|exact K|exact Fa|use|uses].
  - wf_. intros a Fa. wf_. intros b Fb. eapply does_bind; [exact (Cf _ _ Fa)|intros i]. eapply does_bind; [exact (Cf _ _ Fb)|intros j].
    own. eapply says_index; [exact Fa|exact Fb|use|use].
  - wf_. intros a Fa. eapply does_bind; [exact (Cf _ _ Fa)|intros i]. wf_. intros b Fb. eapply does_bind; [exact (Cf _ _ Fb)|intros j].
    wf_. intros c Fc. eapply does_bind; [exact (Cf _ _ Fc)|intros h]. own. eapply says_ternary; [exact Fa|exact Fb|exact Fc|use|use|use].
  - wf_. intros f Ff. wf_. intros x F. eapply does_bind; [exact (Cf _ _ F)|intros i]. rewrite annotate_ptr, annotate_text.
    own. eapply says_field; [eassumption|exact F|exact Ff|use].
  - wf_. intros f Ff. wf_. intros x F. eapply does_bind; [exact (Cf _ _ F)|intros i]. rewrite annotate_text.
    own. eapply says_scope; [left; reflexivity|exact F|exact Ff|use].
  - wf_. intros f Ff. wf_. intros x F. eapply does_bind; [exact (Cf _ _ F)|intros i]. rewrite annotate_text.
    own. eapply says_scope; [right; reflexivity|exact F|exact Ff|use].
  - wf_. intros x F. eapply does_bind; [exact (Cf _ _ F)|intros i]. own. eapply says_unary; [left; split; [left|]; reflexivity|exact F|use].
  - wf_. intros x F. eapply does_bind; [exact (Cf _ _ F)|intros i]. own. eapply says_unary; [left; split; [right|]; reflexivity|exact F|use].
  - wf_. intros x F. eapply does_bind; [exact (Cf _ _ F)|intros i]. own. eapply says_unary; [right; split; reflexivity|exact F|use].
  - wf_. intros x F. destruct (type_of e p) eqn:Ty; cbn [or_none]; [|exact Some1]. eapply does_bind; [exact (Cf _ _ F)|intros i].
    own. eapply says_cast; [left; reflexivity|exact F|exact Ty|use].
  - wf_. intros x F. destruct (type_of e p) eqn:Ty; cbn [or_none]; [|exact Some1]. eapply does_bind; [exact (Cf _ _ F)|intros i].
    own. eapply says_cast; [right; reflexivity|exact F|exact Ty|use].
  - own. apply says_name; [left; reflexivity|eassumption].
  - own. apply says_name; [right; reflexivity|eassumption].
  - destruct (parse_i64 t) eqn:Q; [cbn [or_none]|exact Some1]. own. apply says_literal; [constructor|]. cbn. rewrite Q. reflexivity.
  - destruct (parse_f64 e t) eqn:Q; [cbn [or_none]|exact Some1]. own. apply says_literal; [constructor|]. cbn. rewrite Q. reflexivity.
  - destruct (String.get 1 t) eqn:Q; [cbn [or_none]|exact Some1]. own. apply says_literal; [constructor|]. cbn [counted]. rewrite Q. reflexivity.
  - own. apply says_literal; [constructor|reflexivity].
  - destruct (parse_bool t) eqn:Q; [cbn [or_none]|exact Some1]. own. apply says_literal; [constructor|]. cbn [counted].
    unfold parse_bool in Q. destruct (String.eqb t "true"); [reflexivity|]. destruct (String.eqb t "false"); [reflexivity|discriminate].
  - own. apply says_literal; [constructor|reflexivity].
  - wf_. intros x F. eapply does_impl; [exact (Cm _ _ F)|]. intros lo hi s [i|] L; [|intros; exact Logic.I]. intros [_ [Q1 Q2]].
    split; [lia|]. intros k0 Lk. eapply says_paren; [exact F|exact (Q2 k0 Lk)].
  - wf_. intros c Fc. wf_. intros args Fa. rewrite annotate_kids, snd_ann, annotate_ptr, annotate_text.
    eapply does_bind; [apply sd_some; intros x; apply Gr; exact (field_in _ _ _ Fa)|intros is].
    own. eapply says_new; [eassumption|exact Fc|exact Fa|uses].
  - rewrite snd_ann. eapply does_bind; [apply sd_some; exact C|intros is]. own. apply says_array. uses.
  - rewrite snd_ann. eapply does_bind; [apply sd_all; exact C|intros is]. own. apply says_comma. uses.
Qed.

(** ** Statements *)
Definition td (n : ts) (lo hi : nat) (s : state) (i : nat) : Prop := lo <= i < hi /\ forall k, S i < k -> tellss s n (to_stmt k s i).
Definition td_opt (n : ts) (lo hi : nat) (s : state) (a : option nat) : Prop :=
  match a with Some i => td n lo hi s i | None => counted e n = false end.
Definition tds (l : list ts) (lo hi : nat) (s : state) (is : list nat) : Prop :=
  Forall (fun j => j < hi) is /\ forall k, hi < k -> Forall2 (tellss s) l (map (to_stmt k s) is).

Lemma does_and : forall A (m : M A) P Q, does m P -> does m Q -> does m (fun lo hi s a => P lo hi s a /\ Q lo hi s a).
Proof.
  intros A m P Q H K st a st' F E. destruct (H st a st' F E) as (F' & G' & K1). destruct (K st a st' F E) as (_ & _ & K2).
  split; [exact F'|]. split; [exact G'|]. intros s Gs. split; [exact (K1 s Gs)|exact (K2 s Gs)].
Qed.
Lemma to_stmt_flat : forall k s i, flat (nth i (exprs s) EMissing) -> to_stmt (S k) s i = HirModel.SExpr (to_expr k s i).
Proof. intros k s i F. cbn [to_stmt]. destruct (nth i (exprs s) EMissing); try reflexivity; elim F. Qed.
Lemma td_plain : forall n lo hi s i, is_statement (kind_of n) = false \/ counted e n = false -> sd n lo hi s i -> flat (nth i (exprs s) EMissing) -> td n lo hi s i.
Proof.
  intros n lo hi s i C [R H] F. split; [exact R|]. intros [|k] L; [lia|]. rewrite (to_stmt_flat k s i F). apply tells_expr; [exact C|]. apply H. lia.
Qed.
Lemma td_collect : forall n, does (maybe_collect (annotate e n)) (td_opt n) -> does (collect (annotate e n)) (td n).
Proof.
  intros n H. unfold collect. eapply does_bind; [exact H|]. intros [j|].
  - apply does_ret. intros m s lo L _ P. exact P.
  - eapply does_impl; [apply does_missing|]. cbn. intros m hi s i _ [-> [-> [E S]]] lo L _ C.
    apply td_plain; [right; exact C|exact (sd_widen _ _ _ _ _ _ _ (sd_missing n m s m C eq_refl E) L (le_n _))|rewrite E; exact Logic.I].
Qed.
Lemma td_all : forall l, (forall x, In x l -> does (maybe_collect (annotate e x)) (td_opt x)) ->
  does (collect_all (map (annotate e) l)) (tds l).
Proof.
  induction l as [|x l IH]; intros H; cbn [map collect_all].
  - apply does_ret. split; constructor.
  - eapply does_bind; [exact (td_collect x (H x (or_introl eq_refl)))|]. intros i. eapply does_bind; [apply IH; intros y Y; apply H; right; exact Y|].
    intros r. apply does_ret. intros hi s mid L2 _ [F K] lo L1 _ [R P]. split; [constructor; [lia|exact F]|].
    intros k Lk. cbn [map]. constructor; [apply P; lia|exact (K k Lk)].
Qed.
Lemma sd_collects : forall n, does (collect (annotate e n)) (sd n).
Proof. intros n. apply sd_collect. exact (sd_node (size n) n (le_n _)). Qed.
Lemma sd_alls : forall l, does (collect_all (map (annotate e) l)) (sds l).
Proof. intros l. apply sd_all. intros x _. exact (sd_node (size x) x (le_n _)). Qed.
Definition bds (ty : option type_ref) (c : ts) (lo hi : nat) (s : state) (j : nat) : Prop :=
  j < hi /\ forall k, hi <= k -> says_binding e (expr_source s) ty c (to_binding k s j).
Lemma bd_binding : forall ty c, does (collect_binding ty (annotate e c)) (fun lo hi s b =>
  match b with Some (_, j) => named c = true /\ bds ty c lo hi s j | None => named c = false end).
Proof.
  intros ty c. unfold collect_binding, named, has. rewrite annotate_kids, !field_ann.
  destruct (field "name" (kids_of c)) as [nm|] eqn:N; cbn [option_map]; [|apply does_ret; reflexivity].
  rewrite annotate_text, annotate_ptr. eapply does_bind; [apply does_ident|]. intros k.
  eapply (does_bind _ _ (fun lo hi s x => forall k, hi <= k -> both (sayss s) (field "initialValue" (kids_of c)) (option_map (to_expr k s) x))).
  - destruct (field "initialValue" (kids_of c)) as [v|] eqn:V; cbn [option_map collect_opt]; [|apply does_ret; intros; constructor].
    eapply does_bind; [exact (sd_collects v)|]. intros i. apply does_ret. intros hi s lo L _ [R P] k0 Lk. constructor. apply P. lia.
  - intros x. eapply does_bind; [apply does_alloc|]. intros j. apply does_ret.
    intros hi s lo L _ [-> [-> [E S]]] lo1 L1 _ P lo2 L2 _ [<- K]. split; [reflexivity|]. split; [lia|]. intros k0 Lk.
    unfold to_binding. rewrite E. exists nm. cbn. split; [exact N|]. split; [exact K|]. split; [reflexivity|]. split; [exact S|]. apply P. lia.
Qed.
Lemma bd_bindings : forall ty ty' l, (forall c, ty (annotate e c) = ty' c) -> does (collect_bindings ty (map (annotate e) l)) (fun lo hi s bs =>
  forall k, hi <= k -> Forall2 (fun c => says_binding e (expr_source s) (ty' c) c) (filter named l) (map (to_binding k s) bs)).
Proof.
  intros ty ty' l Ht. induction l as [|c l IH]; cbn [map collect_bindings filter]; [apply does_ret; intros; constructor|].
  rewrite Ht. eapply does_bind; [exact (bd_binding _ c)|]. intros b. eapply does_bind; [exact IH|]. intros r. apply does_ret. intros hi s mid L2 _ Q lo L1 _ P k Lk.
  destruct b as [[m j]|].
  - destruct P as [-> [P1 P2]]. cbn [map]. constructor; [apply P2; lia|exact (Q k Lk)].
  - rewrite P. exact (Q k Lk).
Qed.
Definition says_case (s : state) (k : ts) (x : list HirModel.expr * HirModel.stmt) : Prop :=
  Forall2 (sayss s) (fields "value" (kids_of k)) (fst x) /\ exists b, field "body" (kids_of k) = Some b /\ tellss s b (snd x).
Lemma td_cases : forall l, (forall x y, In x l -> field "body" (kids_of x) = Some y -> does (maybe_collect (annotate e y)) (td_opt y)) ->
  does (collect_cases (map (annotate e) l)) (fun lo hi s cs => forall k, hi < k ->
    Forall2 (says_case s) (filter with_body l) (map (fun x => (map (to_expr k s) (fst x), to_stmt k s (snd x))) cs)).
Proof.
  induction l as [|x l IH]; intros H; cbn [map collect_cases filter]; [apply does_ret; intros; constructor|].
  eapply (does_bind _ _ (fun lo hi s a => match a with
     | Some y => with_body x = true /\ forall k, hi < k -> says_case s x (map (to_expr k s) (fst y), to_stmt k s (snd y))
     | None => with_body x = false end)).
  - unfold collect_case, with_body, has. rewrite annotate_kids, fields_ann, field_ann. eapply does_bind; [apply sd_alls|].
    intros vs. destruct (field "body" (kids_of x)) as [b|] eqn:B; cbn [option_map]; [|apply does_ret; reflexivity].
    eapply does_bind; [exact (td_collect b (H x b (or_introl eq_refl) B))|]. intros i. apply does_ret.
    intros hi s m L _ [R P] lo L1 _ [Q1 Q2]. split; [reflexivity|]. intros k Lk. split; cbn [fst snd]; [apply Q2; lia|]. exists b. split; [exact B|apply P; lia].
  - intros a. eapply does_bind; [apply IH; intros y z Y; apply H; right; exact Y|]. intros r. apply does_ret. intros hi s mid L2 _ Q lo L1 _ P k Lk.
    destruct a as [y|].
    + destruct P as [-> P]. cbn [map]. constructor; [apply P; lia|exact (Q k Lk)].
    + rewrite P. exact (Q k Lk).
Qed.

Theorem td_node : forall k n, size n <= k -> everywhere holds_expression n -> does (maybe_collect (annotate e n)) (td_opt n).
Proof.
  induction k as [|k IH]; intros n S P; [destruct n; cbn in S; lia|].
  destruct (is_statement (kind_of n)) eqn:St.
  2:{ eapply does_impl; [exact (does_and _ _ _ _ (does_node e (size n) n (le_n _) P) (sd_node (size n) n (le_n _)))|].
      intros lo hi s [i|] L [H1 H2]; [|exact H2]. destruct H2 as [_ H2]. apply td_plain; [left; exact St|exact H2|]. destruct H1 as [_ [_ [H _]]]. exact (H St). }
  assert (C : forall x, In x (map snd (kids_of n)) -> does (maybe_collect (annotate e x)) (td_opt x)).
  { intros x J. apply IH; [|exact (everywhere_kid _ _ _ P J)]. pose proof (in_sizes _ _ J). rewrite (size_kids n) in S. lia. }
  assert (Gr : forall y x, In y (map snd (kids_of n)) -> In x (map snd (kids_of y)) -> does (maybe_collect (annotate e x)) (td_opt x)).
  { intros y x J J'. apply IH; [|exact (everywhere_kid _ y _ (everywhere_kid _ _ _ P J) J')].
    pose proof (in_sizes _ _ J). pose proof (in_sizes _ _ J'). rewrite (size_kids n) in S. rewrite (size_kids y) in H. lia. }
  clear IH S P. destruct n as [kd p t l]. set (n := T kd p t l) in *. cbn [kids_of] in C, Gr. unfold n at 1. rewrite run_eq.
  assert (Cf : forall f x, field f l = Some x -> does (collect (annotate e x)) (td x)).
  { intros f x F. apply td_collect, C. exact (field_in _ _ _ F). }
  assert (W : forall f k (Q : nat -> nat -> state -> option nat -> Prop), (field f l = None -> forall m s, Q m m s None) ->
     (forall c, field f l = Some c -> does (k (annotate e c)) Q) -> does (with_field f (ann e l) k) Q).
  { intros f k0 Q Q0 H. unfold with_field. rewrite field_ann. destruct (field f l) as [x|] eqn:E; cbn [option_map].
    - apply H. reflexivity.
    - apply does_ret. exact (Q0 eq_refl). }
  Local Ltac none F := let F := fresh in intros F; intros; cbn [td_opt]; match goal with x := T _ _ _ _ |- _ => subst x end; cbn [counted]; unfold has; rewrite F; rewrite ?andb_false_r; reflexivity.
  Local Ltac sown := apply does_some_alloc; let i := fresh "i" in let s := fresh "s" in let E := fresh "E" in let S := fresh "S" in
    intros i s E S; intros; cbn [td_opt]; split; [lia|];
    match goal with |- forall k, _ < k -> _ => let k := fresh "k" in let L := fresh in intros [|k] L; [lia|] end; cbn [to_stmt]; rewrite E.
  Local Ltac susee := match goal with H : td ?c _ _ ?s ?j |- tells _ _ ?c (to_stmt _ ?s ?j) => apply H; destruct H; lia end.
  destruct kd; try discriminate St; cbn [step].
  - destruct (block_id e p); [|apply does_panic]. rewrite snd_ann, (filter_ann e (fun x => negb (is_kind x anon_LBRACE || is_kind x anon_RBRACE))).
    eapply does_bind; [apply td_all; intros x I; apply C; apply filter_In in I; tauto|]. intros is. sown. apply tells_block.
    match goal with H : tds _ _ _ _ is |- _ => apply H; lia end.
  - rewrite of_kind_ann. eapply does_bind; [apply (bd_bindings _ (fun _ => type_of e p)); reflexivity|]. intros is. sown. apply tells_decl.
    match goal with H : forall k, _ <= k -> Forall2 _ _ _ |- _ => apply H; lia end.
  - rewrite of_kind_ann. eapply does_bind; [apply (bd_bindings _ (fun c => type_of e (ptr_of c))); intros c; rewrite annotate_ptr; reflexivity|]. intros is. sown. apply tells_old_decl.
    match goal with H : forall k, _ <= k -> Forall2 _ _ _ |- _ => apply H; lia end.
  - rewrite fields_ann. eapply does_bind; [apply td_all; intros x I; exact (C _ (fields_in _ _ _ I))|]. intros is.
    apply W; [none F|]. intros nc Fc. apply W; [none F|]. intros ni Fi. apply W; [none F|]. intros nb Fb.
    eapply does_bind; [exact (sd_collects nc)|]. intros c. eapply does_bind; [exact (sd_node (size ni) ni (le_n _))|]. intros it. eapply does_bind; [exact (Cf _ _ Fb)|]. intros b.
    sown. eapply tells_for; [|exact Fc|use|exact Fi| |exact Fb|susee].
    + match goal with H : tds _ _ _ _ is |- _ => apply H; lia end.
    + match goal with H : sd_opt ni _ _ _ it |- _ => rename H into Hi end. destruct it as [it|]; cbn [sd_opt] in Hi.
      * destruct Hi as [-> [R1 R2]]. constructor. apply R2. lia.
      * rewrite Hi. constructor.
  - apply W; [none F|]. intros nc Fc. apply W; [none F|]. intros nb Fb.
    eapply does_bind; [exact (sd_collects nc)|]. intros c. eapply does_bind; [exact (Cf _ _ Fb)|]. intros b.
    sown. eapply tells_while; [left; reflexivity|exact Fc|use|exact Fb|susee].
  - apply W; [none F|]. intros nc Fc. apply W; [none F|]. intros nb Fb.
    eapply does_bind; [exact (sd_collects nc)|]. intros c. eapply does_bind; [exact (Cf _ _ Fb)|]. intros b.
    sown. eapply tells_while; [right; reflexivity|exact Fc|use|exact Fb|susee].
  - apply W; [none F|]. intros nc Fc. apply W; [none F|]. intros nt Ft. rewrite field_ann.
    eapply (does_bind _ _ (fun lo hi s f => forall k, hi < k -> both (tellss s) (field "falsePath" l) (option_map (to_stmt k s) f))).
    { destruct (field "falsePath" l) as [x|] eqn:Fx; cbn [option_map collect_opt]; [|apply does_ret; intros; constructor].
      eapply does_bind; [exact (Cf _ _ Fx)|]. intros i. apply does_ret. intros hi s lo L _ [R H] k0 Lk. constructor. apply H. lia. }
    intros f. eapply does_bind; [exact (sd_collects nc)|]. intros c. eapply does_bind; [exact (Cf _ _ Ft)|]. intros b.
    sown. eapply tells_if; [exact Fc|use|exact Ft|susee|]. match goal with H : forall k, _ < k -> both _ _ _ |- _ => apply H; lia end.
  - apply W; [none F|]. intros nc Fc. rewrite of_kind_ann. eapply does_bind.
    { apply td_cases. intros x y I F. exact (Gr x y (of_kind_in _ _ _ I) (field_in _ _ _ F)). }
    intros cs. eapply does_bind; [exact (sd_collects nc)|]. intros c.
    sown. eapply tells_switch; [exact Fc|use|]. match goal with H : forall k, _ < k -> Forall2 (says_case _) _ _ |- _ => apply H; lia end.
Qed.
End main.
