(** The arena of a lowered body follows its syntax tree. *)
From Coq Require Import List String Ascii Bool Arith ZArith Lia.
From Verif Require Import TypeRefModel LowerModel LowerSpec LowerProofs LowerProps LowerHir OffsetModel WrittenSpec WrittenLower.
From Verif Require HirModel HirSpec MemberSpec.
Import ListNotations.
Local Open Scope string_scope.
Local Open Scope nat_scope.
Local Open Scope list_scope.

Inductive chain {A B} (R : A -> B -> nat -> nat -> Prop) : list A -> list B -> nat -> nat -> Prop :=
| chain_nil lo hi : lo <= hi -> chain R [] [] lo hi
| chain_cons a b l r lo lo' m hi : lo <= lo' -> lo' <= m -> R a b lo' m -> chain R l r m hi -> chain R (a :: l) (b :: r) lo hi.
Lemma chain_le : forall {A B} (R : A -> B -> nat -> nat -> Prop) l r lo hi, chain R l r lo hi -> lo <= hi.
Proof. intros A B R l r lo hi H. induction H; lia. Qed.
Lemma chain_left : forall {A B} (R : A -> B -> nat -> nat -> Prop) l r lo lo' hi, chain R l r lo hi -> lo' <= lo -> chain R l r lo' hi.
Proof.
  intros A B R l r lo lo' hi H L. destruct H as [lo hi K|a b l r lo lo1 m hi K1 K2 K3 K4]; [constructor; lia|].
  apply (chain_cons _ _ _ _ _ _ lo1 m); [lia|exact K2|exact K3|exact K4].
Qed.
Lemma chain_impl : forall {A B} (R Q : A -> B -> nat -> nat -> Prop) l r lo hi,
  (forall a b lo hi, In a l -> R a b lo hi -> Q a b lo hi) -> chain R l r lo hi -> chain Q l r lo hi.
Proof.
  intros A B R Q l r lo hi H K. induction K as [lo hi K|a b l r lo lo1 m hi K1 K2 K3 K4 IH]; [constructor; exact K|].
  apply (chain_cons _ _ _ _ _ _ lo1 m); [exact K1|exact K2|apply H; [left; reflexivity|exact K3]|]. apply IH. intros. apply H; [right|]; assumption.
Qed.

Definition has {A} (x : option A) : bool := match x with Some _ => true | None => false end.
(** A declared name. *)
Definition bound (s : state) (c : ts) (j : nat) (lo hi : nat) : Prop :=
  exists nm k ty x, field "name" (kids_of c) = Some nm /\ lo <= j < hi /\ nth j (exprs s) EMissing = EBinding k ty x /\
    nth k (idents s) "" = text_of nm /\ expr_source s j = Some (ptr_of c) /\ G s c lo j (opt x).

Inductive lowered (s : state) : ts -> nat -> nat -> nat -> Prop :=
| lw_plain n i lo hi : is_statement (kind_of n) = false \/ ~ complete n -> gives n lo hi s i -> flat (nth i (exprs s) EMissing) -> lowered s n i lo hi
| lw_block p t l b is i lo hi : chain (lowered s) (filter (fun x => negb (is_brace (kind_of x))) (map snd l)) is lo i -> i < hi ->
    nth i (exprs s) EMissing = EBlock b is -> expr_source s i = Some p -> lowered s (T block p t l) i lo hi
| lw_decl k k' p t l bs i lo hi :
    (k = variable_declaration_statement /\ k' = variable_declaration) \/ (k = old_variable_declaration_statement /\ k' = old_variable_declaration) ->
    chain (bound s) (filter (fun c => has (field "name" (kids_of c))) (of_kind k' l)) bs lo i -> i < hi ->
    nth i (exprs s) EMissing = EDecl bs -> expr_source s i = Some p -> lowered s (T k p t l) i lo hi
| lw_for p t l is nc c ni it nb b i lo m1 m2 m3 hi : chain (lowered s) (fields "initialization" l) is lo m1 ->
    field "condition" l = Some nc -> G s nc m1 m2 [c] -> m1 <= m2 -> field "iteration" l = Some ni -> G s ni m2 m3 (opt it) -> m2 <= m3 ->
    field "body" l = Some nb -> lowered s nb b m3 i -> m3 <= i -> i < hi ->
    nth i (exprs s) EMissing = ELoop is c it b -> expr_source s i = Some p -> lowered s (T for_statement p t l) i lo hi
| lw_while k p t l nc c nb b i lo m hi : k = while_statement \/ k = do_while_statement ->
    field "condition" l = Some nc -> G s nc lo m [c] -> lo <= m -> field "body" l = Some nb -> lowered s nb b m i -> m <= i -> i < hi ->
    nth i (exprs s) EMissing = ELoop [] c None b -> expr_source s i = Some p -> lowered s (T k p t l) i lo hi
| lw_if p t l nc c nt b f i lo m1 m2 hi : chain (lowered s) (opt (field "falsePath" l)) (opt f) lo m1 ->
    field "condition" l = Some nc -> G s nc m1 m2 [c] -> m1 <= m2 -> field "truePath" l = Some nt -> lowered s nt b m2 i -> m2 <= i -> i < hi ->
    nth i (exprs s) EMissing = ECondition c b f -> expr_source s i = Some p -> lowered s (T condition_statement p t l) i lo hi
| lw_switch p t l nc c cs i lo m hi :
    chain (fun x y lo hi => exists nb m, field "body" (kids_of x) = Some nb /\ chain (fun v j lo hi => G s v lo hi [j]) (fields "value" (kids_of x)) (fst y) lo m /\ lo <= m /\ lowered s nb (snd y) m hi)
      (filter (fun x => has (field "body" (kids_of x))) (of_kind switch_case l)) cs lo m ->
    field "condition" l = Some nc -> G s nc m i [c] -> m <= i -> i < hi ->
    nth i (exprs s) EMissing = ESwitch c cs -> expr_source s i = Some p -> lowered s (T switch_statement p t l) i lo hi.

Lemma chain_G : forall s x l vs lo hi, chain (fun v j lo hi => G s v lo hi [j]) l vs lo hi -> (forall v, In v l -> incl (nodes v) (nodes x)) -> G s x lo hi vs.
Proof.
  intros s x l vs lo hi H I. induction H as [|a b l r lo lo1 m hi K1 K2 K3 K4 IH]; [apply G_nil|]. pose proof (chain_le _ _ _ _ _ K4) as L.
  apply (G_app s x lo m hi [b] r); [|apply IH; intros; apply I; right; assumption|lia|exact L].
  apply (G_widen _ _ lo1 m); [|exact K1|apply le_n]. exact (G_up _ _ _ _ _ _ (I a (or_introl eq_refl)) K3).
Qed.

Section main.
Variable e : env.
Definition low_opt (n : ts) (lo hi : nat) (s : state) (a : option nat) : Prop :=
  match a with Some i => lowered s n i lo hi | None => is_statement (kind_of n) = false \/ ~ complete n end.
Definition low (n : ts) (lo hi : nat) (s : state) (i : nat) : Prop := lowered s n i lo hi.

Lemma low_collect : forall n, does (maybe_collect (annotate e n)) (low_opt n) -> does (collect (annotate e n)) (low n).
Proof.
  intros n H. unfold collect. eapply does_bind; [exact H|]. intros [j|].
  - apply does_ret. intros m s lo L _ P. exact P.
  - eapply does_impl; [apply does_missing|]. cbn. intros m hi s i _ [-> [-> [E S]]] lo L _ P.
    destruct (gives_missing n m s m eq_refl E S) as [R [Q1 [Q2 Q3]]]. apply lw_plain; [exact P| |rewrite E; exact Logic.I].
    split; [lia|]. split; [|split; assumption]. exact (G_widen _ _ _ _ _ _ _ Q1 L (le_n _)).
Qed.
Lemma low_all : forall l, (forall x, In x l -> does (maybe_collect (annotate e x)) (low_opt x)) ->
  does (collect_all (map (annotate e) l)) (fun lo hi s is => chain (lowered s) l is lo hi).
Proof.
  induction l as [|x l IH]; intros H; cbn [map collect_all].
  - apply does_ret. intros. constructor. lia.
  - eapply does_bind; [exact (low_collect x (H x (or_introl eq_refl)))|]. intros i. eapply does_bind; [apply IH; intros y Y; apply H; right; exact Y|].
    intros r. apply does_ret. intros hi s mid L2 _ Q lo L1 _ P. exact (chain_cons _ _ _ _ _ _ lo mid _ (le_n _) L1 P Q).
Qed.
Lemma low_opts : forall n, (forall x, n = Some x -> does (maybe_collect (annotate e x)) (low_opt x)) ->
  does (collect_opt (option_map (annotate e) n)) (fun lo hi s a => chain (lowered s) (opt n) (opt a) lo hi).
Proof.
  intros [n|] H; cbn [option_map collect_opt]; [|apply does_ret; intros; constructor; lia].
  eapply does_bind; [exact (low_collect n (H n eq_refl))|]. intros i. apply does_ret. intros m s lo L _ P.
  exact (chain_cons _ _ _ _ _ _ lo m _ (le_n _) L P (chain_nil _ _ _ (le_n _))).
Qed.
Lemma gives_collect : forall n, everywhere holds_expression n -> does (collect (annotate e n)) (gives n).
Proof. intros n H. apply does_collect. exact (does_node e (size n) n (le_n _) H). Qed.
Lemma low_binding : forall ty c, everywhere holds_expression c ->
  does (collect_binding ty (annotate e c)) (fun lo hi s b => match b with
    | Some (k, j) => has (field "name" (kids_of c)) = true /\ bound s c j lo hi /\ forall nm, field "name" (kids_of c) = Some nm -> nth k (idents s) "" = text_of nm
    | None => has (field "name" (kids_of c)) = false end).
Proof.
  intros ty c H. unfold collect_binding. rewrite annotate_kids, !field_ann. destruct (field "name" (kids_of c)) as [nm|] eqn:N; cbn [option_map has]; [|apply does_ret; reflexivity].
  rewrite annotate_text, annotate_ptr. eapply does_bind; [apply does_ident|]. intros k.
  eapply (does_bind _ _ (fun lo hi s x => G s c lo hi (opt x))).
  - destruct (field "initialValue" (kids_of c)) as [v|] eqn:V; cbn [option_map collect_opt]; [|apply does_ret; intros; apply G_nil].
    pose proof (field_in _ _ _ V) as I. eapply does_bind; [exact (gives_collect v (everywhere_kid _ _ _ H I))|].
    intros i. apply does_ret. intros hi s lo L _ P. exact (gives_up _ _ _ _ _ _ (nodes_kid _ _ I) P).
  - intros x. eapply does_bind; [apply does_alloc|]. intros j. apply does_ret.
    intros hi s lo L _ [-> [-> [E S]]] lo1 L1 _ P lo2 L2 _ [<- K]. split; [reflexivity|].
    split; [exists nm, k, ty, x; split; [exact N|]; split; [lia|]; auto|]. intros ? H0. injection H0 as <-. exact K.
Qed.
Lemma low_bindings : forall ty l, (forall c, In c l -> everywhere holds_expression c) ->
  does (collect_bindings ty (map (annotate e) l)) (fun lo hi s bs => chain (bound s) (filter (fun c => has (field "name" (kids_of c))) l) bs lo hi).
Proof.
  intros ty. induction l as [|c l IH]; intros H; cbn [map collect_bindings filter]; [apply does_ret; intros; constructor; lia|].
  eapply does_bind; [exact (low_binding _ c (H c (or_introl eq_refl)))|]. intros b.
  eapply does_bind; [apply IH; intros y Y; apply H; right; exact Y|]. intros r. apply does_ret. intros hi s mid L2 _ Q lo L1 _ P.
  destruct b as [[k j]|].
  - destruct P as [-> [P _]]. exact (chain_cons _ _ _ _ _ _ lo mid _ (le_n _) L1 P Q).
  - rewrite P. exact (chain_left _ _ _ _ _ _ Q L1).
Qed.
Lemma gives_all : forall l, (forall x, In x l -> everywhere holds_expression x) ->
  does (collect_all (map (annotate e) l)) (fun lo hi s is => chain (fun v j lo hi => G s v lo hi [j]) l is lo hi).
Proof.
  induction l as [|x l IH]; intros H; cbn [map collect_all].
  - apply does_ret. intros. constructor. lia.
  - eapply does_bind; [exact (gives_collect x (H x (or_introl eq_refl)))|]. intros i. eapply does_bind; [apply IH; intros y Y; apply H; right; exact Y|].
    intros r. apply does_ret. intros hi s mid L2 _ Q lo L1 _ P. destruct P as [_ [P _]]. exact (chain_cons _ _ _ _ _ _ lo mid _ (le_n _) L1 P Q).
Qed.
Lemma low_cases : forall l, (forall x, In x l -> everywhere holds_expression x /\ forall y, field "body" (kids_of x) = Some y -> does (maybe_collect (annotate e y)) (low_opt y)) ->
  does (collect_cases (map (annotate e) l)) (fun lo hi s cs =>
    chain (fun x y lo hi => exists nb m, field "body" (kids_of x) = Some nb /\ chain (fun v j lo hi => G s v lo hi [j]) (fields "value" (kids_of x)) (fst y) lo m /\ lo <= m /\ lowered s nb (snd y) m hi)
      (filter (fun x => has (field "body" (kids_of x))) l) cs lo hi).
Proof.
  induction l as [|x l IH]; intros H; cbn [map collect_cases filter]; [apply does_ret; intros; constructor; lia|].
  destruct (H x (or_introl eq_refl)) as [Hx Hb].
  eapply (does_bind _ _ (fun lo hi s a => match a with
     | Some y => has (field "body" (kids_of x)) = true /\ exists nb m, field "body" (kids_of x) = Some nb /\ chain (fun v j lo hi => G s v lo hi [j]) (fields "value" (kids_of x)) (fst y) lo m /\ lo <= m /\ lowered s nb (snd y) m hi
     | None => has (field "body" (kids_of x)) = false end)).
  - unfold collect_case. rewrite annotate_kids, fields_ann, field_ann. eapply does_bind.
    + apply gives_all. intros y Y. exact (everywhere_kid _ _ _ Hx (fields_in _ _ _ Y)).
    + intros vs. destruct (field "body" (kids_of x)) as [b|] eqn:B; cbn [option_map has]; [|apply does_ret; reflexivity].
      eapply does_bind; [exact (low_collect b (Hb b eq_refl))|]. intros i. apply does_ret.
      intros hi s m L _ P lo L1 _ Q. split; [reflexivity|]. exists b, m. auto.
  - intros a. eapply does_bind; [apply IH; intros y Y; apply H; right; exact Y|]. intros r. apply does_ret. intros hi s mid L2 _ Q lo L1 _ P.
    destruct a as [y|].
    + destruct P as [-> P]. exact (chain_cons _ _ _ _ _ _ lo mid _ (le_n _) L1 P Q).
    + rewrite P. exact (chain_left _ _ _ _ _ _ Q L1).
Qed.

Theorem low_node : forall k n, size n <= k -> everywhere holds_expression n -> does (maybe_collect (annotate e n)) (low_opt n).
Proof.
  induction k as [|k IH]; intros n S P; [destruct n; cbn in S; lia|].
  destruct (is_statement (kind_of n)) eqn:St.
  2:{ eapply does_impl; [exact (does_node e (size n) n (le_n _) P)|]. intros lo hi s [i|] L H; [|left; exact St].
      apply lw_plain; [left; exact St|exact H|]. destruct H as [_ [_ [H _]]]. exact (H St). }
  assert (C : forall x, In x (map snd (kids_of n)) -> does (maybe_collect (annotate e x)) (low_opt x)).
  { intros x J. apply IH; [|exact (everywhere_kid _ _ _ P J)]. pose proof (in_sizes _ _ J). rewrite (size_kids n) in S. lia. }
  assert (Gr : forall y x, In y (map snd (kids_of n)) -> In x (map snd (kids_of y)) -> does (maybe_collect (annotate e x)) (low_opt x)).
  { intros y x J J'. apply IH; [|exact (everywhere_kid _ y _ (everywhere_kid _ _ _ P J) J')].
    pose proof (in_sizes _ _ J). pose proof (in_sizes _ _ J'). rewrite (size_kids n) in S. rewrite (size_kids y) in H. lia. }
  assert (He : forall x, In x (map snd (kids_of n)) -> everywhere holds_expression x) by (intros x J; exact (everywhere_kid _ _ _ P J)).
  clear IH S P. destruct n as [kd p t l]. set (n := T kd p t l) in *. cbn [kids_of] in C, Gr, He. unfold n at 1. rewrite run_eq.
  assert (Cf : forall f x, field f l = Some x -> does (collect (annotate e x)) (low x)).
  { intros f x F. apply low_collect, C. exact (field_in _ _ _ F). }
  assert (Ge : forall f x, field f l = Some x -> does (collect (annotate e x)) (gives x)).
  { intros f x F. apply gives_collect, He. exact (field_in _ _ _ F). }
  assert (Go : forall f x, field f l = Some x -> does (maybe_collect (annotate e x)) (gives_opt x)).
  { intros f x F. apply (does_node e (size x)); [apply le_n|]. apply He. exact (field_in _ _ _ F). }
  assert (W : forall f k (Q : nat -> nat -> state -> option nat -> Prop), (field f l = None -> forall m s, Q m m s None) ->
     (forall c, field f l = Some c -> does (k (annotate e c)) Q) -> does (with_field f (ann e l) k) Q).
  { intros f k0 Q Q0 H. unfold with_field. rewrite field_ann. destruct (field f l) as [x|] eqn:E; cbn [option_map].
    - apply H. reflexivity.
    - apply does_ret. exact (Q0 eq_refl). }
  assert (G1 : forall x lo hi s i, gives x lo hi s i -> G s x lo hi [i]) by (intros x lo hi s i [_ [H _]]; exact H).
  assert (G2 : forall x lo hi s a, gives_opt x lo hi s a -> G s x lo hi (opt a)).
  { intros x lo hi s a. apply gives_opt_up. apply incl_refl. }
  Local Ltac none F := intros; right; let K := fresh in intros K; match goal with x := T _ _ _ _ |- _ => subst x end; cbn [complete] in K; intuition congruence.
  destruct kd; try discriminate St; cbn [step].
  - (* block *) destruct (block_id e p); [|apply does_panic]. rewrite snd_ann, (filter_ann e (fun x => negb (is_kind x anon_LBRACE || is_kind x anon_RBRACE))).
    eapply does_bind; [apply low_all; intros x I; apply C; apply filter_In in I; tauto|]. intros is. apply does_some_alloc. intros i s E S lo L _ Q.
    cbn [low_opt]. eapply lw_block; [exact Q|lia|exact E|exact S].
  - rewrite of_kind_ann. eapply does_bind; [apply low_bindings; intros c I; exact (He _ (of_kind_in _ _ _ I))|]. intros is.
    apply does_some_alloc. intros i s E S lo L _ Q. cbn [low_opt]. eapply lw_decl; [left; split; reflexivity|exact Q|lia|exact E|exact S].
  - rewrite of_kind_ann. eapply does_bind; [apply low_bindings; intros c I; exact (He _ (of_kind_in _ _ _ I))|]. intros is.
    apply does_some_alloc. intros i s E S lo L _ Q. cbn [low_opt]. eapply lw_decl; [right; split; reflexivity|exact Q|lia|exact E|exact S].
  - (* for *) rewrite fields_ann. eapply does_bind; [apply low_all; intros x I; exact (C _ (fields_in _ _ _ I))|]. intros is.
    apply W; [none F|]. intros nc Fc. apply W; [none F|]. intros ni Fi. apply W; [none F|]. intros nb Fb.
    eapply does_bind; [exact (Ge _ _ Fc)|]. intros c. eapply does_bind; [exact (Go _ _ Fi)|]. intros it. eapply does_bind; [exact (Cf _ _ Fb)|]. intros b.
    apply does_some_alloc. intros i s E S m3 L3 _ Pb m2 L2 _ Pi m1 L1 _ Pc lo L _ Q. cbn [low_opt].
    eapply lw_for; [exact Q|exact Fc|exact (G1 _ _ _ _ _ Pc)|lia|exact Fi|exact (G2 _ _ _ _ _ Pi)|lia|exact Fb|exact Pb|lia|lia|exact E|exact S].
  - (* while *) apply W; [none F|]. intros nc Fc. apply W; [none F|]. intros nb Fb.
    eapply does_bind; [exact (Ge _ _ Fc)|]. intros c. eapply does_bind; [exact (Cf _ _ Fb)|]. intros b.
    apply does_some_alloc. intros i s E S m L3 _ Pb lo L _ Pc. cbn [low_opt].
    eapply lw_while; [left; reflexivity|exact Fc|exact (G1 _ _ _ _ _ Pc)|lia|exact Fb|exact Pb|lia|lia|exact E|exact S].
  - (* do *) apply W; [none F|]. intros nc Fc. apply W; [none F|]. intros nb Fb.
    eapply does_bind; [exact (Ge _ _ Fc)|]. intros c. eapply does_bind; [exact (Cf _ _ Fb)|]. intros b.
    apply does_some_alloc. intros i s E S m L3 _ Pb lo L _ Pc. cbn [low_opt].
    eapply lw_while; [right; reflexivity|exact Fc|exact (G1 _ _ _ _ _ Pc)|lia|exact Fb|exact Pb|lia|lia|exact E|exact S].
  - (* if *) apply W; [none F|]. intros nc Fc. apply W; [none F|]. intros nt Ft. rewrite field_ann.
    eapply does_bind; [apply low_opts; intros x F; exact (C _ (field_in _ _ _ F))|]. intros f.
    eapply does_bind; [exact (Ge _ _ Fc)|]. intros c. eapply does_bind; [exact (Cf _ _ Ft)|]. intros b.
    apply does_some_alloc. intros i s E S m2 L2 _ Pb m1 L1 _ Pc lo L _ Pf. cbn [low_opt].
    eapply lw_if; [exact Pf|exact Fc|exact (G1 _ _ _ _ _ Pc)|lia|exact Ft|exact Pb|lia|lia|exact E|exact S].
  - (* switch *) apply W; [none F|]. intros nc Fc. rewrite of_kind_ann. eapply does_bind.
    { apply low_cases. intros x I. pose proof (of_kind_in _ _ _ I) as J. split; [exact (He _ J)|]. intros y F. exact (Gr x y J (field_in _ _ _ F)). }
    intros cs. eapply does_bind; [exact (Ge _ _ Fc)|]. intros c.
    apply does_some_alloc. intros i s E S m L2 _ Pc lo L _ Q. cbn [low_opt].
    eapply lw_switch; [exact Q|exact Fc|exact (G1 _ _ _ _ _ Pc)|lia|lia|exact E|exact S].
Qed.
End main.
