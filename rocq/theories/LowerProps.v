(** C48: bodies are analysed as they are written. *)
From Coq Require Import List String Ascii Bool Arith ZArith Lia.
From Verif Require Import TypeRefModel LowerModel LowerSpec LowerProofs.
Import ListNotations.
Local Open Scope string_scope.

(** ** Walks over the whole of the lowering *)
Section walk.
Variable e : env.
Variable ns : list ts.
Variable Q : forall A, M A -> Prop.
Arguments Q {A}.
Hypothesis Qret : forall A (a : A), Q (ret a).
Hypothesis Qbind : forall A B (m : M A) (f : A -> M B), Q m -> (forall a, Q (f a)) -> Q (bind m f).
Hypothesis Qmissing : Q missing.
Hypothesis Qident : forall n, Q (alloc_ident n).
Hypothesis Qalloc : forall x d, In d ns -> (forall nm, name_of x = Some nm -> text_of d = nm) -> Q (alloc x (ptr_of d)).

Lemma nodes_self : forall n, In n (nodes n).
Proof. destruct n. left. reflexivity. Qed.
Lemma nodes_kid : forall n x, In x (map snd (kids_of n)) -> incl (nodes x) (nodes n).
Proof.
  intros [k p s l] x I d D. cbn [kids_of] in I. right. apply in_concat. exists (nodes x). split; [|exact D].
  apply in_map_iff in I. destruct I as [[f y] [E I]]. cbn in E. subst y. apply in_map_iff. exists (f, x). auto.
Qed.

Lemma walk_collect : forall n, Q (maybe_collect n) -> Q (collect n).
Proof. intros n H. apply Qbind; [exact H|]. intros [i|]; [apply Qret|apply Qmissing]. Qed.
Lemma walk_all : forall l, (forall n, In n l -> Q (maybe_collect n)) -> Q (collect_all l).
Proof.
  induction l as [|n l IH]; intros H; [apply Qret|]. cbn [collect_all]. apply Qbind; [apply walk_collect, H; left; reflexivity|].
  intros i. apply Qbind; [apply IH; intros; apply H; right; assumption|]. intros. apply Qret.
Qed.
Lemma walk_some : forall l, (forall n, In n l -> Q (maybe_collect n)) -> Q (collect_some l).
Proof.
  induction l as [|n l IH]; intros H; [apply Qret|]. cbn [collect_some]. apply Qbind; [apply H; left; reflexivity|].
  intros i. apply Qbind; [apply IH; intros; apply H; right; assumption|]. intros. apply Qret.
Qed.
Lemma walk_with : forall {A} f (l : list (option string * A)) k, (forall c, field f l = Some c -> Q (k c)) -> Q (with_field f l k).
Proof. intros A f l k H. unfold with_field. destruct (field f l); [apply H; reflexivity|apply Qret]. Qed.
Lemma walk_alloc : forall x d, In d ns -> (forall nm, name_of x = Some nm -> text_of d = nm) -> Q (some_alloc x (ptr_of d)).
Proof. intros. apply Qbind; [apply Qalloc; assumption|]. intros. apply Qret. Qed.
Lemma walk_binding : forall ty c, In c ns -> (forall x, In x (map snd (kids_of c)) -> Q (maybe_collect (annotate e x))) ->
  Q (collect_binding ty (annotate e c)).
Proof.
  intros ty c I H. unfold collect_binding. rewrite annotate_kids, !field_ann, annotate_ptr.
  destruct (field "name" (kids_of c)); cbn [option_map]; [|apply Qret]. apply Qbind; [apply Qident|]. intros k. apply Qbind.
  - destruct (field "initialValue" (kids_of c)) eqn:F; cbn [option_map collect_opt]; [|apply Qret].
    apply Qbind; [apply walk_collect, H; exact (field_in _ _ _ F)|]. intros. apply Qret.
  - intros i. apply Qbind; [|intros; apply Qret]. apply Qalloc; [exact I|discriminate].
Qed.
Lemma walk_bindings : forall ty l, (forall c, In c l -> In c ns /\ forall x, In x (map snd (kids_of c)) -> Q (maybe_collect (annotate e x))) ->
  Q (collect_bindings ty (map (annotate e) l)).
Proof.
  intros ty. induction l as [|c l IH]; intros H; [apply Qret|]. cbn [map collect_bindings]. apply Qbind.
  - destruct (H c (or_introl eq_refl)) as [I K]. apply walk_binding; assumption.
  - intros b. apply Qbind; [|intros; apply Qret]. apply IH. intros. apply H. right. assumption.
Qed.
Lemma walk_cases : forall l, (forall c x, In c l -> In x (map snd (kids_of c)) -> Q (maybe_collect (annotate e x))) ->
  Q (collect_cases (map (annotate e) l)).
Proof.
  induction l as [|c l IH]; intros H; [apply Qret|]. cbn [map collect_cases]. apply Qbind.
  - unfold collect_case. rewrite annotate_kids, fields_ann, field_ann. apply Qbind.
    + apply walk_all. intros n I. apply in_map_iff in I. destruct I as [x [<- I]].
      apply (H c); [left; reflexivity|exact (fields_in _ _ _ I)].
    + intros vs. destruct (field "body" (kids_of c)) as [b|] eqn:F; cbn [option_map]; [|apply Qret].
      apply Qbind; [|intros; apply Qret]. apply walk_collect. apply (H c); [left; reflexivity|exact (field_in _ _ _ F)].
  - intros x. apply Qbind; [|intros; apply Qret]. apply IH. intros c' y I. apply H. right. exact I.
Qed.

Theorem walk : forall k n, size n <= k -> incl (nodes n) ns -> ((forall A, @Q A panic) \/ everywhere (callable e) n) ->
  Q (maybe_collect (annotate e n)).
Proof.
  induction k as [|k IH]; intros n S I P; [destruct n; cbn in S; lia|].
  assert (C : forall x, In x (map snd (kids_of n)) -> Q (maybe_collect (annotate e x))).
  { intros x J. apply IH.
    - pose proof (in_sizes _ _ J). rewrite (size_kids n) in S. lia.
    - intros d D. apply I. exact (nodes_kid _ _ J d D).
    - destruct P as [P|P]; [left; exact P|right]. exact (everywhere_kid _ _ _ P J). }
  assert (G : forall y x, In y (map snd (kids_of n)) -> In x (map snd (kids_of y)) -> Q (maybe_collect (annotate e x))).
  { intros y x J J'. apply IH.
    - pose proof (in_sizes _ _ J). pose proof (in_sizes _ _ J'). rewrite (size_kids n) in S. rewrite (size_kids y) in H. lia.
    - intros d D. apply I. apply (nodes_kid _ _ J). exact (nodes_kid _ _ J' d D).
    - destruct P as [P|P]; [left; exact P|right]. apply (everywhere_kid _ y); [|exact J']. exact (everywhere_kid _ _ _ P J). }
  assert (N : forall x, In x (map snd (kids_of n)) -> In x ns).
  { intros x J. apply I. apply (nodes_kid _ _ J). apply nodes_self. }
  assert (N' : forall y x, In y (map snd (kids_of n)) -> In x (map snd (kids_of y)) -> In x ns).
  { intros y x J J'. apply I. apply (nodes_kid _ _ J), (nodes_kid _ _ J'). apply nodes_self. }
  assert (P' : (forall A, @Q A panic) \/ callable e n).
  { destruct P as [P|P]; [left; exact P|right]. exact (everywhere_here _ _ P). }
  assert (Self : In n ns) by (apply I, nodes_self).
  clear IH S P. destruct n as [kd p s l]. cbn [kids_of] in *. rewrite run_eq.
  assert (Cf : forall f x, field f l = Some x -> Q (collect (annotate e x))).
  { intros f x F. apply walk_collect, C. exact (field_in _ _ _ F). }
  assert (Cm : forall f x, field f l = Some x -> Q (maybe_collect (annotate e x))).
  { intros f x F. apply C. exact (field_in _ _ _ F). }
  assert (W : forall f k, (forall c, field f l = Some c -> Q (k (annotate e c))) -> Q (with_field f (ann e l) k)).
  { intros f k0 H. apply walk_with. intros c F. rewrite field_ann in F. destruct (field f l) as [x|] eqn:E; [|discriminate].
    injection F as <-. apply H. reflexivity. }
  assert (A : forall x, name_of x = None -> Q (some_alloc x p)).
  { intros x H. apply (walk_alloc x _ Self). intros nm E. congruence. }
  assert (AllQ : forall l', (forall x, In x l' -> Q (maybe_collect (annotate e x))) -> Q (collect_all (map (annotate e) l'))).
  { intros l' H. apply walk_all. intros x J. apply in_map_iff in J. destruct J as [y [<- J]]. exact (H y J). }
  assert (SomeQ : forall l', (forall x, In x l' -> Q (maybe_collect (annotate e x))) -> Q (collect_some (map (annotate e) l'))).
  { intros l' H. apply walk_some. intros x J. apply in_map_iff in J. destruct J as [y [<- J]]. exact (H y J). }
  assert (Af : forall f x r, field f l = Some x -> (forall nm, name_of r = Some nm -> text_of x = nm) -> Q (some_alloc r (nptr (annotate e x)))).
  { intros f x r F H. rewrite annotate_ptr. apply walk_alloc; [|exact H]. exact (N _ (field_in _ _ _ F)). }
  destruct kd; cbn [step]; try apply Qret; try (apply A; reflexivity).
  - apply W. intros a Fa. apply W. intros b Fb. apply Qbind; [exact (Cf _ _ Fa)|intros i]. apply Qbind; [exact (Cf _ _ Fb)|intros j].
    apply A. reflexivity.
  - destruct (block_id e p) eqn:B; [|destruct P' as [P'|P']; [apply P'|cbn in P'; congruence]].
    rewrite snd_ann, (filter_ann e (fun x => negb (is_kind x anon_LBRACE || is_kind x anon_RBRACE))).
    apply Qbind; [|intros; apply A; reflexivity]. apply AllQ. intros x J. apply C. apply filter_In in J. tauto.
  - rewrite of_kind_ann. apply Qbind; [|intros; apply A; reflexivity]. apply walk_bindings. intros c J. pose proof (of_kind_in _ _ _ J) as J'.
    split; [exact (N _ J')|]. intros x. apply G. exact J'.
  - rewrite of_kind_ann. apply Qbind; [|intros; apply A; reflexivity]. apply walk_bindings. intros c J. pose proof (of_kind_in _ _ _ J) as J'.
    split; [exact (N _ J')|]. intros x. apply G. exact J'.
  - rewrite fields_ann. apply Qbind; [apply AllQ; intros x J; exact (C _ (fields_in _ _ _ J))|]. intros is. apply W. intros c Fc. apply W. intros i Fi.
    apply W. intros b Fb. apply Qbind; [exact (Cf _ _ Fc)|intros]. apply Qbind; [exact (Cm _ _ Fi)|intros]. apply Qbind; [exact (Cf _ _ Fb)|intros].
    apply A. reflexivity.
  - apply W. intros c Fc. apply W. intros b Fb. apply Qbind; [exact (Cf _ _ Fc)|intros]. apply Qbind; [exact (Cf _ _ Fb)|intros]. apply A. reflexivity.
  - apply W. intros c Fc. apply W. intros b Fb. apply Qbind; [exact (Cf _ _ Fc)|intros]. apply Qbind; [exact (Cf _ _ Fb)|intros]. apply A. reflexivity.
  - apply W. intros c Fc. apply W. intros t Ft. rewrite field_ann. apply Qbind.
    { destruct (field "falsePath" l) as [x|] eqn:F; cbn [option_map collect_opt]; [|apply Qret].
      apply Qbind; [exact (Cf _ _ F)|intros; apply Qret]. }
    intros f. apply Qbind; [exact (Cf _ _ Fc)|intros]. apply Qbind; [exact (Cf _ _ Ft)|intros]. apply A. reflexivity.
  - apply W. intros c Fc. rewrite of_kind_ann. apply Qbind.
    { apply walk_cases. intros y x J. apply G. exact (of_kind_in _ _ _ J). }
    intros cs. apply Qbind; [exact (Cf _ _ Fc)|intros]. apply A. reflexivity.
  - apply W. intros x F. apply Qbind; [exact (Cm _ _ F)|intros]. apply (Af _ _ _ F). discriminate.
  - apply W. intros x F. apply Qbind; [exact (Cm _ _ F)|intros]. apply (Af _ _ _ F). discriminate.
  - destruct l as [|[f x] l]; [apply Qret|]. unfold ann. cbn [map]. apply Qbind; [|intros; apply Qret]. apply walk_collect, C. left. reflexivity.
  - apply W. intros a Fa. apply Qbind; [exact (Cf _ _ Fa)|intros]. apply W. intros b Fb. apply Qbind; [exact (Cf _ _ Fb)|intros]. apply A. reflexivity.
  - apply W. intros a Fa. apply Qbind; [exact (Cf _ _ Fa)|intros]. apply W. intros b Fb. apply Qbind; [exact (Cf _ _ Fb)|intros]. apply A. reflexivity.
  - apply W. intros f Ff. apply W. intros args Fa. rewrite !annotate_kind, !annotate_kids, snd_ann.
    assert (Args : Q (collect_some (map (annotate e) (map snd (kids_of args))))).
    { apply SomeQ. intros x. apply G. exact (field_in _ _ _ Fa). }
    assert (Pn : kind_of f = identifier \/ kind_of f = field_access \/ forall A, @Q A panic).
    { destruct P' as [P'|P']; [auto|]. cbn in P'. rewrite Ff in P'. tauto. }
    destruct (kind_of f) eqn:K; try (destruct Pn as [Pn|[Pn|Pn]]; [discriminate|discriminate|apply Pn]).
    + apply walk_with. intros t Ft. apply walk_with. intros m Fm. rewrite field_ann in Ft, Fm.
      destruct (field "target" (kids_of f)) as [t'|] eqn:Et; [|discriminate]. destruct (field "field" (kids_of f)) as [m'|] eqn:Em; [|discriminate].
      injection Ft as <-. injection Fm as <-. apply Qbind; [exact Args|intros]. apply Qbind.
      { apply walk_collect. apply (G f); [exact (field_in _ _ _ Ff)|exact (field_in _ _ _ Et)]. }
      intros. rewrite annotate_ptr, annotate_text. apply walk_alloc; [|intros nm E; injection E as <-; reflexivity].
      apply (N' f); [exact (field_in _ _ _ Ff)|exact (field_in _ _ _ Em)].
    + apply Qbind; [exact (Cf _ _ Ff)|intros]. apply Qbind; [exact Args|intros]. apply A. reflexivity.
  - apply W. intros a Fa. apply W. intros b Fb. apply Qbind; [exact (Cf _ _ Fa)|intros]. apply Qbind; [exact (Cf _ _ Fb)|intros]. apply A. reflexivity.
  - apply W. intros a Fa. apply Qbind; [exact (Cf _ _ Fa)|intros]. apply W. intros b Fb. apply Qbind; [exact (Cf _ _ Fb)|intros].
    apply W. intros c Fc. apply Qbind; [exact (Cf _ _ Fc)|intros]. apply A. reflexivity.
  - apply W. intros f Ff. apply W. intros t Ft. apply Qbind; [exact (Cf _ _ Ft)|intros]. apply (Af _ _ _ Ff).
    intros nm E. injection E as <-. rewrite annotate_text. reflexivity.
  - apply W. intros f Ff. apply W. intros t Ft. apply Qbind; [exact (Cf _ _ Ft)|intros]. apply A. reflexivity.
  - apply W. intros f Ff. apply W. intros t Ft. apply Qbind; [exact (Cf _ _ Ft)|intros]. apply A. reflexivity.
  - apply W. intros x F. apply Qbind; [exact (Cf _ _ F)|intros]. apply (Af _ _ _ F). discriminate.
  - apply W. intros x F. apply Qbind; [exact (Cf _ _ F)|intros]. apply (Af _ _ _ F). discriminate.
  - apply W. intros x F. apply Qbind; [exact (Cf _ _ F)|intros]. apply A. reflexivity.
  - apply W. intros x F. destruct (type_of e p); cbn [or_none]; [|apply Qret]. apply Qbind; [exact (Cf _ _ F)|intros]. apply A. reflexivity.
  - apply W. intros x F. destruct (type_of e p); cbn [or_none]; [|apply Qret]. apply Qbind; [exact (Cf _ _ F)|intros]. apply A. reflexivity.
  - apply (walk_alloc _ _ Self). intros nm E. injection E as <-. reflexivity.
  - apply (walk_alloc _ _ Self). intros nm E. injection E as <-. reflexivity.
  - destruct (parse_i64 s); [apply A; reflexivity|apply Qret].
  - destruct (parse_f64 e s); [apply A; reflexivity|apply Qret].
  - destruct (String.get 1 s); [apply A; reflexivity|apply Qret].
  - destruct (parse_bool s); [apply A; reflexivity|apply Qret].
  - apply W. intros x F. exact (Cm _ _ F).
  - apply W. intros c Fc. apply W. intros args Fa. rewrite annotate_kids, snd_ann. apply Qbind.
    { apply SomeQ. intros x. apply G. exact (field_in _ _ _ Fa). }
    intros. apply (Af _ _ _ Fc). intros nm E. injection E as <-. rewrite annotate_text. reflexivity.
  - rewrite snd_ann. apply Qbind; [apply SomeQ; exact C|intros]. apply A. reflexivity.
  - rewrite snd_ann. apply Qbind; [apply AllQ; exact C|intros]. apply A. reflexivity.
Qed.

Hypothesis Qpush : forall x, Q (push_param x).
Theorem walk_lower : forall pl b,
  (forall n, pl = Some n \/ b = Some n -> incl (nodes n) ns /\ ((forall A, @Q A panic) \/ everywhere (callable e) n)) ->
  (forall n, pl = Some n -> (forall A, @Q A panic) \/ kind_of n = parameter_declarations \/ kind_of n = parameter_declaration) ->
  Q (bind (collect_params e pl) (fun _ => match b with Some b => i <- collect (annotate e b) ;; ret (Some i) | None => ret None end)).
Proof.
  intros pl b H K. apply Qbind.
  - unfold collect_params. destruct pl as [n|]; cbn [option_map]; [|apply Qret]. rewrite annotate_kind.
    destruct (H n (or_introl eq_refl)) as [Hn Hp]. specialize (K n eq_refl).
    assert (Par : forall c, In c ns -> incl (nodes c) ns -> ((forall A, @Q A panic) \/ everywhere (callable e) c) -> Q (collect_parameter e (annotate e c))).
    { intros c I J P. unfold collect_parameter. apply Qbind; [|intros [x|]; [apply Qpush|apply Qret]].
      apply walk_binding; [exact I|]. intros x Jx. apply (walk (size x)); [apply le_n| |].
      - intros d D. apply J. exact (nodes_kid _ _ Jx d D).
      - destruct P as [P|P]; [left; exact P|right; exact (everywhere_kid _ _ _ P Jx)]. }
    destruct (kind_of n) eqn:E; try (destruct K as [K|[K|K]]; [apply K|discriminate|discriminate]).
    + rewrite annotate_kids, of_kind_ann.
      assert (L : forall l, (forall c, In c l -> In c (map snd (kids_of n))) -> Q (collect_parameters e (map (annotate e) l))).
      { induction l as [|c l IH]; intros Hl; [apply Qret|]. cbn [map collect_parameters]. apply Qbind.
        - pose proof (Hl c (or_introl eq_refl)) as I. apply Par.
          + apply Hn. apply (nodes_kid _ _ I). apply nodes_self.
          + intros d D. apply Hn. exact (nodes_kid _ _ I d D).
          + destruct Hp as [Hp|Hp]; [left; exact Hp|right; exact (everywhere_kid _ _ _ Hp I)].
        - intros _. apply IH. intros. apply Hl. right. assumption. }
      apply L. intros c I. exact (of_kind_in _ _ _ I).
    + apply Par; [apply Hn, nodes_self|exact Hn|exact Hp].
  - intros _. destruct b as [n|]; [|apply Qret]. destruct (H n (or_intror eq_refl)) as [Hn Hp].
    apply Qbind; [|intros; apply Qret]. apply walk_collect. apply (walk (size n)); [apply le_n|exact Hn|exact Hp].
Qed.
End walk.

(** ** The body *)
Section props.
Variable e : env.

(** The declared parameters of a parameter list. *)
Definition parameters (pl : option ts) : list ts :=
  match pl with
  | None => []
  | Some n => match kind_of n with
              | parameter_declarations => of_kind parameter_declaration (kids_of n)
              | _ => [n]
              end
  end.
Definition is_parameter_list (pl : option ts) : Prop :=
  forall n, pl = Some n -> kind_of n = parameter_declarations \/ kind_of n = parameter_declaration.
Definition param_means (c : ts) (u : string * tree) : Prop :=
  exists nm i, field "name" (kids_of c) = Some nm /\ fst u = text_of nm /\
    both (means e) (field "initialValue" (kids_of c)) i /\ snd u = Tr (EBinding (text_of nm) (type_of e (ptr_of c)) i).

Definition keeps {A} (m : M A) : Prop := forall s a s', m s = Ret a s' -> params s' = params s.
Lemma keeps_ret : forall A (a : A), keeps (ret a).
Proof. intros A a s b s' H. injection H as <- <-. reflexivity. Qed.
Lemma keeps_bind : forall A B (m : M A) (f : A -> M B), keeps m -> (forall a, keeps (f a)) -> keeps (bind m f).
Proof.
  intros A B m f H K s b s' E. unfold bind in E. destruct (m s) as [|a s1] eqn:Em; [discriminate|].
  rewrite (K _ _ _ _ E). exact (H _ _ _ Em).
Qed.
Lemma keeps_missing : keeps missing.
Proof. intros s a s' H. injection H as <- <-. reflexivity. Qed.
Lemma keeps_ident : forall n, keeps (alloc_ident n).
Proof. intros n s a s' H. injection H as <- <-. reflexivity. Qed.
Lemma keeps_alloc : forall x (d : ts), keeps (alloc x (ptr_of d)).
Proof. intros x d s a s' H. injection H as <- <-. reflexivity. Qed.
Lemma keeps_panic : forall A, keeps (@panic A).
Proof. intros A s a s' H. discriminate. Qed.
Lemma keeps_collect : forall n, keeps (collect (annotate e n)).
Proof.
  intros n. apply (walk_collect (fun A m => keeps m)); [apply keeps_ret|apply keeps_bind|apply keeps_missing|].
  apply (walk e (nodes n) (fun A m => keeps m) keeps_ret keeps_bind keeps_missing keeps_ident (fun x d _ _ => keeps_alloc x d) (size n));
  [apply le_n|apply incl_refl|left; exact keeps_panic].
Qed.
Lemma keeps_binding : forall ty c, keeps (collect_binding ty (annotate e c)).
Proof.
  intros ty c.
  apply (walk_binding e (nodes c) (fun A m => keeps m) keeps_ret keeps_bind keeps_missing keeps_ident (fun x d _ _ => keeps_alloc x d)); [apply nodes_self|].
  intros x I. apply (walk e (nodes x) (fun A m => keeps m) keeps_ret keeps_bind keeps_missing keeps_ident (fun y d _ _ => keeps_alloc y d) (size x));
  [apply le_n|apply incl_refl|left; exact keeps_panic].
Qed.

Definition param_reads (s : state) (x : nat * nat) (u : string * tree) : Prop :=
  fst x < List.length (idents s) /\ nth (fst x) (idents s) "" = fst u /\ reads s (snd x) (snd u).
Lemma param_reads_ext : forall s s' l us, valid s -> ext s s' -> Forall2 (param_reads s) l us -> Forall2 (param_reads s') l us.
Proof.
  intros s s' l us V E H. induction H as [|x u l us [L [N R]] _ IH]; constructor; [|exact IH].
  split; [|split; [|exact (reads_ext _ _ _ _ V E R)]]; destruct E as [_ [r E]]; rewrite E.
  - rewrite app_length. lia.
  - rewrite app_nth1 by exact L. exact N.
Qed.
(** A parameter is bound to its name: the identifier of the binding is the recorded one. *)
Lemma param_run : forall c u s, param_means c u -> (forall i t, field "initialValue" (kids_of c) = Some i -> means e i t -> fine e i t) -> valid s ->
  exists s' k i, collect_parameter e (annotate e c) s = Ret tt s' /\ valid s' /\ ext s s' /\ params s' = (params s ++ [(k, i)])%list /\ param_reads s' (k, i) u.
Proof.
  intros c u s [nm [i [N [U [B T]]]]] F V.
  assert (K : runs s (collect_binding (type_of e (nptr (annotate e c))) (annotate e c)) (fun a s' => exists k j, a = Some (k, j) /\ param_reads s' (k, j) u)).
  { rewrite annotate_ptr. unfold collect_binding. rewrite annotate_kids, !field_ann, N. cbn [option_map].
    rewrite annotate_text, annotate_ptr.
    eapply runs_bind; [exact (runs_ident s (text_of nm) V)|]. intros k s1 V1 X1 [-> [L1 E1]].
    eapply runs_bind; [apply (fine_opt e _ i); [eapply both_impl; [|exact B]; intros x y Ex; exact (F x y Ex)|exact V1]|]. intros a s2 V2 X2 R2.
    assert (L2 : List.length (idents s) < List.length (idents s2)).
    { destruct X2 as [_ [r X2]]. rewrite X2, app_length. lia. }
    assert (E2 : nth (List.length (idents s)) (idents s2) "" = text_of nm).
    { destruct X2 as [_ [r X2]]. rewrite X2, app_nth1 by exact L1. exact E1. }
    eapply runs_bind; [apply runs_alloc; [exact V2|exact L2]|]. intros j s3 V3 X3 R3. apply runs_ret; [exact V3|].
    eexists _, _. split; [reflexivity|]. cbn [emap] in R3. rewrite (both_reads_map _ _ _ R2), E2 in R3.
    split; [|split].
    - cbn [fst]. destruct X3 as [_ [r X3]]. rewrite X3, app_length. lia.
    - cbn [fst]. destruct X3 as [_ [r X3]]. rewrite X3, app_nth1 by exact L2. rewrite U. exact E2.
    - cbn [snd]. rewrite T. exact R3. }
  destruct K as [a [s1 [E [V1 [X1 [k [j [-> R]]]]]]]]. pose proof (keeps_binding _ _ _ _ _ E) as P.
  eexists _, k, j. unfold collect_parameter, bind. rewrite E. split; [reflexivity|]. cbn [push_param].
  repeat split; try exact V1; try (destruct X1 as [X1 X2]; assumption); cbn [params]; [rewrite P; reflexivity|..];
  destruct R as [R1 [R2 [R3 R4]]]; assumption.
Qed.
Lemma params_run : forall l us s, Forall2 param_means l us ->
  (forall c i t, In c l -> field "initialValue" (kids_of c) = Some i -> means e i t -> fine e i t) -> valid s ->
  exists s' r, collect_parameters e (map (annotate e) l) s = Ret tt s' /\ valid s' /\ ext s s' /\ params s' = (params s ++ r)%list /\ Forall2 (param_reads s') r us.
Proof.
  intros l us s H. revert s. induction H as [|c u l us H _ IH]; intros s F V.
  - exists s, []. rewrite app_nil_r. repeat split; try exact V; try (exists []; rewrite app_nil_r; reflexivity). constructor.
  - destruct (param_run c u s H (fun i t => F c i t (or_introl eq_refl)) V) as [s1 [k [j [E1 [V1 [X1 [P1 R1]]]]]]].
    destruct (IH s1 (fun c' i t I => F c' i t (or_intror I)) V1) as [s2 [r [E2 [V2 [X2 [P2 R2]]]]]].
    exists s2, ((k, j) :: r). cbn [map collect_parameters]. unfold bind at 1. rewrite E1.
    repeat split; try exact E2; try exact V2; try (destruct (ext_trans _ _ _ X1 X2); assumption).
    + rewrite P2, P1, <- app_assoc. reflexivity.
    + constructor; [|exact R2]. pose proof (param_reads_ext s1 s2 [(k, j)] [u] V1 X2) as Q.
      specialize (Q (Forall2_cons _ _ R1 (Forall2_nil _))). inversion Q; assumption.
Qed.

(** Function bodies in which integer literals are decimal, each [for] has a condition and an iteration and
    each [return] a value: the body and the parameters that are analysed are those that are written. *)
Theorem C48_body_partial : forall pl b us t,
  is_parameter_list pl -> Forall2 param_means (parameters pl) us -> (forall n, pl = Some n -> everywhere plain n) ->
  means e b t -> everywhere plain b ->
  exists i s, lower e pl (Some b) = Ret (Some i) s /\ tree_at s i = t /\
    map (fun x => (nth (fst x) (idents s) "", tree_at s (snd x))) (params s) = us.
Proof.
  intros pl b us t PL PM PP Mb Pb.
  assert (V0 : valid empty_state) by constructor.
  assert (K : exists s' r, collect_params e pl empty_state = Ret tt s' /\ valid s' /\ ext empty_state s' /\ params s' = r /\ Forall2 (param_reads s') r us).
  { unfold collect_params. destruct pl as [n|]; cbn [option_map].
    - rewrite annotate_kind. specialize (PP n eq_refl). destruct (PL n eq_refl) as [K|K]; unfold parameters in PM; rewrite K in PM |- *.
      + rewrite annotate_kids, of_kind_ann. destruct (params_run _ us empty_state PM) as [s' [r [E [V [X [P R]]]]]]; [|exact V0|].
        { intros c i u I F Mi. pose proof (of_kind_in _ _ _ I) as I'. apply (lower_means e (size i)); [apply le_n|exact Mi|].
          apply (everywhere_kid _ c); [|exact (field_in _ _ _ F)]. exact (everywhere_kid _ _ _ PP I'). }
        exists s', r. auto.
      + inversion PM as [|? u ? us' H1 H2]; subst. inversion H2; subst.
        destruct (param_run n u empty_state H1) as [s' [k [i [E [V [X [P R]]]]]]]; [|exact V0|].
        { intros i v F Mi. apply (lower_means e (size i)); [apply le_n|exact Mi|]. exact (everywhere_kid _ _ _ PP (field_in _ _ _ F)). }
        exists s', [(k, i)]. repeat split; try assumption; try (destruct X; assumption). constructor; [exact R|constructor].
    - inversion PM; subst. exists empty_state, []. repeat split; try constructor; exists []; reflexivity. }
  destruct K as [s1 [r [E1 [V1 [X1 [P1 R1]]]]]].
  destruct (fine_collect e b t (lower_means e (size b) b t (le_n _) Mb Pb) s1 V1) as [i [s2 [E2 [V2 [X2 R2]]]]].
  exists i, s2. split; [|split; [exact (proj2 R2)|]].
  - unfold lower, bind at 1. rewrite E1. unfold bind. rewrite E2. reflexivity.
  - rewrite (keeps_collect _ _ _ _ E2), P1. pose proof (param_reads_ext _ _ _ _ V1 X2 R1) as Q. clear - Q.
    induction Q as [|x u l us [L [N [_ R]]] _ IH]; [reflexivity|]. cbn [map]. rewrite IH, N, R. destruct u; reflexivity.
Qed.

(** ** Arguments *)
Definition gives (b : bool) (m : M (option nat)) : Prop := forall s r s', m s = Ret r s' -> some r = b.
Lemma gives_bind : forall {A} b (m : M A) f, (forall a, gives b (f a)) -> gives b (bind m f).
Proof. intros A b m f H s r s' E. unfold bind in E. destruct (m s); [discriminate|]. exact (H _ _ _ _ E). Qed.
Lemma gives_alloc : forall x p, gives true (some_alloc x p).
Proof. intros. apply gives_bind. intros i s r s' E. injection E as <- <-. reflexivity. Qed.
Lemma gives_none : gives false (ret None).
Proof. intros s r s' E. injection E as <- <-. reflexivity. Qed.
Lemma gives_panic : forall b, gives b panic.
Proof. intros b s r s' E. discriminate. Qed.
Lemma has_ann : forall f l, has f (ann e l) = has f l.
Proof. intros. unfold has. rewrite field_ann. destruct (field f l); reflexivity. Qed.
Lemma gives_with : forall f l k b, (forall c, gives b (k (annotate e c))) -> gives (has f l && b) (with_field f (ann e l) k).
Proof.
  intros f l k b H. unfold with_field, has. rewrite field_ann. destruct (field f l); cbn; [apply H|apply gives_none].
Qed.
Lemma gives_with_true : forall f l k, (forall c, gives true (k (annotate e c))) -> gives (has f l) (with_field f (ann e l) k).
Proof. intros f l k H. rewrite <- (andb_true_r (has f l)). apply gives_with. exact H. Qed.

Theorem counted_exact : forall k n, size n <= k -> gives (counted e n) (maybe_collect (annotate e n)).
Proof.
  induction k as [|k IH]; intros n S; [destruct n; cbn in S; lia|]. destruct n as [kd p s l]. rewrite run_eq.
  destruct kd; cbn [step counted]; try apply gives_none; try apply gives_alloc;
  rewrite <- ?andb_assoc;
  repeat (first [apply gives_alloc | apply gives_with_true; intros ? | apply gives_with; intros ? | apply gives_bind; intros ?]).
  - destruct (block_id e p); [apply gives_bind; intros; apply gives_alloc|apply gives_panic].
  - destruct l as [|[f x] l]; [apply gives_none|]. cbn. apply gives_bind. intros i st r st' E. injection E as <- <-. reflexivity.
  - unfold with_field at 1. rewrite field_ann. destruct (field "function" l) as [f|]; cbn [option_map]; [|apply gives_none].
    apply gives_with. intros args. rewrite annotate_kind.
    destruct (kind_of f); try apply gives_panic.
    + rewrite annotate_kids. apply gives_with. intros. apply gives_with_true. intros. do 2 (apply gives_bind; intros ?). apply gives_alloc.
    + do 2 (apply gives_bind; intros ?). apply gives_alloc.
  - destruct (type_of e p); cbn; [apply gives_bind; intros; apply gives_alloc|apply gives_none].
  - destruct (type_of e p); cbn; [apply gives_bind; intros; apply gives_alloc|apply gives_none].
  - destruct (parse_i64 s); [apply gives_alloc|apply gives_none].
  - destruct (parse_f64 e s); [apply gives_alloc|apply gives_none].
  - destruct (String.get 1 s); [apply gives_alloc|apply gives_none].
  - unfold parse_bool. destruct (String.eqb s "true"); [apply gives_alloc|]. destruct (String.eqb s "false"); [apply gives_alloc|apply gives_none].
  - unfold with_field. rewrite field_ann.
    assert (F : field "expression" (map (fun c : option string * ts => let (f, x) := c in (f, counted e x)) l) = option_map (counted e) (field "expression" l)).
    { unfold field, fields. induction l as [|[f x] l IHl]; [reflexivity|]. cbn [map filter].
      replace (has_field "expression" (f, counted e x)) with (has_field "expression" (f, x)) by reflexivity.
      destruct (has_field "expression" (f, x)); [reflexivity|]. apply IHl. rewrite size_eq in *. unfold sizes in *. cbn [map fold_right] in S. lia. }
    rewrite F. destruct (field "expression" l) as [x|] eqn:Fx; cbn [option_map]; [|apply gives_none]. apply IH.
    pose proof (in_sizes _ _ (field_in _ _ _ Fx)). rewrite size_eq in S. lia.
Qed.

Lemma some_length : forall l s is s', collect_some (map (annotate e) l) s = Ret is s' -> List.length is = List.length (filter (counted e) l).
Proof.
  induction l as [|n l IH]; intros s is s' E; [injection E as <- _; reflexivity|]. cbn [map collect_some filter] in *.
  unfold bind at 1 in E. destruct (maybe_collect (annotate e n) s) as [|r s1] eqn:E1; [discriminate|].
  pose proof (counted_exact (size n) n (le_n _) _ _ _ E1) as C. unfold bind in E.
  destruct (collect_some (map (annotate e) l) s1) as [|js s2] eqn:E2; [discriminate|]. injection E as <- <-.
  specialize (IH _ _ _ E2). rewrite <- C. destruct r; cbn; lia.
Qed.
Lemma blank_counted : forall n, blank (kind_of n) = true -> counted e n = false.
Proof. intros [k p s l] H. cbn in *. destruct k; try discriminate; reflexivity. Qed.
Lemma counted_written : forall l, filter (counted e) (map snd l) = filter (counted e) (written l).
Proof.
  intros l. unfold written. induction (map snd l) as [|n r IH]; [reflexivity|]. cbn [filter].
  destruct (blank (kind_of n)) eqn:B; cbn [negb].
  - rewrite (blank_counted n B). exact IH.
  - cbn [filter]. rewrite IH. reflexivity.
Qed.
Lemma filter_all : forall {A} (f : A -> bool) l, List.length (filter f l) = List.length l <-> Forall (fun x => f x = true) l.
Proof.
  intros A f l. induction l as [|x l IH]; [split; [constructor|reflexivity]|]. cbn [filter].
  assert (L : List.length (filter f l) <= List.length l).
  { clear. induction l as [|x l IH]; [apply le_n|]. cbn. destruct (f x); cbn; lia. }
  destruct (f x) eqn:F; cbn [List.length]; split; intros H.
  - constructor; [exact F|]. apply IH. lia.
  - inversion H; subst. f_equal. apply IH. assumption.
  - exfalso. lia.
  - inversion H; subst. congruence.
Qed.

(** The number of arguments of a call that is analysed is that of the written arguments that are counted;
    so it is the number of the written arguments if and only if all of them are. *)
Theorem C48_arguments : forall p txt l f args s i s',
  field "function" l = Some f -> kind_of f = identifier -> field "arguments" l = Some args ->
  maybe_collect (annotate e (T call_expression p txt l)) s = Ret i s' ->
  exists j c as_, i = Some j /\ nth_error (exprs s') j = Some (ECall c as_) /\
    List.length as_ = List.length (filter (counted e) (written (kids_of args))) /\
    (List.length as_ = List.length (written (kids_of args)) <-> Forall (fun a => counted e a = true) (written (kids_of args))).
Proof.
  intros p txt l f args s i s' F K A E. rewrite run_eq in E. cbn [step] in E. unfold with_field in E.
  rewrite !field_ann, F, A in E. cbn [option_map] in E. rewrite annotate_kind, K in E.
  unfold bind at 1 in E. destruct (collect (annotate e f) s) as [|c s1]; [discriminate|]. unfold bind at 1 in E.
  rewrite annotate_kids, snd_ann in E. destruct (collect_some _ s1) as [|is s2] eqn:E2; [discriminate|].
  injection E as <- <-. exists (List.length (exprs s2)), c, is. split; [reflexivity|]. cbn [exprs]. split.
  - rewrite nth_error_app2, Nat.sub_diag by lia. reflexivity.
  - rewrite (some_length _ _ _ _ E2), counted_written. split; [reflexivity|apply filter_all].
Qed.

(** ** No crash *)
Definition safe {A} (m : M A) : Prop := forall s, m s <> Panic.
Lemma safe_bind : forall A B (m : M A) (f : A -> M B), safe m -> (forall a, safe (f a)) -> safe (bind m f).
Proof. intros A B m f H K s E. unfold bind in E. destruct (m s) eqn:Em; [exact (H s Em)|exact (K _ _ E)]. Qed.
(** If every call is of a name or of a member, every block has an id and the parameters are in a parameter
    list, nothing crashes. *)
Theorem C48_no_crash : forall pl b, is_parameter_list pl ->
  (forall n, pl = Some n \/ b = Some n -> everywhere (callable e) n) -> lower e pl b <> Panic.
Proof.
  intros pl b P H.
  set (ns := (match pl with Some n => nodes n | None => [] end ++ match b with Some n => nodes n | None => [] end)%list).
  apply (walk_lower e ns (fun A m => safe m)).
  - intros A a s E. discriminate.
  - apply safe_bind.
  - intros s E. discriminate.
  - intros n s E. discriminate.
  - intros x d _ _ s E. discriminate.
  - intros x s E. discriminate.
  - intros n K. split; [|right; exact (H n K)]. unfold ns. destruct K as [-> | ->]; intros d D; apply in_or_app; auto.
  - intros n ->. right. exact (P n eq_refl).
Qed.

(** ** Sources *)
(** [sourced ns s]: every expression but the missing ones has a source among the nodes [ns]; a name comes
    from the text of the source; and looking up a source gives an expression with that source. *)
Definition sourced (ns : list ts) (s : state) : Prop :=
  (forall i x, nth_error (exprs s) i = Some x -> x <> EMissing ->
     exists d, In d ns /\ expr_source s i = Some (ptr_of d) /\ forall nm, name_of x = Some nm -> text_of d = nm) /\
  (forall p i, node_expr s p = Some i -> expr_source s i = Some p) /\
  (forall i p, In (i, p) (expr_map_back s) -> i < List.length (exprs s)).
Definition sources {A} (ns : list ts) (m : M A) : Prop := forall s a s', m s = Ret a s' -> sourced ns s -> sourced ns s'.
Lemma lookup_fresh : forall i j p l, i <> j -> lookup i ((j, p) :: l) = lookup i l.
Proof. intros. unfold lookup. cbn [find fst]. replace (Nat.eqb j i) with false; [reflexivity|]. symmetry. apply Nat.eqb_neq. auto. Qed.
Lemma lookup_here : forall i p l, lookup i ((i, p) :: l) = Some p.
Proof. intros. unfold lookup. cbn [find fst]. rewrite Nat.eqb_refl. reflexivity. Qed.
Lemma lookup_in : forall i p l, lookup i l = Some p -> In (i, p) l.
Proof.
  intros i p l H. unfold lookup in H. destruct (find _ l) as [[j q]|] eqn:F; [|discriminate]. injection H as <-.
  apply find_some in F. destruct F as [F E]. apply Nat.eqb_eq in E. cbn in E. subst. exact F.
Qed.
Lemma sources_desugared : forall ns, sources ns missing.
Proof.
  intros ns s a s' E [H1 [H2 H3]]. injection E as <- <-. split; [|split]; cbn [exprs expr_map_back] in *.
  - intros i x Hx N. destruct (Nat.lt_ge_cases i (List.length (exprs s))) as [L|L].
    + rewrite nth_error_app1 in Hx by exact L. exact (H1 i x Hx N).
    + rewrite nth_error_app2 in Hx by exact L. destruct (i - List.length (exprs s)) as [|k]; [|destruct k; discriminate].
      injection Hx as <-. destruct (N eq_refl).
  - exact H2.
  - intros i p I. rewrite app_length. specialize (H3 i p I). lia.
Qed.
Lemma sources_alloc : forall ns x d, In d ns -> (forall nm, name_of x = Some nm -> text_of d = nm) -> sources ns (alloc x (ptr_of d)).
Proof.
  intros ns x d D N s a s' E [H1 [H2 H3]]. injection E as <- <-.
  assert (O : forall i p, lookup i (expr_map_back s) = Some p -> lookup i ((List.length (exprs s), ptr_of d) :: expr_map_back s) = Some p).
  { intros i p L. rewrite lookup_fresh; [exact L|]. apply lookup_in in L. specialize (H3 i p L). lia. }
  split; [|split].
  - cbn [exprs expr_source expr_map_back]. intros i y Hy Ny. destruct (Nat.lt_ge_cases i (List.length (exprs s))) as [L|L].
    + rewrite nth_error_app1 in Hy by exact L. destruct (H1 i y Hy Ny) as [d' [I' [S' N']]]. exists d'. split; [exact I'|split; [|exact N']].
      unfold expr_source. cbn [expr_map_back]. apply O. exact S'.
    + rewrite nth_error_app2 in Hy by exact L. destruct (i - List.length (exprs s)) as [|k] eqn:Z; [|destruct k; discriminate].
      injection Hy as <-. assert (i = List.length (exprs s)) by lia. subst i. exists d. split; [exact D|split; [|exact N]].
      unfold expr_source. cbn [expr_map_back]. apply lookup_here.
  - intros p i. unfold node_expr, expr_source. cbn [expr_map expr_map_back]. destruct (Nat.eq_dec p (ptr_of d)) as [->|Np].
    + rewrite lookup_here. intros E. injection E as <-. apply lookup_here.
    + rewrite lookup_fresh by exact Np. intros L. apply O. exact (H2 p i L).
  - cbn [expr_map_back exprs]. intros i p [I|I]; rewrite app_length; cbn [List.length].
    + injection I as <- <-. lia.
    + specialize (H3 i p I). lia.
Qed.
Theorem C48_sources : forall pl b i s, lower e pl b = Ret i s ->
  sourced (match pl with Some n => nodes n | None => [] end ++ match b with Some n => nodes n | None => [] end)%list s.
Proof.
  intros pl b i s E. set (ns := (match pl with Some n => nodes n | None => [] end ++ match b with Some n => nodes n | None => [] end)%list).
  assert (Bind : forall A B (m : M A) (f : A -> M B), sources ns m -> (forall a, sources ns (f a)) -> sources ns (bind m f)).
  { intros A B m f H K s0 x s1 E0 S. unfold bind in E0. destruct (m s0) as [|a s2] eqn:Em; [discriminate|]. exact (K _ _ _ _ E0 (H _ _ _ Em S)). }
  refine (walk_lower e ns (fun A m => sources ns m) _ Bind (sources_desugared ns) _ (sources_alloc ns) _ pl b _ _ empty_state i s E _).
  - intros A a s0 x s1 E0 S. injection E0 as <- <-. exact S.
  - intros n s0 x s1 E0 S. injection E0 as <- <-. exact S.
  - intros x s0 y s1 E0 S. injection E0 as <- <-. exact S.
  - intros n K. split; [|left; intros A s0 x s1 E0; discriminate]. unfold ns. destruct K as [-> | ->]; intros d D; apply in_or_app; auto.
  - intros n _. left. intros A s0 x s1 E0. discriminate.
  - split; [|split].
    + intros j x H. destruct j; discriminate.
    + intros p j H. discriminate.
    + intros j p [].
Qed.
End props.
Print Assumptions C48_body_partial.
Print Assumptions C48_arguments.
Print Assumptions C48_no_crash.
Print Assumptions C48_sources.
