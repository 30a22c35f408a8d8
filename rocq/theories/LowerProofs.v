(** Lowering reads a body as it is written: proofs. *)
From Coq Require Import List String Ascii Bool Arith ZArith Lia.
From Verif Require Import TypeRefModel LowerModel LowerSpec.
Import ListNotations.
Local Open Scope string_scope.

(** ** Annotated trees *)
Section annotated.
Variable e : env.
Definition ann (l : list (option string * ts)) : list (option string * node) :=
  map (fun c => match c with (f, x) => (f, annotate e x) end) l.

Lemma annotate_kind : forall n, nkind (annotate e n) = kind_of n.
Proof. destruct n; reflexivity. Qed.
Lemma annotate_ptr : forall n, nptr (annotate e n) = ptr_of n.
Proof. destruct n; reflexivity. Qed.
Lemma annotate_text : forall n, ntext (annotate e n) = text_of n.
Proof. destruct n; reflexivity. Qed.
Lemma annotate_kids : forall n, nkids (annotate e n) = ann (kids_of n).
Proof. destruct n; reflexivity. Qed.
Lemma run_eq : forall k p s l, maybe_collect (annotate e (T k p s l)) = step e k p s (ann l).
Proof. reflexivity. Qed.

Lemma fields_ann : forall f l, fields f (ann l) = map (annotate e) (fields f l).
Proof.
  intros f l. unfold fields, ann. induction l as [|[g x] l IH]; [reflexivity|]. cbn [map filter].
  replace (has_field f (g, annotate e x)) with (has_field f (g, x)) by reflexivity.
  destruct (has_field f (g, x)); cbn [map snd]; [f_equal|]; exact IH.
Qed.
Lemma field_ann : forall f l, field f (ann l) = option_map (annotate e) (field f l).
Proof. intros. unfold field. rewrite fields_ann. destruct (fields f l); reflexivity. Qed.
Lemma snd_ann : forall l, map snd (ann l) = map (annotate e) (map snd l).
Proof. intros. unfold ann. rewrite !map_map. apply map_ext. intros [f x]. reflexivity. Qed.
Lemma filter_ann : forall (P : kind -> bool) l,
  filter (fun c => P (nkind c)) (map (annotate e) l) = map (annotate e) (filter (fun c => P (kind_of c)) l).
Proof.
  intros P l. induction l as [|x l IH]; [reflexivity|]. cbn [map filter]. rewrite annotate_kind.
  destruct (P (kind_of x)); cbn [map]; [f_equal|]; exact IH.
Qed.
Lemma of_kind_ann : forall k l, children_of_kind k (ann l) = map (annotate e) (of_kind k l).
Proof. intros. unfold children_of_kind, of_kind. rewrite snd_ann. apply (filter_ann (fun x => is_kind x k)). Qed.
End annotated.

(** ** Size *)
Fixpoint size (n : ts) : nat :=
  match n with T _ _ _ kids => S (fold_right plus 0 (map (fun c => match c with (_, x) => size x end) kids)) end.
Definition sizes (l : list (option string * ts)) : nat := fold_right plus 0 (map (fun c => match c with (_, x) => size x end) l).
Lemma size_eq : forall k p s l, size (T k p s l) = S (sizes l).
Proof. reflexivity. Qed.
Lemma size_kids : forall n, size n = S (sizes (kids_of n)).
Proof. destruct n; reflexivity. Qed.
Lemma in_sizes : forall l x, In x (map snd l) -> size x <= sizes l.
Proof.
  induction l as [|[f y] l IH]; intros x H; [destruct H|]. unfold sizes. cbn [map fold_right]. destruct H as [H|H].
  - cbn in H. subst. lia.
  - specialize (IH x H). unfold sizes in IH. lia.
Qed.
Lemma fields_in : forall {A} f (l : list (option string * A)) x, In x (fields f l) -> In x (map snd l).
Proof.
  intros A f l x H. unfold fields in H. apply in_map_iff in H. destruct H as [c [H K]]. apply filter_In in K.
  apply in_map_iff. exists c. tauto.
Qed.
Lemma field_in : forall {A} f (l : list (option string * A)) x, field f l = Some x -> In x (map snd l).
Proof.
  intros A f l x H. apply (fields_in f). unfold field in H. destruct (fields f l) as [|y r]; [discriminate|].
  injection H as ->. left. reflexivity.
Qed.
Lemma written_in : forall l x, In x (written l) -> In x (map snd l).
Proof. intros l x H. apply filter_In in H. tauto. Qed.
Lemma of_kind_in : forall k l x, In x (of_kind k l) -> In x (map snd l).
Proof. intros k l x H. apply filter_In in H. tauto. Qed.

(** ** everywhere *)
Lemma everywhere_kid : forall P n x, everywhere P n -> In x (map snd (kids_of n)) -> everywhere P x.
Proof.
  intros P [k p s l] x [_ H] I. cbn [kids_of] in I. induction l as [|[f y] l IH]; [destruct I|].
  cbn [map fold_right] in H. destruct H as [H1 H2]. destruct I as [I|I].
  - cbn in I. subst. exact H1.
  - exact (IH H2 I).
Qed.
Lemma everywhere_here : forall P n, everywhere P n -> P n.
Proof. intros P [k p s l] [H _]. exact H. Qed.
Lemma everywhere_in : forall P k p s l x, everywhere P (T k p s l) -> In x (map snd l) -> everywhere P x.
Proof. intros P k p s l x H I. exact (everywhere_kid P (T k p s l) x H I). Qed.

(** ** Reading the arena *)
Lemma trees_snoc : forall ids a x,
  trees ids (a ++ [x])%list = (trees ids a ++ [Tr (emap (fun i => nth i ids "") (fun j => nth j (trees ids a) none) x)])%list.
Proof. intros. unfold trees. rewrite fold_left_app. reflexivity. Qed.
Lemma trees_length : forall ids a, List.length (trees ids a) = List.length a.
Proof.
  intros ids a. induction a as [|x a IH] using rev_ind; [reflexivity|].
  rewrite trees_snoc, !app_length, IH. reflexivity.
Qed.
Lemma trees_prefix : forall ids a b, exists r, trees ids (a ++ b)%list = (trees ids a ++ r)%list.
Proof.
  intros ids a b. induction b as [|x b IH] using rev_ind.
  - exists []. rewrite !app_nil_r. reflexivity.
  - destruct IH as [r IH]. rewrite app_assoc, trees_snoc, IH. eexists. rewrite <- app_assoc. reflexivity.
Qed.

Definition bind_ok (n : nat) (x : expr nat nat) : Prop := match x with EBinding i _ _ => i < n | _ => True end.
Definition valid (s : state) : Prop := Forall (bind_ok (List.length (idents s))) (exprs s).
Definition ext (s s' : state) : Prop :=
  (exists r, exprs s' = exprs s ++ r)%list /\ (exists r, idents s' = idents s ++ r)%list.
Definition reads (s : state) (i : nat) (t : tree) : Prop := i < List.length (exprs s) /\ tree_at s i = t.

Lemma ext_refl : forall s, ext s s.
Proof. intros. split; exists []; rewrite app_nil_r; reflexivity. Qed.
Lemma ext_trans : forall a b c, ext a b -> ext b c -> ext a c.
Proof.
  intros a b c [[r1 H1] [r2 H2]] [[r3 H3] [r4 H4]]. split.
  - exists (r1 ++ r3)%list. rewrite H3, H1, app_assoc. reflexivity.
  - exists (r2 ++ r4)%list. rewrite H4, H2, app_assoc. reflexivity.
Qed.
Lemma trees_idents : forall ids r a, Forall (bind_ok (List.length ids)) a -> trees (ids ++ r)%list a = trees ids a.
Proof.
  intros ids r a. induction a as [|x a IH] using rev_ind; intros H; [reflexivity|].
  apply Forall_app in H. destruct H as [H1 H2]. rewrite !trees_snoc, (IH H1). do 3 f_equal.
  inversion H2 as [|y l Hx _]; subst. destruct x; try reflexivity. cbn in Hx |- *. rewrite app_nth1 by exact Hx. reflexivity.
Qed.
Lemma tree_at_ext : forall s s' i, valid s -> ext s s' -> i < List.length (exprs s) -> tree_at s' i = tree_at s i.
Proof.
  intros s s' i V [[r1 H1] [r2 H2]] L. unfold tree_at. rewrite H1, H2.
  destruct (trees_prefix (idents s ++ r2)%list (exprs s) r1) as [r H]. rewrite H, trees_idents by exact V.
  rewrite app_nth1; [reflexivity|]. rewrite trees_length. exact L.
Qed.
Lemma reads_ext : forall s s' i t, valid s -> ext s s' -> reads s i t -> reads s' i t.
Proof.
  intros s s' i t V E [L H]. split.
  - destruct E as [[r E] _]. rewrite E, app_length. lia.
  - rewrite (tree_at_ext s s' i V E L). exact H.
Qed.
Lemma reads_all_ext : forall s s' l us, valid s -> ext s s' -> Forall2 (reads s) l us -> Forall2 (reads s') l us.
Proof. intros s s' l us V E H. induction H; constructor; auto. eapply reads_ext; eauto. Qed.
Lemma reads_map : forall s l us, Forall2 (reads s) l us -> map (tree_at s) l = us.
Proof. intros s l us H. induction H as [|i u l us [_ H] _ IH]; [reflexivity|]. cbn. rewrite H, IH. reflexivity. Qed.
Lemma valid_ext_alloc : forall s s', valid s -> ext s s' -> Forall (bind_ok (List.length (idents s'))) (exprs s).
Proof.
  intros s s' V [_ [r H]]. unfold valid in V. eapply Forall_impl; [|exact V]. intros x Hx.
  destruct x; try exact Hx. cbn in *. rewrite H, app_length. lia.
Qed.

(** ** Running *)
Definition runs {A} (s : state) (m : M A) (P : A -> state -> Prop) : Prop :=
  exists a s', m s = Ret a s' /\ valid s' /\ ext s s' /\ P a s'.

Lemma runs_ret : forall {A} s (a : A) (P : A -> state -> Prop), valid s -> P a s -> runs s (ret a) P.
Proof. intros A s a P V H. exists a, s. repeat split; auto; apply ext_refl. Qed.
Lemma runs_bind : forall {A B} s (m : M A) (f : A -> M B) P Q, runs s m P ->
  (forall a s', valid s' -> ext s s' -> P a s' -> runs s' (f a) Q) -> runs s (bind m f) Q.
Proof.
  intros A B s m f P Q [a [s1 [E [V [X H]]]]] K. destruct (K a s1 V X H) as [b [s2 [E2 [V2 [X2 H2]]]]].
  exists b, s2. unfold bind. rewrite E. repeat split; auto; apply (ext_trans _ s1); assumption.
Qed.
Lemma runs_impl : forall {A} s (m : M A) (P Q : A -> state -> Prop), runs s m P -> (forall a s', P a s' -> Q a s') -> runs s m Q.
Proof. intros A s m P Q [a [s1 [E [V [X H]]]]] K. exists a, s1. auto. Qed.

Lemma runs_alloc_desugared : forall s x, valid s -> bind_ok (List.length (idents s)) x ->
  runs s (alloc_desugared x) (fun i s' => i = List.length (exprs s) /\ reads s' i (Tr (emap (fun i => nth i (idents s) "") (tree_at s) x))).
Proof.
  intros s x V B. eexists _, _. split; [reflexivity|]. split; [|split; [|split; [reflexivity|]]].
  - unfold valid. cbn. apply Forall_app. split; [exact V|]. constructor; [exact B|constructor].
  - split; [exists [x]; reflexivity|]. exists []. rewrite app_nil_r. reflexivity.
  - split; [cbn; rewrite app_length; cbn; lia|]. unfold tree_at at 1. cbn [exprs idents].
    rewrite trees_snoc, app_nth2; rewrite trees_length; [|lia]. rewrite Nat.sub_diag. reflexivity.
Qed.
Lemma runs_missing : forall s, valid s -> runs s missing (fun i s' => reads s' i none).
Proof. intros s V. eapply runs_impl; [apply runs_alloc_desugared; [exact V|exact Logic.I]|]. cbn. tauto. Qed.
Lemma runs_alloc : forall s x p, valid s -> bind_ok (List.length (idents s)) x ->
  runs s (alloc x p) (fun i s' => reads s' i (Tr (emap (fun i => nth i (idents s) "") (tree_at s) x))).
Proof.
  intros s x p V B. destruct (runs_alloc_desugared s x V B) as [i [s' [E [V' [X [-> [L H]]]]]]].
  injection E as <-. eexists _, _. split; [reflexivity|]. split; [exact V'|split; [exact X|split; [exact L|exact H]]].
Qed.
Lemma runs_some_alloc : forall s x p t, valid s -> bind_ok (List.length (idents s)) x ->
  emap (fun i => nth i (idents s) "") (tree_at s) x = t ->
  runs s (some_alloc x p) (fun a s' => exists i, a = Some i /\ reads s' i (Tr t)).
Proof.
  intros s x p t V B <-. unfold some_alloc. eapply runs_bind; [apply runs_alloc; assumption|]. intros i s' V' X H.
  apply runs_ret; [exact V'|]. exists i. auto.
Qed.

Section main.
Variable e : env.

Definition fine (n : ts) (t : tree) : Prop :=
  forall s, valid s -> runs s (maybe_collect (annotate e n)) (fun a s' => exists i, a = Some i /\ reads s' i t).
Definition fine' (n : ts) (t : tree) : Prop :=
  forall s, valid s -> runs s (collect (annotate e n)) (fun i s' => reads s' i t).

Lemma fine_collect : forall n t, fine n t -> fine' n t.
Proof.
  intros n t H s V. unfold collect. eapply runs_bind; [exact (H s V)|]. intros a s' V' X [i [-> R]].
  apply runs_ret; assumption.
Qed.
Lemma blank_run : forall n, blank (kind_of n) = true -> maybe_collect (annotate e n) = ret None.
Proof. intros [k p s l] H. cbn in H. destruct k; try discriminate; reflexivity. Qed.
Lemma blank_collect : forall n, blank (kind_of n) = true -> fine' n none.
Proof.
  intros n H s V. unfold collect. rewrite (blank_run n H). change (runs s missing (fun i s' => reads s' i none)).
  apply runs_missing. exact V.
Qed.
Lemma fine_all : forall l us, Forall2 fine' l us ->
  forall s, valid s -> runs s (collect_all (map (annotate e) l)) (fun is s' => Forall2 (reads s') is us).
Proof.
  intros l us H. induction H as [|n u l us H _ IH]; intros s V.
  - apply runs_ret; [exact V|constructor].
  - cbn [map collect_all]. eapply runs_bind; [exact (H s V)|]. intros i s1 V1 X1 R1. eapply runs_bind; [exact (IH s1 V1)|].
    intros is s2 V2 X2 R2. apply runs_ret; [exact V2|]. constructor; [|exact R2]. exact (reads_ext _ _ _ _ V1 X2 R1).
Qed.
Lemma fine_some : forall l us, Forall2 fine (filter (fun n => negb (blank (kind_of n))) l) us ->
  forall s, valid s -> runs s (collect_some (map (annotate e) l)) (fun is s' => Forall2 (reads s') is us).
Proof.
  induction l as [|n l IH]; intros us H s V.
  - inversion H. apply runs_ret; [exact V|constructor].
  - cbn [map collect_some filter] in *. destruct (blank (kind_of n)) eqn:B; cbn [negb] in H.
    + rewrite (blank_run n B). eapply runs_bind; [apply (runs_ret _ _ (fun a _ => a = None)); [exact V|reflexivity]|].
      intros a s1 V1 X1 ->. eapply runs_bind; [exact (IH us H s1 V1)|]. intros is s2 V2 X2 R. apply runs_ret; assumption.
    + inversion H as [|? u ? us' H1 H2]; subst. eapply runs_bind; [exact (H1 s V)|]. intros a s1 V1 X1 [i [-> R1]].
      eapply runs_bind; [exact (IH us' H2 s1 V1)|]. intros is s2 V2 X2 R2. apply runs_ret; [exact V2|].
      constructor; [|exact R2]. exact (reads_ext _ _ _ _ V1 X2 R1).
Qed.
Lemma fine_opt : forall n t, both fine n t -> forall s, valid s ->
  runs s (collect_opt (option_map (annotate e) n)) (fun a s' => both (reads s') a t).
Proof.
  intros n t H s V. destruct H as [|n t H].
  - apply runs_ret; [exact V|constructor].
  - cbn [option_map collect_opt]. eapply runs_bind; [exact (fine_collect n t H s V)|]. intros i s1 V1 X1 R.
    apply runs_ret; [exact V1|]. constructor. exact R.
Qed.
Lemma both_reads_map : forall s a t, both (reads s) a t -> option_map (tree_at s) a = t.
Proof. intros s a t H. destruct H as [|i t [_ H]]; [reflexivity|]. cbn. rewrite H. reflexivity. Qed.
Lemma both_reads_ext : forall s s' a t, valid s -> ext s s' -> both (reads s) a t -> both (reads s') a t.
Proof. intros s s' a t V E H. destruct H; constructor. eapply reads_ext; eauto. Qed.

(** A declared name. *)
Definition binding_ok (ty : option type_ref) (c : ts) (u : tree) : Prop :=
  exists nm i, field "name" (kids_of c) = Some nm /\ both fine (field "initialValue" (kids_of c)) i /\ u = Tr (EBinding (text_of nm) ty i).
Lemma runs_ident : forall s n, valid s ->
  runs s (alloc_ident n) (fun i s' => i = List.length (idents s) /\ i < List.length (idents s') /\ nth i (idents s') "" = n).
Proof.
  intros s n V. eexists _, _. split; [reflexivity|]. cbn [idents exprs]. split; [|split; [|split; [reflexivity|split]]].
  - unfold valid. cbn [idents exprs]. eapply Forall_impl; [|exact V]. intros x Hx. destruct x; try exact Hx. cbn in *. rewrite app_length. lia.
  - split; [exists []; rewrite app_nil_r; reflexivity|]. exists [n]. reflexivity.
  - cbn. rewrite app_length. cbn. lia.
  - cbn. rewrite app_nth2, Nat.sub_diag by lia. reflexivity.
Qed.
Lemma fine_binding : forall ty c u, binding_ok ty c u -> forall s, valid s ->
  runs s (collect_binding ty (annotate e c)) (fun a s' => exists k i, a = Some (k, i) /\ reads s' i u).
Proof.
  intros ty c u [nm [t [N [I ->]]]] s V. unfold collect_binding. rewrite annotate_kids, !field_ann, N. cbn [option_map].
  rewrite annotate_text, annotate_ptr.
  eapply runs_bind; [exact (runs_ident s (text_of nm) V)|]. intros k s1 V1 X1 [-> [L1 E1]].
  eapply runs_bind; [exact (fine_opt _ _ I s1 V1)|]. intros a s2 V2 X2 R2.
  assert (L2 : List.length (idents s) < List.length (idents s2)).
  { destruct X2 as [_ [r X2]]. rewrite X2, app_length. lia. }
  eapply runs_bind; [apply runs_alloc; [exact V2|exact L2]|]. intros i s3 V3 X3 R3. apply runs_ret; [exact V3|].
  eexists _, _. split; [reflexivity|]. cbn [emap] in R3. rewrite (both_reads_map _ _ _ R2) in R3.
  replace (nth (List.length (idents s)) (idents s2) "") with (text_of nm) in R3; [exact R3|].
  destruct X2 as [_ [r X2]]. rewrite X2, app_nth1 by exact L1. symmetry. exact E1.
Qed.
Lemma fine_bindings : forall ty ty' l us, (forall c, ty (annotate e c) = ty' c) -> Forall2 (fun c u => binding_ok (ty' c) c u) l us ->
  forall s, valid s -> runs s (collect_bindings ty (map (annotate e) l)) (fun is s' => Forall2 (reads s') is us).
Proof.
  intros ty ty' l us T H. induction H as [|c u l us H _ IH]; intros s V.
  - apply runs_ret; [exact V|constructor].
  - cbn [map collect_bindings]. rewrite T. eapply runs_bind; [exact (fine_binding _ _ _ H s V)|].
    intros a s1 V1 X1 [k [i [-> R1]]]. eapply runs_bind; [exact (IH s1 V1)|]. intros is s2 V2 X2 R2. apply runs_ret; [exact V2|].
    constructor; [|exact R2]. exact (reads_ext _ _ _ _ V1 X2 R1).
Qed.

(** A switch case. *)
Definition case_ok (x : ts) (u : list tree * tree) : Prop :=
  Forall2 fine' (fields "value" (kids_of x)) (fst u) /\ exists b, field "body" (kids_of x) = Some b /\ fine' b (snd u).
Definition reads_case (s : state) (c : list nat * nat) (u : list tree * tree) : Prop :=
  Forall2 (reads s) (fst c) (fst u) /\ reads s (snd c) (snd u).
Lemma fine_cases : forall l us, Forall2 case_ok l us -> forall s, valid s ->
  runs s (collect_cases (map (annotate e) l)) (fun cs s' => Forall2 (reads_case s') cs us).
Proof.
  intros l us H. induction H as [|x u l us [H1 [b [H2 H3]]] _ IH]; intros s V.
  - apply runs_ret; [exact V|constructor].
  - cbn [map collect_cases].
    assert (K : runs s (collect_case (annotate e x)) (fun a s' => exists c, a = Some c /\ reads_case s' c u)).
    { unfold collect_case. rewrite annotate_kids, fields_ann, field_ann, H2.
      eapply runs_bind; [exact (fine_all _ _ H1 s V)|]. intros vs s1 V1 X1 R1. cbn [option_map].
      eapply runs_bind; [exact (H3 s1 V1)|]. intros i s2 V2 X2 R2. apply runs_ret; [exact V2|].
      exists (vs, i). split; [reflexivity|]. split; [|exact R2]. exact (reads_all_ext _ _ _ _ V1 X2 R1). }
    eapply runs_bind; [exact K|]. intros a s1 V1 X1 [c [-> R1]]. eapply runs_bind; [exact (IH s1 V1)|].
    intros cs s2 V2 X2 R2. apply runs_ret; [exact V2|]. constructor; [|exact R2].
    destruct R1 as [R1 R1']. split; [exact (reads_all_ext _ _ _ _ V1 X2 R1)|exact (reads_ext _ _ _ _ V1 X2 R1')].
Qed.
Lemma reads_cases_ext : forall s s' l us, valid s -> ext s s' -> Forall2 (reads_case s) l us -> Forall2 (reads_case s') l us.
Proof.
  intros s s' l us V E H. induction H as [|c u l us [H1 H2] _ IH]; constructor; auto.
  split; [exact (reads_all_ext _ _ _ _ V E H1)|exact (reads_ext _ _ _ _ V E H2)].
Qed.
Lemma reads_cases_map : forall s l us, Forall2 (reads_case s) l us ->
  map (fun x => (map (tree_at s) (fst x), tree_at s (snd x))) l = us.
Proof.
  intros s l us H. induction H as [|c [vs b] l us [H1 [_ H2]] _ IH]; [reflexivity|]. cbn [map fst snd] in *.
  rewrite IH, H2, (reads_map _ _ _ H1). reflexivity.
Qed.

(** Integer literals. *)
Lemma based_digits : forall s acc, all_digits s = true -> based 10 s acc = digits s acc.
Proof.
  induction s as [|c s IH]; intros acc H; [reflexivity|]. cbn [all_digits digits] in *. unfold digit in *.
  destruct ((48 <=? Z.of_nat (nat_of_ascii c)) && (Z.of_nat (nat_of_ascii c) <=? 57))%Z eqn:D; [|discriminate].
  rewrite <- (IH _ H). clear IH H.
  assert (B : base_digit 10 c = Some (Z.of_nat (nat_of_ascii c) - 48)%Z).
  { unfold base_digit. rewrite D. apply andb_prop in D. destruct D as [D1 D2]. apply Z.leb_le in D1. apply Z.leb_le in D2.
    replace (Z.of_nat (nat_of_ascii c) - 48 <? 10)%Z with true; [reflexivity|]. symmetry. apply Z.ltb_lt. lia. }
  cbn [based]. destruct c as [[] [] [] [] [] [] [] []]; try (rewrite B; reflexivity); discriminate.
Qed.
Lemma digits_nonneg : forall s acc z, (0 <= acc)%Z -> digits s acc = Some z -> (0 <= z)%Z.
Proof.
  induction s as [|c s IH]; intros acc z A H; cbn [digits] in H; [injection H as <-; exact A|]. unfold digit in H.
  destruct ((48 <=? Z.of_nat (nat_of_ascii c)) && (Z.of_nat (nat_of_ascii c) <=? 57))%Z eqn:D; [|discriminate].
  apply andb_prop in D. destruct D as [D1 D2]. apply Z.leb_le in D1. eapply IH; [|exact H]. lia.
Qed.
Lemma digit_cases : forall c d, digit c = Some d ->
  In c ["0"; "1"; "2"; "3"; "4"; "5"; "6"; "7"; "8"; "9"]%char.
Proof.
  intros c d H. unfold digit in H.
  destruct ((48 <=? Z.of_nat (nat_of_ascii c)) && (Z.of_nat (nat_of_ascii c) <=? 57))%Z eqn:D; [|discriminate].
  apply andb_prop in D. destruct D as [D1 D2]. apply Z.leb_le in D1. apply Z.leb_le in D2.
  assert (K : exists k, k < 10 /\ nat_of_ascii c = 48 + k) by (exists (nat_of_ascii c - 48); lia).
  destruct K as [k [K E]]. rewrite <- (ascii_nat_embedding c), E. clear - K.
  do 10 (destruct k as [|k]; [cbn; tauto|]). lia.
Qed.
Lemma all_digits_head : forall c s, all_digits (String c s) = true ->
  In c ["0"; "1"; "2"; "3"; "4"; "5"; "6"; "7"; "8"; "9"]%char /\ all_digits s = true.
Proof.
  intros c s H. cbn [all_digits] in H. destruct (digit c) eqn:D; [|discriminate]. split; [exact (digit_cases c z D)|exact H].
Qed.
Lemma decimal_int : forall s, s <> "" -> all_digits s = true -> int_value s = digits s 0.
Proof.
  intros s N D. rewrite <- (based_digits _ _ D). destruct s as [|c s]; [destruct (N eq_refl)|].
  destruct (all_digits_head _ _ D) as [C D2]. destruct s as [|c2 s].
  - cbn [In] in C. repeat (destruct C as [<-|C]; [reflexivity|]). destruct C.
  - destruct (all_digits_head _ _ D2) as [C2 _].
    cbn [In] in C. repeat (destruct C as [<-|C]; [try reflexivity|]); [|destruct C].
    cbn [In] in C2. repeat (destruct C2 as [<-|C2]; [reflexivity|]). destruct C2.
Qed.
Lemma decimal_i64 : forall s, s <> "" -> all_digits s = true -> parse_i64 s =
     match digits s 0 with Some z => if ((- 2 ^ 63 <=? z) && (z <? 2 ^ 63))%Z then Some z else None | None => None end.
Proof.
  intros s N D. destruct s as [|c s]; [destruct (N eq_refl)|]. destruct (all_digits_head _ _ D) as [C _].
  cbn [In] in C. repeat (destruct C as [<-|C]; [reflexivity|]). destruct C.
Qed.
Lemma decimal_parse : forall s z, decimal s -> int_value s = Some z -> parse_i64 s = Some z.
Proof.
  intros s z [D [z' [E L]]] H. assert (z' = z) by congruence. subst z'. clear E.
  assert (N : s <> "") by (intros ->; discriminate).
  rewrite (decimal_int s N D) in H. rewrite (decimal_i64 s N D), H. pose proof (digits_nonneg _ _ _ (Z.le_refl 0) H) as P.
  replace ((- 2 ^ 63 <=? z) && (z <? 2 ^ 63))%Z with true; [reflexivity|].
  symmetry. apply andb_true_intro. split; [apply Z.leb_le|apply Z.ltb_lt]; lia.
Qed.

(** All references are brought to the newest state. *)
Ltac lift := repeat match goal with
  | V : valid ?a, X : ext ?a ?b, R : reads ?a ?i ?t |- _ => apply (reads_ext a b i t V X) in R
  | V : valid ?a, X : ext ?a ?b, R : Forall2 (reads ?a) ?i ?t |- _ => apply (reads_all_ext a b i t V X) in R
  | V : valid ?a, X : ext ?a ?b, R : both (reads ?a) ?i ?t |- _ => apply (both_reads_ext a b i t V X) in R
  | V : valid ?a, X : ext ?a ?b, R : Forall2 (reads_case ?a) ?i ?t |- _ => apply (reads_cases_ext a b i t V X) in R
  end.
Ltac rew := repeat match goal with
  | R : reads _ _ _ |- _ => destruct R as [_ R]; rewrite ?R
  | R : Forall2 (reads _) _ _ |- _ => apply reads_map in R; rewrite ?R
  | R : both (reads _) _ _ |- _ => apply both_reads_map in R; rewrite ?R
  | R : Forall2 (reads_case _) _ _ |- _ => apply reads_cases_map in R; rewrite ?R
  end.
Ltac done_alloc := cbv beta in *; apply runs_some_alloc; [assumption | exact Logic.I | cbn [emap map option_map]; lift; rew; reflexivity].
Ltac fld := unfold with_field; repeat match goal with
  | H : field ?f ?l = Some ?x |- context [field ?f (ann e ?l)] => rewrite (field_ann e f l), H; cbn [option_map]
  end.
Ltac go L := eapply runs_bind; [apply L; [..|assumption] | let i := fresh "i" in let s' := fresh "s" in let V' := fresh "V" in let X' := fresh "X" in let R' := fresh "R" in intros i s' V' X' R'; cbv beta in R'].

Lemma both_impl : forall {A B} (R S : A -> B -> Prop) a b, (forall x y, a = Some x -> R x y -> S x y) -> both R a b -> both S a b.
Proof. intros A B R S a b H K. destruct K; constructor. apply H; auto. Qed.
Lemma Forall2_in : forall {A B} (R S : A -> B -> Prop) l us, (forall x u, In x l -> R x u -> S x u) -> Forall2 R l us -> Forall2 S l us.
Proof.
  intros A B R S l us H K. induction K as [|x u l us K _ IH]; constructor.
  - apply H; [left; reflexivity|exact K].
  - apply IH. intros y v I. apply H. right. exact I.
Qed.

Theorem lower_means : forall k n t, size n <= k -> means e n t -> everywhere plain n -> fine n t.
Proof.
  induction k as [|k IH]; intros n t S M P; [destruct n; cbn in S; lia|].
  assert (IHc : forall x u, In x (map snd (kids_of n)) -> means e x u -> fine x u).
  { intros x u I. intros Mx. apply IH; [|exact Mx|exact (everywhere_kid _ _ _ P I)].
    pose proof (in_sizes _ _ I). rewrite (size_kids n) in S. lia. }
  assert (IHg : forall y x u, In y (map snd (kids_of n)) -> In x (map snd (kids_of y)) -> means e x u -> fine x u).
  { intros y x u I J Mx. pose proof (everywhere_kid _ _ _ P I) as Py.
    apply IH; [|exact Mx|exact (everywhere_kid _ _ _ Py J)].
    pose proof (in_sizes _ _ I). pose proof (in_sizes _ _ J). rewrite (size_kids n) in S. rewrite (size_kids y) in H. lia. }
  clear IH S. pose proof (everywhere_here _ _ P) as P0. clear P.
  assert (IHf : forall f x u, field f (kids_of n) = Some x -> means e x u -> fine x u).
  { intros f x u H. apply IHc. exact (field_in f _ _ H). }
  assert (IHf' : forall f x u, field f (kids_of n) = Some x -> means e x u -> fine' x u).
  { intros f x u H Mx. apply fine_collect. exact (IHf f x u H Mx). }
  assert (IHw : forall f y us, field f (kids_of n) = Some y -> Forall2 (means e) (written (kids_of y)) us -> Forall2 fine (written (kids_of y)) us).
  { intros f y us H F. eapply Forall2_in; [|exact F]. intros x u I. apply (IHg y).
    - exact (field_in f _ _ H).
    - exact (written_in _ _ I). }
  destruct M; cbn [kids_of] in *; intros st V; rewrite run_eq.
  - (* named_arg *) cbn [step]. fld. go (IHf' _ _ _ H M1). go (IHf' _ _ _ H0 M2). done_alloc.
  - (* block *) cbn [step]. rewrite H, snd_ann, (filter_ann e (fun x => negb (is_kind x anon_LBRACE || is_kind x anon_RBRACE))).
    eapply runs_bind; [apply (fine_all _ us); [|exact V]|].
    { eapply Forall2_in; [|exact H0]. cbn. intros x u I [[K ->]|K].
      - apply blank_collect. rewrite K. reflexivity.
      - apply fine_collect. apply IHc; [|exact K]. apply filter_In in I. tauto. }
    intros is s1 V1 X1 R1. done_alloc.
  - (* declaration *) cbn [step]. rewrite of_kind_ann. eapply runs_bind.
    { apply (fine_bindings _ (fun _ => type_of e p) _ us); [reflexivity| |exact V]. eapply Forall2_in; [|exact H].
      intros x u I [nm [i [N [B ->]]]]. exists nm, i. split; [exact N|split; [|reflexivity]].
      eapply both_impl; [|exact B]. intros y z Ey. apply (IHg x); [exact (of_kind_in _ _ _ I)|exact (field_in _ _ _ Ey)]. }
    intros is s1 V1 X1 R1. done_alloc.
  - (* old declaration *) cbn [step]. rewrite of_kind_ann. eapply runs_bind.
    { apply (fine_bindings _ (fun c => type_of e (ptr_of c)) _ us); [intros c; rewrite annotate_ptr; reflexivity| |exact V]. eapply Forall2_in; [|exact H].
      intros x u I [nm [i [N [B ->]]]]. exists nm, i. split; [exact N|split; [|reflexivity]].
      eapply both_impl; [|exact B]. intros y z Ey. apply (IHg x); [exact (of_kind_in _ _ _ I)|exact (field_in _ _ _ Ey)]. }
    intros is s1 V1 X1 R1. done_alloc.
  - (* for *) cbn [step plain] in *. rewrite fields_ann. eapply runs_bind; [apply (fine_all _ inits); [|exact V]|].
    { eapply Forall2_in; [|exact H]. intros x u I K. apply fine_collect. apply IHc; [exact (fields_in _ _ _ I)|exact K]. }
    intros is s1 V1 X1 R1. destruct P0 as [Pc Pi].
    inversion H0 as [K1 K2|c' u' K1 K2 K3]; [rewrite <- K1 in Pc; destruct (Pc eq_refl)|]. symmetry in K2.
    inversion H1 as [J1 J2|i' v' J1 J2 J3]; [rewrite <- J1 in Pi; destruct (Pi eq_refl)|]. symmetry in J2.
    fld. go (IHf' _ _ _ K2 K1). eapply runs_bind; [exact (IHf _ _ _ J2 J1 _ V0)|]. intros a s2 V2 X2 [j [-> R2]].
    go (IHf' _ _ _ H2 M). done_alloc.
  - (* while *) destruct H as [-> | ->]; cbn [step]; fld; go (IHf' _ _ _ H0 M1); go (IHf' _ _ _ H1 M2); done_alloc.
  - cbn [step]. done_alloc.
  - cbn [step]. done_alloc.
  - (* if *) cbn [step]. fld. rewrite ?field_ann. eapply runs_bind.
    { apply (fine_opt _ f); [|exact V]. eapply both_impl; [|exact H1]. intros x y Ex. exact (IHf _ x y Ex). }
    intros a s1 V1 X1 R1. go (IHf' _ _ _ H M1). go (IHf' _ _ _ H0 M2). done_alloc.
  - (* switch *) cbn [step]. fld. rewrite of_kind_ann. eapply runs_bind.
    { apply (fine_cases _ us); [|exact V]. eapply Forall2_in; [|exact H0].
      intros x u I [K [b [B Mb]]]. pose proof (of_kind_in _ _ _ I) as I'. split.
      - eapply Forall2_in; [|exact K]. intros y w J Mw. apply fine_collect. apply (IHg x); [exact I'|exact (fields_in _ _ _ J)|exact Mw].
      - exists b. split; [exact B|]. apply fine_collect. apply (IHg x); [exact I'|exact (field_in _ _ _ B)|exact Mb]. }
    intros cs s1 V1 X1 R1. go (IHf' _ _ _ H M). done_alloc.
  - (* return *) cbn [step plain] in *. inversion H as [K1 K2|c' u' K1 K2 K3]; [rewrite <- K1 in P0; destruct (P0 eq_refl)|]. symmetry in K2.
    fld. eapply runs_bind; [exact (IHf _ _ _ K2 K1 _ V)|]. intros a s2 V2 X2 [j [-> R2]]. done_alloc.
  - (* delete *) cbn [step]. fld. eapply runs_bind; [exact (IHf _ _ _ H M _ V)|]. intros a s2 V2 X2 [j [-> R2]]. done_alloc.
  - (* statement *) cbn [step]. unfold ann. cbn [map].
    eapply runs_bind; [apply (fine_collect x u); [apply IHc; [left; reflexivity|exact M]|exact V]|].
    intros i s2 V2 X2 R2. apply runs_ret; [exact V2|]. exists i. auto.
  - (* binary *) destruct H as [-> | ->]; cbn [step]; fld; go (IHf' _ _ _ H0 M1); go (IHf' _ _ _ H1 M2);
    (replace (option_map nkind (field "operator" (ann e l))) with (option_map kind_of (field "operator" l));
      [done_alloc | rewrite field_ann; destruct (field "operator" l) as [o|]; [cbn; rewrite annotate_kind|]; reflexivity]).
  - (* call *) cbn [step]. fld. rewrite annotate_kind, H0. go (IHf' _ _ _ H M). rewrite annotate_kids, snd_ann.
    eapply runs_bind; [apply (fine_some _ us); [exact (IHw _ _ _ H1 H2)|assumption]|]. intros is s2 V2 X2 R2. done_alloc.
  - (* method *) cbn [step]. fld. rewrite annotate_kind, H0, !annotate_kids. fld. rewrite snd_ann.
    eapply runs_bind; [apply (fine_some _ us); [exact (IHw _ _ _ H1 H4)|assumption]|]. intros is s2 V2 X2 R2.
    eapply runs_bind; [apply (fine_collect x tx); [apply (IHg f); [exact (field_in _ _ _ H)|exact (field_in _ _ _ H2)|exact M]|assumption]|].
    intros j s3 V3 X3 R3. rewrite annotate_text. done_alloc.
  - (* index *) cbn [step]. fld. go (IHf' _ _ _ H M1). go (IHf' _ _ _ H0 M2). done_alloc.
  - (* ternary *) cbn [step]. fld. go (IHf' _ _ _ H M1). fld. go (IHf' _ _ _ H0 M2). fld. go (IHf' _ _ _ H1 M3). done_alloc.
  - (* field *) cbn [step]. fld. go (IHf' _ _ _ H M). rewrite annotate_text. done_alloc.
  - (* scope *) destruct H as [-> | ->]; cbn [step]; fld; go (IHf' _ _ _ H0 M); rewrite annotate_text; done_alloc.
  - (* unary *) destruct H as [-> | ->]; cbn [step]; fld; go (IHf' _ _ _ H0 M); done_alloc.
  - (* sizeof *) cbn [step]. fld. go (IHf' _ _ _ H M). done_alloc.
  - (* cast *) destruct H as [-> | ->]; cbn [step]; fld; rewrite H1; cbn [or_none]; go (IHf' _ _ _ H0 M); done_alloc.
  - destruct H as [-> | ->]; cbn [step]; done_alloc.
  - (* int *) cbn [step plain] in *. rewrite (decimal_parse _ _ P0 H). cbn [or_none]. done_alloc.
  - cbn [step]. rewrite H. cbn [or_none]. done_alloc.
  - cbn [step]. rewrite H. cbn [or_none]. done_alloc.
  - cbn [step]. done_alloc.
  - cbn [step]. change (parse_bool "true") with (Some true). cbn [or_none]. done_alloc.
  - cbn [step]. change (parse_bool "false") with (Some false). cbn [or_none]. done_alloc.
  - cbn [step]. done_alloc.
  - (* paren *) cbn [step]. fld. exact (IHf _ _ _ H M st V).
  - (* new *) cbn [step]. fld. rewrite annotate_kids, snd_ann.
    eapply runs_bind; [apply (fine_some _ us); [exact (IHw _ _ _ H0 H1)|assumption]|]. intros is s2 V2 X2 R2.
    rewrite annotate_text. done_alloc.
  - (* array *) cbn [step]. rewrite snd_ann. eapply runs_bind; [apply (fine_some _ us); [|exact V]|].
    { eapply Forall2_in; [|exact H]. intros x u I. apply IHc. exact (written_in _ _ I). }
    intros is s2 V2 X2 R2. done_alloc.
  - (* comma *) cbn [step]. rewrite snd_ann. eapply runs_bind; [apply (fine_all _ us); [|exact V]|].
    { eapply Forall2_in; [|exact H]. intros x u I [[K ->]|K]; [exact (blank_collect x K)|]. apply fine_collect. apply IHc; assumption. }
    intros is s2 V2 X2 R2. done_alloc.
Qed.
End main.
