(** The node of a member's name has one expression recorded for it. *)
From Coq Require Import List String Ascii Bool Arith ZArith Lia.
From Verif Require Import TypeRefModel LowerModel LowerSpec LowerProofs LowerProps LowerHir WrittenSpec WrittenLower WrittenProofs SaidSpec.
From Verif Require HirModel.
Import ListNotations.
Local Open Scope string_scope.
Local Open Scope nat_scope.
Local Open Scope list_scope.

Section main.
Variable e : env.
Variable Y : nat.

Definition is_y (p : nat) : nat := if Nat.eqb p Y then 1 else 0.
Definition hit (s : state) (i : nat) : nat := match expr_source s i with Some p => is_y p | None => 0 end.
Definition hits (s : state) (lo hi : nat) : nat := list_sum (map (hit s) (seq lo (hi - lo))).
Lemma hits_app : forall s lo m hi, lo <= m -> m <= hi -> hits s lo hi = hits s lo m + hits s m hi.
Proof.
  intros s lo m hi A B. unfold hits. replace (hi - lo) with ((m - lo) + (hi - m)) by lia. rewrite seq_app, map_app, list_sum_app.
  replace (lo + (m - lo)) with m by lia. reflexivity.
Qed.
Lemma hits_none : forall s i, hits s i i = 0.
Proof. intros. unfold hits. rewrite Nat.sub_diag. reflexivity. Qed.
Lemma hits_one : forall s i, hits s i (S i) = hit s i.
Proof. intros. unfold hits. replace (S i - i) with 1 by lia. cbn. lia. Qed.

Fixpoint c (n : ts) : nat :=
  match n with T _ p _ l => is_y p + list_sum (map (fun x => match x with (_, y) => c y end) l) end.
Definition cs (l : list ts) : nat := list_sum (map c l).
Lemma c_eq : forall k p t l, c (T k p t l) = is_y p + cs (map snd l).
Proof. intros. cbn [c]. unfold cs. rewrite map_map. f_equal. f_equal. apply map_ext. intros [f x]. reflexivity. Qed.
Lemma c_kids : forall n, c n = is_y (ptr_of n) + cs (map snd (kids_of n)).
Proof. intros [k p t l]. apply c_eq. Qed.
Lemma cs_app : forall a b, cs (a ++ b) = cs a + cs b.
Proof. intros. unfold cs. rewrite map_app. apply list_sum_app. Qed.
Lemma cs_in : forall l x, In x l -> c x <= cs l.
Proof. induction l as [|y l IH]; intros x H; [destruct H|]. unfold cs in *. cbn [map list_sum fold_right]. destruct H as [<-|H]; [lia|]. specialize (IH x H). unfold list_sum in IH. lia. Qed.
Lemma cs_filter : forall f l, cs (filter f l) <= cs l.
Proof. intros f l. induction l as [|y l IH]; [apply le_n|]. cbn [filter]. unfold cs in *. destruct (f y); cbn [map list_sum fold_right] in *; unfold list_sum in *; lia. Qed.
Lemma cs_cons : forall x l, cs (x :: l) = c x + cs l.
Proof. reflexivity. Qed.
Lemma fields_cons : forall f g x l, cs (fields f ((g, x) :: l)) = (if has_field f (g, x) then c x else 0) + cs (fields f l).
Proof. intros f g x l. unfold fields. cbn [filter]. destruct (has_field f (g, x)); reflexivity. Qed.
Lemma kind_cons : forall k (g : option string) x l, cs (of_kind k ((g, x) :: l)) = (if is_kind (kind_of x) k then c x else 0) + cs (of_kind k l).
Proof. intros k g x l. unfold of_kind. cbn [filter map snd]. destruct (is_kind (kind_of x) k); reflexivity. Qed.
Lemma has_field_eq : forall f (g : option string) (x : ts), has_field f (g, x) = true <-> g = Some f.
Proof.
  intros f [g|] x; unfold has_field; cbn [fst]; [|split; discriminate]. rewrite String.eqb_eq. split; [intros ->; reflexivity|intros H; injection H as ->; reflexivity].
Qed.
Lemma fields_sum : forall fs (l : list (option string * ts)), NoDup fs -> list_sum (map (fun f => cs (fields f l)) fs) <= cs (map snd l).
Proof.
  intros fs l N. induction l as [|[g x] l IH].
  - replace (map (fun f => cs (fields f [])) fs) with (map (fun _ : string => 0) fs) by reflexivity. clear N. induction fs as [|f fs IHf]; [apply le_n|exact IHf].
  - cbn [map snd]. rewrite cs_cons.
    assert (H : list_sum (map (fun f => cs (fields f ((g, x) :: l))) fs) <= c x + list_sum (map (fun f => cs (fields f l)) fs) /\
       ((forall f, In f fs -> g <> Some f) -> list_sum (map (fun f => cs (fields f ((g, x) :: l))) fs) = list_sum (map (fun f => cs (fields f l)) fs))).
    { clear IH. induction N as [|f fs Nf _ [IH1 IH2]]; [split; [apply Nat.le_0_l|reflexivity]|].
      cbn [map]. change (list_sum (?a :: ?b)) with (a + list_sum b). rewrite fields_cons. pose proof (has_field_eq f g x) as Q. split.
      - destruct (has_field f (g, x)); [|lia]. rewrite IH2; [lia|]. intros f' I E. rewrite (proj1 Q eq_refl) in E. injection E as ->. exact (Nf I).
      - intros A. rewrite IH2 by (intros f' I; apply A; right; exact I). destruct (has_field f (g, x)); [|lia]. elim (A f (or_introl eq_refl) (proj1 Q eq_refl)). }
    destruct H as [H _]. lia.
Qed.
Lemma field_cs : forall f l x, field f l = Some x -> c x <= cs (fields f l).
Proof. intros f l x H. apply cs_in. unfold field in H. destruct (fields f l) as [|y r]; [discriminate|]. injection H as ->. left. reflexivity. Qed.
Lemma is_kind_eq : forall k k', is_kind k k' = true -> k = k'.
Proof. intros k k' H. unfold is_kind in H. destruct (kind_eq_dec k k'); [assumption|discriminate]. Qed.
Lemma cs_kind : forall k f l x, field f l = Some x -> Forall (fun z : option string * ts => kind_of (snd z) = k -> fst z <> Some f) l -> c x + cs (of_kind k l) <= cs (map snd l).
Proof.
  intros k f l x H F. assert (G : cs (fields f l) + cs (of_kind k l) <= cs (map snd l)).
  { clear H. induction F as [|[g y] l Fy _ IH]; [apply le_n|]. rewrite fields_cons, kind_cons. cbn [map snd fst] in *. rewrite cs_cons.
    destruct (is_kind (kind_of y) k) eqn:Ky; [|destruct (has_field f (g, y)); lia]. destruct (has_field f (g, y)) eqn:Hf; [|lia].
    apply has_field_eq in Hf. elim (Fy (is_kind_eq _ _ Ky) Hf). }
  pose proof (field_cs f l x H). lia.
Qed.
Lemma field1 : forall f l x, field f l = Some x -> c x <= cs (map snd l).
Proof. intros f l x H. apply cs_in. exact (field_in _ _ _ H). Qed.
Lemma field2 : forall f g l x y, f <> g -> field f l = Some x -> field g l = Some y -> c x + c y <= cs (map snd l).
Proof.
  intros f g l x y N X Z. pose proof (field_cs _ _ _ X). pose proof (field_cs _ _ _ Z). assert (D : NoDup [f; g]) by (repeat constructor; cbn; intuition congruence).
  pose proof (fields_sum _ l D) as S. cbn in S. lia.
Qed.
Lemma field3 : forall f g h l x y z, NoDup [f; g; h] -> field f l = Some x -> field g l = Some y -> field h l = Some z -> c x + c y + c z <= cs (map snd l).
Proof.
  intros f g h l x y z D X Z W. pose proof (field_cs _ _ _ X). pose proof (field_cs _ _ _ Z). pose proof (field_cs _ _ _ W).
  pose proof (fields_sum _ l D) as S. cbn in S. lia.
Qed.

(** ** How often it is recorded *)
Definition most {A} (m : M A) (v : nat) : Prop := does m (fun lo hi s _ => hits s lo hi <= v).
Lemma most_up : forall A (m : M A) v v', most m v -> v <= v' -> most m v'.
Proof. intros A m v v' H L. eapply does_impl; [exact H|]. cbv beta. lia. Qed.
Lemma most_ret : forall A (a : A) v, most (ret a) v.
Proof. intros. apply does_ret. intros. rewrite hits_none. lia. Qed.
Lemma most_panic : forall A v, most (@panic A) v.
Proof. intros. apply does_panic. Qed.
Lemma most_bind : forall A B (m : M A) (f : A -> M B) v w, most m v -> (forall a, most (f a) w) -> most (bind m f) (v + w).
Proof.
  intros A B m f v w H K. eapply does_bind; [exact H|]. intros a. eapply does_impl; [apply K|]. cbv beta. intros lo hi s b L Q lo0 L0 _ P.
  rewrite (hits_app s lo0 lo hi) by lia. lia.
Qed.
Lemma most_alloc : forall x p, most (alloc x p) (is_y p).
Proof. intros x p. eapply does_impl; [apply does_alloc|]. cbv beta. intros lo hi s i _ (-> & -> & _ & S). rewrite hits_one. unfold hit. rewrite S. apply le_n. Qed.
Lemma most_missing : most missing 0.
Proof. eapply does_impl; [apply does_missing|]. cbv beta. intros lo hi s i _ (-> & -> & _ & S). rewrite hits_one. unfold hit. rewrite S. apply le_n. Qed.
Lemma most_ident : forall n, most (alloc_ident n) 0.
Proof. intros n. eapply does_impl; [apply does_ident|]. cbv beta. intros lo hi s i _ (-> & _). rewrite hits_none. apply le_n. Qed.
Lemma most_some_alloc : forall x p, most (some_alloc x p) (is_y p).
Proof. intros. eapply most_up; [apply most_bind; [apply most_alloc|intros; apply most_ret]|]. apply Nat.eq_le_incl, Nat.add_0_r. Qed.
Lemma most_collect : forall n v, most (maybe_collect (annotate e n)) v -> most (collect (annotate e n)) v.
Proof.
  intros n v H. unfold collect. eapply most_up; [apply most_bind; [exact H|]|apply Nat.eq_le_incl, Nat.add_0_r].
  intros [i|]; [apply most_ret|apply most_missing].
Qed.
Lemma most_all : forall l, (forall x, In x l -> most (maybe_collect (annotate e x)) (c x)) -> most (collect_all (map (annotate e) l)) (cs l).
Proof.
  induction l as [|x l IH]; intros H; cbn [map collect_all]; [apply most_ret|]. rewrite cs_cons. apply most_bind; [apply most_collect, H; left; reflexivity|].
  intros i. eapply most_up; [apply most_bind; [apply IH; intros y I; apply H; right; exact I|intros; apply most_ret]|apply Nat.eq_le_incl, Nat.add_0_r].
Qed.
Lemma most_some : forall l, (forall x, In x l -> most (maybe_collect (annotate e x)) (c x)) -> most (collect_some (map (annotate e) l)) (cs l).
Proof.
  induction l as [|x l IH]; intros H; cbn [map collect_some]; [apply most_ret|]. rewrite cs_cons. apply most_bind; [apply H; left; reflexivity|].
  intros i. eapply most_up; [apply most_bind; [apply IH; intros y I; apply H; right; exact I|intros; apply most_ret]|apply Nat.eq_le_incl, Nat.add_0_r].
Qed.
Lemma most_binding : forall ty x, (forall y, In y (map snd (kids_of x)) -> most (maybe_collect (annotate e y)) (c y)) -> most (collect_binding ty (annotate e x)) (c x).
Proof.
  intros ty x H. unfold collect_binding. rewrite annotate_kids, !field_ann. destruct (field "name" (kids_of x)) as [nm|]; cbn [option_map]; [|apply most_ret].
  rewrite annotate_ptr, c_kids.
  destruct (field "initialValue" (kids_of x)) as [v|] eqn:V; cbn [option_map collect_opt].
  - eapply most_up; [apply most_bind; [apply most_ident|intros; apply most_bind; [apply most_bind; [apply most_collect, H; exact (field_in _ _ _ V)|intros; apply (most_ret _ _ 0)]|
      intros; apply most_bind; [apply most_alloc|intros; apply (most_ret _ _ 0)]]]|]. pose proof (field1 _ _ _ V). lia.
  - eapply most_up; [apply most_bind; [apply most_ident|intros; apply most_bind; [apply (most_ret _ _ 0)|intros; apply most_bind; [apply most_alloc|intros; apply (most_ret _ _ 0)]]]|]. lia.
Qed.
Lemma most_bindings : forall ty l, (forall x y, In x l -> In y (map snd (kids_of x)) -> most (maybe_collect (annotate e y)) (c y)) ->
  most (collect_bindings ty (map (annotate e) l)) (cs l).
Proof.
  intros ty. induction l as [|x l IH]; intros H; cbn [map collect_bindings]; [apply most_ret|]. rewrite cs_cons.
  apply most_bind; [apply most_binding; intros y; apply H; left; reflexivity|].
  intros i. eapply most_up; [apply most_bind; [apply IH; intros y z I; apply H; right; exact I|intros; apply most_ret]|apply Nat.eq_le_incl, Nat.add_0_r].
Qed.
Lemma most_cases : forall l, (forall x y, In x l -> In y (map snd (kids_of x)) -> most (maybe_collect (annotate e y)) (c y)) ->
  most (collect_cases (map (annotate e) l)) (cs l).
Proof.
  induction l as [|x l IH]; intros H; cbn [map collect_cases]; [apply most_ret|]. rewrite cs_cons. apply most_bind.
  - unfold collect_case. rewrite annotate_kids, fields_ann, field_ann, c_kids.
    assert (V : most (collect_all (map (annotate e) (fields "value" (kids_of x)))) (cs (fields "value" (kids_of x)))).
    { apply most_all. intros y I. exact (H x y (or_introl eq_refl) (fields_in _ _ _ I)). }
    assert (D : NoDup ["value"; "body"]) by (repeat constructor; cbn; intuition congruence). pose proof (fields_sum _ (kids_of x) D) as S. cbn in S.
    destruct (field "body" (kids_of x)) as [b|] eqn:B; cbn [option_map].
    + eapply most_up; [apply most_bind; [exact V|intros; apply most_bind; [apply most_collect, (H x b (or_introl eq_refl)); exact (field_in _ _ _ B)|intros; apply (most_ret _ _ 0)]]|].
      pose proof (field_cs _ _ _ B). lia.
    + eapply most_up; [apply most_bind; [exact V|intros; apply (most_ret _ _ 0)]|]. lia.
  - intros i. eapply most_up; [apply most_bind; [apply IH; intros y z I; apply H; right; exact I|intros; apply most_ret]|apply Nat.eq_le_incl, Nat.add_0_r].
Qed.

(** The node is not one of those that have an expression recorded beside their own. *)
Definition elsewhere (n : ts) : Prop :=
  match n with T k _ _ l =>
    match k with
    | return_statement => forall x, field "expression" l = Some x -> ptr_of x <> Y
    | delete_statement => forall x, field "free" l = Some x -> ptr_of x <> Y
    | unary_expression | update_expression => forall x, field "argument" l = Some x -> ptr_of x <> Y
    | switch_statement => Forall (fun z => kind_of (snd z) = switch_case -> fst z <> Some "condition") l
    | _ => True
    end
  end.
Lemma is_y_not : forall p, p <> Y -> is_y p = 0.
Proof. intros p H. unfold is_y. destruct (Nat.eqb_spec p Y); [contradiction|reflexivity]. Qed.
Theorem most_node : forall k n, size n <= k -> everywhere elsewhere n -> most (maybe_collect (annotate e n)) (c n).
Proof.
  induction k as [|k IH]; intros n S P; [destruct n; cbn in S; lia|].
  assert (C : forall x, In x (map snd (kids_of n)) -> most (maybe_collect (annotate e x)) (c x)).
  { intros x J. apply IH; [|exact (everywhere_kid _ _ _ P J)]. pose proof (in_sizes _ _ J). rewrite (size_kids n) in S. lia. }
  assert (Gr : forall y x, In y (map snd (kids_of n)) -> In x (map snd (kids_of y)) -> most (maybe_collect (annotate e x)) (c x)).
  { intros y x J J'. apply IH; [|exact (everywhere_kid _ y _ (everywhere_kid _ _ _ P J) J')].
    pose proof (in_sizes _ _ J). pose proof (in_sizes _ _ J'). rewrite (size_kids n) in S. rewrite (size_kids y) in H. lia. }
  pose proof (everywhere_here _ _ P) as P0. clear IH S P.
  destruct n as [kd p t l]. cbn [kids_of] in C, Gr. rewrite run_eq, c_eq.
  assert (Cf : forall f x, field f l = Some x -> most (collect (annotate e x)) (c x)).
  { intros f x F. apply most_collect, C. exact (field_in _ _ _ F). }
  assert (Cm : forall f x, field f l = Some x -> most (maybe_collect (annotate e x)) (c x)).
  { intros f x F. apply C. exact (field_in _ _ _ F). }
  assert (W : forall f k v, (forall x, field f l = Some x -> most (k (annotate e x)) v) -> most (with_field f (ann e l) k) v).
  { intros f k0 v H. unfold with_field. rewrite field_ann. destruct (field f l) as [x|]; cbn [option_map]; [apply H; reflexivity|apply most_ret]. }
  assert (Ar : forall f x, field f l = Some x -> most (collect_some (map (annotate e) (map snd (kids_of x)))) (cs (map snd (kids_of x)))).
  { intros f x F. apply most_some. intros y. apply Gr. exact (field_in _ _ _ F). }
  assert (Own : forall x, most (some_alloc x p) (is_y p + cs (map snd l))) by (intros; eapply most_up; [apply most_some_alloc|lia]).
  Local Ltac wf_ := match goal with W : forall f k v, _ |- most (with_field ?f _ _) _ => apply W end.
  Local Ltac bindk H := eapply most_up; [apply most_bind; [exact H|intros ?]|].
  destruct kd; cbn [step]; try apply most_ret; try (apply Own).
  - wf_. intros a Fa. wf_. intros b Fb. eapply most_up; [apply most_bind; [exact (Cf _ _ Fa)|intros; apply most_bind; [exact (Cf _ _ Fb)|intros; apply most_some_alloc]]|].
    pose proof (field2 "arg_name" "value" _ _ _ ltac:(discriminate) Fa Fb). lia.
  - destruct (block_id e p); [|apply most_panic]. rewrite snd_ann, (filter_ann e (fun x => negb (is_kind x anon_LBRACE || is_kind x anon_RBRACE))).
    eapply most_up; [apply most_bind; [apply most_all; intros x I; apply C; apply filter_In in I; tauto|intros; apply most_some_alloc]|].
    match goal with |- cs (filter ?f ?l) + _ <= _ => pose proof (cs_filter f l) end. lia.
  - rewrite of_kind_ann. eapply most_up; [apply most_bind; [apply most_bindings; intros x y I; apply Gr; exact (of_kind_in _ _ _ I)|intros; apply most_some_alloc]|].
    unfold of_kind. match goal with |- cs (filter ?f ?l) + _ <= _ => pose proof (cs_filter f l) end. lia.
  - rewrite of_kind_ann. eapply most_up; [apply most_bind; [apply most_bindings; intros x y I; apply Gr; exact (of_kind_in _ _ _ I)|intros; apply most_some_alloc]|].
    unfold of_kind. match goal with |- cs (filter ?f ?l) + _ <= _ => pose proof (cs_filter f l) end. lia.
  - rewrite fields_ann.
    assert (D : NoDup ["initialization"; "condition"; "iteration"; "body"]) by (repeat constructor; cbn; intuition congruence). pose proof (fields_sum _ l D) as S. cbn in S.
    eapply most_up; [apply most_bind; [apply most_all; intros x I; exact (C _ (fields_in _ _ _ I))|intros; apply (W _ _ (cs (fields "condition" l) + (cs (fields "iteration" l) + (cs (fields "body" l) + is_y p))))]|lia].
    intros nc Fc. wf_. intros ni Fi. wf_. intros nb Fb. pose proof (field_cs _ _ _ Fc). pose proof (field_cs _ _ _ Fi). pose proof (field_cs _ _ _ Fb).
    eapply most_up; [apply most_bind; [exact (Cf _ _ Fc)|intros; apply most_bind; [exact (Cm _ _ Fi)|intros; apply most_bind; [exact (Cf _ _ Fb)|intros; apply most_some_alloc]]]|]. lia.
  - wf_. intros a Fa. wf_. intros b Fb. eapply most_up; [apply most_bind; [exact (Cf _ _ Fa)|intros; apply most_bind; [exact (Cf _ _ Fb)|intros; apply most_some_alloc]]|].
    pose proof (field2 "condition" "body" _ _ _ ltac:(discriminate) Fa Fb). lia.
  - wf_. intros a Fa. wf_. intros b Fb. eapply most_up; [apply most_bind; [exact (Cf _ _ Fa)|intros; apply most_bind; [exact (Cf _ _ Fb)|intros; apply most_some_alloc]]|].
    pose proof (field2 "condition" "body" _ _ _ ltac:(discriminate) Fa Fb). lia.
  - wf_. intros a Fa. wf_. intros b Fb. rewrite field_ann.
    assert (D : NoDup ["falsePath"; "condition"; "truePath"]) by (repeat constructor; cbn; intuition congruence). pose proof (fields_sum _ l D) as S. cbn in S.
    pose proof (field_cs _ _ _ Fa). pose proof (field_cs _ _ _ Fb).
    eapply most_up; [apply (most_bind _ _ _ _ (cs (fields "falsePath" l)))|].
    + destruct (field "falsePath" l) as [x|] eqn:Fx; cbn [option_map collect_opt]; [|apply most_ret].
      eapply most_up; [apply most_bind; [exact (Cf _ _ Fx)|intros; apply (most_ret _ _ 0)]|]. pose proof (field_cs _ _ _ Fx). lia.
    + intros. apply most_bind; [exact (Cf _ _ Fa)|intros; apply most_bind; [exact (Cf _ _ Fb)|intros; apply most_some_alloc]].
    + lia.
  - wf_. intros a Fa. rewrite of_kind_ann.
    eapply most_up; [apply most_bind; [apply most_cases; intros x y I; apply Gr; exact (of_kind_in _ _ _ I)|intros; apply most_bind; [exact (Cf _ _ Fa)|intros; apply most_some_alloc]]|].
    pose proof (cs_kind switch_case "condition" l a Fa P0). lia.
  - wf_. intros x F. rewrite annotate_ptr. eapply most_up; [apply most_bind; [exact (Cm _ _ F)|intros; apply most_some_alloc]|]. rewrite (is_y_not _ (P0 x F)). pose proof (field1 _ _ _ F). lia.
  - wf_. intros x F. rewrite annotate_ptr. eapply most_up; [apply most_bind; [exact (Cm _ _ F)|intros; apply most_some_alloc]|]. rewrite (is_y_not _ (P0 x F)). pose proof (field1 _ _ _ F). lia.
  - destruct l as [|[f x] l]; [apply most_ret|]. unfold ann. cbn [map snd]. rewrite cs_cons.
    eapply most_up; [apply most_bind; [apply most_collect, C; left; reflexivity|intros; apply (most_ret _ _ 0)]|]. lia.
  - wf_. intros a Fa. assert (D : NoDup ["left"; "right"]) by (repeat constructor; cbn; intuition congruence). pose proof (fields_sum _ l D) as S. cbn in S. pose proof (field_cs _ _ _ Fa).
    eapply most_up; [apply most_bind; [exact (Cf _ _ Fa)|intros; apply (W _ _ (cs (fields "right" l) + is_y p))]|lia].
    intros b Fb. pose proof (field_cs _ _ _ Fb). eapply most_up; [apply most_bind; [exact (Cf _ _ Fb)|intros; apply most_some_alloc]|]. lia.
  - wf_. intros a Fa. assert (D : NoDup ["left"; "right"]) by (repeat constructor; cbn; intuition congruence). pose proof (fields_sum _ l D) as S. cbn in S. pose proof (field_cs _ _ _ Fa).
    eapply most_up; [apply most_bind; [exact (Cf _ _ Fa)|intros; apply (W _ _ (cs (fields "right" l) + is_y p))]|lia].
    intros b Fb. pose proof (field_cs _ _ _ Fb). eapply most_up; [apply most_bind; [exact (Cf _ _ Fb)|intros; apply most_some_alloc]|]. lia.
  - wf_. intros f Ff. wf_. intros args Fa. rewrite !annotate_kind, !annotate_kids, snd_ann. pose proof (Ar _ _ Fa) as Args.
    pose proof (field2 "function" "arguments" _ _ _ ltac:(discriminate) Ff Fa) as S. pose proof (c_kids args) as Ca. pose proof (c_kids f) as Cc.
    destruct (kind_of f) eqn:K; try apply most_panic.
    + unfold with_field at 1. rewrite field_ann. destruct (field "target" (kids_of f)) as [t'|] eqn:Et; cbn [option_map]; [|apply most_ret].
      unfold with_field at 1. rewrite field_ann. destruct (field "field" (kids_of f)) as [m'|] eqn:Em; cbn [option_map]; [|apply most_ret].
      rewrite annotate_ptr. eapply most_up; [apply most_bind; [exact Args|intros; apply most_bind; [apply most_collect, (Gr f t' (field_in _ _ _ Ff) (field_in _ _ _ Et))|intros; apply most_some_alloc]]|].
      pose proof (field2 "target" "field" _ _ _ ltac:(discriminate) Et Em). pose proof (c_kids m'). lia.
    + eapply most_up; [apply most_bind; [exact (Cf _ _ Ff)|intros; apply most_bind; [exact Args|intros; apply most_some_alloc]]|]. lia.
  - wf_. intros a Fa. wf_. intros b Fb. eapply most_up; [apply most_bind; [exact (Cf _ _ Fa)|intros; apply most_bind; [exact (Cf _ _ Fb)|intros; apply most_some_alloc]]|].
    pose proof (field2 "array" "index" _ _ _ ltac:(discriminate) Fa Fb). lia.
  - wf_. intros a Fa. assert (D : NoDup ["condition"; "consequence"; "alternative"]) by (repeat constructor; cbn; intuition congruence). pose proof (fields_sum _ l D) as S. cbn in S. pose proof (field_cs _ _ _ Fa).
    eapply most_up; [apply most_bind; [exact (Cf _ _ Fa)|intros; apply (W _ _ (cs (fields "consequence" l) + (cs (fields "alternative" l) + is_y p)))]|lia].
    intros b Fb. pose proof (field_cs _ _ _ Fb). eapply most_up; [apply most_bind; [exact (Cf _ _ Fb)|intros; apply (W _ _ (cs (fields "alternative" l) + is_y p))]|lia].
    intros d Fd. pose proof (field_cs _ _ _ Fd). eapply most_up; [apply most_bind; [exact (Cf _ _ Fd)|intros; apply most_some_alloc]|]. lia.
  - wf_. intros f Ff. wf_. intros x F. rewrite annotate_ptr. eapply most_up; [apply most_bind; [exact (Cf _ _ F)|intros; apply most_some_alloc]|].
    pose proof (field2 "field" "target" _ _ _ ltac:(discriminate) Ff F). pose proof (c_kids f). lia.
  - wf_. intros f Ff. wf_. intros x F. eapply most_up; [apply most_bind; [exact (Cf _ _ F)|intros; apply most_some_alloc]|]. pose proof (field1 _ _ _ F). lia.
  - wf_. intros f Ff. wf_. intros x F. eapply most_up; [apply most_bind; [exact (Cf _ _ F)|intros; apply most_some_alloc]|]. pose proof (field1 _ _ _ F). lia.
  - wf_. intros x F. rewrite annotate_ptr. eapply most_up; [apply most_bind; [exact (Cf _ _ F)|intros; apply most_some_alloc]|]. rewrite (is_y_not _ (P0 x F)). pose proof (field1 _ _ _ F). lia.
  - wf_. intros x F. rewrite annotate_ptr. eapply most_up; [apply most_bind; [exact (Cf _ _ F)|intros; apply most_some_alloc]|]. rewrite (is_y_not _ (P0 x F)). pose proof (field1 _ _ _ F). lia.
  - wf_. intros x F. eapply most_up; [apply most_bind; [exact (Cf _ _ F)|intros; apply most_some_alloc]|]. pose proof (field1 _ _ _ F). lia.
  - wf_. intros x F. destruct (type_of e p); cbn [or_none]; [|apply most_ret]. eapply most_up; [apply most_bind; [exact (Cf _ _ F)|intros; apply most_some_alloc]|]. pose proof (field1 _ _ _ F). lia.
  - wf_. intros x F. destruct (type_of e p); cbn [or_none]; [|apply most_ret]. eapply most_up; [apply most_bind; [exact (Cf _ _ F)|intros; apply most_some_alloc]|]. pose proof (field1 _ _ _ F). lia.
  - destruct (parse_i64 t); cbn [or_none]; [apply Own|apply most_ret].
  - destruct (parse_f64 e t); cbn [or_none]; [apply Own|apply most_ret].
  - destruct (String.get 1 t); cbn [or_none]; [apply Own|apply most_ret].
  - destruct (parse_bool t); cbn [or_none]; [apply Own|apply most_ret].
  - wf_. intros x F. eapply most_up; [exact (Cm _ _ F)|]. pose proof (field1 _ _ _ F). lia.
  - wf_. intros d Fd. wf_. intros args Fa. rewrite annotate_kids, snd_ann, annotate_ptr. eapply most_up; [apply most_bind; [exact (Ar _ _ Fa)|intros; apply most_some_alloc]|].
    pose proof (field2 "class" "arguments" _ _ _ ltac:(discriminate) Fd Fa). pose proof (c_kids d). pose proof (c_kids args). lia.
  - rewrite snd_ann. eapply most_up; [apply most_bind; [apply most_some; exact C|intros; apply most_some_alloc]|]. lia.
  - rewrite snd_ann. eapply most_up; [apply most_bind; [apply most_all; exact C|intros; apply most_some_alloc]|]. lia.
Qed.

(** ** One node with the pointer *)
Lemma c_occ : forall k n, size n <= k -> c n = count_occ Nat.eq_dec (map ptr_of (nodes n)) Y.
Proof.
  induction k as [|k IH]; intros [kd p t l] S; [cbn in S; lia|]. rewrite size_eq in S. cbn [nodes map ptr_of count_occ]. rewrite c_eq.
  assert (E : cs (map snd l) = count_occ Nat.eq_dec (map ptr_of (List.concat (map (fun c => match c with (_, x) => nodes x end) l))) Y).
  { clear p t kd. induction l as [|[f x] l IHl]; [reflexivity|]. unfold sizes in S. cbn [map fold_right] in S. cbn [map snd List.concat]. rewrite map_app, count_occ_app, cs_cons.
    rewrite (IH x), IHl by (unfold sizes; lia). reflexivity. }
  rewrite E. unfold is_y. destruct (Nat.eq_dec p Y) as [->|N]; [rewrite Nat.eqb_refl; reflexivity|]. destruct (Nat.eqb_spec p Y); [contradiction|reflexivity].
Qed.
Lemma c_has : forall n x, In x (nodes n) -> ptr_of x = Y -> 1 <= c n.
Proof.
  intros n x I E. rewrite (c_occ (size n) n (le_n _)). apply (count_occ_In Nat.eq_dec). rewrite <- E. apply in_map. exact I.
Qed.
Lemma cs_same : forall l a b, cs l <= 1 -> In a l -> In b l -> 1 <= c a -> 1 <= c b -> a = b.
Proof.
  induction l as [|x l IH]; intros a b L A B Ca Cb; [destruct A|]. rewrite cs_cons in L. destruct A as [<-|A], B as [<-|B].
  - reflexivity.
  - pose proof (cs_in l b B). lia.
  - pose proof (cs_in l a A). lia.
  - apply IH; [lia|assumption..].
Qed.
Lemma nodes_inv : forall n m, In m (nodes n) -> m = n \/ exists z, In z (map snd (kids_of n)) /\ In m (nodes z).
Proof.
  intros [k p t l] m I. cbn [nodes] in I. destruct I as [<-|I]; [left; reflexivity|]. right. apply in_concat in I. destruct I as [r [I J]].
  apply in_map_iff in I. destruct I as [[f z] [<- I]]. exists z. split; [|exact J]. apply in_map_iff. exists (f, z). split; [reflexivity|exact I].
Qed.
Lemma kid_under : forall z m x, In m (nodes z) -> In x (map snd (kids_of m)) -> ptr_of x = Y -> 1 <= cs (map snd (kids_of z)).
Proof.
  intros z m x I J E. destruct (nodes_inv z m I) as [->|[w [W V]]].
  - pose proof (cs_in _ _ J). pose proof (c_has x x (nodes_self x) E). lia.
  - pose proof (cs_in _ _ W).
    assert (Q : In x (nodes w)).
    { clear - V J. assert (G : forall k w m x, size w <= k -> In m (nodes w) -> In x (map snd (kids_of m)) -> In x (nodes w)).
      { induction k as [|k IH]; intros w' m' x' S V' J'; [destruct w'; cbn in S; lia|]. destruct (nodes_inv w' m' V') as [->|[u [U U']]].
        - exact (nodes_kid _ _ J' x' (nodes_self x')).
        - apply (nodes_kid _ _ U). apply (IH u m' x'); [|exact U'|exact J']. pose proof (in_sizes _ _ U). rewrite (size_kids w') in S. lia. }
      exact (G (size w) w m x (le_n _) V J). }
    pose proof (c_has w x Q E). lia.
Qed.
(** The node has one parent. *)
Lemma one_parent : forall k n m1 m2 x1 x2, size n <= k -> c n <= 1 -> In m1 (nodes n) -> In m2 (nodes n) ->
  In x1 (map snd (kids_of m1)) -> In x2 (map snd (kids_of m2)) -> ptr_of x1 = Y -> ptr_of x2 = Y -> m1 = m2.
Proof.
  induction k as [|k IH]; intros n m1 m2 x1 x2 S L I1 I2 J1 J2 E1 E2; [destruct n; cbn in S; lia|].
  assert (Half : forall m x z y, In x (map snd (kids_of n)) -> ptr_of x = Y -> In z (map snd (kids_of n)) -> In m (nodes z) -> In y (map snd (kids_of m)) -> ptr_of y = Y -> False).
  { clear IH S I1 I2 J1 J2 E1 E2. intros m x z y X E Z I J F. rewrite c_kids in L. pose proof (kid_under z m y I J F) as K. pose proof (c_kids z) as Cz.
    pose proof (c_has x x (nodes_self x) E) as Cx. assert (x = z) by (apply (cs_same (map snd (kids_of n))); [lia|assumption|assumption|assumption|lia]). subst z.
    unfold is_y in Cz. rewrite E, Nat.eqb_refl in Cz. pose proof (cs_in _ _ X). lia. }
  destruct (nodes_inv n m1 I1) as [->|[z1 [Z1 K1]]], (nodes_inv n m2 I2) as [->|[z2 [Z2 K2]]].
  - reflexivity.
  - elim (Half m2 x1 z2 x2 J1 E1 Z2 K2 J2 E2).
  - elim (Half m1 x2 z1 x1 J2 E2 Z1 K1 J1 E1).
  - rewrite c_kids in L. pose proof (kid_under z1 m1 x1 K1 J1 E1). pose proof (kid_under z2 m2 x2 K2 J2 E2). pose proof (c_kids z1). pose proof (c_kids z2).
    assert (z1 = z2) by (apply (cs_same (map snd (kids_of n))); [lia|assumption|assumption|lia|lia]). subst z2.
    apply (IH z1 m1 m2 x1 x2); [|pose proof (cs_in _ _ Z1); lia|assumption..]. pose proof (in_sizes _ _ Z1). rewrite (size_kids n) in S. lia.
Qed.
Lemma everywhere_nodes : forall (P : ts -> Prop) k n, size n <= k -> (forall m, In m (nodes n) -> P m) -> everywhere P n.
Proof.
  intros P. induction k as [|k IH]; intros [kd p t l] S H; [cbn in S; lia|]. rewrite size_eq in S. split; [apply H; left; reflexivity|].
  assert (Q : forall z, In z (map snd l) -> everywhere P z).
  { intros z Z. apply IH; [pose proof (in_sizes _ _ Z); lia|]. intros m I. apply H. exact (nodes_kid (T kd p t l) z Z m I). }
  clear - Q. induction l as [|[f x] l IHl]; [exact Logic.I|]. cbn [map fold_right]. split; [apply Q; left; reflexivity|]. apply IHl. intros z Z. apply Q. right. exact Z.
Qed.
Definition plain_switch (n : ts) : Prop :=
  kind_of n = switch_statement -> Forall (fun z => kind_of (snd z) = switch_case -> fst z <> Some "condition") (kids_of n).
Lemma elsewhere_all : forall b f y, c b <= 1 -> In f (nodes b) -> In y (map snd (kids_of f)) -> ptr_of y = Y ->
  kind_of f = field_access \/ kind_of f = new_expression -> (forall m, In m (nodes b) -> plain_switch m) -> everywhere elsewhere b.
Proof.
  intros b f y L I J E K Sw. apply (everywhere_nodes _ (size b)); [apply le_n|]. intros m M. pose proof (Sw m M) as Sm. destruct m as [kd p t l].
  assert (Q : kd <> field_access -> kd <> new_expression -> forall g x, field g l = Some x -> ptr_of x <> Y).
  { intros A B g x G F. pose proof (one_parent (size b) b (T kd p t l) f x y (le_n _) L M I (field_in _ _ _ G) J F E) as H. subst f. cbn [kind_of] in K. destruct K; congruence. }
  destruct kd; cbn [elsewhere]; try exact Logic.I; try (apply Q; discriminate). exact (Sm eq_refl).
Qed.

(** ** The whole function *)
Lemma most_params : forall pl, (forall n d, pl = Some n -> In d (nodes n) -> ptr_of d <> Y) -> most (bind (collect_params e pl) (fun _ => ret (@None nat))) 0.
Proof.
  intros pl H. refine (walk_lower e (match pl with Some n => nodes n | None => [] end) (fun A m => most m 0) _ _ _ _ _ _ pl None _ _).
  - intros. apply most_ret.
  - intros A B m f M F. eapply most_up; [apply most_bind; [exact M|exact F]|apply le_n].
  - exact most_missing.
  - exact most_ident.
  - intros x d D _. eapply most_up; [apply most_alloc|]. destruct pl as [n|]; [|destruct D]. rewrite (is_y_not _ (H n d eq_refl D)). apply le_n.
  - intros x st a st' F E. injection E as <- <-. split; [exact F|]. split; [exact (grows_refl st)|]. intros s G. unfold len. cbn [exprs]. rewrite hits_none. apply le_n.
  - intros n [-> | B]; [|discriminate]. split; [apply incl_refl|left; intros; apply most_panic].
  - intros n _. left. intros. apply most_panic.
Qed.
Lemma hits_two : forall s n j j', hits s 0 n <= 1 -> j < n -> j' < n -> expr_source s j = Some Y -> expr_source s j' = Some Y -> j = j'.
Proof.
  assert (G : forall s n j j', hits s 0 n <= 1 -> j < j' -> j' < n -> expr_source s j = Some Y -> expr_source s j' = Some Y -> False).
  { intros s n j j' H L L' E E'. rewrite (hits_app s 0 j n), (hits_app s j (S j) n), (hits_app s (S j) j' n), (hits_app s j' (S j') n) in H by lia.
    rewrite !hits_one in H. unfold hit in H. rewrite E, E' in H. unfold is_y in H. rewrite Nat.eqb_refl in H. lia. }
  intros s n j j' H L L' E E'. destruct (Nat.lt_trichotomy j j') as [K|[K|K]]; [|exact K|].
  - elim (G s n j j' H K L' E E').
  - elim (G s n j' j H K L E' E).
Qed.
End main.

(** What has a source is found by it. *)
Definition mapped (s : state) : Prop := forall i p, In (i, p) (expr_map_back s) -> node_expr s p <> None.
Lemma lower_mapped : forall e pl b i s, lower e pl b = Ret i s -> mapped s.
Proof.
  intros e pl b i s E. set (Q := fun A (m : M A) => forall s a s', m s = Ret a s' -> mapped s -> mapped s').
  set (ns := match pl with Some n => nodes n | None => [] end ++ match b with Some n => nodes n | None => [] end).
  refine (walk_lower e ns Q _ _ _ _ _ _ pl b _ _ empty_state i s E _).
  - intros A a s0 x s1 E0 S. injection E0 as <- <-. exact S.
  - intros A B m f H K s0 x s1 E0 S. unfold bind in E0. destruct (m s0) as [|a s2] eqn:Em; [discriminate|]. exact (K _ _ _ _ E0 (H _ _ _ Em S)).
  - intros s0 x s1 E0 S. injection E0 as <- <-. exact S.
  - intros n s0 x s1 E0 S. injection E0 as <- <-. exact S.
  - intros x d _ _ s0 y s1 E0 S. injection E0 as <- <-. intros j p [I|I]; unfold node_expr; cbn [expr_map].
    + injection I as _ <-. rewrite lookup_here. discriminate.
    + destruct (Nat.eq_dec p (ptr_of d)) as [->|Np]; [rewrite lookup_here; discriminate|]. rewrite lookup_fresh by exact Np. exact (S j p I).
  - intros x s0 y s1 E0 S. injection E0 as <- <-. exact S.
  - intros n K. split; [|left; intros A s0 x s1 E0; discriminate]. unfold ns. destruct K as [-> | ->]; intros d D; apply in_or_app; auto.
  - intros n _. left. intros A s0 x s1 E0. discriminate.
  - intros j p [].
Qed.
(** One node has the pointer [Y], and it is the name in a member access or the class behind [new]: then
    an expression recorded for it is the one it leads to. *)
Theorem recorded_once : forall e pl b i s f y j, lower e pl (Some b) = Ret (Some i) s ->
  count_occ Nat.eq_dec (map ptr_of (all_nodes pl b)) (ptr_of y) <= 1 -> (forall m, In m (nodes b) -> plain_switch m) ->
  In f (nodes b) -> In y (map snd (kids_of f)) -> kind_of f = field_access \/ kind_of f = new_expression ->
  expr_source s j = Some (ptr_of y) -> node_expr s (ptr_of y) = Some j.
Proof.
  intros e pl b i s f y j E Oc Sw I J K Sj. set (Y := ptr_of y) in *. unfold all_nodes in Oc. rewrite map_app, count_occ_app in Oc.
  assert (Iy : In y (nodes b)).
  { assert (G : forall k w m x, size w <= k -> In m (nodes w) -> In x (map snd (kids_of m)) -> In x (nodes w)).
    { induction k as [|k IH]; intros w' m' x' S V' J'; [destruct w'; cbn in S; lia|]. destruct (nodes_inv w' m' V') as [->|[u [U U']]].
      - exact (nodes_kid _ _ J' x' (nodes_self x')).
      - apply (nodes_kid _ _ U). apply (IH u m' x'); [|exact U'|exact J']. pose proof (in_sizes _ _ U). rewrite (size_kids w') in S. lia. }
    exact (G (size b) b f y (le_n _) I J). }
  assert (Cb : 1 <= c Y b) by (apply (c_has Y b y); [exact Iy|reflexivity]). pose proof (c_occ Y (size b) b (le_n _)) as Co.
  assert (Cp : forall n d, pl = Some n -> In d (nodes n) -> ptr_of d <> Y).
  { intros n d -> D X. pose proof (c_has Y n d D X) as Q. rewrite (c_occ Y (size n) n (le_n _)) in Q. lia. }
  pose proof (elsewhere_all Y b f y ltac:(lia) I J eq_refl K Sw) as El.
  pose proof (C48_sources e pl (Some b) (Some i) s E) as (_ & S2 & S3). pose proof (lower_mapped e pl (Some b) (Some i) s E) as Mp.
  assert (H : hits Y s 0 (len s) <= 1).
  { pose proof (most_params e Y pl Cp) as Mo. unfold lower, bind in E. unfold most, does, bind in Mo. specialize (Mo empty_state).
    destruct (collect_params e pl empty_state) as [|[] s1] eqn:Ep; [discriminate|]. destruct (Mo None s1 fresh_empty eq_refl) as (F1 & _ & H1).
    destruct (collect (annotate e b) s1) as [|j' s2] eqn:Eb; [discriminate|]. injection E as -> ->.
    destruct (most_collect e Y b (c Y b) (most_node e Y (size b) b (le_n _) El) s1 i s F1 Eb) as (_ & G & H2).
    specialize (H1 s G). specialize (H2 s (grows_refl s)). cbv beta in H1, H2. pose proof (grows_len _ _ G).
    rewrite (hits_app Y s 0 (len s1) (len s)) by lia. change (len empty_state) with 0 in H1. lia. }
  assert (In1 : In (j, Y) (expr_map_back s)) by (apply lookup_in; exact Sj).
  destruct (node_expr s Y) as [j'|] eqn:Nj; [|elim (Mp j Y In1 Nj)]. f_equal. pose proof (S2 Y j' Nj) as Sj'.
  apply (hits_two Y s (len s)); [exact H| | |exact Sj'|exact Sj]; [apply (S3 j' Y), lookup_in; exact Sj'|exact (S3 j Y In1)].
Qed.
