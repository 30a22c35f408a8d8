(** The analysed body stands in the text where its syntax tree does: proofs. *)
From Coq Require Import List String Ascii Bool Arith ZArith Lia.
From Verif Require Import TypeRefModel HirModel HirSpec OffsetModel OffsetSpec.
From Verif Require Import LowerModel LowerSpec LowerProofs LowerProps LowerHir WrittenSpec WrittenLower WrittenArena.
From Verif Require MemberSpec.
Import ListNotations.
Local Open Scope string_scope.
Local Open Scope nat_scope.
Local Open Scope list_scope.

Notation exprs := LowerModel.exprs.
Notation idents := HirSpec.idents.

(** ** Ids *)
Lemma lowered_range : forall s n i lo hi, lowered s n i lo hi -> lo <= i < hi.
Proof.
  intros s n i lo hi H. destruct H; repeat match goal with H : chain _ _ _ _ _ |- _ => apply chain_le in H end; try lia.
  destruct H0 as [H0 _]. exact H0.
Qed.
Lemma chain_spread : forall {A B} (R : A -> B -> nat -> nat -> Prop) (f : B -> list nat) l r lo hi, chain R l r lo hi ->
  (forall a b lo' m, In a l -> m <= hi -> R a b lo' m -> spread lo' m (f b)) -> spread lo hi (flat_map f r).
Proof.
  intros A B R f l r lo hi H. induction H as [lo hi K|a b l r lo lo1 m hi K1 K2 K3 K4 IH]; intros F; [apply spread_nil|].
  cbn [flat_map]. pose proof (chain_le _ _ _ _ _ K4). apply (spread_app lo m hi).
  - apply (spread_widen lo1 m); [|exact K1|lia]. apply (F a); [left; reflexivity|lia|exact K3].
  - apply IH. intros. eapply F; [right; eassumption|lia|eassumption].
  - lia.
  - lia.
Qed.
Lemma to_stmt_flat : forall k s i, flat (nth i (exprs s) EMissing) -> to_stmt (S k) s i = SExpr (to_expr k s i).
Proof. intros k s i F. cbn [to_stmt]. destruct (nth i (exprs s) EMissing); try reflexivity; destruct F. Qed.
Lemma stmt_id_of : forall k s i, stmt_id (to_stmt k s i) = i.
Proof. intros [|k] s i; [reflexivity|]. cbn [to_stmt]. destruct (nth i (exprs s) EMissing) eqn:E; try reflexivity; cbn [stmt_id]; apply to_expr_id. Qed.
Lemma b_id_of : forall k s j, b_id (to_binding k s j) = j.
Proof. intros k s j. unfold to_binding. destruct (nth j (exprs s) EMissing); reflexivity. Qed.
Lemma G_range : forall s n lo hi i, G s n lo hi [i] -> lo <= i < hi.
Proof.
  intros s n lo hi i H. specialize (H 0). destruct H as [_ [_ H]]. cbn in H. inversion H; assumption.
Qed.
Lemma flat_map_single : forall (l : list nat), flat_map (fun j => [j]) l = l.
Proof. induction l as [|x l IH]; [reflexivity|]. cbn. rewrite IH. reflexivity. Qed.
Lemma flat_map_map : forall {A B C} (f : A -> B) (g : B -> list C) l, flat_map g (map f l) = flat_map (fun x => g (f x)) l.
Proof. intros. induction l as [|x l IH]; [reflexivity|]. cbn. rewrite IH. reflexivity. Qed.

Definition expr_ids_in (dcl : list (list decl)) (x : stmt) : list nat := flat_map (fun y => MemberSpec.expr_ids (snd y)) (MemberSpec.places dcl x).
Lemma goods_spread : forall s n lo hi k l, G s n lo hi l -> spread lo hi (flat_map (fun j => MemberSpec.expr_ids (to_expr k s j)) l).
Proof. intros s n lo hi k l H. destruct (H k) as [_ K]. rewrite flat_map_map in K. exact K. Qed.
Lemma one_ids : forall dcl (x : option HirModel.expr), flat_map (fun y => MemberSpec.expr_ids (snd y)) (MemberSpec.one dcl x) = flat_map MemberSpec.expr_ids (opt x).
Proof. intros dcl [x|]; reflexivity. Qed.
Lemma opt_map : forall {A B} (f : A -> B) x, opt (option_map f x) = map f (opt x).
Proof. intros A B f [x|]; reflexivity. Qed.
Lemma opt_flat : forall {A B} (f : A -> list B) x, match x with Some y => f y | None => [] end = flat_map f (opt x).
Proof. intros A B f [x|]; cbn; [rewrite app_nil_r|]; reflexivity. Qed.
Lemma flat_map_flat_map : forall {A B C} (g : B -> list C) (f : A -> list B) l, flat_map g (flat_map f l) = flat_map (fun x => flat_map g (f x)) l.
Proof. intros. induction l as [|x l IH]; [reflexivity|]. cbn. rewrite flat_map_app, IH. reflexivity. Qed.

(** Each node of the arena is in the body at most once. *)
Theorem lowered_ids : forall z s n, size n <= z -> forall i lo hi, lowered s n i lo hi -> forall k, i < k ->
  spread lo hi (stmt_ids (to_stmt k s i)) /\ forall dcl, spread lo hi (expr_ids_in dcl (to_stmt k s i)).
Proof.
  induction z as [|z IH]; intros s n Sz i lo hi H k K; [destruct n; cbn in Sz; lia|]. destruct k as [|k]; [lia|].
  pose proof (lowered_range _ _ _ _ _ H) as Rg.
  assert (IHk : forall x, In x (map snd (kids_of n)) -> forall j lo' hi', lowered s x j lo' hi' -> hi' <= i ->
    spread lo' hi' (stmt_ids (to_stmt k s j)) /\ forall dcl, spread lo' hi' (expr_ids_in dcl (to_stmt k s j))).
  { intros x J j lo' hi' L B. pose proof (lowered_range _ _ _ _ _ L). apply (IH s x); [|exact L|lia].
    pose proof (in_sizes _ _ J). rewrite (size_kids n) in Sz. lia. }
  assert (IHg : forall y x, In y (map snd (kids_of n)) -> In x (map snd (kids_of y)) -> forall j lo' hi', lowered s x j lo' hi' -> hi' <= i ->
    spread lo' hi' (stmt_ids (to_stmt k s j)) /\ forall dcl, spread lo' hi' (expr_ids_in dcl (to_stmt k s j))).
  { intros y x J J' j lo' hi' L B. pose proof (lowered_range _ _ _ _ _ L). apply (IH s x); [|exact L|lia].
    pose proof (in_sizes _ _ J). pose proof (in_sizes _ _ J'). rewrite (size_kids n) in Sz. rewrite (size_kids y) in *. lia. }
  clear IH Sz. unfold expr_ids_in in *.
  destruct H as [n i lo hi O Gv F|p t l b is i lo hi Ch L E S|kd kd' p t l bs i lo hi Kd Ch L E S|p t l is nc c ni it nb b i lo m1 m2 m3 hi Ch Fc Gc L1 Fi Gi L2 Fb Lb L3 L E S
    |kd p t l nc c nb b i lo m hi Kd Fc Gc L1 Fb Lb L2 L E S|p t l nc c nt b f i lo m1 m2 hi Ch Fc Gc L1 Ft Lt L2 L E S|p t l nc c cs i lo m hi Ch Fc Gc L1 L E S]; cbn [kids_of] in *.
  - rewrite (to_stmt_flat k s i F). split.
    + cbn [stmt_ids stmt_id]. rewrite to_expr_id. split; [constructor; [intros []|constructor]|constructor; [exact Rg|constructor]].
    + intros dcl. cbn [MemberSpec.places flat_map snd]. destruct Gv as [_ [Gv _]]. destruct (Gv k) as [_ Q]. exact Q.
  - cbn [to_stmt]. rewrite E. cbn [stmt_ids stmt_id MemberSpec.places].
    assert (Kid : forall x, In x (filter (fun x => negb (is_brace (kind_of x))) (map snd l)) -> In x (map snd l)) by (intros x I; apply filter_In in I; tauto).
    split.
    + apply spread_cons; [|lia|lia]. rewrite flat_map_map. eapply chain_spread; [exact Ch|]. intros a j lo' m I M R. exact (proj1 (IHk a (Kid a I) _ _ _ R M)).
    + intros dcl. rewrite flat_map_flat_map, flat_map_map. apply (spread_widen lo i); [|lia|lia]. eapply chain_spread; [exact Ch|]. intros a j lo' m I M R. exact (proj2 (IHk a (Kid a I) _ _ _ R M) _).
  - cbn [to_stmt]. rewrite E. cbn [stmt_ids stmt_id MemberSpec.places]. split.
    + apply spread_cons; [|lia|lia]. rewrite map_map, (map_ext _ (fun j => j) (b_id_of k s)), map_id, <- flat_map_single. eapply chain_spread; [exact Ch|].
      intros a j lo' m I M (nm & q & ty & x & _ & R & _). split; [constructor; [intros []|constructor]|constructor; [exact R|constructor]].
    + intros dcl. rewrite flat_map_flat_map, flat_map_map. apply (spread_widen lo i); [|lia|lia]. eapply chain_spread; [exact Ch|].
      intros a j lo' m I M (nm & q & ty & x & _ & R & E1 & _ & _ & Gx). rewrite one_ids. unfold to_binding. rewrite E1. cbn [b_init]. rewrite opt_map, flat_map_map.
      apply (spread_widen lo' j); [|lia|lia]. exact (goods_spread _ _ _ _ _ _ Gx).
  - cbn [to_stmt]. rewrite E. cbn [stmt_ids stmt_id MemberSpec.places]. pose proof (chain_le _ _ _ _ _ Ch) as L0.
    assert (Kid : forall x, In x (fields "initialization" l) -> In x (map snd l)) by (intros x I; exact (fields_in _ _ _ I)). pose proof (field_in _ _ _ Fb) as Ib. split.
    + apply spread_cons; [|lia|lia]. rewrite flat_map_map. apply (spread_app lo m3 i); [|exact (proj1 (IHk nb Ib _ _ _ Lb (le_n _)))|lia|lia].
      apply (spread_widen lo m1); [|lia|lia]. eapply chain_spread; [exact Ch|]. intros a j lo' m I M R. refine (proj1 (IHk a (Kid a I) _ _ _ R _)). lia.
    + intros dcl. rewrite !flat_map_app, flat_map_flat_map, flat_map_map, one_ids, opt_map, flat_map_map. apply (spread_widen lo i); [|lia|lia].
      apply (spread_app lo m1 i); [|apply (spread_app m1 m2 i); [|apply (spread_app m2 m3 i); [|exact (proj2 (IHk nb Ib _ _ _ Lb (le_n _)) dcl)|lia|lia]|lia|lia]|lia|lia].
      * eapply chain_spread; [exact Ch|]. intros a j lo' m I M R. refine (proj2 (IHk a (Kid a I) _ _ _ R _) dcl). lia.
      * exact (goods_spread _ _ _ _ k _ Gc).
      * exact (goods_spread _ _ _ _ k _ Gi).
  - cbn [to_stmt]. rewrite E. cbn [stmt_ids stmt_id MemberSpec.places map flat_map option_map MemberSpec.one app snd]. pose proof (field_in _ _ _ Fb) as Ib.
    destruct (IHk nb Ib _ _ _ Lb (le_n _)) as [A B]. split.
    + apply spread_cons; [|lia|lia]. apply (spread_widen m i); [exact A|lia|lia].
    + intros dcl. apply (spread_app lo m hi); [|apply (spread_widen m i); [exact (B dcl)|lia|lia]|lia|lia].
      pose proof (goods_spread _ _ _ _ k _ Gc) as Q. cbn in Q. rewrite app_nil_r in Q. exact Q.
  - cbn [to_stmt]. rewrite E. cbn [stmt_ids stmt_id MemberSpec.places]. pose proof (chain_le _ _ _ _ _ Ch) as L0. pose proof (field_in _ _ _ Ft) as It.
    destruct (IHk nt It _ _ _ Lt (le_n _)) as [A B].
    assert (Kid : forall x, In x (opt (field "falsePath" l)) -> In x (map snd l)).
    { intros x I. destruct (field "falsePath" l) as [y|] eqn:Y; [|destruct I]. destruct I as [<-|[]]. exact (field_in _ _ _ Y). }
    split.
    + apply spread_cons; [|lia|lia]. rewrite opt_flat, opt_map, flat_map_map. apply (spread_app' lo m2 i); [exact A| |lia|lia].
      apply (spread_widen lo m1); [|lia|lia]. eapply chain_spread; [exact Ch|]. intros a j lo' m I M R. refine (proj1 (IHk a (Kid a I) _ _ _ R _)). lia.
    + intros dcl. rewrite !flat_map_app, app_assoc, opt_flat, opt_map, flat_map_map, flat_map_flat_map. apply (spread_widen lo i); [|lia|lia].
      apply (spread_app' lo m1 i); [| |lia|lia].
      * apply (spread_app m1 m2 i); [|exact (B dcl)|lia|lia]. exact (goods_spread _ _ _ _ k _ Gc).
      * eapply chain_spread; [exact Ch|]. intros a j lo' m I M R. refine (proj2 (IHk a (Kid a I) _ _ _ R _) dcl). lia.
  - cbn [to_stmt]. rewrite E. cbn [stmt_ids stmt_id MemberSpec.places]. pose proof (chain_le _ _ _ _ _ Ch) as L0.
    assert (Kid : forall x, In x (filter (fun x => has (field "body" (kids_of x))) (of_kind switch_case l)) -> In x (map snd l)).
    { intros x I. apply filter_In in I. exact (of_kind_in _ _ _ (proj1 I)). }
    split.
    + apply spread_cons; [|lia|lia]. rewrite flat_map_map. apply (spread_widen lo m); [|lia|lia]. eapply chain_spread; [exact Ch|].
      intros a [vs j] lo' m' I M (nb & m0 & Fb & Gv & Lm & R). pose proof (lowered_range _ _ _ _ _ R). cbn [fst snd] in *. apply (spread_widen m0 m'); [|lia|lia].
      refine (proj1 (IHg a nb (Kid a I) (field_in _ _ _ Fb) _ _ _ R _)). lia.
    + intros dcl. rewrite !flat_map_app, flat_map_flat_map, flat_map_map. apply (spread_widen lo i); [|lia|lia].
      apply (spread_app' lo m i); [exact (goods_spread _ _ _ _ k _ Gc)| |lia|lia]. eapply chain_spread; [exact Ch|].
      intros a [vs j] lo' m' I M (nb & m0 & Fb & Gv & Lm & R). pose proof (lowered_range _ _ _ _ _ R). cbn [fst snd] in *. rewrite flat_map_app.
      apply (spread_app lo' m0 m'); [|refine (proj2 (IHg a nb (Kid a I) (field_in _ _ _ Fb) _ _ _ R _) dcl); lia|lia|lia].
      rewrite !flat_map_map. cbn [snd]. refine (goods_spread _ a _ _ k _ _). apply (chain_G _ _ _ _ _ _ Gv). intros v V. exact (nodes_kid _ _ (fields_in _ _ _ V)).
Qed.

(** ** Places *)
Definition agree (lo hi : nat) (a b : nat -> span) : Prop := forall j, lo <= j < hi -> a j = b j.
Definition ex_at (lo hi : nat) (P : (nat -> span) -> Prop) : Prop := exists a0, forall at_, agree lo hi at_ a0 -> P at_.
Lemma ex_impl : forall lo hi lo' hi' (P Q : (nat -> span) -> Prop), ex_at lo hi P -> lo' <= lo -> hi <= hi' -> (forall at_, P at_ -> Q at_) -> ex_at lo' hi' Q.
Proof. intros lo hi lo' hi' P Q [a0 H] L1 L2 K. exists a0. intros at_ A. apply K, H. intros j R. apply A. lia. Qed.
Lemma ex_pair : forall lo m hi (P Q : (nat -> span) -> Prop), ex_at lo m P -> ex_at m hi Q -> lo <= m -> m <= hi -> ex_at lo hi (fun at_ => P at_ /\ Q at_).
Proof.
  intros lo m hi P Q [a HP] [b HQ] L1 L2. exists (fun j => if j <? m then a j else b j). intros at_ A. split.
  - apply HP. intros j R. rewrite (A j) by lia. destruct (Nat.ltb_spec j m); [reflexivity|lia].
  - apply HQ. intros j R. rewrite (A j) by lia. destruct (Nat.ltb_spec j m); [lia|reflexivity].
Qed.
Lemma ex_own : forall i hi r, i < hi -> ex_at i hi (fun at_ => at_ i = r).
Proof. intros i hi r L. exists (fun _ => r). intros at_ A. apply A. lia. Qed.
Lemma ex_chain : forall {A B} (R : A -> B -> nat -> nat -> Prop) (Q : (nat -> span) -> A -> B -> Prop) l r lo hi, chain R l r lo hi ->
  (forall a b lo' m, In a l -> m <= hi -> R a b lo' m -> ex_at lo' m (fun at_ => Q at_ a b)) -> ex_at lo hi (fun at_ => Forall2 (Q at_) l r).
Proof.
  intros A B R Q l r lo hi H. induction H as [lo hi K|a b l r lo lo1 m hi K1 K2 K3 K4 IH]; intros F.
  - exists (fun _ => (0, 0)). intros. constructor.
  - pose proof (chain_le _ _ _ _ _ K4) as L.
    eapply ex_impl; [apply (ex_pair lo m hi); [|apply IH; intros; eapply F; [right; eassumption|lia|eassumption]|lia|exact L]|apply le_n|apply le_n|].
    + eapply ex_impl; [apply (F a b lo1 m); [left; reflexivity|exact L|exact K3]|exact K1|apply le_n|]. intros at_ P. exact P.
    + cbv beta. intros at_ [P1 P2]. constructor; assumption.
Qed.

(** ** Trees in their text *)
Section layout.
Variable sp : nat -> span.
Notation where_ := (where_ sp).
Definition apart (a b : ts) : Prop := snd (where_ a) <= fst (where_ b) \/ snd (where_ b) <= fst (where_ a).
Lemma apart_sym : forall a b, apart a b -> apart b a.
Proof. unfold apart. tauto. Qed.

Lemma everywhere_node : forall P n x, everywhere P n -> In x (nodes n) -> everywhere P x.
Proof.
  intros P. assert (K : forall z n x, size n <= z -> everywhere P n -> In x (nodes n) -> everywhere P x).
  { induction z as [|z IH]; intros n x S E I; [destruct n; cbn in S; lia|]. destruct n as [k p t l]. cbn [nodes] in I. destruct I as [<-|I]; [exact E|].
    apply in_concat in I. destruct I as [r [R I]]. apply in_map_iff in R. destruct R as [[f y] [<- R]].
    assert (J : In y (map snd l)) by (apply in_map_iff; exists (f, y); auto).
    apply (IH y); [|exact (everywhere_in _ _ _ _ _ _ E J)|exact I]. pose proof (in_sizes _ _ J). rewrite size_eq in S. lia. }
  intros n x. exact (K (size n) n x (le_n _)).
Qed.
Lemma everywhere_impl : forall (P Q : ts -> Prop), (forall n, P n -> Q n) -> forall n, everywhere P n -> everywhere Q n.
Proof.
  intros P Q H. assert (K : forall z n, size n <= z -> everywhere P n -> everywhere Q n).
  { induction z as [|z IH]; intros n S E; [destruct n; cbn in S; lia|]. destruct n as [k p t l]. destruct E as [E1 E2]. split; [exact (H _ E1)|].
    rewrite size_eq in S. clear E1. induction l as [|[f y] l IHl]; [exact Logic.I|]. cbn [map fold_right] in *. destruct E2 as [E2 E3].
    assert (size y + sizes l <= z) by (unfold sizes in *; cbn [map fold_right] in S; lia). split; [apply IH; [lia|exact E2]|]. apply IHl; [lia|exact E3]. }
  intros n. exact (K (size n) n (le_n _)).
Qed.
Lemma tidy_holds : forall n, tidy sp n -> holds_expression n.
Proof. intros [k p t l] (_ & _ & _ & _ & _ & H & _). exact H. Qed.
Lemma inside_trans : forall a b c, inside a b -> inside b c -> inside a c.
Proof. unfold inside. lia. Qed.
Lemma kid_inside : forall n x, tidy sp n -> In x (map snd (kids_of n)) -> inside (where_ x) (where_ n).
Proof.
  intros [k p t l] x (H & _) I. cbn [kids_of] in I. apply in_map_iff in I. destruct I as [c [<- I]]. rewrite Forall_forall in H. exact (H c I).
Qed.
Lemma node_inside : forall n x, everywhere (tidy sp) n -> In x (nodes n) -> inside (where_ x) (where_ n).
Proof.
  assert (K : forall z n x, size n <= z -> everywhere (tidy sp) n -> In x (nodes n) -> inside (where_ x) (where_ n)).
  { induction z as [|z IH]; intros n x S E I; [destruct n; cbn in S; lia|]. destruct n as [k p t l]. cbn [nodes] in I. destruct I as [<-|I]; [unfold inside; lia|].
    apply in_concat in I. destruct I as [r [R I]]. apply in_map_iff in R. destruct R as [[f y] [<- R]].
    assert (J : In y (map snd l)) by (apply in_map_iff; exists (f, y); auto).
    apply (inside_trans _ (where_ y)).
    - apply (IH y); [|exact (everywhere_in _ _ _ _ _ _ E J)|exact I]. pose proof (in_sizes _ _ J). rewrite size_eq in S. lia.
    - apply (kid_inside (T k p t l)); [exact (everywhere_here _ _ E)|exact J]. }
  intros n x. exact (K (size n) n x (le_n _)).
Qed.
(** A name in [n] is somewhere in it. *)
Lemma name_within : forall n x, everywhere (tidy sp) n -> In x (nodes n) -> kind_of x = identifier \/ kind_of x = this ->
  fst (where_ n) <= fst (where_ x) /\ fst (where_ x) < snd (where_ x) /\ snd (where_ x) <= snd (where_ n).
Proof.
  intros n x E I K. pose proof (node_inside n x E I) as [A B]. pose proof (everywhere_here _ _ (everywhere_node _ _ _ E I)) as T.
  destruct x as [k p t l]. destruct T as (_ & _ & T & _). specialize (T K). cbn in *. lia.
Qed.
(** Lists of children. *)
Lemma FOP_impl : forall {A} (R Q : A -> A -> Prop) l, (forall a b, R a b -> Q a b) -> ForallOrdPairs R l -> ForallOrdPairs Q l.
Proof. intros A R Q l H F. induction F as [|a l F1 _ IH]; constructor; [|exact IH]. eapply Forall_impl; [|exact F1]. auto. Qed.
Lemma FOP_filter : forall {A} (R : A -> A -> Prop) f l, ForallOrdPairs R l -> ForallOrdPairs R (filter f l).
Proof.
  intros A R f l F. induction F as [|a l F1 _ IH]; cbn [filter]; [constructor|]. destruct (f a); [|exact IH]. constructor; [|exact IH].
  rewrite Forall_forall in *. intros x I. apply filter_In in I. apply F1. tauto.
Qed.
Lemma FOP_map : forall {A B} (g : A -> B) (R : B -> B -> Prop) l, ForallOrdPairs (fun a b => R (g a) (g b)) l -> ForallOrdPairs R (map g l).
Proof. intros A B g R l F. induction F as [|a l F1 _ IH]; cbn [map]; constructor; [|exact IH]. apply Forall_map. exact F1. Qed.
Lemma FOP_app : forall {A} (R : A -> A -> Prop) a b, ForallOrdPairs R a -> ForallOrdPairs R b -> (forall x y, In x a -> In y b -> R x y) -> ForallOrdPairs R (a ++ b).
Proof.
  intros A R a b Fa Fb H. induction Fa as [|x a F1 _ IH]; [exact Fb|]. cbn [app]. constructor.
  - apply Forall_app. split; [exact F1|]. apply Forall_forall. intros y I. apply H; [left; reflexivity|exact I].
  - apply IH. intros. apply H; [right|]; assumption.
Qed.
Definition apart' (a b : option string * ts) : Prop := apart (snd a) (snd b).
Lemma kids_apart : forall k p t l, tidy sp (T k p t l) -> ForallOrdPairs apart' l.
Proof. intros k p t l (_ & H & _). eapply FOP_impl; [|exact H]. unfold apart', apart. auto. Qed.
Lemma two_apart : forall k p t l f g x y, tidy sp (T k p t l) -> In (f, x) l -> In (g, y) l -> f <> g -> apart x y.
Proof.
  intros k p t l f g x y T I J N. destruct (ForallOrdPairs_In (kids_apart _ _ _ _ T) _ _ I J) as [H|[H|H]].
  - congruence.
  - exact H.
  - apply apart_sym. exact H.
Qed.
Lemma field_pair : forall {A} f (l : list (option string * A)) x, In x (fields f l) -> In (Some f, x) l.
Proof.
  intros A f l x H. unfold fields in H. apply in_map_iff in H. destruct H as [[g y] [E H]]. cbn in E. subst y. apply filter_In in H. destruct H as [H K].
  unfold has_field in K. cbn in K. destruct g as [g|]; [|discriminate]. apply String.eqb_eq in K. subst g. exact H.
Qed.
Lemma field_fields : forall {A} f (l : list (option string * A)) x, field f l = Some x -> In x (fields f l).
Proof. intros A f l x H. unfold field in H. destruct (fields f l); [discriminate|]. injection H as ->. left. reflexivity. Qed.
Lemma kid_of_kind : forall k l x, In x (of_kind k l) -> exists f, In (f, x) l /\ kind_of x = k.
Proof.
  intros k l x H. apply filter_In in H. destruct H as [H K]. apply in_map_iff in H. destruct H as [[f y] [E H]]. cbn in E. subst y. exists f.
  split; [exact H|]. unfold is_kind in K. destruct (kind_eq_dec (kind_of x) k); [assumption|discriminate].
Qed.

Variable s : state.
Definition source (j : nat) : option span := option_map sp (expr_source s j).
Definition drel (a : decl) (b : written_decl) : Prop := fst a = fst b /\ expr_source s (snd a) = Some (snd b).
Inductive fits (at_ : nat -> span) : ts -> stmt -> Prop :=
| Fits n x : at_ (stmt_id x) = where_ n -> is_block x = is_kind (kind_of n) block -> Forall2 drel (level x) (declares n) ->
    Forall2 (fits at_) (statements n) (parts x) -> fits at_ n x.
(** A statement of the body in its place. *)
Definition Qs (at_ : nat -> span) (n : ts) (x : stmt) : Prop :=
  at_ (stmt_id x) = where_ n /\ laid at_ source x /\ (everywhere complete n -> fits at_ n x).
Definition name_there (n : ts) (ps : list ts) (d : decl) : Prop :=
  exists y, (expr_source s (snd d)) = Some (ptr_of y) /\ within (fst (where_ y)) (where_ n) /\ Forall (fun z => outside (fst (where_ y)) (where_ z)) ps.

Lemma assemble : forall at_ n x ps, at_ (stmt_id x) = where_ n -> Forall2 (Qs at_) ps (parts x) ->
  match x with
  | SExpr e => forall r, source (expr_id e) = Some r -> inside r (where_ n)
  | SDecl _ l => source (stmt_id x) = Some (where_ n) /\ Forall (fun b => forall r, source (b_id b) = Some r -> inside r (where_ n)) l
  | _ => source (stmt_id x) = Some (where_ n)
  end ->
  Forall (fun y => (if is_block x then between else smaller) (where_ y) (where_ n)) ps -> ForallOrdPairs apart ps ->
  Forall (name_there n ps) (names x) -> laid at_ source x.
Proof.
  intros at_ n x ps A F O P D N. apply Laid.
  - rewrite A. destruct x; exact O.
  - rewrite A. clear - F P. induction F as [|y z l r [Q _] _ IH]; [constructor|]. inversion P as [|? ? Px Pl]; subst. constructor; [rewrite Q; exact Px|exact (IH Pl)].
  - clear - F D. induction F as [|y z l r [Q _] Fl IH]; [constructor|]. inversion D as [|? ? Dx Dl]; subst. constructor; [|exact (IH Dl)].
    clear - Q Fl Dx. induction Fl as [|y' z' l r [Q' _] _ IH]; [constructor|]. inversion Dx as [|? ? Dy Dl]; subst. constructor; [|exact (IH Dl)].
    rewrite Q, Q'. exact Dy.
  - rewrite A. eapply Forall_impl; [|exact N]. intros d [y [S [W O']]]. exists (where_ y). unfold source. rewrite S. split; [reflexivity|]. split; [exact W|].
    clear - F O'. induction F as [|u z l r [Q _] _ IH]; [constructor|]. inversion O' as [|? ? Px Pl]; subst. constructor; [rewrite Q; exact Px|exact (IH Pl)].
  - clear - F. induction F as [|u z l r [_ [Q _]] _ IH]; constructor; assumption.
Qed.
(** The names of an expression in the child [c] of [n]. *)
Lemma names_of : forall n c lo hi l k ps, everywhere (tidy sp) c -> inside (where_ c) (where_ n) -> (forall z, In z ps -> apart c z) ->
  G s c lo hi l -> Forall (name_there n ps) (flat_map (fun j => idents (to_expr k s j)) l).
Proof.
  intros n c lo hi l k ps T I A Gc. destruct (Gc k) as [H _]. rewrite flat_map_map in H. eapply Forall_impl; [|exact H].
  intros d (y & Y & Ky & _ & S). exists y. split; [exact S|]. pose proof (name_within c y T Y Ky) as W. unfold inside in I. split; [unfold within; lia|].
  apply Forall_forall. intros z Z. specialize (A z Z). unfold apart in A. unfold outside. lia.
Qed.
Lemma Qs_inside : forall at_ l r, Forall2 (Qs at_) l r -> Forall2 (fun n x => everywhere complete n -> fits at_ n x) l r.
Proof. intros at_ l r H. induction H as [|n x l r (_ & _ & Q) _ IH]; constructor; assumption. Qed.
Lemma Qs_fits : forall at_ l r, Forall2 (Qs at_) l r -> (forall n, In n l -> everywhere complete n) -> Forall2 (fits at_) l r.
Proof.
  intros at_ l r H K. induction H as [|n x l r (_ & _ & Q) _ IH]; constructor; [apply Q, K; left; reflexivity|]. apply IH. intros. apply K. right. assumption.
Qed.
Lemma fits_level : forall at_ n x, fits at_ n x -> Forall2 drel (level x) (declares n).
Proof. intros at_ n x H. destruct H. assumption. Qed.
Lemma fits_levels : forall at_ l r, Forall2 (fits at_) l r -> Forall2 drel (flat_map level r) (flat_map declares l).
Proof. intros at_ l r H. induction H as [|n x l r H _ IH]; cbn [flat_map]; [constructor|]. apply Forall2_app; [exact (fits_level _ _ _ H)|exact IH]. Qed.

(** What a node declares, by the statements in it. *)
Lemma sub_fields : forall f l, fields f (map (fun c => match c with (f, x) => (f, declares x) end) l) = map declares (fields f l).
Proof.
  intros f l. unfold fields. induction l as [|[g x] l IH]; [reflexivity|]. cbn [map filter].
  replace (has_field f (g, declares x)) with (has_field f (g, x)) by reflexivity. destruct (has_field f (g, x)); cbn [map snd]; [f_equal|]; exact IH.
Qed.
Lemma sub_field : forall f l, field f (map (fun c => match c with (f, x) => (f, declares x) end) l) = option_map declares (field f l).
Proof. intros f l. unfold field. rewrite sub_fields. destruct (fields f l); reflexivity. Qed.
Lemma concat_opt : forall {A B} (f : A -> list B) x, List.concat (opt (option_map f x)) = flat_map f (opt x).
Proof. intros A B f [x|]; reflexivity. Qed.
Lemma declares_parts : forall n, kind_of n <> block -> kind_of n <> variable_declaration_statement -> kind_of n <> old_variable_declaration_statement ->
  declares n = flat_map declares (statements n).
Proof.
  intros [k p t l] A B C. cbn [kind_of] in *. destruct k; try reflexivity; try congruence; cbn [declares statements]; rewrite ?sub_fields, ?sub_field, ?concat_opt, ?flat_map_app; try reflexivity.
  - rewrite !flat_map_concat_map. reflexivity.
  - unfold of_kind. clear. induction l as [|[f [k p t l']] l IH]; [reflexivity|]. cbn [flat_map map filter snd kind_of]. rewrite flat_map_app || idtac.
    unfold is_kind at 1. destruct k; cbn [kind_eq_dec]; try exact IH. destruct (kind_eq_dec switch_case switch_case) as [_|N]; [|congruence].
    cbn [flat_map kids_of]. rewrite flat_map_app, IH, sub_field, concat_opt. reflexivity.
Qed.
Lemma part_smaller : forall k p t l f x, tidy sp (T k p t l) -> has_keyword k = true -> In (Some f, x) l -> smaller (where_ x) (where_ (T k p t l)).
Proof.
  intros k p t l f x T St I. destruct T as (Ins & _ & _ & _ & Kw & _). specialize (Kw St). rewrite Forall_forall in Ins, Kw.
  specialize (Ins _ I). assert (D : fst (Some f, x) <> None) by (cbn; intros E; discriminate E).
  pose proof (Kw _ I (or_introl D)) as Kx. split; [exact Ins|]. left. exact Kx.
Qed.
Lemma case_smaller : forall p t l x, tidy sp (T switch_statement p t l) -> In x (of_kind switch_case l) ->
  inside (where_ x) (where_ (T switch_statement p t l)) /\ fst (where_ (T switch_statement p t l)) < fst (where_ x).
Proof.
  intros p t l x T I. destruct T as (Ins & _ & _ & _ & Kw & _). specialize (Kw eq_refl). rewrite Forall_forall in Ins, Kw.
  destruct (kid_of_kind _ _ _ I) as [f [J K]]. split; [exact (Ins _ J)|]. exact (Kw _ J (or_intror K)).
Qed.
Lemma Forall2_map_r : forall {A B C} (R : A -> C -> Prop) (f : B -> C) l r, Forall2 (fun a b => R a (f b)) l r -> Forall2 R l (map f r).
Proof. intros A B C R f l r H. induction H; constructor; assumption. Qed.
Lemma flat_has : forall {A B} (g : A -> option B) l, flat_map (fun c => opt (g c)) (filter (fun c => has (g c)) l) = flat_map (fun c => opt (g c)) l.
Proof. intros A B g l. induction l as [|x l IH]; [reflexivity|]. cbn. destruct (g x) eqn:E; cbn; rewrite ?E, IH; reflexivity. Qed.
Lemma flat_opt_in : forall {A B} (g : A -> option B) l y, In y (flat_map (fun c => opt (g c)) l) -> exists c, In c l /\ g c = Some y.
Proof. intros A B g l y H. apply in_flat_map in H. destruct H as [c [I J]]. exists c. split; [exact I|]. destruct (g c) as [z|]; [|destruct J]. destruct J as [->|[]]. reflexivity. Qed.
Lemma names_empty : forall n d, Forall (name_there n d) [].
Proof. constructor. Qed.

Theorem lowered_laid : forall z n, size n <= z -> everywhere (tidy sp) n -> forall i lo hi, lowered s n i lo hi -> forall k, i < k ->
  ex_at lo hi (fun at_ => Qs at_ n (to_stmt k s i)).
Proof.
  induction z as [|z IH]; intros n Sz Ty i lo hi H k K; [destruct n; cbn in Sz; lia|]. destruct k as [|k]; [lia|].
  pose proof (lowered_range _ _ _ _ _ H) as Rg.
  assert (IHk : forall x, In x (map snd (kids_of n)) -> forall j lo' hi', lowered s x j lo' hi' -> hi' <= i ->
    ex_at lo' hi' (fun at_ => Qs at_ x (to_stmt k s j))).
  { intros x J j lo' hi' L B. pose proof (lowered_range _ _ _ _ _ L). apply IH; [|exact (everywhere_kid _ _ _ Ty J)|exact L|lia].
    pose proof (in_sizes _ _ J). rewrite (size_kids n) in Sz. lia. }
  assert (IHg : forall y x, In y (map snd (kids_of n)) -> In x (map snd (kids_of y)) -> forall j lo' hi', lowered s x j lo' hi' -> hi' <= i ->
    ex_at lo' hi' (fun at_ => Qs at_ x (to_stmt k s j))).
  { intros y x J J' j lo' hi' L B. pose proof (lowered_range _ _ _ _ _ L). apply IH; [|exact (everywhere_kid _ y _ (everywhere_kid _ _ _ Ty J) J')|exact L|lia].
    pose proof (in_sizes _ _ J). pose proof (in_sizes _ _ J'). rewrite (size_kids n) in Sz. rewrite (size_kids y) in *. lia. }
  clear IH Sz. pose proof (everywhere_here _ _ Ty) as T0.
  assert (Tk : forall x, In x (map snd (kids_of n)) -> everywhere (tidy sp) x) by (intros x J; exact (everywhere_kid _ _ _ Ty J)).
  assert (Ins : forall x, In x (map snd (kids_of n)) -> inside (where_ x) (where_ n)) by (intros x J; exact (kid_inside n x T0 J)).
  destruct H as [n i lo hi O Gv F|p t l b is i lo hi Ch L E S|kd kd' p t l bs i lo hi Kd Ch L E S|p t l is nc c ni it nb b i lo m1 m2 m3 hi Ch Fc Gc L1 Fi Gi L2 Fb Lb L3 L E S
    |kd p t l nc c nb b i lo m hi Kd Fc Gc L1 Fb Lb L2 L E S|p t l nc c nt b f i lo m1 m2 hi Ch Fc Gc L1 Ft Lt L2 L E S|p t l nc c cs i lo m hi Ch Fc Gc L1 L E S]; cbn [kids_of] in *.
  - (* expression *) rewrite (to_stmt_flat k s i F). eapply ex_impl; [exact (ex_own i hi (where_ n) (proj2 Rg))|apply (proj1 Rg)|apply le_n|].
    cbv beta. intros at_ A. unfold Qs. cbn [stmt_id]. rewrite to_expr_id. split; [exact A|]. destruct Gv as (_ & Gv & _ & Sr). split.
    + apply (assemble at_ n _ []); cbn [stmt_id parts names is_block]; rewrite ?to_expr_id; [exact A|constructor| |constructor|constructor|].
      * intros r. unfold source. destruct (expr_source s i) as [q|] eqn:Q; [|discriminate]. intros R. injection R as <-. destruct (Sr q eq_refl) as [y [Y <-]].
        exact (node_inside n y Ty Y).
      * pose proof (names_of n n lo hi [i] k [] Ty) as N. cbn [flat_map] in N. rewrite app_nil_r in N. apply N; [unfold inside; lia|intros z0 []|exact Gv].
    + intros C. destruct O as [O|O]; [|exfalso; apply O, (everywhere_here _ _ C)].
      apply Fits; [cbn [stmt_id]; rewrite to_expr_id; exact A| | |]; destruct n as [kd p t l]; cbn [kind_of] in O; destruct kd; try discriminate O; try reflexivity; constructor.
  - (* block *) cbn [to_stmt]. rewrite E. set (ks := filter (fun x => negb (is_brace (kind_of x))) (map snd l)) in *.
    assert (Kid : forall x, In x ks -> In x (map snd l)) by (intros x I; apply filter_In in I; tauto).
    eapply ex_impl; [apply (ex_pair lo i hi _ _ (ex_chain (lowered s) (fun at_ a j => Qs at_ a (to_stmt k s j)) _ _ _ _ Ch
      (fun a j lo' m I M R => IHk a (Kid a I) _ _ _ R M)) (ex_own i hi (where_ (T block p t l)) L)); lia|apply le_n|apply le_n|].
    cbv beta. intros at_ [Fk A]. apply (Forall2_map_r (Qs at_)) in Fk. unfold Qs at 1. cbn [stmt_id]. split; [exact A|]. split.
    + apply (assemble at_ (T block p t l) _ ks); cbn [stmt_id parts names is_block]; [exact A|exact Fk| | | |apply names_empty].
      * unfold source. rewrite S. reflexivity.
      * apply Forall_forall. intros y I. pose proof I as J. apply filter_In in J. destruct J as [J1 J2]. destruct T0 as (_ & _ & _ & Tb & _).
        specialize (Tb eq_refl). rewrite Forall_forall in Tb. apply in_map_iff in J1. destruct J1 as [c [<- J1]]. apply (Tb c J1).
        destruct (is_brace (kind_of (snd c))); [discriminate|reflexivity].
      * apply FOP_filter, FOP_map. exact (kids_apart _ _ _ _ T0).
    + intros C. apply Fits; [exact A|reflexivity|constructor|]. cbn [statements parts]. fold ks. apply Qs_fits; [exact Fk|].
      intros y I. exact (everywhere_in _ _ _ _ _ _ C (Kid y I)).
  - (* declaration *) cbn [to_stmt]. rewrite E. set (cs := filter (fun c => has (field "name" (kids_of c))) (of_kind kd' l)) in *.
    assert (Kid : forall x, In x cs -> In x (map snd l)) by (intros x I; apply filter_In in I; exact (of_kind_in _ _ _ (proj1 I))).
    pose proof (chain_le _ _ _ _ _ Ch) as L0.
    eapply ex_impl; [exact (ex_own i hi (where_ (T kd p t l)) L)|exact L0|apply le_n|].
    cbv beta. intros at_ A. unfold Qs. cbn [stmt_id]. split; [exact A|].
    assert (B : forall j, In j bs -> exists c nm q ty x lo' hi', In c cs /\ field "name" (kids_of c) = Some nm /\ nth j (exprs s) EMissing = EBinding q ty x /\
       nth q (LowerModel.idents s) "" = text_of nm /\ expr_source s j = Some (ptr_of c) /\ G s c lo' hi' (opt x)).
    { clear - Ch. induction Ch as [|a b0 l0 r0 lo0 lo1 m hi0 K1 K2 K3 K4 IH]; intros j J; [destruct J|]. destruct J as [<-|J].
      - destruct K3 as (nm & q & ty & x & N & R & Eb & Ei & Es & Gx). exists a, nm, q, ty, x, lo1, b0. split; [left; reflexivity|]. auto.
      - destruct (IH j J) as (c & nm & q & ty & x & lo' & hi' & I & R). exists c, nm, q, ty, x, lo', hi'. split; [right; exact I|exact R]. }
    split.
    + apply (assemble at_ (T kd p t l) _ []); cbn [stmt_id parts names is_block]; [exact A|constructor| |constructor|constructor|].
      * unfold source. rewrite S. split; [reflexivity|]. apply Forall_map, Forall_forall. intros j J r. rewrite b_id_of.
        destruct (B j J) as (c & nm & q & ty & x & lo' & hi' & I & _ & _ & _ & Es & _). rewrite Es. cbn [option_map]. intros R. injection R as <-.
        exact (Ins c (Kid c I)).
      * rewrite flat_map_map. apply Forall_forall. intros d D. apply in_flat_map in D. destruct D as [j [J D]].
        destruct (B j J) as (c & nm & q & ty & x & lo' & hi' & I & _ & Eb & _ & _ & Gx). unfold to_binding in D. rewrite Eb in D. cbn [b_init] in D.
        pose proof (names_of (T kd p t l) c lo' hi' (opt x) k [] (Tk c (Kid c I)) (Ins c (Kid c I)) (fun z0 (F : In z0 []) => match F with end) Gx) as N.
        rewrite Forall_forall in N. apply N. destruct x as [x|]; [|destruct D]. cbn in *. rewrite app_nil_r. exact D.
    + intros C.
      assert (Lv : Forall2 drel (map (fun b => (b_name b, b_id b)) (map (to_binding k s) bs)) (flat_map declared_name (of_kind kd' l))).
      { assert (Ef : flat_map declared_name (of_kind kd' l) = flat_map declared_name cs).
        { unfold cs. clear. induction (of_kind kd' l) as [|x r IH]; [reflexivity|]. cbn [flat_map filter]. unfold declared_name at 1.
          destruct (field "name" (kids_of x)) eqn:N; cbn [has]; [|exact IH]. cbn [flat_map]. unfold declared_name at 2. rewrite N, IH. reflexivity. }
        rewrite Ef. clear - Ch. induction Ch as [|a b0 l0 r0 lo0 lo1 m hi0 K1 K2 K3 K4 IH]; [constructor|].
        destruct K3 as (nm & q & ty & x & N & R & Eb & Ei & Es & Gx). cbn [map flat_map]. unfold declared_name at 1. rewrite N. cbn [app]. constructor; [|exact IH].
        unfold to_binding. rewrite Eb. split; [exact Ei|exact Es]. }
      destruct Kd as [[-> ->]|[-> ->]]; (apply Fits; [exact A|reflexivity|exact Lv|constructor]).
  - (* for *) cbn [to_stmt]. rewrite E. pose proof (chain_le _ _ _ _ _ Ch) as L0.
    assert (Kid : forall x, In x (fields "initialization" l) -> In x (map snd l)) by (intros x I; exact (fields_in _ _ _ I)).
    pose proof (field_in _ _ _ Fb) as Ib. pose proof (field_in _ _ _ Fc) as Ic. pose proof (field_in _ _ _ Fi) as Ii.
    assert (Rb : In (Some "body", nb) l) by (apply field_pair, field_fields; exact Fb).
    assert (Rc : In (Some "condition", nc) l) by (apply field_pair, field_fields; exact Fc).
    assert (Ri : In (Some "iteration", ni) l) by (apply field_pair, field_fields; exact Fi).
    eapply ex_impl; [apply (ex_pair lo m3 hi); [eapply ex_impl; [apply (ex_chain (lowered s) (fun at_ a j => Qs at_ a (to_stmt k s j)) _ _ _ _ Ch)|apply le_n| |intros at_ Q; exact Q]
      |apply (ex_pair m3 i hi _ _ (IHk nb Ib _ _ _ Lb (le_n _)) (ex_own i hi (where_ (T for_statement p t l)) L))|..]|..]; try lia.
    { intros a j lo' m I M R. apply (IHk a (Kid a I) _ _ _ R). lia. }
    cbv beta. intros at_ [Fk [Qb A]]. apply (Forall2_map_r (Qs at_)) in Fk. unfold Qs at 1. cbn [stmt_id]. split; [exact A|].
    set (ps := fields "initialization" l ++ [nb]).
    assert (Fp : Forall2 (Qs at_) ps (map (to_stmt k s) is ++ [to_stmt k s b])).
    { apply Forall2_app; [exact Fk|]. constructor; [exact Qb|constructor]. }
    assert (Pp : forall y, In y ps -> exists f, (f = "initialization" \/ f = "body") /\ In (Some f, y) l).
    { intros y I. apply in_app_or in I. destruct I as [I|[<-|[]]]; [exists "initialization"|exists "body"]; (split; [tauto|]); [exact (field_pair _ _ _ I)|exact Rb]. }
    split.
    + apply (assemble at_ (T for_statement p t l) _ ps); cbn [stmt_id parts names is_block]; [exact A|exact Fp| | | |].
      * unfold source. rewrite S. reflexivity.
      * apply Forall_forall. intros y I. destruct (Pp y I) as [f [_ J]]. exact (part_smaller _ _ _ _ _ _ T0 eq_refl J).
      * apply FOP_app; [apply FOP_map, FOP_filter; exact (kids_apart _ _ _ _ T0)|repeat constructor|].
        intros x y I [<-|[]]. apply (two_apart _ _ _ _ (Some "initialization") (Some "body") _ _ T0); [exact (field_pair _ _ _ I)|exact Rb|discriminate].
      * apply Forall_app. split.
        -- pose proof (names_of (T for_statement p t l) nc m1 m2 [c] k ps (Tk _ Ic) (Ins _ Ic)) as N. cbn [flat_map] in N. rewrite app_nil_r in N. apply (fun H => N H Gc).
           intros y I. destruct (Pp y I) as [f [F J]]. apply (two_apart _ _ _ _ _ _ _ _ T0 Rc J). destruct F as [-> | ->]; discriminate.
        -- pose proof (names_of (T for_statement p t l) ni m2 m3 (opt it) k ps (Tk _ Ii) (Ins _ Ii)) as N. rewrite opt_flat, opt_map, flat_map_map. apply (fun H => N H Gi).
           intros y I. destruct (Pp y I) as [f [F J]]. apply (two_apart _ _ _ _ _ _ _ _ T0 Ri J). destruct F as [-> | ->]; discriminate.
    + intros C. assert (Fs : Forall2 (fits at_) ps (map (to_stmt k s) is ++ [to_stmt k s b])).
      { apply Qs_fits; [exact Fp|]. intros y I. destruct (Pp y I) as [f [_ J]]. apply (everywhere_in _ _ _ _ _ _ C). apply in_map_iff. exists (Some f, y). auto. }
      assert (Sp : statements (T for_statement p t l) = ps) by (cbn [statements]; rewrite Fb; reflexivity).
      apply Fits; [exact A|reflexivity| |rewrite Sp; exact Fs]. rewrite declares_parts by discriminate. rewrite Sp. apply fits_levels in Fs. rewrite flat_map_app in Fs.
      cbn [flat_map] in Fs. rewrite app_nil_r in Fs. exact Fs.
  - (* while *) cbn [to_stmt]. rewrite E. pose proof (field_in _ _ _ Fb) as Ib. pose proof (field_in _ _ _ Fc) as Ic.
    assert (Rb : In (Some "body", nb) l) by (apply field_pair, field_fields; exact Fb).
    assert (Rc : In (Some "condition", nc) l) by (apply field_pair, field_fields; exact Fc).
    assert (St : has_keyword kd = true /\ kd <> block /\ kd <> variable_declaration_statement /\ kd <> old_variable_declaration_statement /\ is_kind kd block = false) by (destruct Kd as [-> | ->]; repeat split; discriminate).
    destruct St as (St & Nb & Nv & No & Nk).
    eapply ex_impl; [exact (ex_pair m i hi _ _ (IHk nb Ib _ _ _ Lb (le_n _)) (ex_own i hi (where_ (T kd p t l)) L) L2 (Nat.lt_le_incl _ _ L))|exact L1|apply le_n|].
    cbv beta. intros at_ [Qb A]. unfold Qs at 1. cbn [stmt_id map option_map]. split; [exact A|].
    assert (Fp : Forall2 (Qs at_) [nb] [to_stmt k s b]) by (constructor; [exact Qb|constructor]).
    split.
    + apply (assemble at_ (T kd p t l) _ [nb]); cbn [stmt_id parts names is_block app]; [exact A|exact Fp| | |repeat constructor|].
      * unfold source. rewrite S. reflexivity.
      * constructor; [|constructor]. exact (part_smaller _ _ _ _ _ _ T0 St Rb).
      * rewrite app_nil_r. pose proof (names_of (T kd p t l) nc lo m [c] k [nb] (Tk _ Ic) (Ins _ Ic)) as N. cbn [flat_map] in N. rewrite app_nil_r in N. apply (fun H => N H Gc).
        intros y [<-|[]]. apply (two_apart _ _ _ _ _ _ _ _ T0 Rc Rb). discriminate.
    + intros C. assert (Fs : Forall2 (fits at_) [nb] [to_stmt k s b]).
      { apply Qs_fits; [exact Fp|]. intros y [<-|[]]. exact (everywhere_in _ _ _ _ _ _ C Ib). }
      assert (Sp : statements (T kd p t l) = [nb]) by (destruct Kd as [-> | ->]; cbn [statements]; rewrite Fb; reflexivity).
      apply Fits; [exact A|cbn; symmetry; exact Nk| |rewrite Sp; exact Fs]. rewrite declares_parts by assumption. rewrite Sp. apply fits_levels in Fs.
      cbn [flat_map] in *. rewrite !app_nil_r in *. exact Fs.
  - (* if *) cbn [to_stmt]. rewrite E. pose proof (chain_le _ _ _ _ _ Ch) as L0. pose proof (field_in _ _ _ Ft) as It. pose proof (field_in _ _ _ Fc) as Ic.
    assert (Rt : In (Some "truePath", nt) l) by (apply field_pair, field_fields; exact Ft).
    assert (Rc : In (Some "condition", nc) l) by (apply field_pair, field_fields; exact Fc).
    assert (Rf : forall x, In x (opt (field "falsePath" l)) -> In (Some "falsePath", x) l).
    { intros x I. destruct (field "falsePath" l) as [y|] eqn:Y; [|destruct I]. destruct I as [<-|[]]. apply field_pair, field_fields. exact Y. }
    assert (Kid : forall x, In x (opt (field "falsePath" l)) -> In x (map snd l)).
    { intros x I. apply in_map_iff. exists (Some "falsePath", x). auto. }
    eapply ex_impl; [apply (ex_pair lo m2 hi); [eapply ex_impl; [apply (ex_chain (lowered s) (fun at_ a j => Qs at_ a (to_stmt k s j)) _ _ _ _ Ch)|apply le_n| |intros at_ Q; exact Q]
      |apply (ex_pair m2 i hi _ _ (IHk nt It _ _ _ Lt (le_n _)) (ex_own i hi (where_ (T condition_statement p t l)) L))|..]|..]; try lia.
    { intros a j lo' m I M R. apply (IHk a (Kid a I) _ _ _ R). lia. }
    cbv beta. intros at_ [Fk [Qb A]]. apply (Forall2_map_r (Qs at_)) in Fk. rewrite <- opt_map in Fk. unfold Qs at 1. cbn [stmt_id]. split; [exact A|].
    set (ps := nt :: opt (field "falsePath" l)).
    assert (Fp : Forall2 (Qs at_) ps (to_stmt k s b :: opt (option_map (to_stmt k s) f))) by (constructor; assumption).
    assert (Pp : forall y, In y ps -> exists g, (g = "truePath" \/ g = "falsePath") /\ In (Some g, y) l).
    { intros y [<-|I]; [exists "truePath"|exists "falsePath"]; (split; [tauto|]); [exact Rt|exact (Rf y I)]. }
    assert (Eo : match option_map (to_stmt k s) f with Some y => [y] | None => [] end = opt (option_map (to_stmt k s) f)) by reflexivity.
    split.
    + apply (assemble at_ (T condition_statement p t l) _ ps); cbn [stmt_id parts names is_block]; [exact A|exact Fp| | | |].
      * unfold source. rewrite S. reflexivity.
      * apply Forall_forall. intros y I. destruct (Pp y I) as [g [_ J]]. exact (part_smaller _ _ _ _ _ _ T0 eq_refl J).
      * constructor.
        -- apply Forall_forall. intros y I. apply (two_apart _ _ _ _ (Some "truePath") (Some "falsePath") _ _ T0); [exact Rt|exact (Rf y I)|discriminate].
        -- destruct (field "falsePath" l); repeat constructor.
      * pose proof (names_of (T condition_statement p t l) nc m1 m2 [c] k ps (Tk _ Ic) (Ins _ Ic)) as N. cbn [flat_map] in N. rewrite app_nil_r in N. apply (fun H => N H Gc).
        intros y I. destruct (Pp y I) as [g [F J]]. apply (two_apart _ _ _ _ _ _ _ _ T0 Rc J). destruct F as [-> | ->]; discriminate.
    + intros C. assert (Fs : Forall2 (fits at_) ps (to_stmt k s b :: opt (option_map (to_stmt k s) f))).
      { apply Qs_fits; [exact Fp|]. intros y I. destruct (Pp y I) as [g [_ J]]. apply (everywhere_in _ _ _ _ _ _ C). apply in_map_iff. exists (Some g, y). auto. }
      assert (Sp : statements (T condition_statement p t l) = ps) by (cbn [statements]; rewrite Ft; reflexivity).
      apply Fits; [exact A|reflexivity| |rewrite Sp; exact Fs]. rewrite declares_parts by discriminate. rewrite Sp. apply fits_levels in Fs. cbn [flat_map] in Fs.
      cbn [level]. rewrite opt_flat. exact Fs.
  - (* switch *) cbn [to_stmt]. rewrite E. pose proof (chain_le _ _ _ _ _ Ch) as L0. pose proof (field_in _ _ _ Fc) as Ic.
    assert (Rc : In (Some "condition", nc) l) by (apply field_pair, field_fields; exact Fc).
    set (cn := filter (fun x => has (field "body" (kids_of x))) (of_kind switch_case l)) in *.
    assert (Kc : forall x, In x cn -> In x (of_kind switch_case l)) by (intros x I; apply filter_In in I; tauto).
    assert (Kid : forall x, In x cn -> In x (map snd l)) by (intros x I; exact (of_kind_in _ _ _ (Kc x I))).
    set (Qc := fun at_ x (y : list nat * nat) => exists nb lo' hi', field "body" (kids_of x) = Some nb /\ chain (fun v j lo hi => G s v lo hi [j]) (fields "value" (kids_of x)) (fst y) lo' hi' /\ Qs at_ nb (to_stmt k s (snd y))).
    eapply ex_impl; [apply (ex_pair lo m hi); [apply (ex_chain _ Qc _ _ _ _ Ch)|eapply ex_impl; [exact (ex_own i hi (where_ (T switch_statement p t l)) L)|exact L1|apply le_n|intros at_ Q; exact Q]|..]|..]; try lia.
    { intros a [vs j] lo' m' I M (nb & m0 & Fb & Gv & Lm & R). pose proof (lowered_range _ _ _ _ _ R) as Rr. cbn [fst snd] in *.
      eapply ex_impl; [apply (IHg a nb (Kid a I) (field_in _ _ _ Fb) _ _ _ R); lia|exact Lm|apply le_n|]. cbv beta. intros at_ Q. exists nb, lo', m0. auto. }
    cbv beta. intros at_ [Fk A]. unfold Qs at 1. cbn [stmt_id]. split; [exact A|].
    set (ps := flat_map (fun c => opt (field "body" (kids_of c))) cn).
    assert (Fp : Forall2 (Qs at_) ps (map snd (map (fun x => (map (to_expr k s) (fst x), to_stmt k s (snd x))) cs))).
    { unfold ps. clear - Fk. induction Fk as [|x y l0 r0 (nb & lo' & hi' & Fb & _ & Q) _ IH]; [constructor|]. cbn [map flat_map snd]. rewrite Fb. constructor; [exact Q|exact IH]. }
    assert (Pp : forall y, In y ps -> exists x, In x cn /\ field "body" (kids_of x) = Some y) by (intros y I; exact (flat_opt_in _ _ _ I)).
    assert (Tc : forall x y, In x cn -> field "body" (kids_of x) = Some y -> inside (where_ y) (where_ x)).
    { intros x y I Fb. exact (kid_inside x y (everywhere_here _ _ (Tk x (Kid x I))) (field_in _ _ _ Fb)). }
    assert (Ac : ForallOrdPairs apart cn).
    { apply FOP_filter. unfold of_kind. apply FOP_filter, FOP_map. exact (kids_apart _ _ _ _ T0). }
    split.
    + apply (assemble at_ (T switch_statement p t l) _ ps); cbn [stmt_id parts names is_block]; [exact A|exact Fp| | | |].
      * unfold source. rewrite S. reflexivity.
      * apply Forall_forall. intros y I. destruct (Pp y I) as [x [J Fb]]. destruct (case_smaller p t l x T0 (Kc x J)) as [S1 S2]. pose proof (Tc x y J Fb) as S3.
        unfold smaller, inside in *. split; [lia|]. left. lia.
      * unfold ps. clear - Ac Tc. induction Ac as [|x l0 F1 _ IH]; [constructor|]. cbn [flat_map]. apply FOP_app.
        -- destruct (field "body" (kids_of x)); repeat constructor.
        -- apply IH. intros. apply Tc; [right|]; assumption.
        -- intros u v U V. destruct (field "body" (kids_of x)) as [u'|] eqn:Fu; [|destruct U]. destruct U as [<-|[]].
           destruct (flat_opt_in _ _ _ V) as [w [W Fv]]. rewrite Forall_forall in F1. specialize (F1 w W). pose proof (Tc x u' (or_introl eq_refl) Fu) as S1.
           pose proof (Tc w v (or_intror W) Fv) as S2. unfold apart, inside in *. lia.
      * apply Forall_app. split.
        -- pose proof (names_of (T switch_statement p t l) nc m i [c] k ps (Tk _ Ic) (Ins _ Ic)) as N. cbn [flat_map] in N. rewrite app_nil_r in N. apply (fun H => N H Gc).
           intros y I. destruct (Pp y I) as [x [J Fb]]. pose proof (Tc x y J Fb) as S1. destruct (kid_of_kind _ _ _ (Kc x J)) as [f [Jf Kf]].
           destruct (ForallOrdPairs_In (kids_apart _ _ _ _ T0) _ _ Rc Jf) as [H|Q].
           ++ injection H as Hf H. subst nc. exfalso. destruct T0 as (_ & _ & _ & _ & _ & _ & T0). specialize (T0 eq_refl). rewrite Forall_forall in T0.
              exact (T0 _ Jf Kf (eq_sym Hf)).
           ++ unfold apart', apart, inside in *. cbn [snd] in Q. lia.
        -- rewrite flat_map_map. apply Forall_forall. intros d D. apply in_flat_map in D. destruct D as [y [Y D]]. cbn [fst] in D. rewrite flat_map_map in D.
           assert (X : exists x nb lo' hi', In x cn /\ field "body" (kids_of x) = Some nb /\ chain (fun v j lo hi => G s v lo hi [j]) (fields "value" (kids_of x)) (fst y) lo' hi').
           { clear - Fk Y. induction Fk as [|x z l0 r0 (nb & lo' & hi' & Fb & Gx & _) _ IH]; [destruct Y|]. destruct Y as [->|Y].
             - exists x, nb, lo', hi'. split; [left; reflexivity|auto].
             - destruct (IH Y) as (x0 & nb0 & lo0 & hi0 & I & R). exists x0, nb0, lo0, hi0. split; [right; exact I|exact R]. }
           destruct X as (x & nb & lo' & hi' & Ix & Fb & Gx). apply in_flat_map in D. destruct D as [j [J D]].
           assert (V : exists v lo1 hi1, In v (fields "value" (kids_of x)) /\ G s v lo1 hi1 [j]).
           { clear - Gx J. induction Gx as [|v b0 l0 r0 lo0 lo1 m hi0 _ _ Gv _ IH]; [destruct J|]. destruct J as [->|J].
             - exists v, lo1, m. split; [left; reflexivity|exact Gv].
             - destruct (IH J) as (v' & lo2 & hi2 & I & R). exists v', lo2, hi2. split; [right; exact I|exact R]. }
           destruct V as (v & lo1 & hi1 & Iv & Gv). pose proof (Tk x (Kid x Ix)) as Tx. pose proof (fields_in _ _ _ Iv) as Kv.
           pose proof (kid_inside x v (everywhere_here _ _ Tx) Kv) as Vx.
           pose proof (names_of (T switch_statement p t l) v lo1 hi1 [j] k ps (everywhere_kid _ _ _ Tx Kv) (inside_trans _ _ _ Vx (Ins x (Kid x Ix)))) as N.
           cbn [flat_map] in N. rewrite app_nil_r in N. refine (proj1 (Forall_forall _ _) (N _ Gv) d D). clear N.
           intros w W. destruct (Pp w W) as [u [U Fu]]. destruct (ForallOrdPairs_In Ac _ _ Ix U) as [H|Q].
           ++ subst u. rewrite Fb in Fu. injection Fu as <-. destruct x as [xk xp xt xl]. cbn [kids_of] in *.
              apply (two_apart _ _ _ _ (Some "value") (Some "body") _ _ (everywhere_here _ _ Tx)); [exact (field_pair _ _ _ Iv)|exact (field_pair _ _ _ (field_fields _ _ _ Fb))|discriminate].
           ++ pose proof (Tc u w U Fu) as S1. unfold apart, inside in *. lia.
    + intros C. assert (Fs : Forall2 (fits at_) ps (map snd (map (fun x => (map (to_expr k s) (fst x), to_stmt k s (snd x))) cs))).
      { apply Qs_fits; [exact Fp|]. intros y I. destruct (Pp y I) as [x [J Fb]].
        exact (everywhere_kid _ x _ (everywhere_in _ _ _ _ _ _ C (Kid x J)) (field_in _ _ _ Fb)). }
      assert (Sp : statements (T switch_statement p t l) = ps).
      { cbn [statements]. unfold ps, cn. symmetry. apply (flat_has (fun c => field "body" (kids_of c))). }
      apply Fits; [exact A|reflexivity| |rewrite Sp; exact Fs]. rewrite declares_parts by discriminate. rewrite Sp. apply fits_levels in Fs. rewrite !flat_map_map in Fs.
      cbn [snd] in Fs. cbn [level]. rewrite flat_map_map. exact Fs.
Qed.

(** What is around a place of the text is around it in the body. *)
Lemma in_Forall2 : forall {A B} (R : A -> B -> Prop) l r x, Forall2 R l r -> In x l -> exists y, In y r /\ R x y.
Proof.
  intros A B R l r x H. induction H as [|a b l r H _ IH]; intros I; [destruct I|]. destruct I as [<-|I].
  - exists b. split; [left; reflexivity|exact H].
  - destruct (IH I) as [y [J K]]. exists y. split; [right; exact J|exact K].
Qed.
Lemma in_Forall2_r : forall {A B} (R : A -> B -> Prop) l r y, Forall2 R l r -> In y r -> exists x, In x l /\ R x y.
Proof.
  intros A B R l r y H. induction H as [|a b l r H _ IH]; intros I; [destruct I|]. destruct I as [<-|I].
  - exists a. split; [left; reflexivity|exact H].
  - destruct (IH I) as [x [J K]]. exists x. split; [right; exact J|exact K].
Qed.
Lemma fits_enter : forall at_ n x hd d, fits at_ n x -> Forall2 (Forall2 drel) hd d -> Forall2 (Forall2 drel) (enter_decls x hd) (enters n d).
Proof.
  intros at_ n x hd d H F. destruct H as [n x A B L P]. unfold enters. rewrite <- B. destruct x; cbn [is_block enter_decls]; try exact F.
  constructor; [|exact F]. exact (fits_levels _ _ _ P).
Qed.
Lemma fits_stands : forall at_ p d n d', around sp p d n d' -> forall x bl hd, fits at_ n x -> Forall2 (Forall2 drel) hd d ->
  exists bl' hd', stands at_ p bl hd x bl' hd' /\ Forall2 (Forall2 drel) hd' d'.
Proof.
  intros at_ p d n d' H. induction H as [d n W Bk O|d n y d' I _ IH]; intros x bl hd F R.
  - exists (enter x bl), (enter_decls x hd). split; [|exact (fits_enter _ _ _ _ _ F R)]. destruct F as [n x A B L P]. apply stands_own.
    + rewrite A. exact W.
    + intros K. rewrite A. apply Bk. rewrite B in K. unfold is_kind in K. destruct (kind_eq_dec (kind_of n) block); [assumption|discriminate].
    + clear - O P. induction P as [|y z l r H _ IH]; [constructor|]. inversion O as [|? ? Ox Ol]; subst. constructor; [|exact (IH Ol)]. destruct H as [y z A _ _ _].
      rewrite A. exact Ox.
  - pose proof F as F'. destruct F as [n x A B L P]. destruct (in_Forall2 _ _ _ _ P I) as [z [J Fz]].
    destruct (IH z (enter x bl) (enter_decls x hd) Fz (fits_enter _ _ _ _ _ F' R)) as (bl' & hd' & S & R'). exists bl', hd'. split; [|exact R'].
    exact (stands_part _ _ _ _ _ _ _ _ J S).
Qed.
Lemma fits_block : forall at_ x i l, block_of x i l -> forall n, fits at_ n x ->
  exists b, has_block n b /\ where_ b = at_ i /\ Forall2 drel (flat_map level l) (flat_map declares (statements b)).
Proof.
  intros at_ x i l H. induction H as [i l|x y i l I _ IH]; intros n F.
  - inversion F as [? ? A B L P]; subst. exists n. split; [|split; [symmetry; exact A|exact (fits_levels _ _ _ P)]]. apply has_here.
    cbn in B. unfold is_kind in B. destruct (kind_eq_dec (kind_of n) block); [assumption|discriminate].
  - destruct F as [n x A B L P]. destruct (in_Forall2_r _ _ _ _ P I) as [z [J Fz]]. destruct (IH z Fz) as (b & Hb & R). exists b. split; [|exact R].
    exact (has_part _ _ _ J Hb).
Qed.
Lemma drel_name : forall x h d, Forall2 drel h d -> In x (map fst h) -> In x (map fst d).
Proof.
  intros x h d H I. apply in_map_iff in I. destruct I as [a [<- I]]. destruct (in_Forall2 _ _ _ _ H I) as [b [J [E _]]]. rewrite E. apply in_map. exact J.
Qed.
Lemma fits_closed : forall at_ n x p y, fits at_ n x -> declared_just_before at_ x p y -> just_closed sp n p y.
Proof.
  intros at_ n x p y F (i & l & Bo & En & I). destruct (fits_block _ _ _ _ Bo n F) as (b & Hb & W & R). exists b. split; [exact Hb|]. split; [rewrite W; exact En|].
  exact (drel_name _ _ _ R I).
Qed.
Lemma Forall2_rev : forall {A B} (R : A -> B -> Prop) l r, Forall2 R l r -> Forall2 R (rev l) (rev r).
Proof. intros A B R l r H. induction H as [|a b l r H _ IH]; [constructor|]. cbn. apply Forall2_app; [exact IH|]. constructor; [exact H|constructor]. Qed.
Lemma drel_assoc : forall x h d, Forall2 drel h d ->
  match assoc x d with Some q => exists j, assoc x h = Some j /\ expr_source s j = Some q | None => assoc x h = None end.
Proof.
  intros x h d H. induction H as [|[a j] [b q] h d [E1 E2] _ IH]; [reflexivity|]. cbn [fst snd] in *. subst a. cbn [assoc]. destruct (String.eqb b x); [|exact IH].
  exists j. auto.
Qed.
Lemma drel_levels : forall h d hp dp, Forall2 (Forall2 drel) h d -> Forall2 drel hp dp ->
  Forall2 drel (List.concat (map (@rev _) h) ++ rev hp) (List.concat (map (@rev _) d) ++ rev dp).
Proof.
  intros h d hp dp H P. apply Forall2_app; [|apply Forall2_rev; exact P]. induction H as [|a b h d H _ IH]; [constructor|]. cbn. apply Forall2_app; [|exact IH].
  apply Forall2_rev. exact H.
Qed.

Lemma statement_size : forall n y, In y (statements n) -> size y < size n.
Proof.
  intros [k p t l] y I. assert (D : forall x, In x (map snd l) -> size x < size (T k p t l)) by (intros x J; pose proof (in_sizes _ _ J); rewrite size_eq; lia).
  assert (Fd : forall f x, In x (opt (field f l)) -> In x (map snd l)).
  { intros f x J. destruct (field f l) as [w|] eqn:E; [|destruct J]. destruct J as [<-|[]]. exact (field_in _ _ _ E). }
  destruct k; cbn [statements] in I; try (destruct I; fail).
  - apply D. apply filter_In in I. tauto.
  - apply D. apply in_app_or in I. destruct I as [I|I]; [exact (fields_in _ _ _ I)|exact (Fd _ _ I)].
  - exact (D _ (Fd _ _ I)).
  - exact (D _ (Fd _ _ I)).
  - apply D. apply in_app_or in I. destruct I as [I|I]; exact (Fd _ _ I).
  - destruct (flat_opt_in _ _ _ I) as [c [J Fb]]. specialize (D c (of_kind_in _ _ _ J)). pose proof (in_sizes _ _ (field_in _ _ _ Fb)). rewrite (size_kids c) in D. lia.
Qed.
(** There is something around each place in a block that no block begins at. *)
Lemma somewhere : forall z n p d, size n <= z -> within p (where_ n) -> (forall b, has_block n b -> fst (where_ b) <> p) -> exists d', around sp p d n d'.
Proof.
  induction z as [|z IH]; intros n p d Sz W B; [destruct n; cbn in Sz; lia|].
  assert (K : (exists y, In y (statements n) /\ within p (where_ y)) \/ Forall (fun y => outside p (where_ y)) (statements n)).
  { induction (statements n) as [|y l IHl]; [right; constructor|].
    destruct (le_lt_dec (fst (where_ y)) p) as [L1|L1]; [destruct (le_lt_dec (snd (where_ y)) p) as [L2|L2]|].
    2:{ left. exists y. split; [left; reflexivity|]. split; assumption. }
    all: (destruct IHl as [[w [I Q]]|Q]; [left; exists w; split; [right; exact I|exact Q]|right; constructor; [unfold outside; lia|exact Q]]). }
  destruct K as [[y [I Wy]]|O].
  - destruct (IH y p (enters n d)) as [d' A].
    + pose proof (statement_size n y I). lia.
    + exact Wy.
    + intros b Hb. apply B. exact (has_part _ _ _ I Hb).
    + exists d'. exact (around_part _ _ _ _ _ _ I A).
  - exists (enters n d). apply around_own; [exact W| |exact O]. intros Kb. destruct W as [W _]. specialize (B n (has_here _ Kb)). lia.
Qed.
End layout.

(** ** Parameters *)
Lemma param_does : forall e c st st', everywhere holds_expression c -> fresh st -> collect_parameter e (annotate e c) st = Ret tt st' ->
  fresh st' /\ grows st st' /\ exists r, params st' = params st ++ r /\
    forall s, grows st' s -> Forall2 (drel s) (map (fun x => (nth (fst x) (LowerModel.idents s) "", snd x)) r) (declared_name c).
Proof.
  intros e c st st' H F E. unfold collect_parameter, bind in E. destruct (collect_binding (type_of e (nptr (annotate e c))) (annotate e c) st) as [|b s1] eqn:Eb; [discriminate|].
  pose proof (keeps_binding e _ _ _ _ _ Eb) as Kp. destruct (low_binding e _ c H _ _ _ F Eb) as [F1 [G1 K1]].
  destruct b as [[k j]|].
  - injection E as <-. assert (G2 : grows s1 (State (exprs s1) (LowerModel.idents s1) (params s1 ++ [(k, j)]) (expr_map_back s1) (expr_map s1))) by exact (grows_refl s1).
    split; [exact F1|]. split; [exact (grows_trans _ _ _ G1 G2)|]. exists [(k, j)]. split; [cbn [params]; rewrite Kp; reflexivity|].
    intros s G. destruct (K1 s (grows_trans _ _ _ G2 G)) as [_ [(nm & q & ty & x & N & _ & _ & _ & S & _) Nk]]. unfold declared_name. rewrite N. cbn [map fst snd].
    constructor; [|constructor]. split; [exact (Nk nm N)|exact S].
  - injection E as <-. split; [exact F1|]. split; [exact G1|]. exists []. rewrite app_nil_r. split; [exact Kp|]. intros s G. specialize (K1 s G).
    cbv beta in K1. unfold declared_name. destruct (field "name" (kids_of c)); [discriminate|]. constructor.
Qed.
Lemma params_does : forall e l st st', (forall c, In c l -> everywhere holds_expression c) -> fresh st -> collect_parameters e (map (annotate e) l) st = Ret tt st' ->
  fresh st' /\ grows st st' /\ exists r, params st' = params st ++ r /\
    forall s, grows st' s -> Forall2 (drel s) (map (fun x => (nth (fst x) (LowerModel.idents s) "", snd x)) r) (flat_map declared_name l).
Proof.
  intros e l. induction l as [|c l IH]; intros st st' H F E.
  - injection E as <-. split; [exact F|]. split; [apply grows_refl|]. exists []. rewrite app_nil_r. split; [reflexivity|]. constructor.
  - cbn [map collect_parameters] in E. unfold bind in E. destruct (collect_parameter e (annotate e c) st) as [|[] s1] eqn:Ec; [discriminate|].
    destruct (param_does e c st s1 (H c (or_introl eq_refl)) F Ec) as (F1 & G1 & r1 & P1 & K1).
    destruct (IH s1 st' (fun y Y => H y (or_intror Y)) F1 E) as (F2 & G2 & r2 & P2 & K2). split; [exact F2|]. split; [exact (grows_trans _ _ _ G1 G2)|].
    exists (r1 ++ r2). split; [rewrite P2, P1, app_assoc; reflexivity|]. intros s G. rewrite map_app. cbn [flat_map]. apply Forall2_app; [apply K1; exact (grows_trans _ _ _ G2 G)|exact (K2 s G)].
Qed.
Lemma fresh_empty : fresh empty_state.
Proof. intros i _. reflexivity. Qed.

(** A lowered function. *)
Theorem lower_does : forall e pl b i s, lower e pl (Some b) = Ret (Some i) s -> (forall n, pl = Some n -> everywhere holds_expression n) ->
  everywhere holds_expression b -> exists lo, lowered s b i lo (len s) /\
  Forall2 (drel s) (map (fun x => (nth (fst x) (LowerModel.idents s) "", snd x)) (params s)) (flat_map declared_name (parameters pl)).
Proof.
  intros e pl b i s E Hp Hb. unfold lower, bind in E. destruct (collect_params e pl empty_state) as [|[] s1] eqn:Ep; [discriminate|].
  destruct (collect (annotate e b) s1) as [|j s2] eqn:Eb; [discriminate|]. injection E as -> ->.
  assert (K : fresh s1 /\ exists r, params s1 = r /\ forall s, grows s1 s ->
     Forall2 (drel s) (map (fun x => (nth (fst x) (LowerModel.idents s) "", snd x)) r) (flat_map declared_name (parameters pl))).
  { unfold collect_params in Ep. destruct pl as [n|]; cbn [option_map] in Ep.
    - rewrite annotate_kind in Ep. unfold parameters. specialize (Hp n eq_refl). destruct (kind_of n) eqn:Kn; try discriminate Ep.
      + rewrite annotate_kids, of_kind_ann in Ep. destruct (params_does e _ _ _ (fun c I => everywhere_kid _ _ _ Hp (of_kind_in _ _ _ I)) fresh_empty Ep) as (F & _ & r & P & R).
        split; [exact F|]. exists r. split; [exact P|exact R].
      + destruct (param_does e n _ _ Hp fresh_empty Ep) as (F & _ & r & P & R). split; [exact F|]. exists r. split; [exact P|]. intros s0 G. cbn [flat_map]. rewrite app_nil_r. exact (R s0 G).
    - injection Ep as <-. split; [exact fresh_empty|]. exists []. split; [reflexivity|]. constructor. }
  destruct K as (F & r & P & R). destruct (low_collect e b (low_node e (size b) b (le_n _) Hb) _ _ _ F Eb) as (_ & G & L).
  exists (len s1). split; [exact (L s (grows_refl s))|]. rewrite (keeps_collect e _ _ _ _ Eb), P. exact (R s G).
Qed.
