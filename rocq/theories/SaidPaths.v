(** An expression of the tree is an expression of the body, and the blocks around it declare the same. *)
From Coq Require Import List String Ascii Bool Arith ZArith Lia.
From Verif Require Import TypeRefModel HirSpec OffsetSpec LowerModel LowerSpec LowerProofs LowerProps LowerHir WrittenSpec WrittenLower WrittenProofs SaidSpec.
From Verif Require HirModel MemberSpec.
Import ListNotations.
Local Open Scope string_scope.
Local Open Scope nat_scope.
Local Open Scope list_scope.

Lemma Forall2_pick : forall A B (R : A -> B -> Prop) l m a, Forall2 R l m -> In a l -> exists b, In b m /\ R a b.
Proof.
  intros A B R l m a H I. induction H as [|x y l m Rxy _ IH]; [destruct I|]. destruct I as [<-|I].
  - exists y. split; [left; reflexivity|exact Rxy].
  - destruct (IH I) as (b & B1 & B2). exists b. split; [right; exact B1|exact B2].
Qed.
Lemma opt_in : forall A (x : option A) a, In a (opt x) -> x = Some a.
Proof. intros A [y|] a H; [|destruct H]. destruct H as [<-|[]]. reflexivity. Qed.
Lemma filter_opt_in : forall A f (x : option A) a, In a (filter f (opt x)) -> x = Some a /\ f a = true.
Proof. intros A f x a H. apply filter_In in H. destruct H as [H K]. split; [exact (opt_in _ _ _ H)|exact K]. Qed.

Section main.
Variable e : env.
Variable src : nat -> option nat.

Lemma says_part : forall n x c, says e src n x -> counted e n = true -> In c (subs e n) -> exists w, MemberSpec.within w x /\ says e src c w.
Proof.
  assert (P : forall x w, In w (MemberSpec.parts x) -> MemberSpec.within w x).
  { intros x w I. exact (MemberSpec.within_part w w x I (MemberSpec.within_itself w)). }
  intros n x c H C I. destruct H.
  - congruence.
  - destruct n as [k p t l]. cbn [kind_of] in H. destruct k; try discriminate H; destruct I.
  - destruct H as [-> | ->]; destruct I.
  - destruct H; destruct I.
  - cbn [subs kind_of kids_of] in I. apply opt_in in I. rewrite H in I. injection I as <-. exists x. split; [constructor|assumption].
  - cbn [subs kind_of kids_of] in I. destruct I as [<-|[]]. exists x. split; [constructor|assumption].
  - cbn [subs kind_of kids_of] in I. destruct (Forall2_pick _ _ _ _ _ _ H I) as (w & W & S). exists w. split; [apply P; exact W|exact S].
  - cbn [subs kind_of kids_of] in I. destruct (Forall2_pick _ _ _ _ _ _ H I) as (w & W & S). exists w. split; [apply P; exact W|exact S].
  - cbn [subs kind_of kids_of] in I. apply opt_in in I. rewrite H0 in I. injection I as <-. exists v. split; [apply P; left; reflexivity|assumption].
  - cbn [subs kind_of kids_of] in I. unfold arguments in I. cbn [kids_of] in I. rewrite H1 in I.
    destruct (Forall2_pick _ _ _ _ _ _ H2 I) as (w & W & S). exists w. split; [apply P; exact W|exact S].
  - assert (J : field "value" l = Some c) by (destruct H as [-> | ->]; exact (opt_in _ _ _ I)). rewrite H0 in J. injection J as <-.
    exists x. split; [apply P; left; reflexivity|assumption].
  - cbn [subs kind_of kids_of] in I. apply opt_in in I. rewrite H0 in I. injection I as <-. exists x. split; [apply P; left; reflexivity|assumption].
  - assert (J : field "scope" l = Some c) by (destruct H as [-> | ->]; exact (opt_in _ _ _ I)). rewrite H0 in J. injection J as <-.
    exists x. split; [apply P; left; reflexivity|assumption].
  - cbn [subs kind_of kids_of] in I. apply in_app_or in I. destruct I as [I|I]; apply opt_in in I; rewrite ?H, ?H0 in I; injection I as <-.
    + exists x. split; [apply P; left; reflexivity|assumption].
    + exists z. split; [apply P; right; left; reflexivity|assumption].
  - assert (J : field f l = Some c).
    { destruct H as [[[-> | ->] ->]|[-> ->]]; exact (opt_in _ _ _ I). }
    rewrite H0 in J. injection J as <-. exists x. split; [apply P; left; reflexivity|assumption].
  - assert (J : field "left" l = Some c \/ field "right" l = Some c).
    { destruct H as [-> | ->]; cbn [subs kind_of kids_of] in I; apply in_app_or in I; destruct I as [I|I]; apply opt_in in I; auto. }
    destruct J as [J|J]; rewrite ?H0, ?H1 in J; injection J as <-.
    + exists x. split; [apply P; left; reflexivity|assumption].
    + exists z. split; [apply P; right; left; reflexivity|assumption].
  - cbn [subs kind_of kids_of] in I. apply in_app_or in I. destruct I as [I|I]; [|apply in_app_or in I; destruct I as [I|I]]; apply opt_in in I; rewrite ?H, ?H0, ?H1 in I; injection I as <-.
    + exists w. split; [apply P; left; reflexivity|assumption].
    + exists x. split; [apply P; right; left; reflexivity|assumption].
    + exists z. split; [apply P; right; right; left; reflexivity|assumption].
  - destruct H as [-> | ->]; destruct I.
  - assert (J : field f l = Some c /\ counted e c = true).
    { destruct H as [[-> ->]|[-> ->]]; exact (filter_opt_in _ _ _ _ I). }
    destruct J as [J K]. rewrite H0 in J. injection J as ->. rewrite K in H1. inversion H1; subst. exists b. split; [apply P; left; reflexivity|assumption].
  - cbn [subs kind_of kids_of] in I. rewrite H in I. unfold arguments in I. cbn [kids_of] in I. rewrite H0, H1 in I. destruct I as [<-|I].
    + exists x. split; [apply P; left; reflexivity|assumption].
    + destruct (Forall2_pick _ _ _ _ _ _ H3 I) as (w & W & S). exists w. split; [apply P; right; exact W|exact S].
  - cbn [subs kind_of kids_of] in I. rewrite H0 in I. unfold arguments in I. cbn [kids_of] in I. rewrite H1, H2, H3 in I. destruct I as [<-|I].
    + exists x. split; [apply P; left; reflexivity|assumption].
    + destruct (Forall2_pick _ _ _ _ _ _ H6 I) as (w & W & S). exists w. split; [apply P; right; exact W|exact S].
Qed.
Lemma within_trans : forall a b c, MemberSpec.within a b -> MemberSpec.within b c -> MemberSpec.within a c.
Proof.
  intros a b c H K. induction K as [|b p w I _ IH]; [exact H|]. exact (MemberSpec.within_part _ _ _ I (IH H)).
Qed.
Theorem says_sub : forall f n, sub e f n -> forall x, says e src n x -> exists w, MemberSpec.within w x /\ says e src f w.
Proof.
  intros f n H. induction H as [|n c C I _ IH]; intros x S.
  - exists x. split; [constructor|exact S].
  - destruct (says_part n x c S C I) as (w & W & Sw). destruct (IH w Sw) as (v & V & Sv). exists v. split; [exact (within_trans _ _ _ V W)|exact Sv].
Qed.

(** ** Statements *)
Definition drels (a : decl) (b : written_decl) : Prop := fst a = fst b /\ src (snd a) = Some (snd b).
Lemma complete_counted : forall n, complete n -> is_statement (kind_of n) = true -> counted e n = true.
Proof.
  intros [k p t l] C S. cbn [kind_of] in S. cbn [complete] in C. unfold has in *. destruct k; try discriminate S; cbn [counted]; unfold has; try reflexivity.
  - destruct C as (A & B & D). destruct (field "condition" l), (field "iteration" l), (field "body" l); try contradiction; reflexivity.
  - destruct C as (A & B). destruct (field "condition" l), (field "body" l); try contradiction; reflexivity.
  - destruct C as (A & B). destruct (field "condition" l), (field "body" l); try contradiction; reflexivity.
  - destruct C as (A & B). destruct (field "condition" l), (field "truePath" l); try contradiction; reflexivity.
  - destruct (field "condition" l); try contradiction; reflexivity.
Qed.
Lemma tells_plain : forall n, complete n -> is_statement (kind_of n) = false \/ counted e n = false -> is_statement (kind_of n) = false.
Proof. intros n C [H|H]; [exact H|]. destruct (is_statement (kind_of n)) eqn:S; [|reflexivity]. rewrite (complete_counted n C S) in H. discriminate. Qed.
Lemma plain_declares : forall n, is_statement (kind_of n) = false -> declares n = [] /\ statements n = [].
Proof. intros [k p t l] H. cbn [kind_of] in H. destruct k; try discriminate H; split; reflexivity. Qed.

Lemma bindings_level : forall ty l bs, Forall2 (fun c => says_binding e src (ty c) c) (filter named l) bs ->
  Forall2 drels (map (fun b => (HirModel.b_name b, HirModel.b_id b)) bs) (flat_map declared_name l).
Proof.
  intros ty l. induction l as [|c l IH]; intros bs H; cbn [filter] in H.
  - inversion H; subst. constructor.
  - cbn [flat_map]. unfold named, has in H. unfold declared_name at 1. destruct (field "name" (kids_of c)) as [nm|] eqn:N; [|exact (IH bs H)].
    inversion H as [|? b ? bs' Hb Hs E1 E2]; subst. destruct Hb as (nm' & N' & B1 & _ & B2 & _). rewrite N in N'. injection N' as <-.
    cbn [map app]. constructor; [split; assumption|exact (IH bs' Hs)].
Qed.
Lemma statement_everywhere : forall P n y, everywhere P n -> In y (statements n) -> everywhere P y.
Proof.
  intros P [k p t l] y H I. assert (D : forall x, In x (map snd l) -> everywhere P x) by (intros x J; exact (everywhere_kid P _ x H J)).
  assert (Fd : forall f x, In x (opt (field f l)) -> everywhere P x) by (intros f x J; apply opt_in in J; exact (D _ (field_in _ _ _ J))).
  destruct k; cbn [statements] in I; try (destruct I; fail).
  - apply D. apply filter_In in I. tauto.
  - apply in_app_or in I. destruct I as [I|I]; [exact (D _ (fields_in _ _ _ I))|exact (Fd _ _ I)].
  - exact (Fd _ _ I).
  - exact (Fd _ _ I).
  - apply in_app_or in I. destruct I as [I|I]; exact (Fd _ _ I).
  - apply in_flat_map in I. destruct I as [c [J K]]. apply opt_in in K. exact (everywhere_kid P c y (D c (of_kind_in _ _ _ J)) (field_in _ _ _ K)).
Qed.
Lemma cases_bodies : forall (R : ts -> HirModel.stmt -> Prop) (Q : ts -> list HirModel.expr -> Prop) l xs,
  Forall2 (fun k x => Q k (fst x) /\ exists b, field "body" (kids_of k) = Some b /\ R b (snd x)) (filter with_body l) xs ->
  Forall2 R (flat_map (fun c => opt (field "body" (kids_of c))) l) (map snd xs).
Proof.
  intros R Q l. induction l as [|c l IH]; intros xs H; cbn [filter] in H.
  - inversion H; subst. constructor.
  - cbn [flat_map]. unfold with_body, has in H. destruct (field "body" (kids_of c)) as [b|] eqn:B; [|exact (IH xs H)].
    inversion H as [|? x ? xs' Hx Hs E1 E2]; subst. destruct Hx as (_ & b' & B' & Rb). rewrite B in B'. injection B' as <-.
    cbn [map opt app]. constructor; [exact Rb|exact (IH xs' Hs)].
Qed.

(** The statements in one, and what is declared. *)
Definition inner (x : HirModel.stmt) : list HirModel.stmt :=
  match x with
  | HirModel.SExpr _ | HirModel.SDecl _ _ => []
  | HirModel.SBlock _ l => l
  | HirModel.SLoop _ init _ _ b => init ++ [b]
  | HirModel.SCondition _ _ t f => t :: opt f
  | HirModel.SSwitch _ _ cs => map snd cs
  end.
Lemma tells_inner : forall n x, complete n -> tells e src n x -> Forall2 (tells e src) (statements n) (inner x).
Proof.
  intros n x C H. destruct H.
  - pose proof (tells_plain n C H) as P. destruct (plain_declares n P) as [_ ->]. constructor.
  - exact H.
  - constructor.
  - constructor.
  - cbn [statements inner]. rewrite H4. apply Forall2_app; [assumption|]. constructor; [assumption|constructor].
  - destruct H as [-> | ->]; cbn [statements inner]; rewrite H2; (constructor; [assumption|constructor]).
  - cbn [statements inner]. rewrite H1. cbn [opt app]. constructor; [assumption|]. inversion H3; subst; cbn [opt]; [constructor|]. constructor; [assumption|constructor].
  - cbn [statements inner]. exact (cases_bodies _ (fun k => Forall2 (says e src) (fields "value" (kids_of k))) _ _ H1).
Qed.
Lemma level_inner : forall x, is_block x = false -> (forall i bs, x <> HirModel.SDecl i bs) -> level x = flat_map level (inner x).
Proof.
  intros x B D. destruct x as [y|i bs|i l|i init c it b|i c t f|i c cs]; try reflexivity; try discriminate B; try (elim (D _ _ eq_refl)).
  - cbn [level inner]. rewrite flat_map_app. cbn [flat_map]. rewrite app_nil_r. reflexivity.
  - cbn [level inner flat_map]. destruct f; cbn [opt flat_map]; rewrite ?app_nil_r; reflexivity.
  - cbn [level inner]. rewrite flat_map_concat_map, flat_map_concat_map, map_map. f_equal. apply map_ext. intros [vs y]. reflexivity.
Qed.
Lemma tells_level : forall k n x, size n <= k -> everywhere complete n -> tells e src n x -> Forall2 drels (level x) (declares n).
Proof.
  induction k as [|k IH]; intros n x Sz C H; [destruct n; cbn in Sz; lia|].
  pose proof (everywhere_here _ _ C) as C0. pose proof (tells_inner n x C0 H) as I.
  assert (L : Forall2 drels (flat_map level (inner x)) (flat_map declares (statements n))).
  { assert (Q : Forall (fun y => size y <= k /\ everywhere complete y) (statements n)).
    { apply Forall_forall. intros y Y. pose proof (statement_size (fun _ => (0, 0)) n y Y). split; [lia|exact (statement_everywhere _ _ _ C Y)]. }
    clear - IH I Q. induction I as [|a b l m R _ IHl]; [constructor|]. inversion Q as [|? ? [Qa1 Qa2] Ql]; subst. cbn [flat_map].
    apply Forall2_app; [exact (IH a b Qa1 Qa2 R)|exact (IHl Ql)]. }
  clear I IH. destruct H.
  - pose proof (tells_plain n C0 H) as P. destruct (plain_declares n P) as [-> _]. constructor.
  - constructor.
  - cbn [level declares]. exact (bindings_level (fun _ => type_of e p) _ _ H).
  - cbn [level declares]. exact (bindings_level _ _ _ H).
  - rewrite level_inner, declares_parts by (reflexivity || discriminate). exact L.
  - rewrite level_inner by (reflexivity || discriminate). rewrite declares_parts by (destruct H as [-> | ->]; discriminate). exact L.
  - rewrite level_inner, declares_parts by (reflexivity || discriminate). exact L.
  - rewrite level_inner, declares_parts by (reflexivity || discriminate). exact L.
Qed.
Definition enter (x : HirModel.stmt) (d : list (list decl)) : list (list decl) :=
  match x with HirModel.SBlock _ l => flat_map level l :: d | _ => d end.
Lemma places_inner : forall x y d, In y (inner x) -> incl (MemberSpec.places (enter x d) y) (MemberSpec.places d x).
Proof.
  intros x y d I q J. destruct x as [z|i bs|i l|i init c it b|i c t f|i c cs]; cbn [inner] in I; try (destruct I; fail); cbn [enter] in J; cbn [MemberSpec.places].
  - apply in_flat_map. exists y. split; assumption.
  - apply in_app_or in I. destruct I as [I|[<-|[]]].
    + apply in_or_app. left. apply in_flat_map. exists y. split; assumption.
    + apply in_or_app. right. apply in_or_app. right. apply in_or_app. right. exact J.
  - apply in_or_app. right. apply in_or_app. destruct I as [<-|I]; [left; exact J|right]. apply opt_in in I. subst f. exact J.
  - apply in_or_app. right. apply in_map_iff in I. destruct I as [[vs z] [<- I]]. apply in_flat_map. exists (vs, z). split; [exact I|]. apply in_or_app. right. exact J.
Qed.
Lemma bindings_init : forall ty l bs c d, Forall2 (fun c => says_binding e src (ty c) c) (filter named l) bs ->
  In c (flat_map (fun c => opt (field "initialValue" (kids_of c))) (filter named l)) ->
  exists top, In (d, top) (flat_map (fun b => MemberSpec.one d (HirModel.b_init b)) bs) /\ says e src c top.
Proof.
  intros ty l bs c d H I. apply in_flat_map in I. destruct I as [v [I J]]. apply opt_in in J.
  destruct (Forall2_pick _ _ _ _ _ _ H I) as (b & B & (nm & _ & _ & _ & _ & S)). rewrite J in S. inversion S as [|? x Sx E1 E2]; subst.
  exists x. split; [|exact Sx]. apply in_flat_map. exists b. split; [exact B|]. rewrite <- E2. left. reflexivity.
Qed.
Lemma tells_own : forall n x c d, complete n -> tells e src n x -> In c (own_exprs e n) -> exists top, In (d, top) (MemberSpec.places d x) /\ says e src c top.
Proof.
  intros n x c d C H I. destruct H.
  - pose proof (tells_plain n C H) as P. exists x. split; [left; reflexivity|]. assert (J : c = n).
    { destruct n as [k p t l]. cbn [kind_of] in P. destruct k; try discriminate P; destruct I as [<-|[]]; reflexivity. }
    subst c. assumption.
  - destruct I.
  - exact (bindings_init (fun _ => type_of e p) _ _ _ d H I).
  - exact (bindings_init _ _ _ _ d H I).
  - cbn [own_exprs kind_of kids_of] in I. cbn [MemberSpec.places]. apply in_app_or in I. destruct I as [I|I].
    + apply opt_in in I. rewrite H0 in I. injection I as <-. exists w. split; [|assumption]. apply in_or_app. right. left. reflexivity.
    + apply filter_opt_in in I. destruct I as [I J]. rewrite H2 in I. injection I as <-. rewrite J in H3. inversion H3; subst.
      eexists. split; [|eassumption]. apply in_or_app. right. right. left. reflexivity.
  - assert (J : field "condition" l = Some c) by (destruct H as [-> | ->]; exact (opt_in _ _ _ I)). rewrite H0 in J. injection J as <-.
    exists w. split; [|assumption]. left. reflexivity.
  - cbn [own_exprs kind_of kids_of] in I. apply opt_in in I. rewrite H in I. injection I as <-. exists w. split; [|assumption]. left. reflexivity.
  - cbn [own_exprs kind_of kids_of] in I. cbn [MemberSpec.places]. apply in_app_or in I. destruct I as [I|I].
    + apply opt_in in I. rewrite H in I. injection I as <-. exists w. split; [|assumption]. left. reflexivity.
    + apply in_flat_map in I. destruct I as [k [I J]]. destruct (Forall2_pick _ _ _ _ _ _ H1 I) as ([vs y] & B & (V & _)).
      destruct (Forall2_pick _ _ _ _ _ _ V J) as (z & Z & S). exists z. split; [|exact S]. right. apply in_flat_map. exists (vs, y). split; [exact B|].
      apply in_or_app. left. apply in_map. exact Z.
Qed.
Theorem tells_under : forall f dcl n dcl', under e f dcl n dcl' -> everywhere complete n -> forall x d, tells e src n x -> Forall2 (Forall2 drels) d dcl ->
  exists d' top w, In (d', top) (MemberSpec.places d x) /\ MemberSpec.within w top /\ says e src f w /\ Forall2 (Forall2 drels) d' dcl'.
Proof.
  intros f dcl n dcl' H. induction H as [dcl n c I S|dcl n y dcl' I _ IH]; intros C x d Tl R.
  - destruct (tells_own n x c d (everywhere_here _ _ C) Tl I) as (top & P & St). destruct (says_sub f c S top St) as (w & W & Sw).
    exists d, top, w. split; [exact P|]. split; [exact W|]. split; [exact Sw|exact R].
  - pose proof (tells_inner n x (everywhere_here _ _ C) Tl) as Ti. destruct (Forall2_pick _ _ _ _ _ _ Ti I) as (z & Z & Tz).
    assert (Re : Forall2 (Forall2 drels) (enter x d) (enters n dcl)).
    { clear - C Tl R Ti. pose proof (tells_plain n (everywhere_here _ _ C)) as Pl. unfold enters. destruct Tl; cbn [enter]; try exact R.
      - pose proof (Pl H) as P. destruct n as [k p t l]. cbn [kind_of] in P. destruct k; try discriminate P; exact R.
      - cbn [kind_of is_kind]. constructor; [|exact R]. cbn [inner] in Ti.
        assert (Q : Forall (fun y => everywhere complete y) (statements (T block p t l))) by (apply Forall_forall; intros y Y; exact (statement_everywhere _ _ _ C Y)).
        clear - Ti Q. induction Ti as [|a b l0 m Rab _ IHl]; [constructor|]. inversion Q; subst. cbn [flat_map]. apply Forall2_app; [|apply IHl; assumption].
        apply (tells_level (size a)); [apply le_n|assumption|exact Rab].
      - destruct H as [-> | ->]; exact R. }
    destruct (IH (statement_everywhere _ _ _ C I) z (enter x d) Tz Re) as (d' & top & w & P & W & S & Rd).
    exists d', top, w. split; [exact (places_inner x z d Z _ P)|]. split; [exact W|]. split; [exact S|exact Rd].
Qed.
End main.
