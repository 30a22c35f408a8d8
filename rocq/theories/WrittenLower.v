(** Which part of the arena the lowering of a node fills, and where the expressions in it come from. *)
From Coq Require Import List String Ascii Bool Arith ZArith Lia.
From Verif Require Import TypeRefModel LowerModel LowerSpec LowerProofs LowerProps LowerHir OffsetModel WrittenSpec.
From Verif Require HirModel HirSpec MemberSpec.
Import ListNotations.
Local Open Scope string_scope.
Local Open Scope nat_scope.
Local Open Scope list_scope.

(** ** Runs *)
Definition len (s : state) : nat := List.length (exprs s).
Definition fresh (s : state) : Prop := forall i, len s <= i -> expr_source s i = None.
Definition grows (s s' : state) : Prop :=
  (exists r, exprs s' = exprs s ++ r) /\ (exists r, idents s' = idents s ++ r) /\
  forall i, i < len s -> expr_source s' i = expr_source s i.
Lemma grows_refl : forall s, grows s s.
Proof. intros s. split; [|split]; try (exists []; rewrite app_nil_r; reflexivity). reflexivity. Qed.
Lemma grows_len : forall s s', grows s s' -> len s <= len s'.
Proof. intros s s' [[r E] _]. unfold len. rewrite E, app_length. lia. Qed.
Lemma grows_trans : forall a b c, grows a b -> grows b c -> grows a c.
Proof.
  intros a b c G1 G2. pose proof (grows_len _ _ G1). destruct G1 as [[r1 H1] [[r2 H2] H3]], G2 as [[q1 K1] [[q2 K2] K3]]. split; [|split].
  - exists (r1 ++ q1). rewrite K1, H1, app_assoc. reflexivity.
  - exists (r2 ++ q2). rewrite K2, H2, app_assoc. reflexivity.
  - intros i L. rewrite K3 by lia. apply H3. exact L.
Qed.
Lemma grows_nth : forall s s' i x, grows s s' -> i < len s -> nth i (exprs s) EMissing = x -> nth i (exprs s') EMissing = x.
Proof. intros s s' i x [[r E] _] L <-. rewrite E, app_nth1 by exact L. reflexivity. Qed.
Lemma grows_ident : forall s s' i x, grows s s' -> i < List.length (idents s) -> nth i (idents s) "" = x -> nth i (idents s') "" = x.
Proof. intros s s' i x [_ [[r E] _]] L <-. rewrite E, app_nth1 by exact L. reflexivity. Qed.

Definition does {A} (m : M A) (P : nat -> nat -> state -> A -> Prop) : Prop :=
  forall st a st', fresh st -> m st = Ret a st' -> fresh st' /\ grows st st' /\ forall s, grows st' s -> P (len st) (len st') s a.
Lemma does_ret : forall {A} (a : A) (P : nat -> nat -> state -> A -> Prop), (forall n s, P n n s a) -> does (ret a) P.
Proof. intros A a P H st b st' F E. injection E as <- <-. split; [exact F|]. split; [apply grows_refl|]. intros. apply H. Qed.
Lemma does_panic : forall {A} (P : nat -> nat -> state -> A -> Prop), does panic P.
Proof. intros A P st b st' F E. discriminate. Qed.
Lemma does_bind : forall {A B} (m : M A) (f : A -> M B) (P : nat -> nat -> state -> A -> Prop) (R : nat -> nat -> state -> B -> Prop),
  does m P -> (forall a, does (f a) (fun mid hi s b => forall lo, lo <= mid -> mid <= hi -> P lo mid s a -> R lo hi s b)) -> does (bind m f) R.
Proof.
  intros A B m f P R Hm Hf st b st' F E. unfold bind in E. destruct (m st) as [|a s1] eqn:Em; [discriminate|].
  destruct (Hm _ _ _ F Em) as [F1 [G1 K1]]. destruct (Hf a _ _ _ F1 E) as [F2 [G2 K2]].
  split; [exact F2|]. split; [exact (grows_trans _ _ _ G1 G2)|]. intros s G.
  apply (K2 s G); [exact (grows_len _ _ G1)|exact (grows_len _ _ G2)|].
  apply K1. exact (grows_trans _ _ _ G2 G).
Qed.
Lemma does_impl : forall {A} (m : M A) (P Q : nat -> nat -> state -> A -> Prop), does m P ->
  (forall lo hi s a, lo <= hi -> P lo hi s a -> Q lo hi s a) -> does m Q.
Proof.
  intros A m P Q H K st a st' F E. destruct (H _ _ _ F E) as [F1 [G1 K1]]. split; [exact F1|]. split; [exact G1|].
  intros s G. apply K; [exact (grows_len _ _ G1)|]. exact (K1 s G).
Qed.
Lemma lookup_other : forall k k' v l, k' <> k -> lookup k ((k', v) :: l) = lookup k l.
Proof. intros k k' v l H. unfold lookup. cbn [find fst]. destruct (Nat.eqb_spec k' k); [contradiction|reflexivity]. Qed.
Lemma lookup_first : forall k v l, lookup k ((k, v) :: l) = Some v.
Proof. intros. unfold lookup. cbn [find fst]. rewrite Nat.eqb_refl. reflexivity. Qed.
Lemma does_alloc : forall x p, does (alloc x p) (fun lo hi s i => i = lo /\ hi = S lo /\ nth i (exprs s) EMissing = x /\ expr_source s i = Some p).
Proof.
  intros x p st i st' F E. injection E as <- <-. split; [|split].
  - intros j L. unfold len in L. cbn in L. rewrite app_length in L. cbn in L. unfold expr_source. cbn [expr_map_back].
    rewrite lookup_other by lia. apply F. unfold len. lia.
  - split; [|split]; cbn [exprs idents]; [exists [x]; reflexivity|exists []; rewrite app_nil_r; reflexivity|].
    intros j L. unfold len in L. unfold expr_source. cbn [expr_map_back]. rewrite lookup_other by lia. reflexivity.
  - intros s G. split; [reflexivity|]. split; [unfold len; cbn; rewrite app_length; cbn; lia|].
    assert (L : List.length (exprs st) < len (State (exprs st ++ [x]) (idents st) (params st) ((List.length (exprs st), p) :: expr_map_back st) ((p, List.length (exprs st)) :: expr_map st))).
    { unfold len. cbn. rewrite app_length. cbn. lia. }
    split.
    + apply (grows_nth _ _ _ _ G L). cbn [exprs]. rewrite app_nth2, Nat.sub_diag by lia. reflexivity.
    + destruct G as [_ [_ G]]. rewrite (G _ L). unfold expr_source. cbn [expr_map_back]. apply lookup_first.
Qed.
Lemma does_missing : does missing (fun lo hi s i => i = lo /\ hi = S lo /\ nth i (exprs s) EMissing = EMissing /\ expr_source s i = None).
Proof.
  intros st i st' F E. injection E as <- <-. split; [|split].
  - intros j L. unfold len in L. cbn in L. rewrite app_length in L. cbn in L. apply F. unfold len. lia.
  - split; [|split]; cbn [exprs idents]; [exists [EMissing]; reflexivity|exists []; rewrite app_nil_r; reflexivity|]. reflexivity.
  - intros s G. split; [reflexivity|]. split; [unfold len; cbn; rewrite app_length; cbn; lia|].
    assert (L : List.length (exprs st) < len (State (exprs st ++ [EMissing]) (idents st) (params st) (expr_map_back st) (expr_map st))).
    { unfold len. cbn. rewrite app_length. cbn. lia. }
    split.
    + apply (grows_nth _ _ _ _ G L). cbn [exprs]. rewrite app_nth2, Nat.sub_diag by lia. reflexivity.
    + destruct G as [_ [_ G]]. rewrite (G _ L). apply F. unfold len. lia.
Qed.
Lemma does_ident : forall n, does (alloc_ident n) (fun lo hi s k => lo = hi /\ nth k (idents s) "" = n).
Proof.
  intros n st i st' F E. injection E as <- <-. split; [exact F|]. split.
  - split; [|split]; cbn [exprs idents]; [exists []; rewrite app_nil_r; reflexivity|exists [n]; reflexivity|]. reflexivity.
  - intros s G. split; [reflexivity|]. apply (grows_ident _ _ _ _ G); cbn [idents].
    + rewrite app_length. cbn. lia.
    + rewrite app_nth2, Nat.sub_diag by lia. reflexivity.
Qed.

(** ** Ids *)
Definition spread (lo hi : nat) (l : list nat) : Prop := NoDup l /\ Forall (fun j => lo <= j < hi) l.
Lemma spread_nil : forall lo hi, spread lo hi [].
Proof. split; constructor. Qed.
Lemma spread_widen : forall lo hi lo' hi' l, spread lo hi l -> lo' <= lo -> hi <= hi' -> spread lo' hi' l.
Proof. intros lo hi lo' hi' l [N F] A B. split; [exact N|]. eapply Forall_impl; [|exact F]. cbn. lia. Qed.
Lemma NoDup_apart : forall {A} (a b : list A), NoDup a -> NoDup b -> (forall x, In x a -> ~ In x b) -> NoDup (a ++ b).
Proof.
  intros A a b Na Nb H. induction Na as [|x a N Na IH]; [exact Nb|]. cbn. constructor.
  - intros I. apply in_app_or in I. destruct I as [I|I]; [exact (N I)|]. exact (H x (or_introl eq_refl) I).
  - apply IH. intros y I. apply H. right. exact I.
Qed.
Lemma spread_app : forall lo m hi a b, spread lo m a -> spread m hi b -> lo <= m -> m <= hi -> spread lo hi (a ++ b).
Proof.
  intros lo m hi a b [Na Fa] [Nb Fb] L M. split.
  - apply NoDup_apart; [exact Na|exact Nb|]. intros x I J. rewrite Forall_forall in Fa, Fb. specialize (Fa x I). specialize (Fb x J). lia.
  - apply Forall_app. split; (eapply Forall_impl; [|eassumption]); cbn; lia.
Qed.
Lemma spread_app' : forall lo m hi a b, spread m hi a -> spread lo m b -> lo <= m -> m <= hi -> spread lo hi (a ++ b).
Proof.
  intros lo m hi a b [Na Fa] [Nb Fb] L M. split.
  - apply NoDup_apart; [exact Na|exact Nb|]. intros x I J. rewrite Forall_forall in Fa, Fb. specialize (Fa x I). specialize (Fb x J). lia.
  - apply Forall_app. split; (eapply Forall_impl; [|eassumption]); cbn; lia.
Qed.
Lemma spread_cons : forall lo i hi l, spread lo i l -> lo <= i -> i < hi -> spread lo hi (i :: l).
Proof.
  intros lo i hi l S A B. change (i :: l) with ([i] ++ l). apply (spread_app' lo i hi); [|exact S|exact A|lia].
  split; [constructor; [intros []|constructor]|]. constructor; [lia|constructor].
Qed.

(** ** The expressions of the arena *)
(** A name of the body comes from a name of the text. *)
Definition sourced (s : state) (ns : list ts) (d : HirSpec.decl) : Prop :=
  exists x, In x ns /\ (kind_of x = identifier \/ kind_of x = this) /\ text_of x = fst d /\ expr_source s (snd d) = Some (ptr_of x).
Definition goods (s : state) (n : ts) (lo hi : nat) (l : list HirModel.expr) : Prop :=
  Forall (sourced s (nodes n)) (flat_map HirSpec.idents l) /\ spread lo hi (flat_map MemberSpec.expr_ids l).
Definition G (s : state) (n : ts) (lo hi : nat) (l : list nat) : Prop := forall fuel, goods s n lo hi (map (to_expr fuel s) l).

Lemma goods_nil : forall s n lo hi, goods s n lo hi [].
Proof. intros. split; [constructor|apply spread_nil]. Qed.
Lemma goods_widen : forall s n lo hi lo' hi' l, goods s n lo hi l -> lo' <= lo -> hi <= hi' -> goods s n lo' hi' l.
Proof. intros s n lo hi lo' hi' l [A B] L H. split; [exact A|]. exact (spread_widen _ _ _ _ _ B L H). Qed.
Lemma goods_app : forall s n lo m hi a b, goods s n lo m a -> goods s n m hi b -> lo <= m -> m <= hi -> goods s n lo hi (a ++ b).
Proof.
  intros s n lo m hi a b [A1 A2] [B1 B2] L H. split; rewrite flat_map_app.
  - apply Forall_app. split; assumption.
  - exact (spread_app _ _ _ _ _ A2 B2 L H).
Qed.
Lemma goods_app' : forall s n lo m hi a b, goods s n m hi a -> goods s n lo m b -> lo <= m -> m <= hi -> goods s n lo hi (a ++ b).
Proof.
  intros s n lo m hi a b [A1 A2] [B1 B2] L H. split; rewrite flat_map_app.
  - apply Forall_app. split; assumption.
  - exact (spread_app' _ _ _ _ _ A2 B2 L H).
Qed.
Lemma goods_up : forall s x n lo hi l, incl (nodes x) (nodes n) -> goods s x lo hi l -> goods s n lo hi l.
Proof.
  intros s x n lo hi l I [A B]. split; [|exact B]. eapply Forall_impl; [|exact A]. intros d [y [Y D]]. exists y. split; [exact (I y Y)|exact D].
Qed.
Lemma goods_node : forall s n lo hi e cs, goods s n lo (HirModel.expr_id e) cs -> HirSpec.idents e = flat_map HirSpec.idents cs ->
  MemberSpec.expr_ids e = HirModel.expr_id e :: flat_map MemberSpec.expr_ids cs -> lo <= HirModel.expr_id e -> HirModel.expr_id e < hi ->
  goods s n lo hi [e].
Proof.
  intros s n lo hi e cs [A B] I J L H. split; cbn [flat_map]; rewrite app_nil_r.
  - rewrite I. exact A.
  - rewrite J. apply spread_cons; assumption.
Qed.
Lemma goods_leaf : forall s n lo hi e, HirSpec.idents e = [] -> MemberSpec.expr_ids e = [HirModel.expr_id e] ->
  lo <= HirModel.expr_id e -> HirModel.expr_id e < hi -> goods s n lo hi [e].
Proof. intros s n lo hi e I J L H. apply (goods_node s n lo hi e []); [apply goods_nil|exact I|exact J|exact L|exact H]. Qed.
Lemma G_nil : forall s n lo hi, G s n lo hi [].
Proof. intros s n lo hi fuel. apply goods_nil. Qed.
Lemma G_widen : forall s n lo hi lo' hi' l, G s n lo hi l -> lo' <= lo -> hi <= hi' -> G s n lo' hi' l.
Proof. intros s n lo hi lo' hi' l H L K fuel. exact (goods_widen _ _ _ _ _ _ _ (H fuel) L K). Qed.
Lemma G_app : forall s n lo m hi a b, G s n lo m a -> G s n m hi b -> lo <= m -> m <= hi -> G s n lo hi (a ++ b).
Proof. intros s n lo m hi a b A B L H fuel. rewrite map_app. exact (goods_app _ _ _ _ _ _ _ (A fuel) (B fuel) L H). Qed.
Lemma G_app' : forall s n lo m hi a b, G s n m hi a -> G s n lo m b -> lo <= m -> m <= hi -> G s n lo hi (a ++ b).
Proof. intros s n lo m hi a b A B L H fuel. rewrite map_app. exact (goods_app' _ _ _ _ _ _ _ (A fuel) (B fuel) L H). Qed.
Lemma G_up : forall s x n lo hi l, incl (nodes x) (nodes n) -> G s x lo hi l -> G s n lo hi l.
Proof. intros s x n lo hi l I H fuel. exact (goods_up _ _ _ _ _ _ I (H fuel)). Qed.

(** The expressions whose names are looked for. *)
Definition below (x : expr nat nat) : list nat :=
  match x with
  | EComma l | EArray l | ENew _ l => l
  | ENamedArg _ v => [v]
  | EViewAs a _ | EField a _ | EScope a _ | EUnary a _ => [a]
  | EIndex a b | EBinary a b _ => [a; b]
  | ETernary a b c => [a; b; c]
  | EControl _ a => opt a
  | ECall c l => c :: l
  | EMethodCall t _ l => t :: l
  | _ => []
  end.
(** Expressions that are not statements. *)
Definition flat (x : expr nat nat) : Prop :=
  match x with EBlock _ _ | EDecl _ | ELoop _ _ _ _ | ECondition _ _ _ | ESwitch _ _ => False | _ => True end.
Lemma to_expr_id : forall fuel s i, HirModel.expr_id (to_expr fuel s i) = i.
Proof. intros [|k] s i; [reflexivity|]. cbn [to_expr]. destruct (nth i (exprs s) EMissing); reflexivity. Qed.
Lemma G_node : forall s n lo hi i x, nth i (exprs s) EMissing = x -> (forall nm, x <> EIdent nm) -> G s n lo i (below x) -> lo <= i -> i < hi ->
  G s n lo hi [i].
Proof.
  intros s n lo hi i x E N H L K fuel. cbn [map]. destruct fuel as [|k].
  - apply goods_leaf; try reflexivity; assumption.
  - specialize (H k). assert (I : HirModel.expr_id (to_expr (S k) s i) = i) by apply to_expr_id.
    apply (goods_node s n lo hi _ (map (to_expr k s) (below x))); rewrite ?I; try assumption;
    cbn [to_expr]; rewrite E; destruct x as [| | | | | | | | | | | | | | | |? o| | | | | |]; try destruct o; cbn [below opt map option_map]; cbn; rewrite ?app_nil_r; try reflexivity; elim (N _ eq_refl).
Qed.
Lemma G_ident : forall s n lo hi i x, nth i (exprs s) EMissing = EIdent (text_of x) -> In x (nodes n) -> kind_of x = identifier \/ kind_of x = this ->
  expr_source s i = Some (ptr_of x) -> lo <= i -> i < hi -> G s n lo hi [i].
Proof.
  intros s n lo hi i x E I K S L H fuel. cbn [map]. destruct fuel as [|k]; [apply goods_leaf; try reflexivity; assumption|].
  cbn [to_expr]. rewrite E. split; cbn.
  - constructor; [|constructor]. exists x. cbn. auto.
  - split; [constructor; [intros []|constructor]|]. constructor; [lia|constructor].
Qed.

(** What the lowering of any node gives. *)
Definition gives (n : ts) (lo hi : nat) (s : state) (i : nat) : Prop :=
  lo <= i < hi /\ G s n lo hi [i] /\ (is_statement (kind_of n) = false -> flat (nth i (exprs s) EMissing)) /\
  forall q, expr_source s i = Some q -> exists x, In x (nodes n) /\ ptr_of x = q.
Definition gives_opt (n : ts) (lo hi : nat) (s : state) (a : option nat) : Prop :=
  match a with Some i => gives n lo hi s i | None => True end.
(** Parentheses, and statements that are expressions, have no statements in them. *)
Definition holds_expression (n : ts) : Prop :=
  kind_of n = parenthesized_expression \/ kind_of n = expression_statement -> Forall (fun c => is_statement (kind_of (snd c)) = false) (kids_of n).

Section main.
Variable e : env.

Lemma gives_missing : forall n lo s i, i = lo -> nth i (exprs s) EMissing = EMissing -> expr_source s i = None -> gives n lo (S lo) s i.
Proof.
  intros n lo s i -> E S. split; [lia|]. split; [|split].
  - apply (G_node _ _ _ _ _ EMissing E); [discriminate|apply G_nil|lia|lia].
  - intros _. rewrite E. exact Logic.I.
  - intros q H. congruence.
Qed.
Lemma does_collect : forall n, does (maybe_collect (annotate e n)) (gives_opt n) -> does (collect (annotate e n)) (gives n).
Proof.
  intros n H. unfold collect. eapply does_bind; [exact H|]. intros [j|].
  - apply does_ret. intros m s lo L _ P. exact P.
  - eapply does_impl; [apply does_missing|]. cbn. intros m hi s i _ [-> [-> [E S]]] lo L _ _.
    destruct (gives_missing n m s m eq_refl E S) as [R [Q1 [Q2 Q3]]]. split; [lia|]. split; [|split; assumption].
    exact (G_widen _ _ _ _ _ _ _ Q1 L (le_n _)).
Qed.
(** The expressions of some descendants of [n]. *)
Lemma does_all : forall n l, (forall x, In x l -> incl (nodes x) (nodes n) /\ does (maybe_collect (annotate e x)) (gives_opt x)) ->
  does (collect_all (map (annotate e) l)) (fun lo hi s is => G s n lo hi is).
Proof.
  intros n l. induction l as [|x l IH]; intros H; cbn [map collect_all].
  - apply does_ret. intros. apply G_nil.
  - destruct (H x (or_introl eq_refl)) as [I D].
    eapply does_bind; [exact (does_collect x D)|]. intros i. eapply does_bind; [apply IH; intros y Y; apply H; right; exact Y|].
    intros r. apply does_ret. intros hi s mid L2 _ Q lo L1 _ [_ [P _]].
    change (i :: r) with ([i] ++ r). apply (G_app s n lo mid hi); [|exact Q|exact L1|exact L2]. exact (G_up _ _ _ _ _ _ I P).
Qed.
Lemma does_some : forall n l, (forall x, In x l -> incl (nodes x) (nodes n) /\ does (maybe_collect (annotate e x)) (gives_opt x)) ->
  does (collect_some (map (annotate e) l)) (fun lo hi s is => G s n lo hi is).
Proof.
  intros n l. induction l as [|x l IH]; intros H; cbn [map collect_some].
  - apply does_ret. intros. apply G_nil.
  - destruct (H x (or_introl eq_refl)) as [I D].
    eapply does_bind; [exact D|]. intros i. eapply does_bind; [apply IH; intros y Y; apply H; right; exact Y|].
    intros r. apply does_ret. intros hi s mid L2 _ Q lo L1 _ P. destruct i as [i|].
    + change (i :: r) with ([i] ++ r). apply (G_app s n lo mid hi); [|exact Q|exact L1|exact L2].
      destruct P as [_ [P _]]. exact (G_up _ _ _ _ _ _ I P).
    + exact (G_widen _ _ _ _ _ _ _ Q L1 (le_n _)).
Qed.
Lemma does_with : forall {A} f (l : list (option string * A)) k (P : nat -> nat -> state -> option nat -> Prop),
  (forall m s, P m m s None) -> (forall c, field f l = Some c -> does (k c) P) -> does (with_field f l k) P.
Proof. intros A f l k P N H. unfold with_field. destruct (field f l); [apply H; reflexivity|apply does_ret; apply N]. Qed.
(** The last step: an expression is recorded for some node in [n]. *)
Lemma does_some_alloc : forall x p (P : nat -> nat -> state -> option nat -> Prop),
  (forall i s, nth i (exprs s) EMissing = x -> expr_source s i = Some p -> P i (S i) s (Some i)) -> does (some_alloc x p) P.
Proof.
  intros x p P H. unfold some_alloc. eapply does_bind; [apply does_alloc|]. intros i. apply does_ret.
  intros hi s lo _ _ [-> [-> [E S]]]. apply H; assumption.
Qed.

(** Running at all. *)
Definition just {A} (m : M A) : Prop := does m (fun _ _ _ _ => True).
Lemma just_bind : forall A B (m : M A) (f : A -> M B), just m -> (forall a, just (f a)) -> just (bind m f).
Proof. intros A B m f H K. eapply does_bind; [exact H|]. intros a. eapply does_impl; [apply K|]. auto. Qed.
Lemma just_ret : forall A (a : A), just (ret a).
Proof. intros. apply does_ret. auto. Qed.
Lemma just_missing : just missing.
Proof. eapply does_impl; [apply does_missing|]. auto. Qed.
Lemma just_ident : forall n, just (alloc_ident n).
Proof. intros. eapply does_impl; [apply does_ident|]. auto. Qed.
Lemma just_alloc : forall x p, just (alloc x p).
Proof. intros. eapply does_impl; [apply does_alloc|]. auto. Qed.
Lemma just_maybe : forall n, just (maybe_collect (annotate e n)).
Proof.
  intros n. apply (walk e (nodes n) (@just) just_ret just_bind just_missing just_ident (fun x d _ _ => just_alloc x (ptr_of d)) (size n));
  [apply le_n|apply incl_refl|left; intros; apply does_panic].
Qed.
Lemma just_bindings : forall ty l, just (collect_bindings ty (map (annotate e) l)).
Proof.
  intros ty l. apply (walk_bindings e l (@just) just_ret just_bind just_missing just_ident (fun x d _ _ => just_alloc x (ptr_of d))).
  intros c I. split; [exact I|]. intros. apply just_maybe.
Qed.
Lemma just_cases : forall l, just (collect_cases (map (annotate e) l)).
Proof. intros l. apply (walk_cases e (@just) just_ret just_bind just_missing). intros. apply just_maybe. Qed.
Lemma just_all : forall l, just (collect_all (map (annotate e) l)).
Proof.
  intros l. apply (walk_all (@just) just_ret just_bind just_missing). intros n I. apply in_map_iff in I. destruct I as [x [<- _]]. apply just_maybe.
Qed.
Lemma just_collect : forall n, just (collect (annotate e n)).
Proof. intros n. apply (walk_collect (@just) just_ret just_bind just_missing). apply just_maybe. Qed.
Lemma just_opt : forall n, just (collect_opt (option_map (annotate e) n)).
Proof. intros [n|]; cbn; [|apply just_ret]. apply just_bind; [apply just_collect|]. intros. apply just_ret. Qed.

Lemma gives_alloc : forall n lo s i x d, nth i (exprs s) EMissing = x -> In d (nodes n) -> expr_source s i = Some (ptr_of d) -> lo <= i ->
  (forall nm, x <> EIdent nm) -> (is_statement (kind_of n) = false -> flat x) -> G s n lo i (below x) -> gives n lo (S i) s i.
Proof.
  intros n lo s i x d E I S L N F H. split; [lia|]. split; [|split].
  - exact (G_node _ _ _ _ _ x E N H L (Nat.lt_succ_diag_r _)).
  - rewrite E. exact F.
  - intros q Q. exists d. split; [exact I|]. congruence.
Qed.
Lemma G_cons : forall s n lo m hi a l, G s n lo m [a] -> G s n m hi l -> lo <= m -> m <= hi -> G s n lo hi (a :: l).
Proof. intros s n lo m hi a l. exact (G_app s n lo m hi [a] l). Qed.
Lemma G_cons' : forall s n lo m hi a l, G s n m hi [a] -> G s n lo m l -> lo <= m -> m <= hi -> G s n lo hi (a :: l).
Proof. intros s n lo m hi a l. exact (G_app' s n lo m hi [a] l). Qed.
Lemma gives_up : forall x n lo hi s i, incl (nodes x) (nodes n) -> gives x lo hi s i -> G s n lo hi [i].
Proof. intros x n lo hi s i I [_ [H _]]. exact (G_up _ _ _ _ _ _ I H). Qed.
Lemma gives_opt_up : forall x n lo hi s a, incl (nodes x) (nodes n) -> gives_opt x lo hi s a -> G s n lo hi (opt a).
Proof. intros x n lo hi s [i|] I H; [|apply G_nil]. exact (gives_up _ _ _ _ _ _ I H). Qed.

Theorem does_node : forall k n, size n <= k -> everywhere holds_expression n -> does (maybe_collect (annotate e n)) (gives_opt n).
Proof.
  induction k as [|k IH]; intros n S P; [destruct n; cbn in S; lia|].
  assert (C : forall x, In x (map snd (kids_of n)) -> incl (nodes x) (nodes n) /\ does (maybe_collect (annotate e x)) (gives_opt x)).
  { intros x J. split; [exact (nodes_kid _ _ J)|]. apply IH; [|exact (everywhere_kid _ _ _ P J)].
    pose proof (in_sizes _ _ J). rewrite (size_kids n) in S. lia. }
  assert (Gr : forall y x, In y (map snd (kids_of n)) -> In x (map snd (kids_of y)) ->
                 incl (nodes x) (nodes n) /\ does (maybe_collect (annotate e x)) (gives_opt x)).
  { intros y x J J'. split; [intros d D; apply (nodes_kid _ _ J), (nodes_kid _ _ J' d D)|].
    apply IH; [|exact (everywhere_kid _ y _ (everywhere_kid _ _ _ P J) J')].
    pose proof (in_sizes _ _ J). pose proof (in_sizes _ _ J'). rewrite (size_kids n) in S. rewrite (size_kids y) in H. lia. }
  pose proof (everywhere_here _ _ P) as P0. pose proof (nodes_self n) as Self. clear IH S P.
  destruct n as [kd p t l]. set (n := T kd p t l) in *. cbn [kids_of] in C, Gr. unfold n at 1. rewrite run_eq.
  assert (Cf : forall f x, field f l = Some x -> does (collect (annotate e x)) (gives x)).
  { intros f x F. apply does_collect, C. exact (field_in _ _ _ F). }
  assert (Cm : forall f x, field f l = Some x -> does (maybe_collect (annotate e x)) (gives_opt x)).
  { intros f x F. apply C. exact (field_in _ _ _ F). }
  assert (Ci : forall f x, field f l = Some x -> incl (nodes x) (nodes n)).
  { intros f x F. apply C. exact (field_in _ _ _ F). }
  assert (Cd : forall f x, field f l = Some x -> In x (nodes n)).
  { intros f x F. apply (Ci f x F), nodes_self. }
  assert (W : forall f k (Q : nat -> nat -> state -> option nat -> Prop), (forall m s, Q m m s None) ->
     (forall c, field f l = Some c -> does (k (annotate e c)) Q) -> does (with_field f (ann e l) k) Q).
  { intros f k0 Q Q0 H. apply does_with; [exact Q0|]. intros c F. rewrite field_ann in F. destruct (field f l) as [x|] eqn:E; [|discriminate].
    injection F as <-. apply H. reflexivity. }
  assert (Nl : forall lo hi s, gives_opt n lo hi s None) by (intros; exact Logic.I).
  assert (Some1 : does (ret None) (gives_opt n)) by (apply does_ret; intros; exact Logic.I).
  Local Ltac nonek := intros; exact Logic.I.
  Local Ltac leafy := apply does_some_alloc; intros i s E S; unfold gives_opt;
    match type of E with _ = ?x => eapply (gives_alloc _ _ _ _ x) end; [exact E|eassumption|exact S|lia|discriminate|intros _; exact Logic.I|apply G_nil].
  Local Ltac wf_ := match goal with W : forall f k Q, _ |- does (with_field ?f _ _) _ => apply W; [nonek|] end.
  Local Ltac stm := apply does_some_alloc; intros i s E S; intros; unfold gives_opt;
    match type of E with _ = ?x => eapply (gives_alloc _ _ _ _ x) end; [exact E|eassumption|exact S|lia|discriminate|discriminate|apply G_nil].
  Local Ltac justs := repeat (eapply does_bind; [first [apply just_bindings|apply just_cases|apply just_all|apply just_collect|apply just_maybe|apply just_opt]|intros]).
  destruct kd; cbn [step]; try exact Some1; try leafy.
  - (* named_arg *) wf_. intros a Fa. wf_. intros b Fb. eapply does_bind; [apply just_collect|intros i]. eapply does_bind; [exact (Cf _ _ Fb)|intros j].
    apply does_some_alloc. intros r s E S m1 L1 L1' Pb m0 L0 L0' _. unfold gives_opt.
    eapply gives_alloc; [exact E|exact Self|exact S|lia|discriminate|intros _; exact Logic.I|]. cbn [below].
    apply (G_widen _ _ m1 r); [|exact L0|lia]. exact (gives_up _ _ _ _ _ _ (Ci _ _ Fb) Pb).
  - (* block *) destruct (block_id e p); [|apply does_panic]. rewrite snd_ann, (filter_ann e (fun x => negb (is_kind x anon_LBRACE || is_kind x anon_RBRACE))). justs. stm.
  - rewrite of_kind_ann. justs. stm.
  - rewrite of_kind_ann. justs. stm.
  - rewrite fields_ann. justs. wf_. intros. wf_. intros. wf_. intros. justs. stm.
  - wf_. intros. wf_. intros. justs. stm.
  - wf_. intros. wf_. intros. justs. stm.
  - wf_. intros. wf_. intros. rewrite field_ann. justs. stm.
  - wf_. intros. rewrite of_kind_ann. justs. stm.
  - (* return *) wf_. intros x F. eapply does_bind; [exact (Cm _ _ F)|intros a]. rewrite annotate_ptr.
    apply does_some_alloc. intros r s E S m1 L1 L1' Pb. unfold gives_opt.
    eapply gives_alloc; [exact E|exact (Cd _ _ F)|exact S|lia|discriminate|intros _; exact Logic.I|]. cbn [below].
    exact (gives_opt_up _ _ _ _ _ _ (Ci _ _ F) Pb).
  - (* delete *) wf_. intros x F. eapply does_bind; [exact (Cm _ _ F)|intros a]. rewrite annotate_ptr.
    apply does_some_alloc. intros r s E S m1 L1 L1' Pb. unfold gives_opt.
    eapply gives_alloc; [exact E|exact (Cd _ _ F)|exact S|lia|discriminate|intros _; exact Logic.I|]. cbn [below].
    exact (gives_opt_up _ _ _ _ _ _ (Ci _ _ F) Pb).
  - (* statement *) destruct l as [|[f x] l]; [exact Some1|]. unfold ann. cbn [map].
    destruct (C x (or_introl eq_refl)) as [Ix Dx]. eapply does_bind; [exact (does_collect _ Dx)|intros i].
    apply does_ret. intros hi s lo L _ [R [Q1 [Q2 Q3]]]. split; [lia|]. split; [exact (G_up _ _ _ _ _ _ Ix Q1)|]. split.
    + intros _. apply Q2. specialize (P0 (or_intror eq_refl)). inversion P0; assumption.
    + intros q Q. destruct (Q3 q Q) as [y [Y E]]. exists y. split; [exact (Ix y Y)|exact E].
  - (* assignment *) wf_. intros a Fa. eapply does_bind; [exact (Cf _ _ Fa)|intros i]. wf_. intros b Fb. eapply does_bind; [exact (Cf _ _ Fb)|intros j].
    apply does_some_alloc. intros r s E S m1 L1 L1' Pb m0 L0 L0' Pa. unfold gives_opt.
    eapply gives_alloc; [exact E|exact Self|exact S|lia|discriminate|intros _; exact Logic.I|]. cbn [below].
    apply (G_cons _ _ _ m1); [exact (gives_up _ _ _ _ _ _ (Ci _ _ Fa) Pa)|exact (gives_up _ _ _ _ _ _ (Ci _ _ Fb) Pb)|lia|lia].
  - (* binary *) wf_. intros a Fa. eapply does_bind; [exact (Cf _ _ Fa)|intros i]. wf_. intros b Fb. eapply does_bind; [exact (Cf _ _ Fb)|intros j].
    apply does_some_alloc. intros r s E S m1 L1 L1' Pb m0 L0 L0' Pa. unfold gives_opt.
    eapply gives_alloc; [exact E|exact Self|exact S|lia|discriminate|intros _; exact Logic.I|]. cbn [below].
    apply (G_cons _ _ _ m1); [exact (gives_up _ _ _ _ _ _ (Ci _ _ Fa) Pa)|exact (gives_up _ _ _ _ _ _ (Ci _ _ Fb) Pb)|lia|lia].
  - (* call *) wf_. intros f Ff. wf_. intros args Fa. rewrite !annotate_kind, !annotate_kids, snd_ann.
    assert (Args : does (collect_some (map (annotate e) (map snd (kids_of args)))) (fun lo hi s is => G s n lo hi is)).
    { apply does_some. intros x. apply Gr. exact (field_in _ _ _ Fa). }
    destruct (kind_of f) eqn:K; try apply does_panic.
    + apply does_with; [nonek|]. intros t0 Ft. apply does_with; [nonek|]. intros m Fm. rewrite field_ann in Ft, Fm.
      destruct (field "target" (kids_of f)) as [t'|] eqn:Et; [|discriminate]. destruct (field "field" (kids_of f)) as [m'|] eqn:Em; [|discriminate].
      injection Ft as <-. injection Fm as <-. eapply does_bind; [exact Args|intros is].
      destruct (Gr f t' (field_in _ _ _ Ff) (field_in _ _ _ Et)) as [It Dt]. destruct (Gr f m' (field_in _ _ _ Ff) (field_in _ _ _ Em)) as [Im _].
      eapply does_bind; [exact (does_collect _ Dt)|intros j]. rewrite annotate_ptr.
      apply does_some_alloc. intros r s E S m1 L1 L1' Pt m0 L0 L0' Pa. unfold gives_opt.
      eapply gives_alloc; [exact E|apply Im, nodes_self|exact S|lia|discriminate|intros _; exact Logic.I|]. cbn [below].
      apply (G_cons' _ _ _ m1); [exact (gives_up _ _ _ _ _ _ It Pt)|exact Pa|lia|lia].
    + eapply does_bind; [exact (Cf _ _ Ff)|intros i]. eapply does_bind; [exact Args|intros is].
      apply does_some_alloc. intros r s E S m1 L1 L1' Pb m0 L0 L0' Pa. unfold gives_opt.
      eapply gives_alloc; [exact E|exact Self|exact S|lia|discriminate|intros _; exact Logic.I|]. cbn [below].
      apply (G_cons _ _ _ m1); [exact (gives_up _ _ _ _ _ _ (Ci _ _ Ff) Pa)|exact Pb|lia|lia].
  - (* index *) wf_. intros a Fa. wf_. intros b Fb. eapply does_bind; [exact (Cf _ _ Fa)|intros i]. eapply does_bind; [exact (Cf _ _ Fb)|intros j].
    apply does_some_alloc. intros r s E S m1 L1 L1' Pb m0 L0 L0' Pa. unfold gives_opt.
    eapply gives_alloc; [exact E|exact Self|exact S|lia|discriminate|intros _; exact Logic.I|]. cbn [below].
    apply (G_cons _ _ _ m1); [exact (gives_up _ _ _ _ _ _ (Ci _ _ Fa) Pa)|exact (gives_up _ _ _ _ _ _ (Ci _ _ Fb) Pb)|lia|lia].
  - (* ternary *) wf_. intros a Fa. eapply does_bind; [exact (Cf _ _ Fa)|intros i]. wf_. intros b Fb. eapply does_bind; [exact (Cf _ _ Fb)|intros j].
    wf_. intros c Fc. eapply does_bind; [exact (Cf _ _ Fc)|intros h].
    apply does_some_alloc. intros r s E S m2 L2 L2' Pc m1 L1 L1' Pb m0 L0 L0' Pa. unfold gives_opt.
    eapply gives_alloc; [exact E|exact Self|exact S|lia|discriminate|intros _; exact Logic.I|]. cbn [below].
    apply (G_cons _ _ _ m1); [exact (gives_up _ _ _ _ _ _ (Ci _ _ Fa) Pa)| |lia|lia].
    apply (G_cons _ _ _ m2); [exact (gives_up _ _ _ _ _ _ (Ci _ _ Fb) Pb)|exact (gives_up _ _ _ _ _ _ (Ci _ _ Fc) Pc)|lia|lia].
  - (* field *) wf_. intros f Ff. wf_. intros x F. eapply does_bind; [exact (Cf _ _ F)|intros i]. rewrite annotate_ptr.
    apply does_some_alloc. intros r s E S m1 L1 L1' Pb. unfold gives_opt.
    eapply gives_alloc; [exact E|exact (Cd _ _ Ff)|exact S|lia|discriminate|intros _; exact Logic.I|]. exact (gives_up _ _ _ _ _ _ (Ci _ _ F) Pb).
  - wf_. intros f Ff. wf_. intros x F. eapply does_bind; [exact (Cf _ _ F)|intros i].
    apply does_some_alloc. intros r s E S m1 L1 L1' Pb. unfold gives_opt.
    eapply gives_alloc; [exact E|exact Self|exact S|lia|discriminate|intros _; exact Logic.I|]. exact (gives_up _ _ _ _ _ _ (Ci _ _ F) Pb).
  - wf_. intros f Ff. wf_. intros x F. eapply does_bind; [exact (Cf _ _ F)|intros i].
    apply does_some_alloc. intros r s E S m1 L1 L1' Pb. unfold gives_opt.
    eapply gives_alloc; [exact E|exact Self|exact S|lia|discriminate|intros _; exact Logic.I|]. exact (gives_up _ _ _ _ _ _ (Ci _ _ F) Pb).
  - (* unary *) wf_. intros x F. eapply does_bind; [exact (Cf _ _ F)|intros i]. rewrite annotate_ptr.
    apply does_some_alloc. intros r s E S m1 L1 L1' Pb. unfold gives_opt.
    eapply gives_alloc; [exact E|exact (Cd _ _ F)|exact S|lia|discriminate|intros _; exact Logic.I|]. exact (gives_up _ _ _ _ _ _ (Ci _ _ F) Pb).
  - wf_. intros x F. eapply does_bind; [exact (Cf _ _ F)|intros i]. rewrite annotate_ptr.
    apply does_some_alloc. intros r s E S m1 L1 L1' Pb. unfold gives_opt.
    eapply gives_alloc; [exact E|exact (Cd _ _ F)|exact S|lia|discriminate|intros _; exact Logic.I|]. exact (gives_up _ _ _ _ _ _ (Ci _ _ F) Pb).
  - wf_. intros x F. eapply does_bind; [exact (Cf _ _ F)|intros i].
    apply does_some_alloc. intros r s E S m1 L1 L1' Pb. unfold gives_opt.
    eapply gives_alloc; [exact E|exact Self|exact S|lia|discriminate|intros _; exact Logic.I|]. exact (gives_up _ _ _ _ _ _ (Ci _ _ F) Pb).
  - wf_. intros x F. destruct (type_of e p); cbn [or_none]; [|exact Some1]. eapply does_bind; [exact (Cf _ _ F)|intros i].
    apply does_some_alloc. intros r s E S m1 L1 L1' Pb. unfold gives_opt.
    eapply gives_alloc; [exact E|exact Self|exact S|lia|discriminate|intros _; exact Logic.I|]. exact (gives_up _ _ _ _ _ _ (Ci _ _ F) Pb).
  - wf_. intros x F. destruct (type_of e p); cbn [or_none]; [|exact Some1]. eapply does_bind; [exact (Cf _ _ F)|intros i].
    apply does_some_alloc. intros r s E S m1 L1 L1' Pb. unfold gives_opt.
    eapply gives_alloc; [exact E|exact Self|exact S|lia|discriminate|intros _; exact Logic.I|]. exact (gives_up _ _ _ _ _ _ (Ci _ _ F) Pb).
  - (* identifier *) apply does_some_alloc. intros i s E S. unfold gives_opt. split; [lia|]. split; [|split].
    + apply (G_ident s n i (Datatypes.S i) i n); [exact E|exact Self|left; reflexivity|exact S|lia|lia].
    + intros _. rewrite E. exact Logic.I.
    + intros q Q. exists n. split; [exact Self|]. change (ptr_of n) with p. congruence.
  - (* this *) apply does_some_alloc. intros i s E S. unfold gives_opt. split; [lia|]. split; [|split].
    + apply (G_ident s n i (Datatypes.S i) i n); [exact E|exact Self|right; reflexivity|exact S|lia|lia].
    + intros _. rewrite E. exact Logic.I.
    + intros q Q. exists n. split; [exact Self|]. change (ptr_of n) with p. congruence.
  - destruct (parse_i64 t); [cbn [or_none]; leafy|exact Some1].
  - destruct (parse_f64 e t); [cbn [or_none]; leafy|exact Some1].
  - destruct (String.get 1 t); [cbn [or_none]; leafy|exact Some1].
  - destruct (parse_bool t); [cbn [or_none]; leafy|exact Some1].
  - (* paren *) wf_. intros x F. eapply does_impl; [exact (Cm _ _ F)|]. intros lo hi s [i|] L; [|auto]. intros [R [Q1 [Q2 Q3]]].
    split; [lia|]. split; [exact (G_up _ _ _ _ _ _ (Ci _ _ F) Q1)|]. split.
    + intros _. apply Q2. specialize (P0 (or_introl eq_refl)). rewrite Forall_forall in P0. pose proof (field_in _ _ _ F) as J.
      apply in_map_iff in J. destruct J as [c [<- J]]. exact (P0 c J).
    + intros q Q. destruct (Q3 q Q) as [y [Y E]]. exists y. split; [exact (Ci _ _ F y Y)|exact E].
  - (* new *) wf_. intros c Fc. wf_. intros args Fa. rewrite annotate_kids, snd_ann.
    eapply does_bind; [apply (does_some n); intros x; apply Gr; exact (field_in _ _ _ Fa)|intros is]. rewrite annotate_ptr.
    apply does_some_alloc. intros r s E S m1 L1 L1' Pb. unfold gives_opt.
    eapply gives_alloc; [exact E|exact (Cd _ _ Fc)|exact S|lia|discriminate|intros _; exact Logic.I|]. exact Pb.
  - (* array *) rewrite snd_ann. eapply does_bind; [apply (does_some n); exact C|intros is].
    apply does_some_alloc. intros r s E S m1 L1 L1' Pb. unfold gives_opt.
    eapply gives_alloc; [exact E|exact Self|exact S|lia|discriminate|intros _; exact Logic.I|]. exact Pb.
  - (* comma *) rewrite snd_ann. eapply does_bind; [apply (does_all n); exact C|intros is].
    apply does_some_alloc. intros r s E S m1 L1 L1' Pb. unfold gives_opt.
    eapply gives_alloc; [exact E|exact Self|exact S|lia|discriminate|intros _; exact Logic.I|]. exact Pb.
Qed.
End main.
