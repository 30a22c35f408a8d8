(** Facts about the scopes computed for a body. *)
From Coq Require Import List String Bool Arith Lia.
From Verif Require Import TypeRefModel HirModel HirSpec.
Import ListNotations.

(** * Induction *)

Definition subs (e : expr) : list expr :=
  match e with
  | Ident _ _ | Missing _ | Literal _ _ => []
  | CommaExpr _ l | ArrayLiteral _ l | New _ _ l => l
  | NamedArg _ x v => [x; v]
  | ViewAs _ x _ | FieldAccess _ x _ | ScopeAccess _ x _ | UnaryOp _ x => [x]
  | ArrayIndexedAccess _ a b | BinaryOp _ a b => [a; b]
  | TernaryOp _ a b c => [a; b; c]
  | Control _ x => match x with Some y => [y] | None => [] end
  | Call _ f l => f :: l
  | MethodCall _ t _ l => t :: l
  end.
Lemma expr_induct (P : expr -> Prop) : (forall e, Forall P (subs e) -> P e) -> forall e, P e.
Proof.
  intros H. fix IH 1. intros e. apply H.
  assert (L : forall l, Forall P l) by (fix G 1; intros [|x l]; constructor; [apply IH|apply G]).
  destruct e as [i|i n|i l|i x v|i n l|i x ty|i x n|i x n|i a b|i x|i a b|i a b c|i x|i f l|i t n l|i ty|i l]; simpl.
  13: destruct x as [y|].
  all: try apply L; repeat constructor; try apply IH; apply L.
Qed.

Definition kids (s : stmt) : list stmt :=
  match s with
  | SExpr _ | SDecl _ _ => []
  | SBlock _ l => l
  | SLoop _ init _ _ b => init ++ [b]
  | SCondition _ _ t e => t :: match e with Some x => [x] | None => [] end
  | SSwitch _ _ cases => map snd cases
  end.
Lemma stmt_induct (P : stmt -> Prop) : (forall s, Forall P (kids s) -> P s) -> forall s, P s.
Proof.
  intros H. fix IH 1. intros s. apply H.
  assert (L : forall l, Forall P l) by (fix G 1; intros [|x l]; constructor; [apply IH|apply G]).
  destruct s as [e|i l|i l|i l c it b|i c t e|i c cs]; simpl.
  - constructor.
  - constructor.
  - apply L.
  - apply Forall_app. split; [apply L|repeat constructor; apply IH].
  - constructor; [apply IH|destruct e; repeat constructor; apply IH].
  - revert cs. fix G 1. intros [|[vs x] cs]; simpl; constructor; [apply IH|apply G].
Qed.

(** * Tables *)

Lemma nth_update_same {A} f : forall (l : list A) i d, nth_error l i = Some d -> nth_error (update_nth i f l) i = Some (f d).
Proof. induction l as [|x l IH]; intros [|i] d H; simpl in *; try discriminate; [now inversion H|now apply IH]. Qed.
Lemma nth_update_other {A} (f : A -> A) : forall l i j, i <> j -> nth_error (update_nth i f l) j = nth_error l j.
Proof. induction l as [|x l IH]; intros [|i] [|j] H; simpl; try reflexivity; try lia. apply IH. lia. Qed.
Lemma length_update {A} (f : A -> A) : forall l i, List.length (update_nth i f l) = List.length l.
Proof. induction l as [|x l IH]; intros [|i]; simpl; auto. Qed.

(** The declarations of a scope, by node. *)
Definition content (s : expr_scopes) (d : scope_data) : list decl :=
  map (fun x => (fst x, nth (snd x) (scope_entries s) 0)) (sd_entries d).
Definition view (s : expr_scopes) (i : nat) (parent : option nat) (l : list decl) : Prop :=
  exists d, nth_error (scopes s) i = Some d /\ sd_parent d = parent /\ content s d = l.

(** Entries point into the arena. *)
Definition sound (s : expr_scopes) : Prop :=
  Forall (fun d => Forall (fun x => snd x < List.length (scope_entries s)) (sd_entries d)) (scopes s).

Lemma assoc_content s n : forall l, Forall (fun x => snd x < List.length (scope_entries s)) l ->
  match assoc n l with Some k => nth_error (scope_entries s) k | None => None end =
  assoc n (map (fun x : name * nat => (fst x, nth (snd x) (scope_entries s) 0)) l).
Proof.
  induction l as [|[m k] l IH]; intros H; simpl; [reflexivity|]. inversion H; subst.
  destruct (String.eqb m n); [|auto]. simpl in H2. now apply nth_error_nth'.
Qed.
Lemma assoc_none s n : forall l, assoc n l = None <->
  assoc n (map (fun x : name * nat => (fst x, nth (snd x) (scope_entries s) 0)) l) = None.
Proof. induction l as [|[m k] l IH]; simpl; [easy|]. destruct (String.eqb m n); [easy|exact IH]. Qed.

Lemma forall_update {A} (P : A -> Prop) f : (forall d, P d -> P (f d)) -> forall l i, Forall P l -> Forall P (update_nth i f l).
Proof. intros K. induction l as [|x l IH]; intros [|i] H; simpl; inversion H; subst; constructor; auto. Qed.

Lemma sound_add n e i s : sound s -> sound (add_entry n e i s).
Proof.
  unfold sound, add_entry. cbn [scopes scope_entries]. rewrite app_length. simpl. intros H.
  apply forall_update.
  - intros d D. cbn [sd_entries]. constructor; [simpl; lia|]. exact D.
  - eapply Forall_impl; [|exact H]. intros d D. eapply Forall_impl; [|exact D]. simpl. intros. lia.
Qed.
Lemma sound_block p s : sound s -> sound (new_block_scope p s).
Proof. unfold sound, new_block_scope. cbn [scopes scope_entries]. intros H. apply Forall_app. split; [exact H|repeat constructor]. Qed.

Lemma content_ext s x d : Forall (fun y => snd y < List.length (scope_entries s)) (sd_entries d) ->
  forall b c, content (ExprScopes b (scope_entries s ++ x) c) d = content s d.
Proof.
  intros H b c. unfold content. apply map_ext_in. intros y Hy. cbn [scope_entries].
  rewrite app_nth1; [reflexivity|]. rewrite Forall_forall in H. now apply H.
Qed.

(** * One statement *)

(** What a step at scope [sc] leaves: older scopes keep what they have, [sc] gets [l] in front, and
    only the listed nodes are given a scope. *)
Record grows (s s' : expr_scopes) (sc : nat) (l : list decl) (ids : list nat) : Prop := Grows {
  g_len : List.length (scopes s) <= List.length (scopes s');
  g_sound : sound s -> sound s';
  g_view : sound s -> forall i p v, view s i p v -> view s' i p (if Nat.eqb i sc then rev l ++ v else v);
  g_map : forall x, ~ In x ids -> by_id x (by_expr s') = by_id x (by_expr s) }.

Lemma grows_refl s sc : grows s s sc [] [].
Proof. constructor; auto. intros _ i p v H. destruct (i =? sc); exact H. Qed.
Lemma grows_trans s1 s2 s3 sc a b x y : grows s1 s2 sc a x -> grows s2 s3 sc b y -> grows s1 s3 sc (a ++ b) (x ++ y).
Proof.
  intros [L1 S1 V1 M1] [L2 S2 V2 M2]. constructor; [lia|auto| |].
  - intros K i p v H. specialize (V1 K i p v H). specialize (V2 (S1 K) _ _ _ V1).
    destruct (i =? sc); [|exact V2]. rewrite rev_app_distr, <- app_assoc. exact V2.
  - intros z Hz. rewrite M2, M1; [reflexivity|intros c|intros c]; apply Hz, in_or_app; auto.
Qed.
Lemma grows_ids s s' sc l a b : incl a b -> grows s s' sc l a -> grows s s' sc l b.
Proof. intros I [L S V M]. constructor; auto. Qed.
Lemma grows_set n sc k s : grows s (set_scope n k s) sc [] [n].
Proof.
  constructor; auto.
  - intros _ i p v H. destruct (i =? sc); exact H.
  - intros x Hx. unfold set_scope. simpl. destruct (Nat.eqb_spec n x); [subst; exfalso; apply Hx; now left|reflexivity].
Qed.
Lemma grows_add n e sc s : grows s (add_entry n e sc s) sc [(n, e)] [].
Proof.
  constructor; auto using sound_add.
  - unfold add_entry. cbn [scopes]. now rewrite length_update.
  - intros K i p v (d & H1 & H2 & H3). unfold view.
    assert (D : Forall (fun y => snd y < List.length (scope_entries s)) (sd_entries d)).
    { unfold sound in K. rewrite Forall_forall in K. apply K. eapply nth_error_In; eauto. }
    destruct (Nat.eqb_spec i sc) as [->|N].
    + exists (ScopeData (sd_parent d) ((n, List.length (scope_entries s)) :: sd_entries d)).
      unfold add_entry. cbn [scopes]. split; [|split].
      * erewrite nth_update_same; [reflexivity|exact H1].
      * exact H2.
      * unfold content. cbn [sd_entries map fst snd scope_entries]. rewrite app_nth2, Nat.sub_diag by lia. simpl. f_equal.
        rewrite <- H3. exact (content_ext s [e] d D [] []).
    + exists d. unfold add_entry. cbn [scopes]. rewrite nth_update_other by congruence. split; [exact H1|split; [exact H2|]].
      rewrite <- H3. exact (content_ext s [e] d D _ _).
Qed.
Lemma grows_new p sc s : sc < List.length (scopes s) -> grows s (new_block_scope p s) sc [] [].
Proof.
  intros L. constructor; auto using sound_block.
  - unfold new_block_scope. cbn [scopes]. rewrite app_length. lia.
  - intros _ i q v (d & H1 & H2 & H3). assert (E : view (new_block_scope p s) i q v).
    { exists d. unfold new_block_scope. cbn [scopes]. split; [|split; assumption].
      rewrite nth_error_app1; [exact H1|]. apply nth_error_Some. congruence. }
    destruct (i =? sc); exact E.
Qed.

(** Seen from another scope. *)
Lemma grows_away s s' j l ids sc : grows s s' j l ids -> List.length (scopes s) <= j -> grows s s' sc [] ids.
Proof.
  intros [L S V M] J. constructor; auto.
  intros K i p v H. assert (N : i < List.length (scopes s)).
  { destruct H as (d & H & _). apply nth_error_Some. congruence. }
  specialize (V K i p v H). destruct (Nat.eqb_spec i j); [lia|]. destruct (i =? sc); exact V.
Qed.

Lemma grows_bindings sc : forall l s, grows s (fold_left (compute_binding sc) l s) sc (map (fun b => (b_name b, b_id b)) l) (map b_id l).
Proof.
  induction l as [|b l IH]; intros s; simpl; [apply grows_refl|].
  change ((b_name b, b_id b) :: map (fun b => (b_name b, b_id b)) l) with (([] ++ [(b_name b, b_id b)]) ++ map (fun b => (b_name b, b_id b)) l).
  change (b_id b :: map b_id l) with (([b_id b] ++ []) ++ map b_id l).
  eapply grows_trans; [|apply IH]. unfold compute_binding. eapply grows_trans; [apply grows_set|apply grows_add].
Qed.

Definition compute_seq (sc : nat) (l : list stmt) (s : expr_scopes) : expr_scopes := fold_left (fun s x => compute x sc s) l s.
Lemma compute_cases sc : forall (cs : list (list expr * stmt)) s,
  fold_left (fun s c => match c with (_, x) => compute x sc s end) cs s = compute_seq sc (map snd cs) s.
Proof. induction cs as [|[vs x] cs IH]; intros s; simpl; [reflexivity|apply IH]. Qed.
Lemma flat_map_cases {A} (f : stmt -> list A) : forall (cs : list (list expr * stmt)),
  flat_map (fun c => match c with (_, x) => f x end) cs = flat_map f (map snd cs).
Proof. induction cs as [|[vs x] cs IH]; simpl; [reflexivity|now rewrite IH]. Qed.

(** Statements that share the scope of their kids. *)
Lemma compute_kids x sc s : match x with SBlock _ _ | SDecl _ _ => False | _ => True end ->
  compute x sc s = compute_seq sc (kids x) (set_scope (stmt_id x) sc s).
Proof.
  destruct x as [e|i l|i l|i l c it b|i c t e|i c cs]; intros H; try contradiction; simpl.
  - reflexivity.
  - unfold compute_seq. now rewrite fold_left_app.
  - destruct e; reflexivity.
  - apply compute_cases.
Qed.
Lemma level_kids x : match x with SBlock _ _ | SDecl _ _ => False | _ => True end -> level x = flat_map level (kids x).
Proof.
  destruct x as [e|i l|i l|i l c it b|i c t e|i c cs]; intros H; try contradiction; simpl.
  - reflexivity.
  - rewrite flat_map_app. simpl. now rewrite app_nil_r.
  - destruct e; simpl; now rewrite ?app_nil_r.
  - apply flat_map_cases.
Qed.
Lemma ids_kids x : match x with SDecl _ _ => False | _ => True end -> stmt_ids x = stmt_id x :: flat_map stmt_ids (kids x).
Proof.
  destruct x as [e|i l|i l|i l c it b|i c t e|i c cs]; intros H; try contradiction; simpl; f_equal.
  - rewrite flat_map_app. simpl. now rewrite app_nil_r.
  - destruct e; simpl; now rewrite ?app_nil_r.
  - apply flat_map_cases.
Qed.

Lemma grows_seq sc : forall l, Forall (fun x => forall sc s, sc < List.length (scopes s) -> grows s (compute x sc s) sc (level x) (stmt_ids x)) l ->
  forall s, sc < List.length (scopes s) -> grows s (compute_seq sc l s) sc (flat_map level l) (flat_map stmt_ids l).
Proof.
  induction l as [|x l IH]; intros H s L; [apply grows_refl|]. inversion H; subst. unfold compute_seq. simpl.
  pose proof (H2 sc s L) as G. eapply grows_trans; [exact G|]. apply IH; [assumption|].
  pose proof (g_len _ _ _ _ _ G). lia.
Qed.

Theorem compute_grows : forall x sc s, sc < List.length (scopes s) -> grows s (compute x sc s) sc (level x) (stmt_ids x).
Proof.
  induction x as [x IH] using stmt_induct. intros sc s L.
  destruct x as [e|i l|i l|i l c it b|i c t e|i c cs].
  2:{ simpl. change (i :: map b_id l) with ([i] ++ map b_id l).
      change (map (fun b => (b_name b, b_id b)) l) with ([] ++ map (fun b => (b_name b, b_id b)) l).
      eapply grows_trans; [apply grows_set|apply grows_bindings]. }
  2:{ simpl level. rewrite ids_kids by exact I. simpl compute. simpl kids in *.
      set (s1 := set_scope i sc s). set (s2 := new_block_scope sc s1). set (j := List.length (scopes s)).
      change (List.length (scopes s1)) with j.
      assert (L2 : j < List.length (scopes (set_scope i j s2))).
      { unfold s2, s1, set_scope, new_block_scope. cbn [scopes]. rewrite app_length. simpl. fold j. lia. }
      pose proof (grows_seq j l IH (set_scope i j s2) L2) as G.
      assert (B : grows s (set_scope i j s2) sc [] [i]).
      { eapply grows_ids; [|eapply grows_trans with (a := []) (b := []) (x := [i]) (y := [] ++ [i]); [apply grows_set|]].
        - intros y [<-|[<-|[]]]; now left.
        - eapply grows_trans with (a := []) (b := []); [apply grows_new; exact L|apply grows_set]. }
      change (fold_left (fun s x => compute x j s) l (set_scope i j s2)) with (compute_seq j l (set_scope i j s2)).
      destruct G as [GL GS GV GM]. destruct B as [BL BS BV BM]. constructor; [lia|auto| |].
      - intros K k p v H. assert (k < j) by (destruct H as (d & H & _); apply nth_error_Some; congruence).
        specialize (BV K k p v H). simpl in BV. assert (BV' : view (set_scope i j s2) k p v) by (destruct (k =? sc); exact BV).
        specialize (GV (BS K) k p v BV'). destruct (Nat.eqb_spec k j); [lia|]. destruct (k =? sc); exact GV.
      - intros y Hy. rewrite GM, BM; [reflexivity| |].
        + intros [<-|[]]. apply Hy. now left.
        + intros c. apply Hy. now right. }
  all: rewrite compute_kids by exact I; rewrite level_kids by exact I; rewrite ids_kids by exact I;
    match goal with |- grows _ _ _ _ (?a :: ?l) => change (a :: l) with ([a] ++ l) end;
    match goal with |- grows _ _ _ ?l _ => change l with ([] ++ l) end;
    (eapply grows_trans; [apply grows_set|apply grows_seq; [exact IH|exact L]]).
Qed.

(** * Where the blocks of a statement are *)

Fixpoint placed (s : expr_scopes) (lo sc : nat) (x : stmt) : Prop :=
  match x with
  | SExpr _ | SDecl _ _ => True
  | SBlock id l =>
      exists j, by_id id (by_expr s) = Some j /\ lo <= j /\ sc < j /\ view s j (Some sc) (rev (flat_map level l)) /\
                (fix all (l : list stmt) : Prop := match l with [] => True | y :: tl => placed s (S j) j y /\ all tl end) l
  | SLoop _ init _ _ b =>
      (fix all (l : list stmt) : Prop := match l with [] => True | y :: tl => placed s lo sc y /\ all tl end) init /\ placed s lo sc b
  | SCondition _ _ t e => placed s lo sc t /\ match e with Some y => placed s lo sc y | None => True end
  | SSwitch _ _ cases =>
      (fix all (l : list (list expr * stmt)) : Prop := match l with [] => True | (_, y) :: tl => placed s lo sc y /\ all tl end) cases
  end.
Fixpoint placed_all (s : expr_scopes) (lo sc : nat) (l : list stmt) : Prop :=
  match l with [] => True | y :: tl => placed s lo sc y /\ placed_all s lo sc tl end.
Lemma placed_block s lo sc id l : placed s lo sc (SBlock id l) <->
  exists j, by_id id (by_expr s) = Some j /\ lo <= j /\ sc < j /\ view s j (Some sc) (rev (flat_map level l)) /\ placed_all s (S j) j l.
Proof.
  assert (A : forall lo sc l, (fix all (l : list stmt) : Prop := match l with [] => True | y :: tl => placed s lo sc y /\ all tl end) l <-> placed_all s lo sc l).
  { intros lo' sc' k. induction k as [|y k IH]; simpl; [tauto|]. now rewrite IH. }
  simpl. split; intros (j & h1 & h2 & h3 & h4 & h5); exists j; split; auto; split; auto; split; auto; split; auto; now apply A in h5 || now apply A.
Qed.
Lemma placed_all_app s lo sc : forall a b, placed_all s lo sc (a ++ b) <-> placed_all s lo sc a /\ placed_all s lo sc b.
Proof. induction a as [|x a IH]; intros b; simpl; [tauto|]. rewrite IH. tauto. Qed.
Lemma placed_kids s lo sc x : match x with SBlock _ _ => False | _ => True end ->
  placed s lo sc x <-> placed_all s lo sc (kids x).
Proof.
  destruct x as [e|i l|i l|i l c it b|i c t e|i c cs]; intros H; try contradiction; simpl; try tauto.
  - rewrite placed_all_app. simpl.
    assert (A : (fix all (l : list stmt) : Prop := match l with [] => True | y :: tl => placed s lo sc y /\ all tl end) l <-> placed_all s lo sc l).
    { clear. induction l as [|y k IH]; simpl; [tauto|]. now rewrite IH. }
    rewrite A. tauto.
  - destruct e; simpl; tauto.
  - clear H. induction cs as [|[vs y] cs IH]; simpl; [tauto|]. now rewrite IH.
Qed.

Lemma placed_all_in s lo sc : forall l x, placed_all s lo sc l -> In x l -> placed s lo sc x.
Proof. induction l as [|y l IH]; simpl; [easy|]. intros x [A B] [->|H]; auto. Qed.
Lemma placed_all_intro s lo sc : forall l, Forall (placed s lo sc) l -> placed_all s lo sc l.
Proof. induction 1; simpl; auto. Qed.

(** Later steps at an older scope do not disturb them. *)
Lemma placed_grows : forall x s s' lo sc k l ids, placed s lo sc x -> grows s s' k l ids -> sound s -> k < lo ->
  (forall i, In i ids -> ~ In i (stmt_ids x)) -> placed s' lo sc x.
Proof.
  induction x as [x IH] using stmt_induct. intros s s' lo sc k l ids P G K LT N.
  assert (KS : forall lo sc, k < lo -> placed_all s lo sc (kids x) -> placed_all s' lo sc (kids x)).
  { clear P. intros lo' sc' LT' P. apply placed_all_intro. rewrite Forall_forall in *. intros y Hy.
    apply (IH y Hy s s' lo' sc' k l ids); auto.
    - eapply placed_all_in; eauto.
    - intros i Hi Hx. apply (N i Hi). destruct x as [e|i' l'|i' l'|i' l' c it b|i' c t e|i' c cs]; try (simpl in Hy; contradiction).
      all: rewrite ids_kids by exact I; right; apply in_flat_map; eauto. }
  destruct x as [e|i' l'|i' l'|i' l' c it b|i' c t e|i' c cs].
  3:{ apply placed_block in P. destruct P as (j & A & B & C & D & E). apply placed_block. exists j.
      split; [|split; [|split; [|split]]]; auto.
      - rewrite (g_map _ _ _ _ _ G); [exact A|]. intros c. apply (N _ c). now left.
      - pose proof (g_view _ _ _ _ _ G K _ _ _ D) as V. destruct (Nat.eqb_spec j k); [lia|exact V].
      - apply KS; [lia|exact E]. }
  all: apply placed_kids; [exact I|]; apply KS; [exact LT|]; apply (placed_kids s lo sc) in P; [exact P|exact I].
Qed.

Lemma compute_placed : forall x sc s, sc < List.length (scopes s) -> sound s -> NoDup (stmt_ids x) ->
  placed (compute x sc s) (List.length (scopes s)) sc x.
Proof.
  assert (lower : forall x s lo lo' sc, lo' <= lo -> placed s lo sc x -> placed s lo' sc x).
  { induction x as [x IH] using stmt_induct. intros s lo lo' sc L P.
    destruct x as [e|i' l'|i' l'|i' l' c it b|i' c t e|i' c cs].
    3:{ destruct P as (j & A & B & C). exists j. split; [exact A|split; [lia|exact C]]. }
    all: apply placed_kids; [exact I|]; apply placed_kids in P; [|exact I]; apply placed_all_intro;
      rewrite Forall_forall in *; intros y Hy; eapply IH; eauto using placed_all_in. }
  assert (seq : forall l sc, Forall (fun x => forall sc s, sc < List.length (scopes s) -> sound s -> NoDup (stmt_ids x) ->
             placed (compute x sc s) (List.length (scopes s)) sc x) l ->
          forall s, sc < List.length (scopes s) -> sound s -> NoDup (flat_map stmt_ids l) ->
          placed_all (compute_seq sc l s) (List.length (scopes s)) sc l).
  { induction l as [|x l IH]; intros sc H s L K N; [exact I|]. inversion H; subst. simpl in N.
    assert (N1 : NoDup (stmt_ids x) /\ NoDup (flat_map stmt_ids l) /\ forall i, In i (flat_map stmt_ids l) -> ~ In i (stmt_ids x)).
    { clear - N. induction (stmt_ids x) as [|i a IHa]; simpl in *; [repeat split; auto; constructor|].
      inversion N; subst. destruct (IHa H2) as (A & B & C). split; [|split; [exact B|]].
      - constructor; [|exact A]. intros c. apply H1, in_or_app. now left.
      - intros k Hk [<-|c]; [apply H1, in_or_app; now right|exact (C k Hk c)]. }
    destruct N1 as (N1 & N2 & N3).
    pose proof (compute_grows x sc s L) as G1. pose proof (g_len _ _ _ _ _ G1) as L1. pose proof (g_sound _ _ _ _ _ G1 K) as K1.
    assert (L2 : sc < List.length (scopes (compute x sc s))) by lia.
    simpl. unfold compute_seq. simpl. fold (compute_seq sc l (compute x sc s)). split.
    - eapply placed_grows with (s := compute x sc s).
      + exact (H2 sc s L K N1).
      + apply grows_seq; [|exact L2]. rewrite Forall_forall. intros y _. apply compute_grows.
      + exact K1.
      + exact L.
      + exact N3.
    - specialize (IH sc H3 (compute x sc s) L2 K1 N2). apply placed_all_intro. rewrite Forall_forall. intros y Hy.
      eapply lower; [|eapply placed_all_in; eauto]. lia. }
  induction x as [x IH] using stmt_induct. intros sc s L K N.
  destruct x as [e|i l|i l|i l c it b|i c t e|i c cs].
  1:{ exact I. }
  1:{ exact I. }
  1:{ apply placed_block. exists (List.length (scopes s)). simpl compute. rewrite ids_kids in N by exact I. simpl kids in *.
      inversion N as [|? ? N1 N2]; subst. simpl in N1.
      set (s1 := set_scope i sc s). set (s2 := new_block_scope sc s1). set (j := List.length (scopes s)).
      change (fold_left (fun s x => compute x j s) l (set_scope i j s2)) with (compute_seq j l (set_scope i j s2)).
      assert (L2 : List.length (scopes (set_scope i j s2)) = S j).
      { unfold s2, s1, set_scope, new_block_scope. cbn [scopes]. rewrite app_length. simpl. fold j. lia. }
      assert (K2 : sound (set_scope i j s2)) by exact (sound_block sc s1 K).
      assert (G : grows (set_scope i j s2) (compute_seq j l (set_scope i j s2)) j (flat_map level l) (flat_map stmt_ids l)).
      { apply grows_seq; [|lia]. rewrite Forall_forall. intros y _. apply compute_grows. }
      split; [|split; [|split; [|split]]].
      - rewrite (g_map _ _ _ _ _ G); [|exact N1]. simpl. now rewrite Nat.eqb_refl.
      - lia.
      - exact L.
      - assert (V : view (set_scope i j s2) j (Some sc) []).
        { exists (ScopeData (Some sc) []). split; [|split; reflexivity]. unfold s2, s1, set_scope, new_block_scope. cbn [scopes].
          rewrite nth_error_app2 by (fold j; lia). unfold j. now rewrite Nat.sub_diag. }
        pose proof (g_view _ _ _ _ _ G K2 _ _ _ V) as V2. rewrite Nat.eqb_refl, app_nil_r in V2. exact V2.
      - rewrite <- L2. apply seq; auto. lia. }
  all: apply placed_kids; [exact I|]; rewrite compute_kids by exact I; rewrite ids_kids in N by exact I; inversion N; subst;
    match goal with |- placed_all (compute_seq _ _ ?s') _ _ _ => change (List.length (scopes s)) with (List.length (scopes s')) end;
    apply seq; auto.
Qed.
