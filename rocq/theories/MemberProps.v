(** C55: what the members used in a function body refer to, and which uses are reported. *)
From Coq Require Import List String Bool Arith Lia Permutation.
From Verif Require Import TypeRefModel HirModel HirSpec HirScopes HirNames NameProps CallProps MemberSpec MemberProofs.
Import ListNotations.

(** ** Statements *)
Section body.
Variable db : database.
Variable owner : nat.
Variable maps : list def_map.
Variable this : option (bool * nat).
Variable es : expr_scopes.
Variable ps : list decl.
Hypothesis es_sound : sound es.
Let base := owner_resolver maps this.
Let look := meaning owner ps (resolve_ident base).
Let evs (l : list (list (list decl) * expr)) : list event := flat_map (fun x => evf db (look (fst x)) (snd x)) l.
Let ok (l : list (list (list decl) * expr)) : Prop := forall d e, In (d, e) l -> named_ok (look d) false e = true.

Lemma expr_says bl dcl j : here es (rev ps) bl dcl j -> forall e c, named_ok (look dcl) false e = true ->
  of (snd (infer db (entered owner es base bl) e c)) = plus (of c) (evf db (look dcl) e).
Proof.
  intros H e c T.
  apply (infer_walks db (look dcl) (entered owner es base bl) (entered_means owner es maps this ps bl dcl j es_sound H) e false T). discriminate.
Qed.
Lemma exprs_say bl dcl j : here es (rev ps) bl dcl j -> forall l c, ok (map (pair dcl) l) ->
  of (fold_left (fun c v => snd (infer db (entered owner es base bl) v c)) l c) = plus (of c) (evs (map (pair dcl) l)).
Proof.
  intros H. induction l as [|e l IH]; intros c T; simpl; [reflexivity|].
  rewrite IH by (intros d x X; apply T; now right).
  rewrite (expr_says bl dcl j H) by (apply T; now left). unfold evs. simpl. now rewrite plus_app.
Qed.

Definition says (bl : list nat) (dcl : list (list decl)) (x : stmt) : Prop :=
  forall c, of (snd (infer_stmt db owner es x (entered owner es base bl, c))) = plus (of c) (evs (places dcl x)).

Lemma evs_app a b : evs (a ++ b) = evs a ++ evs b.
Proof. apply flat_map_app. Qed.
Lemma say_list bl dcl : forall l, (forall x, In x l -> says bl dcl x) -> forall c,
  let st := fold_left (fun st x => infer_stmt db owner es x st) l (entered owner es base bl, c) in
  fst st = entered owner es base bl /\ of (snd st) = plus (of c) (evs (flat_map (places dcl) l)).
Proof.
  induction l as [|x l IH]; intros G c; cbn zeta; simpl; [auto|].
  pose proof (G x (or_introl eq_refl) c) as A.
  pose proof (C30_restored db owner es x (entered owner es base bl) c) as R.
  destruct (infer_stmt db owner es x (entered owner es base bl, c)) as [r1 c1]. simpl in *. subst r1.
  destruct (IH (fun y Y => G y (or_intror Y)) c1) as (C & D). split; [exact C|].
  rewrite D, A, evs_app, plus_app. reflexivity.
Qed.

Lemma stmt_says : forall x bl dcl lo sc, here es (rev ps) bl dcl sc -> placed es lo sc x -> ok (places dcl x) -> says bl dcl x.
Proof.
  induction x as [x IH] using stmt_induct. rewrite Forall_forall in IH. intros bl dcl lo sc H P T c.
  assert (E1 : forall e c, ok [(dcl, e)] -> of (snd (infer db (entered owner es base bl) e c)) = plus (of c) (evs [(dcl, e)])).
  { intros e c0 K. unfold evs. simpl. rewrite app_nil_r. apply (expr_says bl dcl sc H). apply K. now left. }
  assert (O : forall e c, ok (one dcl e) -> of (infer_opt db (entered owner es base bl) e c) = plus (of c) (evs (one dcl e))).
  { intros [e|] c0 K; [now apply E1|reflexivity]. }
  destruct x as [e|i l|i l|i l cd it b|i cd t e|i cd cs]; cbn [infer_stmt places] in *.
  - now apply E1.
  - cbn [snd]. clear IH P. revert c. induction l as [|b l IHl]; intros c; simpl; [reflexivity|].
    rewrite IHl by (intros d x X; apply T; simpl; apply in_app_iff; now right).
    rewrite O by (intros d x X; apply T; simpl; apply in_app_iff; now left). now rewrite evs_app, plus_app.
  - apply placed_block in P. destruct P as (j & A & B & C & D & E).
    assert (H' : here es (rev ps) (i :: bl) (flat_map level l :: dcl) j) by (econstructor; eauto).
    assert (U : fst (update_to_inner_scope owner es i (entered owner es base bl)) = entered owner es base (i :: bl)) by reflexivity.
    destruct (update_to_inner_scope owner es i (entered owner es base bl)) as [r1 g]. cbn [fst] in U. subst r1.
    destruct (say_list (i :: bl) (flat_map level l :: dcl) l) with (c := c) as (F & G).
    + intros y Y. apply (IH y Y (i :: bl) (flat_map level l :: dcl) (S j) j H'); [eapply placed_all_in; eauto|].
      intros d x X. apply T. apply in_flat_map. eauto.
    + destruct (fold_left (fun st x => infer_stmt db owner es x st) l (entered owner es base (i :: bl), c)) as [r2 c2]. auto.
  - apply placed_kids in P; [|exact I]. simpl in P. apply placed_all_app in P. destruct P as [P1 [P2 _]].
    assert (T1 : ok (flat_map (places dcl) l)) by (intros d x X; apply T; apply in_app_iff; now left).
    assert (T2 : ok [(dcl, cd)]) by (intros d x X; apply T; apply in_app_iff; right; apply in_app_iff; now left).
    assert (T3 : ok (one dcl it)) by (intros d x X; apply T; apply in_app_iff; right; apply in_app_iff; right; apply in_app_iff; now left).
    assert (T4 : ok (places dcl b)) by (intros d x X; apply T; apply in_app_iff; right; apply in_app_iff; right; apply in_app_iff; now right).
    destruct (say_list bl dcl l) with (c := c) as (F & G).
    + intros y Y. apply (IH y (in_or_app _ _ _ (or_introl Y)) bl dcl lo sc H); [eapply placed_all_in; eauto|].
      intros d x X. apply T1. apply in_flat_map. eauto.
    + destruct (fold_left (fun st x => infer_stmt db owner es x st) l (entered owner es base bl, c)) as [r2 c2]. cbn [fst snd] in *. subst r2.
      assert (Yb : In b (kids (SLoop i l cd it b))) by (apply in_or_app; right; now left).
      rewrite (IH b Yb bl dcl lo sc H P2 T4), (O it _ T3), (E1 cd _ T2), G, !evs_app, !plus_app. reflexivity.
  - destruct P as [P1 P2].
    assert (T1 : ok [(dcl, cd)]) by (intros d x X; apply T; apply in_app_iff; now left).
    assert (T2 : ok (places dcl t)) by (intros d x X; apply T; apply in_app_iff; right; apply in_app_iff; now left).
    pose proof (IH t (or_introl eq_refl) bl dcl lo sc H P1 T2 (snd (infer db (entered owner es base bl) cd c))) as A2.
    pose proof (C30_restored db owner es t (entered owner es base bl) (snd (infer db (entered owner es base bl) cd c))) as R.
    destruct (infer_stmt db owner es t (entered owner es base bl, snd (infer db (entered owner es base bl) cd c))) as [r1 c1]. cbn [fst snd] in *. subst r1.
    rewrite (E1 cd c T1) in A2. destruct e as [y|].
    + assert (Y : In y (kids (SCondition i cd t (Some y)))) by (right; now left).
      assert (T3 : ok (places dcl y)) by (intros d x X; apply T; apply in_app_iff; right; apply in_app_iff; now right).
      rewrite (IH y Y bl dcl lo sc H P2 T3), A2, !evs_app, !plus_app. reflexivity.
    + cbn [snd]. rewrite A2, !evs_app, !plus_app. reflexivity.
  - apply placed_kids in P; [|exact I]. simpl in P.
    assert (T1 : ok [(dcl, cd)]) by (intros d x X; apply T; apply in_app_iff; now left).
    assert (Q : forall cs', (forall k, In k cs' -> In k cs) -> forall c,
      of (snd (fold_left (fun st k => match k with (values, b) =>
             let '(r, c) := st in infer_stmt db owner es b (r, fold_left (fun c v => snd (infer db r v c)) values c) end) cs' (entered owner es base bl, c)))
      = plus (of c) (evs (flat_map (fun k => match k with (vs, x) => map (pair dcl) vs ++ places dcl x end) cs'))).
    { induction cs' as [|[vs y] cs' IHc]; intros Y c'; simpl; [reflexivity|].
      assert (TT : ok (map (pair dcl) vs ++ places dcl y)).
      { intros d x X. apply T. apply in_app_iff. right. apply in_flat_map. exists (vs, y). split; [apply Y; now left|exact X]. }
      assert (Y' : In y (map snd cs)) by (apply in_map_iff; exists (vs, y); split; [reflexivity|apply Y; now left]).
      assert (T2 : ok (places dcl y)) by (intros d x X; apply TT; apply in_app_iff; now right).
      pose proof (IH y Y' bl dcl lo sc H (placed_all_in _ _ _ _ _ P Y') T2 (fold_left (fun c v => snd (infer db (entered owner es base bl) v c)) vs c')) as A2.
      pose proof (C30_restored db owner es y (entered owner es base bl) (fold_left (fun c v => snd (infer db (entered owner es base bl) v c)) vs c')) as R.
      destruct (infer_stmt db owner es y _) as [r1 c1]. cbn [fst snd] in *. subst r1.
      rewrite (exprs_say bl dcl sc H vs c') in A2 by (intros d x X; apply TT; apply in_app_iff; now left).
      rewrite (IHc (fun k K => Y k (or_intror K)) c1), A2, !evs_app, !plus_app. reflexivity. }
    rewrite (Q cs (fun k K => K)), (E1 cd c T1), evs_app, plus_app. reflexivity.
Qed.
End body.

(** The record of the walk over a body. *)
Lemma body_says db owner maps this b s : body_stmt b = Some s -> NoDup (stmt_ids s) ->
  let look := meaning owner (root_decls b) (resolve_ident (owner_resolver maps this)) in
  (forall d e, In (d, e) (places [] s) -> named_ok (look d) false e = true) ->
  let res := infer_query db owner (owner_resolver maps this) b in
  (filter member_problem (diagnostics res), attributes res, methods res) =
  plus ([], [], []) (flat_map (fun x => evf db (look (fst x)) (snd x)) (places [] s)).
Proof.
  intros E N look T res0. unfold res0, infer_query. rewrite E.
  destruct (new_scopes_ok b s E N) as (K & H & lo & P).
  exact (stmt_says db owner maps this (new_scopes b) (root_decls b) K s [] [] lo 0 H P T (Ctx [] (Result [] [] [] []))).
Qed.

Lemma plus_in l : forall d a m, let '(d', a', m') := plus (d, a, m) l in
  (forall x, In x d' <-> In x d \/ In (Problem x) l) /\
  (forall e i, In (e, i) a' <-> In (e, i) a \/ In (Attribute e i) l) /\
  (forall e i, In (e, i) m' <-> In (e, i) m \/ In (Method e i) l).
Proof.
  induction l as [|ev l IH]; intros d a m; [simpl; repeat split; intuition|].
  unfold plus. cbn [fold_left]. fold (plus (add1 (d, a, m) ev) l). destruct ev as [e i|e i|x]; cbn [add1].
  - specialize (IH d ((e, i) :: a) m). destruct (plus (d, (e, i) :: a, m) l) as [[d' a'] m']. destruct IH as (A & B & C).
    split; [|split].
    + intros x. rewrite A. simpl. split; [tauto|]. intros [H|[H|H]]; [tauto|discriminate|tauto].
    + intros e0 i0. rewrite B. simpl. split.
      * intros [[H|H]|H]; [right; left; congruence|tauto|tauto].
      * intros [H|[H|H]]; [tauto|left; left; congruence|tauto].
    + intros e0 i0. rewrite C. simpl. split; [tauto|]. intros [H|[H|H]]; [tauto|discriminate|tauto].
  - specialize (IH d a ((e, i) :: m)). destruct (plus (d, a, (e, i) :: m) l) as [[d' a'] m']. destruct IH as (A & B & C).
    split; [|split].
    + intros x. rewrite A. simpl. split; [tauto|]. intros [H|[H|H]]; [tauto|discriminate|tauto].
    + intros e0 i0. rewrite B. simpl. split; [tauto|]. intros [H|[H|H]]; [tauto|discriminate|tauto].
    + intros e0 i0. rewrite C. simpl. split.
      * intros [[H|H]|H]; [right; left; congruence|tauto|tauto].
      * intros [H|[H|H]]; [tauto|left; left; congruence|tauto].
  - specialize (IH (d ++ [x]) a m). destruct (plus (d ++ [x], a, m) l) as [[d' a'] m']. destruct IH as (A & B & C).
    split; [|split].
    + intros y. rewrite A, in_app_iff. simpl. split.
      * intros [[H|[H|[]]]|H]; [tauto|right; left; congruence|tauto].
      * intros [H|[H|H]]; [tauto|left; right; left; congruence|tauto].
    + intros e0 i0. rewrite B. simpl. split; [tauto|]. intros [H|[H|H]]; [tauto|discriminate|tauto].
    + intros e0 i0. rewrite C. simpl. split; [tauto|]. intros [H|[H|H]]; [tauto|discriminate|tauto].
Qed.

(** Exactly what [found] says is recorded and reported: each use of a member or constructor is bound to the member of the
    type of the expression before it, or reported if that type has none of the name. *)
Theorem C55_exact_partial : forall db owner maps this b s, body_stmt b = Some s -> NoDup (stmt_ids s) ->
  let types := resolve_ident (owner_resolver maps this) in
  let look := meaning owner (root_decls b) types in
  (forall d e, In (d, e) (places [] s) -> regular db types (look d) e) ->
  forall ev, about_members ev ->
    recorded (infer_query db owner (owner_resolver maps this) b) ev <->
    exists d e w, In (d, e) (places [] s) /\ within w e /\ found db types (look d) w ev.
Proof.
  intros db owner maps this b s E N types look R ev M.
  pose proof (body_says db owner maps this b s E N (fun d e I => proj1 (R d e I))) as B. cbv zeta in B. fold types in B. fold look in B.
  set (res0 := infer_query db owner (owner_resolver maps this) b) in *.
  set (l := flat_map _ (places [] s)) in B.
  pose proof (plus_in l [] [] []) as P. rewrite <- B in P. destruct P as (PD & PA & PM).
  assert (Q : recorded res0 ev <-> In ev l).
  { destruct ev as [e i|e i|d]; simpl.
    - rewrite PA. simpl. tauto.
    - rewrite PM. simpl. tauto.
    - simpl in M. specialize (PD d). rewrite filter_In in PD. simpl in PD. tauto. }
  rewrite Q. unfold l. rewrite in_flat_map. split.
  - intros ((d & e) & I & H). cbn [fst snd] in H. apply (evf_found db types (look d) e (proj2 (R d e I))) in H.
    destruct H as (w & W & F). eauto 6.
  - intros (d & e & w & I & W & F). exists (d, e). split; [exact I|]. cbn [fst snd].
    apply (evf_found db types (look d) e (proj2 (R d e I))). eauto.
Qed.
Print Assumptions C55_exact_partial.

(** ** Each once *)
Definition ev_id (ev : event) : nat :=
  match ev with
  | Attribute e _ | Method e _ => e
  | Problem (UnresolvedField e _ _ _) | Problem (UnresolvedMethodCall e _ _ _) | Problem (UnresolvedConstructor e _ _)
  | Problem (UnresolvedNamedArg e _ _) | Problem (IncorrectNumberOfArguments e _ _ _) => e
  end.
Lemma own_id db look e : own db look e = [] \/ exists ev, own db look e = [ev] /\ ev_id ev = expr_id e.
Proof.
  destruct e; simpl; auto.
  - unfold new_ev. destruct (look n) as [[| |[[] d]]|]; try (right; eexists; split; reflexivity).
    destruct (map_constructor db d); right; eexists; split; reflexivity.
  - unfold field_ev. destruct (tyf db look e) as [[]|]; auto. destruct (look n0) as [[| |[[] d]]|]; auto; try (right; eexists; split; reflexivity).
    + destruct (struct_item_of db d n) as [[]|]; right; eexists; split; reflexivity.
    + destruct (map_item_of db d n) as [[]|]; right; eexists; split; reflexivity.
  - unfold field_ev. destruct (tyf db look e) as [[]|]; auto. destruct (look n0) as [[| |[[] d]]|]; auto; try (right; eexists; split; reflexivity).
    + destruct (struct_item_of db d n) as [[]|]; right; eexists; split; reflexivity.
    + destruct (map_item_of db d n) as [[]|]; right; eexists; split; reflexivity.
  - unfold method_ev. destruct (tyf db look e) as [[]|]; auto. destruct (look n0) as [[| |[[] d]]|]; auto; try (right; eexists; split; reflexivity).
    + destruct (struct_item_of db d n) as [[]|]; right; eexists; split; reflexivity.
    + destruct (map_item_of db d n) as [[]|]; right; eexists; split; reflexivity.
Qed.
Lemma evf_parts db look e : Permutation (evf db look e) (own db look e ++ flat_map (evf db look) (parts e)).
Proof.
  destruct e as [i|i n|i l|i x v|i n l|i x ty|i x n|i x n|i a b|i x|i a b|i a b d|i [y|]|i f l|i x n l|i ty|i l];
    cbn [evf own parts flat_map]; rewrite ?app_nil_r; cbn [List.app]; try apply Permutation_refl; try apply Permutation_app_comm.
  rewrite !app_assoc. apply Permutation_app_tail. apply Permutation_app_comm.
Qed.
Lemma ids_parts e : expr_ids e = expr_id e :: flat_map expr_ids (parts e).
Proof.
  destruct e as [i|i n|i l|i x v|i n l|i x ty|i x n|i x n|i a b|i x|i a b|i a b d|i [y|]|i f l|i x n l|i ty|i l];
    simpl; rewrite ?app_nil_r, <- ?app_assoc; reflexivity.
Qed.
Lemma nodup_app {A} (a b : list A) : NoDup (a ++ b) <-> NoDup a /\ NoDup b /\ (forall x, In x a -> ~ In x b).
Proof.
  induction a as [|x a IH]; simpl.
  - split; [intros H; repeat split; [constructor|exact H|tauto]|tauto].
  - split.
    + intros H. inversion H; subst. apply IH in H3. destruct H3 as (A1 & A2 & A3). rewrite in_app_iff in H2. repeat split.
      * constructor; tauto.
      * exact A2.
      * intros y [<-|Y]; [tauto|auto].
    + intros (H1 & H2 & H3). inversion H1; subst. constructor.
      * rewrite in_app_iff. intros [K|K]; [contradiction|]. now elim (H3 x (or_introl eq_refl)).
      * apply IH. repeat split; auto.
Qed.
Lemma flat_once {A} (f : A -> list event) (g : A -> list nat) l :
  (forall x, In x l -> NoDup (g x) -> NoDup (map ev_id (f x)) /\ incl (map ev_id (f x)) (g x)) -> NoDup (flat_map g l) ->
  NoDup (map ev_id (flat_map f l)) /\ incl (map ev_id (flat_map f l)) (flat_map g l).
Proof.
  induction l as [|x l IH]; intros F N; simpl; [split; [constructor|apply incl_refl]|].
  simpl in N. apply nodup_app in N. destruct N as (N1 & N2 & N3).
  destruct (F x (or_introl eq_refl) N1) as [A1 A2]. destruct (IH (fun y Y => F y (or_intror Y)) N2) as [B1 B2].
  rewrite map_app. split.
  - apply nodup_app. split; [exact A1|]. split; [exact B1|]. intros i I1 I2. apply (N3 i); auto.
  - apply incl_app; [apply incl_appl; exact A2|apply incl_appr; exact B2].
Qed.
Lemma evf_once db look : forall e, NoDup (expr_ids e) -> NoDup (map ev_id (evf db look e)) /\ incl (map ev_id (evf db look e)) (expr_ids e).
Proof.
  induction e as [e IH] using expr_induct. intros N. rewrite ids_parts in *. inversion N as [|? ? N1 N2]; subst.
  rewrite Forall_forall in IH.
  assert (L : forall p, In p (parts e) -> In p (subs e)) by (destruct e as [| | | | | | | | | | | |? []| | | |]; simpl; intuition).
  destruct (flat_once (evf db look) expr_ids (parts e) (fun x X => IH x (L x X)) N2) as [A B].
  pose proof (Permutation_map ev_id (evf_parts db look e)) as P. rewrite map_app in P.
  assert (Q : NoDup (map ev_id (own db look e) ++ map ev_id (flat_map (evf db look) (parts e))) /\
              incl (map ev_id (own db look e) ++ map ev_id (flat_map (evf db look) (parts e))) (expr_id e :: flat_map expr_ids (parts e))).
  { destruct (own_id db look e) as [->|(ev & -> & E)]; simpl.
    - split; [exact A|]. apply incl_tl. exact B.
    - rewrite E. split; [constructor; [intros K; apply N1, B, K|exact A]|]. apply incl_cons; [now left|]. apply incl_tl. exact B. }
  destruct Q as [Q1 Q2]. split.
  - eapply Permutation_NoDup; [symmetry; exact P|exact Q1].
  - intros x X. apply Q2. eapply Permutation_in; [exact P|exact X].
Qed.
Lemma plus_problems l : forall d a m, (fst (fst (plus (d, a, m) l))) = d ++ flat_map (fun ev => match ev with Problem x => [x] | _ => [] end) l.
Proof.
  induction l as [|ev l IH]; intros d a m; [simpl; now rewrite app_nil_r|].
  unfold plus. cbn [fold_left]. fold (plus (add1 (d, a, m) ev) l). destruct ev; cbn [add1 flat_map]; rewrite IH; [reflexivity|reflexivity|].
  now rewrite <- app_assoc.
Qed.

(** No problem is reported twice. *)
Theorem C55_once : forall db owner maps this b s, body_stmt b = Some s -> NoDup (stmt_ids s) ->
  let types := resolve_ident (owner_resolver maps this) in
  let look := meaning owner (root_decls b) types in
  (forall d e, In (d, e) (places [] s) -> named_ok (look d) false e = true) ->
  NoDup (flat_map (fun x => expr_ids (snd x)) (places [] s)) ->
  NoDup (filter member_problem (diagnostics (infer_query db owner (owner_resolver maps this) b))).
Proof.
  intros db owner maps this b s E N types look R D.
  pose proof (body_says db owner maps this b s E N R) as B. cbv zeta in B. fold types in B. fold look in B.
  set (l := flat_map _ (places [] s)) in B. apply (f_equal (fun t => fst (fst t))) in B. rewrite plus_problems in B. cbn [fst List.app] in B. rewrite B.
  assert (H : NoDup (map ev_id l)).
  { apply (flat_once _ (fun x => expr_ids (snd x))); [|exact D]. intros x _. apply evf_once. }
  clear - H. apply NoDup_map_inv in H. induction l as [|ev l IH]; simpl; [constructor|]. inversion H; subst.
  destruct ev as [| |x]; simpl; auto. constructor; [|auto]. intros K. apply in_flat_map in K. destruct K as (ev & I & K).
  destruct ev as [| |y]; simpl in K; try contradiction. destruct K as [->|[]]. contradiction.
Qed.
Print Assumptions C55_once.

(** An attribute found is one, so is a method: what is recorded is never ambiguous. *)
Theorem C55_one_meaning : forall db types look e, 
  (forall t1 t2, typed db types look e t1 -> typed db types look e t2 -> (forall w, within w e -> types_seen db types look w) -> t1 = t2).
Proof.
  intros db types look e t1 t2 H1 H2 S. apply (ty_typed db types look e S) in H1, H2. congruence.
Qed.
Print Assumptions C55_one_meaning.

(** ** What goes wrong *)
Local Open Scope string_scope.
(** enum struct S { int x; void m(); }, methodmap M with a property p and a method f(S s) and no constructor; variables s : S,
    t : M, a : S[] in the file. *)
Definition show_db : database := Database
  (fun f => FunctionData "f" (match f with 0 => Some (TName "M") | _ => None end) [])
  (fun g => match g with 0 => Some (TName "S") | 1 => Some (TName "M") | _ => Some (TArray (TName "S") 1) end)
  (fun d => match d with (DEnumStruct, _) => Some "S" | (DMethodmap, _) => Some "M" | _ => None end)
  (fun _ n => if String.eqb n "x" then Some (IField (TName "M")) else if String.eqb n "m" then Some (IStructMethod 1) else None)
  (fun _ n => if String.eqb n "p" then Some (IProperty 5 (TName "S")) else if String.eqb n "f" then Some (IMapMethod 0) else None)
  (fun _ => None) (fun _ => owner_resolver [] None) (fun _ => root_scopes) (fun e => match e with 4 => Some (TName "S") | _ => None end).
Definition show_maps : list def_map := [DefMap 0 [("S", [(DEnumStruct, 0)]); ("M", [(DMethodmap, 0)]); ("s", [(DGlobal, 0)]); ("t", [(DGlobal, 1)]);
  ("a", [(DGlobal, 2)])]].
Definition show (l : list stmt) : result := infer_query show_db 9 (owner_resolver show_maps None) (Body [] (Some (SBlock 0 l))).

(** S S; S.x: the variable has the name of its type, and the field it has is reported as missing. *)
Theorem C55_hidden_type_refuted : exists l,
  let types := resolve_ident (owner_resolver show_maps None) in
  let look := meaning 9 [] types in
  l = [SDecl 3 [Bind 4 "S" (Some (TName "S")) None]; SExpr (FieldAccess 5 (Ident 6 "S") "x")] /\
  (exists d, In (d, FieldAccess 5 (Ident 6 "S") "x") (places [] (SBlock 0 l)) /\
     found show_db types (look d) (FieldAccess 5 (Ident 6 "S") "x") (Attribute 5 0)) /\
  diagnostics (show l) = [UnresolvedField 5 "S" "x" false] /\ attributes (show l) = [].
Proof.
  eexists. cbv zeta. split; [reflexivity|]. split.
  - exists [[("S", 4)]]. split; [simpl; auto|].
    eapply attribute_found; [constructor| |].
    + eapply typed_local; reflexivity.
    + apply (field_of _ _ "S" "x" 0 (TName "M")); reflexivity.
  - split; reflexivity.
Qed.
Print Assumptions C55_hidden_type_refuted.

(** S[] a; a[0].y: the element has no field y, and nothing is reported; nor is a[0].x bound to its field. *)
Theorem C55_index_refuted :
  let types := resolve_ident (owner_resolver show_maps None) in
  let e n := FieldAccess 1 (ArrayIndexedAccess 2 (Ident 3 "a") (Literal 4 TInt)) n in
  found show_db types types (e "y") (Problem (UnresolvedField 1 "S" "y" false)) /\
  found show_db types types (e "x") (Attribute 1 0) /\
  show [SExpr (e "y"); SExpr (e "x")] = Result [] [] [] [].
Proof.
  cbv zeta.
  assert (T : typed show_db (resolve_ident (owner_resolver show_maps None)) (resolve_ident (owner_resolver show_maps None))
                (ArrayIndexedAccess 2 (Ident 3 "a") (Literal 4 TInt)) (TName "S")).
  { eapply typed_index; [|apply element_last]. eapply typed_global; reflexivity. }
  split; [|split; [|reflexivity]].
  - eapply attribute_missing; [constructor|exact T|discriminate| |].
    + intros a ty H. inversion H as [s u E F|m p u E F]; subst; inversion E; subst; discriminate.
    + split; [discriminate|]. intros [f H]. inversion H as [s g E F|m g E F]; subst; inversion E; subst; discriminate.
  - eapply attribute_found; [constructor|exact T|]. apply (field_of _ _ "S" "x" 0 (TName "M")); reflexivity.
Qed.
Print Assumptions C55_index_refuted.

(** t.f(.s = s.y): the value of a named argument of a methodmap's method is not looked at. *)
Theorem C55_named_refuted :
  let e := FieldAccess 5 (Ident 6 "s") "y" in
  show [SExpr e] = Result [] [] [] [UnresolvedField 5 "S" "y" false] /\
  show [SExpr (MethodCall 1 (Ident 2 "t") "f" [NamedArg 3 (Ident 4 "s") e])] = Result [] [(1, 0)] [] [].
Proof. split; reflexivity. Qed.
Print Assumptions C55_named_refuted.

(** Whether an array is indexed in an expression. *)
Fixpoint indexes (e : expr) : bool :=
  match e with
  | Ident _ _ | Missing _ | Literal _ _ => false
  | CommaExpr _ l | ArrayLiteral _ l | New _ _ l => existsb indexes l
  | NamedArg _ _ v => indexes v
  | ViewAs _ x _ | FieldAccess _ x _ | ScopeAccess _ x _ | UnaryOp _ x => indexes x
  | ArrayIndexedAccess _ _ _ => true
  | BinaryOp _ a b => indexes a || indexes b
  | TernaryOp _ a b c => indexes a || indexes b || indexes c
  | Control _ x => match x with Some y => indexes y | None => false end
  | Call _ f l => indexes f || existsb indexes l
  | MethodCall _ t _ l => indexes t || existsb indexes l
  end.

(** s.x.p.m(), t.f().p.x, new M(), s.m, t.zz(): a chain of members, and three uses that are reported. *)
Example C55_nontrivial :
  let l := [SExpr (MethodCall 1 (FieldAccess 2 (FieldAccess 3 (Ident 4 "s") "x") "p") "m" []);
            SBlock 10 [SExpr (FieldAccess 11 (FieldAccess 12 (MethodCall 13 (Ident 14 "t") "f" []) "p") "x")];
            SExpr (New 20 "M" []); SExpr (FieldAccess 21 (Ident 22 "s") "m"); SExpr (MethodCall 23 (Ident 24 "t") "zz" [])] in
  show l = Result [(11, 0); (12, 5); (2, 5); (3, 0)] [(13, 0); (1, 1)] []
    [UnresolvedConstructor 20 "M" (Some true); UnresolvedField 21 "S" "m" true; UnresolvedMethodCall 23 "M" "zz" false] /\
  forall d e, In (d, e) (places [] (SBlock 0 l)) ->
    regular show_db (resolve_ident (owner_resolver show_maps None)) (meaning 9 [] (resolve_ident (owner_resolver show_maps None)) d) e.
Proof.
  cbv zeta. split; [reflexivity|]. set (look := meaning 9 [] (resolve_ident (owner_resolver show_maps None))).
  assert (K : forall d n, In d [[[]]; [[]; []]] -> look d n = resolve_ident (owner_resolver show_maps None) n).
  { intros d n [<-|[<-|[]]]; reflexivity. }
  intros d e I. assert (D : In d [[[]]; [[]; []]]) by (simpl in I; simpl; intuition congruence).
  split.
  - simpl in I. intuition; match goal with H : (_, _) = (d, e) |- _ => inversion H; subst; reflexivity end.
  - intros w W. split; [intros; now apply K|]. split; [intros; now apply K|]. split; [intros; now apply K|].
    intros i a b t n -> _. exfalso.
    assert (X : forall e', within (ArrayIndexedAccess i a b) e' -> indexes e' = true).
    { clear. intros e' W. remember (ArrayIndexedAccess i a b) as x. induction W as [|? p ? Hp ? IH]; subst; [reflexivity|].
      specialize (IH eq_refl). destruct w as [| | | | | | | | | | | |? []| | | |]; simpl in *; try contradiction; try reflexivity;
        repeat match goal with H : _ \/ _ |- _ => destruct H end; subst; try contradiction; rewrite ?IH, ?orb_true_r; try reflexivity;
        try (apply orb_true_iff; right); apply existsb_exists; eauto. }
    apply X in W. simpl in I. intuition; match goal with H : (_, _) = (d, e) |- _ => inversion H; subst; discriminate end.
Qed.
