(** Lemmas for C63: what the inference walk records for named arguments. *)
From Coq Require Import List String Bool Arith Lia.
From Verif Require Import TypeRefModel HirModel HirSpec HirScopes HirNames NameProps CallProps MemberSpec MemberProofs NamedSpec.
From Verif Require MemberProps.
Import ListNotations.

(** * The walk over statements, for anything kept of the record *)
Section walk.
Variables (T E : Type) (kept : ctx -> T) (add : T -> list E -> T).
Hypothesis add_nil : forall t, add t [] = t.
Hypothesis add_app : forall t a b, add t (a ++ b) = add (add t a) b.
Variable db : database.
Variable owner : nat.
Variable base : list scope.
Variable es : expr_scopes.
Variable root : list decl.
Variable ev : list (list decl) -> expr -> list E.
Variable good : list (list decl) -> expr -> Prop.
Hypothesis expr_says : forall bl dcl j, here es root bl dcl j -> forall e c, good dcl e ->
  kept (snd (infer db (entered owner es base bl) e c)) = add (kept c) (ev dcl e).
Let evs (l : list (list (list decl) * expr)) : list E := flat_map (fun x => ev (fst x) (snd x)) l.
Let ok (l : list (list (list decl) * expr)) : Prop := forall d e, In (d, e) l -> good d e.

Lemma walk_exprs bl dcl j : here es root bl dcl j -> forall l c, ok (map (pair dcl) l) ->
  kept (fold_left (fun c v => snd (infer db (entered owner es base bl) v c)) l c) = add (kept c) (evs (map (pair dcl) l)).
Proof.
  intros H. induction l as [|e l IH]; intros c K; simpl; [symmetry; apply add_nil|].
  rewrite IH by (intros d x X; apply K; now right).
  rewrite (expr_says bl dcl j H) by (apply K; now left). unfold evs. simpl. now rewrite add_app.
Qed.
Definition walk_ok (bl : list nat) (dcl : list (list decl)) (x : stmt) : Prop :=
  forall c, kept (snd (infer_stmt db owner es x (entered owner es base bl, c))) = add (kept c) (evs (places dcl x)).
Lemma walk_app a b : evs (a ++ b) = evs a ++ evs b.
Proof. apply flat_map_app. Qed.
Lemma walk_list bl dcl : forall l, (forall x, In x l -> walk_ok bl dcl x) -> forall c,
  let st := fold_left (fun st x => infer_stmt db owner es x st) l (entered owner es base bl, c) in
  fst st = entered owner es base bl /\ kept (snd st) = add (kept c) (evs (flat_map (places dcl) l)).
Proof.
  induction l as [|x l IH]; intros G c; cbn zeta; simpl; [auto|].
  pose proof (G x (or_introl eq_refl) c) as A.
  pose proof (C30_restored db owner es x (entered owner es base bl) c) as R.
  destruct (infer_stmt db owner es x (entered owner es base bl, c)) as [r1 c1]. simpl in *. subst r1.
  destruct (IH (fun y Y => G y (or_intror Y)) c1) as (C & D). split; [exact C|].
  rewrite D, A, walk_app, add_app. reflexivity.
Qed.
Lemma walk_stmt : forall x bl dcl lo sc, here es root bl dcl sc -> placed es lo sc x -> ok (places dcl x) -> walk_ok bl dcl x.
Proof.
  induction x as [x IH] using stmt_induct. rewrite Forall_forall in IH. intros bl dcl lo sc H P K c.
  assert (E1 : forall e c, ok [(dcl, e)] -> kept (snd (infer db (entered owner es base bl) e c)) = add (kept c) (evs [(dcl, e)])).
  { intros e c0 Q. unfold evs. simpl. rewrite app_nil_r. apply (expr_says bl dcl sc H). apply Q. now left. }
  assert (O : forall e c, ok (one dcl e) -> kept (infer_opt db (entered owner es base bl) e c) = add (kept c) (evs (one dcl e))).
  { intros [e|] c0 Q; [now apply E1|simpl; symmetry; apply add_nil]. }
  destruct x as [e|i l|i l|i l cd it b|i cd t e|i cd cs]; cbn [infer_stmt places] in *.
  - now apply E1.
  - cbn [snd]. clear IH P. revert c. induction l as [|b l IHl]; intros c; simpl; [symmetry; apply add_nil|].
    rewrite IHl by (intros d x X; apply K; simpl; apply in_app_iff; now right).
    rewrite O by (intros d x X; apply K; simpl; apply in_app_iff; now left). now rewrite walk_app, add_app.
  - apply placed_block in P. destruct P as (j & A & B & C & D & F).
    assert (H' : here es root (i :: bl) (flat_map level l :: dcl) j) by (econstructor; eauto).
    assert (U : fst (update_to_inner_scope owner es i (entered owner es base bl)) = entered owner es base (i :: bl)) by reflexivity.
    destruct (update_to_inner_scope owner es i (entered owner es base bl)) as [r1 g]. cbn [fst] in U. subst r1.
    destruct (walk_list (i :: bl) (flat_map level l :: dcl) l) with (c := c) as (F' & G).
    + intros y Y. apply (IH y Y (i :: bl) (flat_map level l :: dcl) (S j) j H'); [eapply placed_all_in; eauto|].
      intros d x X. apply K. apply in_flat_map. eauto.
    + destruct (fold_left (fun st x => infer_stmt db owner es x st) l (entered owner es base (i :: bl), c)) as [r2 c2]. auto.
  - apply placed_kids in P; [|exact I]. simpl in P. apply placed_all_app in P. destruct P as [P1 [P2 _]].
    assert (T1 : ok (flat_map (places dcl) l)) by (intros d x X; apply K; apply in_app_iff; now left).
    assert (T2 : ok [(dcl, cd)]) by (intros d x X; apply K; apply in_app_iff; right; apply in_app_iff; now left).
    assert (T3 : ok (one dcl it)) by (intros d x X; apply K; apply in_app_iff; right; apply in_app_iff; right; apply in_app_iff; now left).
    assert (T4 : ok (places dcl b)) by (intros d x X; apply K; apply in_app_iff; right; apply in_app_iff; right; apply in_app_iff; now right).
    destruct (walk_list bl dcl l) with (c := c) as (F & G).
    + intros y Y. apply (IH y (in_or_app _ _ _ (or_introl Y)) bl dcl lo sc H); [eapply placed_all_in; eauto|].
      intros d x X. apply T1. apply in_flat_map. eauto.
    + destruct (fold_left (fun st x => infer_stmt db owner es x st) l (entered owner es base bl, c)) as [r2 c2]. cbn [fst snd] in *. subst r2.
      assert (Yb : In b (kids (SLoop i l cd it b))) by (apply in_or_app; right; now left).
      rewrite (IH b Yb bl dcl lo sc H P2 T4), (O it _ T3), (E1 cd _ T2), G, !walk_app, !add_app. reflexivity.
  - destruct P as [P1 P2].
    assert (T1 : ok [(dcl, cd)]) by (intros d x X; apply K; apply in_app_iff; now left).
    assert (T2 : ok (places dcl t)) by (intros d x X; apply K; apply in_app_iff; right; apply in_app_iff; now left).
    pose proof (IH t (or_introl eq_refl) bl dcl lo sc H P1 T2 (snd (infer db (entered owner es base bl) cd c))) as A2.
    pose proof (C30_restored db owner es t (entered owner es base bl) (snd (infer db (entered owner es base bl) cd c))) as R.
    destruct (infer_stmt db owner es t (entered owner es base bl, snd (infer db (entered owner es base bl) cd c))) as [r1 c1]. cbn [fst snd] in *. subst r1.
    rewrite (E1 cd c T1) in A2. destruct e as [y|].
    + assert (Y : In y (kids (SCondition i cd t (Some y)))) by (right; now left).
      assert (T3 : ok (places dcl y)) by (intros d x X; apply K; apply in_app_iff; right; apply in_app_iff; now right).
      rewrite (IH y Y bl dcl lo sc H P2 T3), A2, !walk_app, !add_app. reflexivity.
    + cbn [snd]. rewrite A2, !walk_app, !add_app, add_nil. reflexivity.
  - apply placed_kids in P; [|exact I]. simpl in P.
    assert (T1 : ok [(dcl, cd)]) by (intros d x X; apply K; apply in_app_iff; now left).
    assert (Q : forall cs', (forall k, In k cs' -> In k cs) -> forall c,
      kept (snd (fold_left (fun st k => match k with (values, b) =>
             let '(r, c) := st in infer_stmt db owner es b (r, fold_left (fun c v => snd (infer db r v c)) values c) end) cs' (entered owner es base bl, c)))
      = add (kept c) (evs (flat_map (fun k => match k with (vs, x) => map (pair dcl) vs ++ places dcl x end) cs'))).
    { induction cs' as [|[vs y] cs' IHc]; intros Y c'; simpl; [symmetry; apply add_nil|].
      assert (TT : ok (map (pair dcl) vs ++ places dcl y)).
      { intros d x X. apply K. apply in_app_iff. right. apply in_flat_map. exists (vs, y). split; [apply Y; now left|exact X]. }
      assert (Y' : In y (map snd cs)) by (apply in_map_iff; exists (vs, y); split; [reflexivity|apply Y; now left]).
      assert (T2 : ok (places dcl y)) by (intros d x X; apply TT; apply in_app_iff; now right).
      pose proof (IH y Y' bl dcl lo sc H (placed_all_in _ _ _ _ _ P Y') T2 (fold_left (fun c v => snd (infer db (entered owner es base bl) v c)) vs c')) as A2.
      pose proof (C30_restored db owner es y (entered owner es base bl) (fold_left (fun c v => snd (infer db (entered owner es base bl) v c)) vs c')) as R.
      destruct (infer_stmt db owner es y _) as [r1 c1]. cbn [fst snd] in *. subst r1.
      rewrite (walk_exprs bl dcl sc H vs c') in A2 by (intros d x X; apply TT; apply in_app_iff; now left).
      rewrite (IHc (fun k X => Y k (or_intror X)) c1), A2, !walk_app, !add_app. reflexivity. }
    rewrite (Q cs (fun k X => X)), (E1 cd c T1), walk_app, add_app. reflexivity.
Qed.
End walk.

(** * Expressions *)
Section named.
Variable db : database.
Variable look : name -> option value_ns.
Variable parameter : nat -> name -> option nat.

Definition is_naming (d : diagnostic) : bool := match d with UnresolvedNamedArg _ _ _ => true | _ => false end.
Definition track := (list diagnostic * list (nat * (nat * nat)))%type.
Definition kept (c : ctx) : track := (filter is_naming (diagnostics (res c)), named_args (res c)).
Definition add1 (t : track) (a : naming) : track :=
  match a with
  | Names i f x => (fst t, (i, (f, x)) :: snd t)
  | NoSuch i n f => (fst t ++ [UnresolvedNamedArg i n f], snd t)
  end.
Definition add (t : track) (l : list naming) : track := fold_left add1 l t.
Lemma add_app t a b : add t (a ++ b) = add (add t a) b.
Proof. apply fold_left_app. Qed.

Definition is_named (e : expr) : bool := match e with NamedArg _ _ _ => true | _ => false end.
Definition args (e : expr) : list expr := match e with Call _ _ l | MethodCall _ _ _ l => l | _ => [] end.
Definition target (e : expr) : option nat :=
  match e with
  | Call _ (Ident _ n) _ => match look n with Some (VFunctions (f :: _)) => Some f | _ => None end
  | MethodCall _ x n _ =>
      match tyf db look x with
      | Some (TName t) => match look t with
                          | Some (VDef (DEnumStruct, s)) => match struct_item_of db s n with Some (IStructMethod f) => Some f | _ => None end
                          | _ => None
                          end
      | _ => None
      end
  | _ => None
  end.
(** Looked at only when there are named arguments. *)
Definition callee_f (e : expr) : option nat := if existsb is_named (args e) then target e else None.
Lemma callee_target e l f : callee db look e l f -> args e = l /\ target e = Some f.
Proof.
  intros C. destruct C as [i k n l f fs H|i x n l t s f R NF Ty L S]; cbn [args target].
  - now rewrite H.
  - apply (ty_typed db look look x (proj2 R)) in Ty. now rewrite Ty, L, S.
Qed.
Lemma named_in j x v l : In (NamedArg j x v) l -> existsb is_named l = true.
Proof. intros I. apply existsb_exists. exists (NamedArg j x v). auto. Qed.

Definition naming_of (f i : nat) (n : name) : naming :=
  match parameter f n with Some x => Names i f x | None => NoSuch i n (fd_name (function_of db f)) end.
Definition own (t : option nat) (e : expr) : list naming :=
  match e, t with
  | NamedArg _ (Ident i n) _, Some f => [naming_of f i n]
  | _, _ => []
  end.
Fixpoint evn (t : option nat) (e : expr) : list naming :=
  match e with
  | Missing _ | Ident _ _ | Literal _ _ => []
  | CommaExpr _ l | ArrayLiteral _ l | New _ _ l => flat_map (evn None) l
  | NamedArg _ x v => match t, x with Some f, Ident i n => [naming_of f i n] | _, _ => [] end ++ evn None v
  | ViewAs _ x _ | UnaryOp _ x | FieldAccess _ x _ | ScopeAccess _ x _ => evn None x
  | ArrayIndexedAccess _ a b => evn None b ++ evn None a
  | BinaryOp _ a b => evn None a ++ evn None b
  | TernaryOp _ a b d => evn None a ++ evn None b ++ evn None d
  | Control _ x => match x with Some y => evn None y | None => [] end
  | Call _ f l => evn None f ++ flat_map (evn (callee_f e)) l
  | MethodCall _ x _ l => evn None x ++ flat_map (evn (callee_f e)) l
  end.

Variable r : list scope.
Hypothesis look_ok : forall n, resolve_ident r n = look n.
Hypothesis parameter_ok : forall f n,
  let rf := function_resolver db f ++ match scopes (function_scopes db f) with [] => [] | _ => [SLocal f (function_scopes db f) 0] end in
  match parameter f n with
  | Some x => resolve_ident rf n = Some (VLocal f x)
  | None => forall o x, resolve_ident rf n <> Some (VLocal o x)
  end.

Lemma kept_set_call v c : kept (set_call v c) = kept c.
Proof. unfold set_call. destruct (calls c) as [|[i [w|]] tl]; reflexivity. Qed.
Lemma kept_push d c : is_naming d = false -> kept (push_diag d c) = kept c.
Proof. intros E. unfold kept, push_diag. cbn [res diagnostics named_args]. rewrite filter_app. cbn [filter]. now rewrite E, app_nil_r. Qed.
Lemma kept_ident n c : kept (snd (infer_ident db r n c)) = kept c.
Proof. unfold infer_ident. destruct (resolve_ident r n) as [[|l|[k i]]|]; cbn [snd]; auto; [apply kept_set_call|]. destruct k; reflexivity. Qed.
Lemma kept_new i n c : kept (snd (infer_constructor db r i n c)) = kept c.
Proof.
  unfold infer_constructor. destruct (resolve_ident r n) as [[o e|l|[k d]]|]; try (now apply kept_push).
  destruct k; try (now apply kept_push). destruct (map_constructor db d); [reflexivity|now apply kept_push].
Qed.
Lemma kept_field i ty n c : kept (snd (field_access db r i ty n c)) = kept c.
Proof.
  unfold field_access. destruct ty as [[]|]; try reflexivity.
  destruct (resolve_ident r n0) as [[o e|l|[k d]]|]; try (now apply kept_push); try reflexivity.
  destruct k; try (now apply kept_push).
  - destruct (struct_item_of db d n) as [[]|]; try (now apply kept_push); reflexivity.
  - destruct (map_item_of db d n) as [[]|]; try (now apply kept_push); reflexivity.
Qed.
Lemma kept_method i ty n c : kept (snd (method_call db r i ty n c)) = kept c.
Proof.
  unfold method_call. destruct ty as [[]|]; try reflexivity.
  destruct (resolve_ident r n0) as [[o e|l|[k d]]|]; try (now apply kept_push); try reflexivity.
  destruct k; try (now apply kept_push).
  - destruct (struct_item_of db d n) as [[]|]; try (now apply kept_push). cbn [snd]. now rewrite kept_set_call.
  - destruct (map_item_of db d n) as [[]|]; try (now apply kept_push); reflexivity.
Qed.
Lemma kept_check i l c : kept (check_arity db i l c) = kept c.
Proof. unfold check_arity. destruct (current_call_function c); [|reflexivity]. cbv zeta. destruct (_ || _); [|reflexivity]. now apply kept_push. Qed.

Definition calling (t : option nat) (c : ctx) : Prop :=
  forall f, t = Some f -> exists k v tl, calls c = (k, Some v) :: tl /\ current_call_function c = Some f.
Definition walks (t : option nat) (e : expr) : Prop :=
  well db look (t <> None) e -> forall c, calling t c -> kept (snd (infer db r e c)) = add (kept c) (evn t e).

Lemma list_walks t l : Forall (walks t) l -> fold_right (fun x a => well db look (t <> None) x /\ a) True l ->
  forall c, calling t c -> kept (fold_left (fun c x => snd (infer db r x c)) l c) = add (kept c) (flat_map (evn t) l).
Proof.
  induction 1 as [|e l F FS IH]; intros T c N; simpl; [reflexivity|].
  destruct T as [T1 T2]. rewrite (IH T2), (F T1 c N), add_app; [reflexivity|].
  intros f Q. destruct (N f Q) as (k & v & tl & E & H).
  pose proof (infer_keeps db r e c k tl v E) as K. exists k, v, tl. split; [exact K|].
  unfold current_call_function in *. rewrite K. rewrite E in H. exact H.
Qed.
Lemma well_imp : forall e (P Q : Prop), (is_named e = true -> P -> Q) -> well db look P e -> well db look Q e.
Proof. intros e P Q H. destruct e; cbn [well is_named] in *; try tauto. Qed.
Lemma wells_imp l (P Q : Prop) : (existsb is_named l = true -> P -> Q) -> fold_right (fun x a => well db look P x /\ a) True l -> fold_right (fun x a => well db look Q x /\ a) True l.
Proof.
  induction l as [|x l IH]; intros H; simpl; [auto|]. simpl in H. intros [A B]. split; [apply (well_imp x P Q); [|exact A]|apply IH; [|exact B]].
  - intros K. apply H. now rewrite K.
  - intros K. apply H. rewrite K. apply orb_true_r.
Qed.
Lemma wells_named l (P : Prop) : existsb is_named l = true -> fold_right (fun x a => well db look P x /\ a) True l -> P.
Proof.
  induction l as [|x l IH]; simpl; [discriminate|]. intros K [A B]. destruct (is_named x) eqn:E; [|now apply IH].
  destruct x; try discriminate E. exact (proj1 A).
Qed.
(** Without the name of a function outside of its calls, an expression leaves the calls around it alone. *)
Lemma infer_calls : forall e c, names_function look e = false -> calls (snd (infer db r e c)) = calls c.
Proof.
  induction e as [e IH] using expr_induct. intros c F.
  assert (LL : forall l, Forall (fun e => forall c, names_function look e = false -> calls (snd (infer db r e c)) = calls c) l ->
                existsb (names_function look) l = false -> forall c, calls (fold_left (fun c x => snd (infer db r x c)) l c) = calls c).
  { clear. intros l H. induction H as [|x l Hx Hl IHl]; intros F c; simpl; [reflexivity|]. simpl in F. apply orb_false_iff in F. destruct F as [F1 F2].
    now rewrite (IHl F2), (Hx c F1). }
  destruct e as [i|i n|i l|i x v|i n l|i x ty|i x n|i x n|i a b|i x|i a b|i a b d|i x|i f l|i x n l|i ty|i l];
    cbn [infer subs names_function] in *.
  - reflexivity.
  - unfold infer_ident. rewrite look_ok. destruct (look n) as [[o e|l|[k d]]|]; try reflexivity; [discriminate|]. destruct k; reflexivity.
  - rewrite typed_fold. now apply LL.
  - inversion IH as [|? ? _ IH2]; subst. inversion IH2 as [|? ? IHv _]; subst. destruct (current_call_function c); [|reflexivity].
    destruct x; try reflexivity. rewrite (IHv _ F). destruct (resolve_ident _ n0) as [[]|]; reflexivity.
  - rewrite (proj2 (constructor_fine db r i n _)). now apply LL.
  - inversion IH; subst. cbn [snd]. auto.
  - inversion IH; subst. specialize (H1 c F). destruct (infer db r x c) as [ty c1]. rewrite (proj2 (field_fine db r i ty n c1)). exact H1.
  - inversion IH; subst. specialize (H1 c F). destruct (infer db r x c) as [ty c1]. rewrite (proj2 (field_fine db r i ty n c1)). exact H1.
  - apply orb_false_iff in F. destruct F as [Fa Fb]. inversion IH as [|? ? IHa IH2]; subst. inversion IH2 as [|? ? IHb _]; subst.
    specialize (IHa (snd (infer db r b c)) Fa). destruct (infer db r a (snd (infer db r b c))) as [ty c2]. cbn [snd] in *. now rewrite IHa, IHb.
  - inversion IH; subst. auto.
  - apply orb_false_iff in F. destruct F as [Fa Fb]. inversion IH as [|? ? IHa IH2]; subst. inversion IH2 as [|? ? IHb _]; subst. now rewrite IHb, IHa.
  - apply orb_false_iff in F. destruct F as [F Fd]. apply orb_false_iff in F. destruct F as [Fa Fb].
    inversion IH as [|? ? IHa IH2]; subst. inversion IH2 as [|? ? IHb IH3]; subst. inversion IH3 as [|? ? IHd _]; subst. now rewrite IHd, IHb, IHa.
  - cbn [snd]. destruct x as [y|]; [|reflexivity]. inversion IH; subst. auto.
  - destruct (infer_tail db r f (push_call (expr_id f) c) _ _ eq_refl) as [z Z]. destruct (infer db r f (push_call (expr_id f) c)) as [ty c1]. cbn [snd] in *.
    destruct (infer_tail_list db r l c1 z _ Z) as [w W]. unfold pop_call. cbn [calls]. now rewrite check_calls, W.
  - destruct (infer_tail db r x (push_call (expr_id x) c) _ _ eq_refl) as [z Z]. destruct (infer db r x (push_call (expr_id x) c)) as [ty0 c1]. cbn [snd] in *.
    pose proof (proj2 (method_fine db r i ty0 n c1)) as M. destruct (method_call db r i ty0 n c1) as [ty c2]. cbn [snd] in *.
    unfold stack_ok in M. rewrite Z in M. destruct z as [zi zo].
    assert (V : exists u, calls c2 = u :: calls c) by (destruct zo; [eauto|destruct M as [_ [o M]]; eauto]). destruct V as [u V].
    destruct (infer_tail_list db r l c2 u _ V) as [w W]. unfold pop_call. cbn [calls]. now rewrite W.
  - reflexivity.
  - rewrite typed_fold. now apply LL.
Qed.

Lemma infer_walks : forall e t, walks t e.
Proof.
  induction e as [e IH] using expr_induct. intros t W c N.
  assert (L : forall b l, subs e = l -> Forall (walks b) l).
  { intros b l <-. eapply Forall_impl; [|exact IH]. simpl. auto. }
  assert (N0 : forall c, calling None c) by (intros c0 f; discriminate).
  assert (FN : False -> (@None nat) <> None) by contradiction.
  assert (W0 : forall e0, well db look False e0 -> well db look (@None nat <> None) e0) by (intros e0; apply well_imp; contradiction).
  destruct e as [i|i n|i l|i x v|i n l|i x ty|i x n|i x n|i a b|i x|i a b|i a b d|i x|i f l|i x n l|i ty|i l];
    cbn [well subs] in *; cbn [infer evn].
  - reflexivity.
  - apply kept_ident.
  - rewrite typed_fold. apply (list_walks None l (L None l eq_refl)); [apply (wells_imp l False); [contradiction|exact W]|apply N0].
  - destruct W as (H & (j & m & ->) & W2). destruct t as [f|]; [|congruence]. destruct (N f eq_refl) as (k & w & tl & _ & E). rewrite E.
    set (c' := match resolve_ident _ m with Some (VLocal o x) => _ | _ => _ end).
    inversion IH as [|? ? _ IH2]; subst. inversion IH2 as [|? ? IHv _]; subst.
    rewrite (IHv None (W0 v W2) c' (N0 c')). rewrite add_app. f_equal. unfold c', naming_of. pose proof (parameter_ok f m) as PK. cbv zeta in PK.
    destruct (parameter f m) as [x|].
    + rewrite PK. reflexivity.
    + unfold kept at 1. cbn [add fold_left add1].
      destruct (resolve_ident _ m) as [[o y|fs|d]|]; [now elim (PK o y)| | |]; unfold push_diag, kept; cbn [res diagnostics named_args fst snd]; now rewrite filter_app.
  - rewrite kept_new. apply (list_walks None l (L None l eq_refl)); [apply (wells_imp l False); [contradiction|exact W]|apply N0].
  - inversion IH; subst. cbn [snd]. now apply (H1 None (W0 x W) c).
  - inversion IH; subst. pose proof (H1 None (W0 x W) c (N0 c)) as B. destruct (infer db r x c) as [ty c1]. cbn [snd] in *. now rewrite kept_field.
  - inversion IH; subst. pose proof (H1 None (W0 x W) c (N0 c)) as B. destruct (infer db r x c) as [ty c1]. cbn [snd] in *. now rewrite kept_field.
  - destruct W as [W1 W2]. inversion IH as [|? ? IHa IH2]; subst. inversion IH2 as [|? ? IHb _]; subst.
    pose proof (IHb None (W0 b W2) c (N0 c)) as B. pose proof (IHa None (W0 a W1) (snd (infer db r b c)) (N0 _)) as D.
    destruct (infer db r a (snd (infer db r b c))) as [ty c2]. cbn [snd] in *. now rewrite D, B, add_app.
  - inversion IH; subst. exact (H1 None (W0 x W) c (N0 c)).
  - destruct W as [W1 W2]. inversion IH as [|? ? IHa IH2]; subst. inversion IH2 as [|? ? IHb _]; subst.
    now rewrite (IHb None (W0 b W2) _ (N0 _)), (IHa None (W0 a W1) _ (N0 _)), add_app.
  - destruct W as (W1 & W2 & W3).
    inversion IH as [|? ? IHa IH2]; subst. inversion IH2 as [|? ? IHb IH3]; subst. inversion IH3 as [|? ? IHd _]; subst.
    now rewrite (IHd None (W0 d W3) _ (N0 _)), (IHb None (W0 b W2) _ (N0 _)), (IHa None (W0 a W1) _ (N0 _)), !add_app.
  - cbn [snd]. destruct x as [y|]; [|reflexivity]. inversion IH; subst. now apply (H1 None (W0 y W) c).
  - (* a call *)
    destruct W as [W1 W2]. inversion IH as [|? ? IHf IHl]; subst.
    pose proof (IHf None (W0 f W1) (push_call (expr_id f) c) (N0 _)) as B.
    set (t' := callee_f (Call i f l)).
    assert (TI : existsb is_named l = true -> (exists g, callee db look (Call i f l) l g) -> t' <> None).
    { intros Q (g & C). apply callee_target in C. unfold t', callee_f. cbn [args]. rewrite Q, (proj2 C). discriminate. }
    assert (Lf : Forall (walks t') l) by (eapply Forall_impl; [|exact IHl]; simpl; auto).
    assert (NM : calling t' (snd (infer db r f (push_call (expr_id f) c)))).
    { intros g Q. unfold t', callee_f in Q. cbn [args] in Q. destruct (existsb is_named l); [|discriminate Q]. cbn [target] in Q.
      destruct f as [i0|i0 n0|i0 l0|i0 x w|i0 n0 l0|i0 x ty|i0 x n0|i0 x n0|i0 a b|i0 x|i0 a b|i0 a b d|i0 x|i0 f l0|i0 x n0 l0|i0 ty|i0 l0];
        try discriminate Q. destruct (look n0) as [[|[|h gs]|]|] eqn:E; try discriminate Q. injection Q as ->.
      cbn [infer expr_id]. unfold infer_ident. rewrite look_ok, E. cbn. exists i0, (VFunctions (g :: gs)), (calls c). split; reflexivity. }
    destruct (infer db r f (push_call (expr_id f) c)) as [ty c1]. cbn [snd] in *.
    change (kept (pop_call (check_arity db i l (fold_left (fun c x => snd (infer db r x c)) l c1))))
      with (kept (check_arity db i l (fold_left (fun c x => snd (infer db r x c)) l c1))).
    rewrite kept_check, (list_walks t' l Lf (wells_imp l _ _ TI W2) c1 NM), B, add_app. reflexivity.
  - (* a method call *)
    destruct W as [W1 W2]. inversion IH as [|? ? IHf IHl]; subst.
    pose proof (IHf None (W0 x W1) (push_call (expr_id x) c) (N0 _)) as B.
    set (t' := callee_f (MethodCall i x n l)).
    assert (TI : existsb is_named l = true -> (exists g, callee db look (MethodCall i x n l) l g) -> t' <> None).
    { intros Q (g & C). apply callee_target in C. unfold t', callee_f. cbn [args]. rewrite Q, (proj2 C). discriminate. }
    assert (Lf : Forall (walks t') l) by (eapply Forall_impl; [|exact IHl]; simpl; auto).
    assert (NM : calling t' (snd (method_call db r i (fst (infer db r x (push_call (expr_id x) c))) n (snd (infer db r x (push_call (expr_id x) c)))))).
    { intros g Q. unfold t', callee_f in Q. cbn [args] in Q. destruct (existsb is_named l) eqn:EN; [|discriminate Q].
      destruct (wells_named l _ EN W2) as (h & C). inversion C as [|i1 x1 n1 l1 t1 s h1 R NF Ty Lt St]; subst.
      destruct (MemberProofs.infer_walks db look r look_ok x false (proj1 R) (push_call (expr_id x) c) ltac:(discriminate)) as [FT _].
      apply (ty_typed db look look x (proj2 R)) in Ty. cbn [target] in Q. rewrite Ty, Lt, St in Q. injection Q as ->.
      pose proof (infer_calls x (push_call (expr_id x) c) NF) as CC. rewrite FT, Ty. unfold method_call. rewrite look_ok, Lt, St. cbn [snd].
      unfold set_call, add_method. cbn [calls]. rewrite CC. cbn [push_call calls]. exists (expr_id x), (VFunctions [g]), (calls c). split; reflexivity. }
    destruct (infer db r x (push_call (expr_id x) c)) as [ty0 c1]. cbn [fst snd] in *.
    pose proof (kept_method i ty0 n c1) as D. destruct (method_call db r i ty0 n c1) as [ty c2]. cbn [snd] in *.
    change (kept (pop_call (fold_left (fun c x => snd (infer db r x c)) l c2))) with (kept (fold_left (fun c x => snd (infer db r x c)) l c2)).
    rewrite (list_walks t' l Lf (wells_imp l _ _ TI W2) c2 NM), D, B, add_app. reflexivity.
  - reflexivity.
  - rewrite typed_fold. apply (list_walks None l (L None l eq_refl)); [apply (wells_imp l False); [contradiction|exact W]|apply N0].
Qed.

(** ** The events are the arguments *)
Lemma evn_own e t : evn t e = own t e ++ evn None e.
Proof. destruct e as [i|i n|i l|i x v|i n l|i x ty|i x n|i x n|i a b|i x|i a b|i a b d|i x|i f l|i x n l|i ty|i l]; destruct t as [f0|]; try reflexivity. destruct x; reflexivity. Qed.
Lemma in_own t e a : In a (own t e) <-> exists f j i n v, t = Some f /\ e = NamedArg j (Ident i n) v /\ a = naming_of f i n.
Proof.
  split.
  - destruct e as [i|i n|i l|i x v|i n l|i x ty|i x n|i x n|i a0 b|i x|i a0 b|i a0 b d|i x|i f l|i x n l|i ty|i l]; try (intros []; fail).
    destruct x as [j|j n|j l|j x w|j n l|j x ty|j x n|j x n|j a0 b|j x|j a0 b|j a0 b d|j x|j f l|j x n l|j ty|j l]; try (intros []; fail).
    destruct t as [f|]; [|intros []]. intros [<-|[]]. exists f, i, j, n, v. auto.
  - intros (f & j & i & n & v & -> & -> & ->). now left.
Qed.
Lemma args_argument e a P : well db look P e ->
  (exists p, In p (args e) /\ In a (own (callee_f e) p)) <-> argument db look parameter e a.
Proof.
  intros W. split.
  - intros (p & I & O). apply in_own in O. destruct O as (f & j & i & n & v & C & -> & ->).
    assert (Ce : callee db look e (args e) f).
    { pose proof (named_in _ _ _ _ I) as EN. unfold callee_f in C. rewrite EN in C.
      destruct e as [k|k m|k l|k x w|k m l|k x ty|k x m|k x m|k a0 b|k x|k a0 b|k a0 b d|k x|k f0 l|k x m l|k ty|k l]; cbn [args well] in *; try contradiction;
        destruct (wells_named l _ EN (proj2 W)) as (g & Cg); pose proof (callee_target _ _ _ Cg) as [_ T]; congruence. }
    unfold naming_of. destruct (parameter f n) as [x|] eqn:Q.
    + eapply argument_names; eauto.
    + eapply argument_unknown; eauto.
  - intros A. destruct A as [w l f j i n v x C I Q|w l f j i n v C I Q]; apply callee_target in C; destruct C as [<- C]; eexists; (split; [exact I|]);
      apply in_own; exists f, j, i, n, v; unfold callee_f; rewrite (named_in _ _ _ _ I), C; unfold naming_of; rewrite Q; auto.
Qed.
Lemma in_evn e a P : well db look P e -> In a (evn None e) <-> argument db look parameter e a \/ exists p, In p (parts e) /\ In a (evn None p).
Proof.
  intros W. rewrite <- (args_argument e a P W). clear W P.
  destruct e as [i|i n|i l|i x v|i n l|i x ty|i x n|i x n|i a0 b|i x|i a0 b|i a0 b d|i x|i f l|i x n l|i ty|i l];
    cbn [evn args parts]; try destruct x as [y|]; rewrite ?in_app_iff, ?in_flat_map; simpl;
    try (split; [intros H; right; repeat destruct H as [H|H]; try contradiction; try (destruct H as (p & P & H)); eauto 7|
             intros [(p & [] & _)|(p & P & H)]; repeat (destruct P as [<-|P]); try contradiction; eauto 7]; fail).
  - split.
    + intros [H|(p & P & H)]; [right; eauto|]. rewrite evn_own, in_app_iff in H. destruct H as [H|H]; [left; eauto|right; eauto].
    + intros [(p & P & H)|(p & [<-|P] & H)]; [|now left|]; right; exists p; (split; [exact P|]); rewrite evn_own, in_app_iff; auto.
  - split.
    + intros [H|(p & P & H)]; [right; eauto|]. rewrite evn_own, in_app_iff in H. destruct H as [H|H]; [left; eauto|right; eauto].
    + intros [(p & P & H)|(p & [<-|P] & H)]; [|now left|]; right; exists p; (split; [exact P|]); rewrite evn_own, in_app_iff; auto.
Qed.
Lemma well_parts e p P : well db look P e -> In p (parts e) -> exists Q, well db look Q p.
Proof.
  assert (L : forall Q l, fold_right (fun x a => well db look Q x /\ a) True l -> In p l -> exists R, well db look R p).
  { induction l as [|x l IH]; simpl; [contradiction|]. intros [A B] [<-|I]; eauto. }
  destruct e as [k|k m|k l|k x w|k m l|k x ty|k x m|k x m|k a0 b|k x|k a0 b|k a0 b d|k [y|]|k f0 l|k x m l|k ty|k l]; cbn [well parts]; intros W I; try contradiction;
    try (eapply L; eauto; fail); repeat match goal with H : _ /\ _ |- _ => destruct H end; repeat (destruct I as [<-|I]; eauto); try contradiction; eapply L; eauto.
Qed.
Lemma evn_argument : forall e a P, well db look P e -> In a (evn None e) <-> exists w, within w e /\ argument db look parameter w a.
Proof.
  induction e as [e IH] using expr_induct. rewrite Forall_forall in IH. intros a P W0. rewrite (in_evn e a P W0).
  assert (L : forall p, In p (parts e) -> In p (subs e)) by (destruct e as [| | | | | | | | | | | |? []| | | |]; simpl; intuition).
  split.
  - intros [A|(p & I & H)]; [exists e; split; [constructor|exact A]|]. destruct (well_parts e p P W0 I) as (Q & WQ).
    apply (IH p (L p I) a Q WQ) in H. destruct H as (w & W & A).
    exists w. split; [econstructor; eauto|exact A].
  - intros (w & W & A). inversion W as [|? p ? I W']; subst; [now left|]. right. exists p. split; [exact I|].
    destruct (well_parts e p P W0 I) as (Q & WQ). apply (IH p (L p I) a Q WQ). eauto.
Qed.

(** ** Each once *)
Definition nid (a : naming) : nat := match a with Names i _ _ | NoSuch i _ _ => i end.
Definition once (l : list naming) (g : list nat) : Prop := incl (map nid l) g /\ (NoDup g -> NoDup (map nid l)).
Lemma once_app a b ga gb : once a ga -> once b gb -> once (a ++ b) (ga ++ gb).
Proof.
  intros [A1 A2] [B1 B2]. split; rewrite map_app; [apply incl_app; [apply incl_appl; exact A1|apply incl_appr; exact B1]|].
  intros N. apply MemberProps.nodup_app in N. destruct N as (N1 & N2 & N3). apply MemberProps.nodup_app. split; [auto|]. split; [auto|].
  intros x X Y. exact (N3 x (A1 x X) (B1 x Y)).
Qed.
Lemma once_swap a b ga gb : once a ga -> once b gb -> once (b ++ a) (ga ++ gb).
Proof.
  intros [A1 A2] [B1 B2]. split; rewrite map_app; [apply incl_app; [apply incl_appr; exact B1|apply incl_appl; exact A1]|].
  intros N. apply MemberProps.nodup_app in N. destruct N as (N1 & N2 & N3). apply MemberProps.nodup_app. split; [auto|]. split; [auto|].
  intros x X Y. exact (N3 x (A1 x Y) (B1 x X)).
Qed.
Lemma once_nil g : once [] g.
Proof. split; [intros x []|constructor]. Qed.
Lemma once_flat {A} (f : A -> list naming) (g : A -> list nat) l : (forall x, In x l -> once (f x) (g x)) -> once (flat_map f l) (flat_map g l).
Proof. induction l as [|x l IH]; intros H; [apply once_nil|]. cbn [flat_map]. apply once_app; [apply H; now left|apply IH; intros y Y; apply H; now right]. Qed.
Lemma evn_once : forall e t, once (evn t e) (name_ids e).
Proof.
  induction e as [e IH] using expr_induct. rewrite Forall_forall in IH. intros t.
  destruct e as [i|i n|i l|i x v|i n l|i x ty|i x n|i x n|i a b|i x|i a b|i a b d|i [y|]|i f l|i x n l|i ty|i l]; cbn [evn name_ids subs] in *;
    try apply once_nil; try (apply once_flat; intros; now apply IH); try (apply IH; now left).
  - change (expr_id x :: name_ids v) with ([expr_id x] ++ name_ids v). apply once_app; [|apply IH; simpl; auto].
    destruct t as [f|]; [|apply once_nil]. destruct x as [j|j n|j l|j x w|j n l|j x ty|j x n|j x n|j a0 b|j x|j a0 b|j a0 b d|j x|j f0 l|j x n l|j ty|j l]; try apply once_nil.
    unfold naming_of. destruct (parameter f n); (split; [intros z Z; exact Z|intros _; constructor; [intros []|constructor]]).
  - apply once_swap; apply IH; simpl; auto.
  - apply once_app; apply IH; simpl; auto.
  - apply once_app; [apply IH; simpl; auto|]. apply once_app; apply IH; simpl; auto.
  - apply once_app; [apply IH; simpl; auto|]. apply once_flat. intros z Z. apply IH. now right.
  - apply once_app; [apply IH; simpl; auto|]. apply once_flat. intros z Z. apply IH. now right.
Qed.

Lemma add_in l : forall t, (forall d, In d (fst (add t l)) <-> In d (fst t) \/ exists i n f, In (NoSuch i n f) l /\ d = UnresolvedNamedArg i n f) /\
  (forall i f x, In (i, (f, x)) (snd (add t l)) <-> In (i, (f, x)) (snd t) \/ In (Names i f x) l).
Proof.
  induction l as [|a l IH]; intros t; [simpl; split; intros; split; auto; intros [H|H]; auto; [destruct H as (? & ? & ? & [] & _)|contradiction]|].
  unfold add. cbn [fold_left]. fold (add (add1 t a) l). destruct (IH (add1 t a)) as [A B]. split.
  - intros d. rewrite A. destruct a as [i f x|i n f]; cbn [add1 fst].
    + split; [intros [H|(i' & n' & f' & H & E)]; [now left|right; exists i', n', f'; split; [now right|exact E]]|].
      intros [H|(i' & n' & f' & [H|H] & E)]; [now left|discriminate|right; eauto].
    + rewrite in_app_iff. simpl. split.
      * intros [[H|[<-|[]]]|(i' & n' & f' & H & E)]; [now left|right; exists i, n, f; auto|right; exists i', n', f'; auto].
      * intros [H|(i' & n' & f' & [H|H] & E)]; [now left; left| |right; eauto]. injection H as -> -> ->. left. right. now left.
  - intros i f x. rewrite B. destruct a as [i' f' x'|i' n' f']; cbn [add1 snd]; simpl.
    + split; [intros [[H|H]|H]; auto; injection H as -> -> ->; auto|intros [H|[H|H]]; auto; injection H as -> -> ->; auto].
    + split; [intros [H|H]; auto|intros [H|[H|H]]; auto; discriminate].
Qed.
Lemma add_keys l : forall t, NoDup (map nid l) -> NoDup (map fst (snd t)) -> (forall i, In i (map nid l) -> ~ In i (map fst (snd t))) ->
  NoDup (map fst (snd (add t l))).
Proof.
  induction l as [|a l IH]; intros t N T D; [exact T|]. inversion N as [|? ? N1 N2]; subst. unfold add. cbn [fold_left]. fold (add (add1 t a) l).
  apply IH; [exact N2| |].
  - destruct a as [i f x|i n f]; cbn [add1 snd map fst]; [|exact T]. constructor; [apply D; now left|exact T].
  - intros i I. assert (D' := D i (or_intror I)). destruct a as [i' f x|i' n f]; cbn [add1 snd map fst] in *; [|exact D'].
    intros [E|E]; [|contradiction]. subst i'. contradiction.
Qed.
End named.

(** * Parameters *)
Lemma new_scopes_root b : sound (new_scopes b) /\ view (new_scopes b) 0 None (rev (root_decls b)).
Proof.
  unfold new_scopes, root_decls. pose proof (params_grow (params b) root_scopes) as G.
  set (s0 := fold_left (fun s p => add_entry (fst p) (snd p) 0 s) (params b) root_scopes) in *.
  assert (L : 0 < List.length (scopes s0)) by (pose proof (g_len _ _ _ _ _ G); simpl in *; lia).
  pose proof (g_sound _ _ _ _ _ G sound_root) as K.
  assert (V : view root_scopes 0 None []) by (exists (ScopeData None []); repeat split).
  pose proof (g_view _ _ _ _ _ G sound_root _ _ _ V) as V1. simpl in V1. rewrite app_nil_r in V1.
  destruct (body_stmt b) as [s|].
  - pose proof (compute_grows s 0 s0 L) as G2. split; [exact (g_sound _ _ _ _ _ G2 K)|].
    pose proof (g_view _ _ _ _ _ G2 K _ _ _ V1) as V2. simpl in V2. now rewrite rev_app_distr.
  - split; [exact K|]. now rewrite app_nil_r.
Qed.
Lemma knows_parameter db bodies : knows db bodies -> forall f n,
  let rf := function_resolver db f ++ match scopes (function_scopes db f) with [] => [] | _ => [SLocal f (function_scopes db f) 0] end in
  match parameter_of bodies f n with
  | Some x => resolve_ident rf n = Some (VLocal f x)
  | None => forall o x, resolve_ident rf n <> Some (VLocal o x)
  end.
Proof.
  intros K f n. cbv zeta. destruct (K f) as (S & B & maps & this & R). rewrite S, R.
  destruct (new_scopes_root (bodies f)) as [So V].
  assert (NE : scopes (new_scopes (bodies f)) <> []) by (intros Q; apply view_lt in V; rewrite Q in V; simpl in V; lia).
  assert (RD : root_decls (bodies f) = params (bodies f)).
  { unfold root_decls. destruct (body_stmt (bodies f)) as [s|]; [|apply app_nil_r]. destruct (B s eq_refl) as (i & l & ->). apply app_nil_r. }
  assert (E : resolve_name_in_scope (new_scopes (bodies f)) 0 n = assoc n (rev (params (bodies f)))).
  { rewrite <- RD. apply (resolve_here _ (rev (root_decls (bodies f))) So [] [] 0 (here_root _ _ V)). }
  destruct (scopes (new_scopes (bodies f))) as [|x l] eqn:Q; [contradiction|]. unfold resolve_ident. rewrite rev_app_distr. cbn [rev List.app resolve_in]. rewrite E. unfold parameter_of.
  destruct (assoc n (rev (params (bodies f)))) as [y|]; [reflexivity|]. intros o y.
  assert (G : forall l : list scope, (forall a b c, ~ In (SLocal a b c) l) -> resolve_in l n <> Some (VLocal o y)).
  { clear. induction l as [|z l IH]; intros H; [discriminate|]. destruct z as [m|mm i|a b c]; cbn [resolve_in].
    - intros Q. destruct (resolve_global m n) as [v|] eqn:RG; [|revert Q; apply IH; intros a b c I; apply (H a b c); now right].
      injection Q as ->. clear - RG. unfold resolve_global in RG. destruct (dedup (global_entries m n)) as [|[[k i] fl] es]; [discriminate|].
      destruct es as [|e2 es]; [destruct k; discriminate|]. destruct k; destruct (find _ _) as [[]|]; discriminate.
    - destruct (String.eqb n "this"); [destruct mm; discriminate|]. apply IH. intros a b c I. apply (H a b c). now right.
    - now elim (H a b c (or_introl eq_refl)). }
  apply G. intros a b c I. rewrite in_app_iff in I. destruct this as [[mm i]|]; simpl in I; intuition discriminate.
Qed.
