(** The tables of the item tree, read back, say what the file declares. *)
From Coq Require Import List String Bool Arith NArith Lia.
From Verif Require Import AstIdModel AstIdSpec AstIdProps TypeRefModel ItemTreeModel ItemTreeSpec.
Import ListNotations.
Local Open Scope string_scope.
Local Open Scope nat_scope.
Local Open Scope list_scope.

(** * Trees that grow *)
Definition plus (t d : itree) : itree :=
  ITree (top t ++ top d) (functions t ++ functions d) (variables t ++ variables d) (macros t ++ macros d)
    (enum_structs t ++ enum_structs d) (fields t ++ fields d) (methodmaps t ++ methodmaps d) (properties t ++ properties d)
    (params t ++ params d) (enums t ++ enums d) (typedefs t ++ typedefs d) (typesets t ++ typesets d)
    (functags t ++ functags d) (funcenums t ++ funcenums d) (variants t ++ variants d).

Lemma plus_nil : forall t, plus t empty_tree = t.
Proof. intros []. unfold plus, empty_tree. cbn. rewrite ?app_nil_r. reflexivity. Qed.
Lemma plus_assoc : forall a b c, plus (plus a b) c = plus a (plus b c).
Proof. intros [] [] []. unfold plus. cbn. rewrite <- ?app_assoc. reflexivity. Qed.

(** Pieces *)
Definition d_params (ps : list param) : itree := ITree [] [] [] [] [] [] [] [] ps [] [] [] [] [] [].
Definition d_fns (ps : list param) (fs : list function) : itree := ITree [] fs [] [] [] [] [] [] ps [] [] [] [] [] [].

Ltac tree_eq := unfold plus, push, alloc_function, alloc_variable, alloc_macro, alloc_enum_struct, alloc_field, alloc_methodmap,
  alloc_property, alloc_param, alloc_enum, alloc_typedef, alloc_typeset, alloc_functag, alloc_funcenum, alloc_variant, d_params, d_fns, empty_tree;
  cbn; rewrite <- ?app_assoc, ?app_nil_r; cbn; rewrite ?app_nil_r; try reflexivity.

(** * Reading *)
Lemma all_app : forall A B (f : A -> option B) a b x y, all f a = Some x -> all f b = Some y -> all f (a ++ b) = Some (x ++ y).
Proof.
  induction a as [|e r IH]; cbn; intros b x y Ha Hb; [injection Ha as <-; auto|].
  destruct (f e); [|discriminate]. destruct (all f r) eqn:E; [|discriminate]. injection Ha as <-.
  rewrite (IH _ _ _ eq_refl Hb). reflexivity.
Qed.
Lemma all_one : forall A B (f : A -> option B) a b, f a = Some b -> all f [a] = Some [b].
Proof. intros. cbn. rewrite H. auto. Qed.
Lemma all_mono : forall A B (f g : A -> option B) l r, (forall a b, f a = Some b -> g a = Some b) -> all f l = Some r -> all g l = Some r.
Proof.
  induction l as [|e l IH]; cbn; intros r M H; auto.
  destruct (f e) eqn:E; [|discriminate]. rewrite (M _ _ E).
  destruct (all f l) eqn:E'; [|discriminate]. rewrite (IH _ M eq_refl). auto.
Qed.
Lemma all_ext : forall A B (f g : A -> option B) l, (forall a, In a l -> f a = g a) -> all f l = all g l.
Proof.
  induction l as [|e l IH]; cbn; intros M; auto. rewrite (M e), IH; auto.
Qed.
Lemma all_map : forall A B C (f : B -> option C) (g : A -> B) l, all f (map g l) = all (fun a => f (g a)) l.
Proof. induction l as [|e l IH]; cbn; auto. rewrite IH. auto. Qed.
Lemma at_mono : forall A B (l r : list A) (f g : A -> option B) i b,
  (forall a b, f a = Some b -> g a = Some b) -> at_index l f i = Some b -> at_index (l ++ r) g i = Some b.
Proof.
  intros A B l r f g i b M. unfold at_index. destruct (nth_error l i) eqn:E; [|discriminate].
  rewrite nth_error_app1, E; auto. apply nth_error_Some. congruence.
Qed.
Lemma at_last : forall A B (l r : list A) (f : A -> option B) a, at_index (l ++ a :: r) f (List.length l) = f a.
Proof. intros. unfold at_index. rewrite nth_error_app2, Nat.sub_diag; auto. Qed.
(** A range over what was added gives what was added. *)
Lemma read_added : forall A B (f : A -> option B) new pre post,
  all (at_index (pre ++ new ++ post) f) (indices (List.length pre, List.length pre + List.length new)) = all f new.
Proof.
  unfold indices. cbn [fst snd]. induction new as [|a r IH]; intros pre post; cbn [List.length].
  - replace (_ + 0 - _) with 0 by lia. reflexivity.
  - replace (_ + S _ - _) with (S (List.length r)) by lia. cbn [seq all app].
    rewrite at_last. destruct (f a); auto.
    specialize (IH (pre ++ [a]) post). rewrite <- app_assoc in IH. cbn [app] in IH.
    rewrite app_length in IH. cbn [List.length] in IH.
    replace (List.length pre + 1 + List.length r - (List.length pre + 1)) with (List.length r) in IH by lia.
    replace (List.length pre + 1) with (S (List.length pre)) in IH by lia. rewrite IH. reflexivity.
Qed.

Section root.
Variable root : syn.
Local Notation idof := (id_of root).

Lemma place_id : forall n a, idof n = Some a -> place root a = Some (place_of n).
Proof. intros n a H. unfold place, get_raw. apply insert_all_hit. exact H. Qed.

Lemma params_mono : forall t d r v, read_params root t r = Some v -> read_params root (plus t d) r = Some v.
Proof. intros t d r v. apply all_mono. intros i b. apply at_mono. auto. Qed.
Lemma function_mono : forall t d f v, view_function root t f = Some v -> view_function root (plus t d) f = Some v.
Proof.
  intros t d f v. unfold view_function. destruct (read_params root t (fn_params f)) eqn:E; [|discriminate].
  rewrite (params_mono _ _ _ _ E). auto.
Qed.
Lemma typedef_mono : forall t d f v, view_typedef root t f = Some v -> view_typedef root (plus t d) f = Some v.
Proof.
  intros t d f v. unfold view_typedef. destruct (read_params root t (td_params f)) eqn:E; [|discriminate].
  rewrite (params_mono _ _ _ _ E). auto.
Qed.
Lemma functag_mono : forall t d f v, view_functag root t f = Some v -> view_functag root (plus t d) f = Some v.
Proof.
  intros t d f v. unfold view_functag. destruct (read_params root t (ft_params f)) eqn:E; [|discriminate].
  rewrite (params_mono _ _ _ _ E). auto.
Qed.
Lemma at_fn_mono : forall t d i v, at_index (functions t) (view_function root t) i = Some v ->
  at_index (functions (plus t d)) (view_function root (plus t d)) i = Some v.
Proof. intros t d i v. apply at_mono. intros a b. apply function_mono. Qed.
Lemma es_mono : forall t d i v, view_es_item root t i = Some v -> view_es_item root (plus t d) i = Some v.
Proof.
  intros t d [i|i] v; unfold view_es_item.
  - destruct (at_index (functions t) (view_function root t) i) eqn:E; [|discriminate]. rewrite (at_fn_mono _ _ _ _ E). auto.
  - apply at_mono. auto.
Qed.
Lemma property_mono : forall t d p v, view_property root t p = Some v -> view_property root (plus t d) p = Some v.
Proof.
  intros t d p v. unfold view_property.
  destruct (all (at_index (functions t) (view_function root t)) (indices (pr_accessors p))) eqn:E; [|discriminate].
  rewrite (all_mono _ _ _ (at_index (functions (plus t d)) (view_function root (plus t d))) _ _ (at_fn_mono t d) E). auto.
Qed.
Lemma mm_mono : forall t d i v, view_mm_item root t i = Some v -> view_mm_item root (plus t d) i = Some v.
Proof.
  intros t d [i|i] v; unfold view_mm_item.
  - destruct (at_index (functions t) (view_function root t) i) eqn:E; [|discriminate]. rewrite (at_fn_mono _ _ _ _ E). auto.
  - apply at_mono. intros a b. apply property_mono.
Qed.
Lemma item_mono : forall t d i v, view_item root t i = Some v -> view_item root (plus t d) i = Some v.
Proof.
  intros t d [i|i|i|i|i|i|i|i|i|i|i] v; unfold view_item.
  - destruct (at_index (functions t) (view_function root t) i) eqn:E; [|discriminate]. rewrite (at_fn_mono _ _ _ _ E). auto.
  - apply at_mono. auto.
  - apply at_mono. auto.
  - apply at_mono. intros a b. unfold view_enum_struct. destruct (all (view_es_item root t) (es_items a)) eqn:E; [|discriminate].
    rewrite (all_mono _ _ _ (view_es_item root (plus t d)) _ _ (es_mono t d) E). auto.
  - apply at_mono. intros a b. unfold view_methodmap. destruct (all (view_mm_item root t) (mm_items a)) eqn:E; [|discriminate].
    rewrite (all_mono _ _ _ (view_mm_item root (plus t d)) _ _ (mm_mono t d) E). auto.
  - apply at_mono. intros a b. unfold view_enum.
    destruct (all (at_index (variants t) (view_variant root)) (indices (en_variants a))) eqn:E; [|discriminate].
    rewrite (all_mono _ _ _ (at_index (variants (plus t d)) (view_variant root)) _ _ (fun i b => at_mono _ _ _ _ _ _ i b (fun a b H => H)) E). auto.
  - destruct (at_index (variants t) (view_variant root) i) eqn:E; [|discriminate].
    apply (at_mono _ _ _ (variants d) _ (view_variant root)) in E; auto. unfold plus at 1. cbn. rewrite E. auto.
  - destruct (at_index (typedefs t) (view_typedef root t) i) eqn:E; [|discriminate].
    apply (at_mono _ _ _ (typedefs d) _ (view_typedef root (plus t d))) in E; [|intros a b; apply typedef_mono].
    unfold plus at 1. cbn. rewrite E. auto.
  - apply at_mono. intros a b. unfold view_typeset.
    destruct (all (at_index (typedefs t) (view_typedef root t)) (indices (ts_typedefs a))) eqn:E; [|discriminate].
    rewrite (all_mono _ _ _ (at_index (typedefs (plus t d)) (view_typedef root (plus t d))) _ _ (fun i b => at_mono _ _ _ _ _ _ i b (typedef_mono t d)) E). auto.
  - destruct (at_index (functags t) (view_functag root t) i) eqn:E; [|discriminate].
    apply (at_mono _ _ _ (functags d) _ (view_functag root (plus t d))) in E; [|intros a b; apply functag_mono].
    unfold plus at 1. cbn. rewrite E. auto.
  - apply at_mono. intros a b. unfold view_funcenum.
    destruct (all (at_index (functags t) (view_functag root t)) (indices (fe_functags a))) eqn:E; [|discriminate].
    rewrite (all_mono _ _ _ (at_index (functags (plus t d)) (view_functag root (plus t d))) _ _ (fun i b => at_mono _ _ _ _ _ _ i b (functag_mono t d)) E). auto.
Qed.

(** * Small pieces *)
Lemma type_written : forall f n, type_in f n = written_type f n.
Proof.
  intros f n. unfold type_in, written_type, from_returntype_node.
  set (l := children_by_field_name f n). clearbody l.
  assert (G : forall l ty k,
    fold_left (fun (acc : option type_ref * nat) c => match c with CDimension => (fst acc, S (snd acc)) | CType t => (Some t, snd acc) end)
      (map type_child_of l) (ty, k) =
    (match rev (filter (fun c => negb (is_dimension c)) l) with [] => ty | c :: _ => Some (type_of c) end,
     k + List.length (filter is_dimension l))).
  { clear l. induction l as [|c r IH]; intros ty k; cbn [map fold_left filter]; [cbn; f_equal; lia|].
    unfold type_child_of at 2. fold (is_dimension c). destruct (is_dimension c) eqn:D; cbn [negb fst snd]; rewrite IH.
    - f_equal. cbn. lia.
    - cbn [rev]. f_equal. destruct (rev (filter (fun c => negb (is_dimension c)) r)); auto. }
  rewrite G. destruct (rev _); auto. cbn [Nat.add].
  destruct (List.length (filter is_dimension l)); auto.
Qed.

Lemma kind_written : forall n, fn_kind_of n = written_kind n.
Proof.
  intros n. unfold fn_kind_of, written_kind, inside. destruct (child_by_field_name "kind" n) as [k|]; auto.
  cbn [opt flat_map]. rewrite app_nil_r. induction (children k) as [|c r IH]; auto.
  cbn [find filter]. unfold has_kind in *. destruct ((s_kind c =? k_anon_forward) || (s_kind c =? k_anon_native)) eqn:E; auto.
  destruct (s_kind c =? k_anon_forward) eqn:F; destruct (s_kind c =? k_anon_native) eqn:G; auto; try discriminate.
  apply Nat.eqb_eq in F, G. rewrite F in G. discriminate.
Qed.

Lemma lor_bits : forall a f g, negb (N.land (N.lor a f) g =? 0)%N = negb (N.land a g =? 0)%N || negb (N.land f g =? 0)%N.
Proof.
  intros a f g. rewrite N.land_lor_distr_l. destruct (N.land a g =? 0)%N eqn:E; destruct (N.land f g =? 0)%N eqn:F; cbn.
  - apply N.eqb_eq in E, F. rewrite E, F. auto.
  - apply N.eqb_eq in E. rewrite E, N.lor_0_l, F. auto.
  - apply N.eqb_neq in E. apply negb_true_iff, N.eqb_neq. intro H. apply N.lor_eq_0_iff in H. tauto.
  - apply N.eqb_neq in E. apply negb_true_iff, N.eqb_neq. intro H. apply N.lor_eq_0_iff in H. tauto.
Qed.
Lemma visibility_written : forall n,
  bit (visibility_of n) v_public = word k_anon_public n /\ bit (visibility_of n) v_stock = word k_anon_stock n /\
  bit (visibility_of n) v_static = word k_anon_static n.
Proof.
  intros n. unfold visibility_of, word, inside. destruct (child_by_field_name "visibility" n) as [v|]; [|cbn; auto].
  cbn [opt flat_map]. rewrite app_nil_r.
  set (step := fun acc c => _).
  assert (G : forall l a, bit (fold_left step l a) v_public = bit a v_public || existsb (has_kind k_anon_public) l /\
                          bit (fold_left step l a) v_stock = bit a v_stock || existsb (has_kind k_anon_stock) l /\
                          bit (fold_left step l a) v_static = bit a v_static || existsb (has_kind k_anon_static) l).
  { induction l as [|c r IH]; intros a; cbn [fold_left existsb]; [rewrite !orb_false_r; auto|].
    destruct (IH (step a c)) as (P & Q & R). rewrite P, Q, R. clear P Q R IH.
    unfold step, has_kind. unfold bit.
    destruct (s_kind c =? k_anon_public) eqn:E1; [apply Nat.eqb_eq in E1; rewrite E1; rewrite !lor_bits; cbn; rewrite ?orb_false_r, ?orb_true_r; auto|].
    destruct (s_kind c =? k_anon_stock) eqn:E2; [apply Nat.eqb_eq in E2; rewrite E2; rewrite !lor_bits; cbn; rewrite ?orb_false_r, ?orb_true_r; auto|].
    destruct (s_kind c =? k_anon_static) eqn:E3; [apply Nat.eqb_eq in E3; rewrite !lor_bits; cbn; rewrite ?orb_false_r, ?orb_true_r; auto|].
    cbn. auto. }
  destruct (G (children v) v_none) as (P & Q & R). rewrite P, Q, R. cbn. auto.
Qed.

(** * Parameters and functions *)
Lemma each_params : forall l t t', each (lower_param root) l t = Some t' ->
  exists ps, t' = plus t (d_params ps) /\
    all (view_param root) ps = Some (map (fun p => ParamView (written_type "type" p) (has_field "defaultValue" p) (has_kind k_rest_parameter p)
                          (has_field "storage_class" p) (place_of p))
      (filter (fun p => has_kind k_parameter_declaration p || has_kind k_rest_parameter p) l)).
Proof.
  induction l as [|c r IH]; cbn [each]; intros t t' H.
  - injection H as <-. exists []. split; auto. change (d_params []) with empty_tree. rewrite plus_nil. auto.
  - unfold lower_param at 1 in H. cbn [filter].
    destruct (has_kind k_parameter_declaration c || has_kind k_rest_parameter c) eqn:E; [|apply IH; auto].
    destruct (idof c) as [a|] eqn:I; [|discriminate].
    destruct (IH _ _ H) as (ps & -> & V).
    eexists (_ :: ps). split; [tree_eq|].
    cbn [all map]. unfold view_param at 1. cbn [par_ast par_type par_default par_rest par_const].
    rewrite (place_id _ _ I), V, type_written. reflexivity.
Qed.

Lemma read_params_added : forall t ps v d, all (view_param root) ps = Some v ->
  read_params root (plus (plus t (d_params ps)) d) (List.length (params t), List.length (params t) + List.length ps) = Some v.
Proof.
  intros t ps v d H. unfold read_params. cbn [plus params d_params]. rewrite <- app_assoc, read_added. auto.
Qed.
Lemma read_params_none : forall t k, read_params root t (k, k) = Some [].
Proof. intros. unfold read_params, indices. cbn. rewrite Nat.sub_diag. reflexivity. Qed.

Lemma parameters_written : forall t n t' r, lower_parameters root t n = Some (t', r) ->
  exists ps, t' = plus t (d_params ps) /\ forall d, read_params root (plus t' d) r = Some (written_params n).
Proof.
  intros t n t' r. unfold lower_parameters, written_params, inside.
  destruct (child_by_field_name "parameters" n) as [p|].
  - destruct (has_kind k_parameter_declarations p); [|discriminate].
    destruct (each (lower_param root) (children p) t) as [t1|] eqn:E; [|discriminate].
    intros H. injection H as <- <-. apply each_params in E. destruct E as (ps & -> & V).
    exists ps. split; auto. intros d. cbn [opt flat_map]. rewrite app_nil_r.
    replace (List.length (params (plus t (d_params ps)))) with (List.length (params t) + List.length ps)
      by (cbn; rewrite app_length; auto).
    apply read_params_added. auto.
  - intros H. injection H as <- <-. exists []. split; [change (d_params []) with empty_tree; rewrite plus_nil; auto|].
    intros d. apply read_params_none.
Qed.

(** A function entered last, seen from any later tree. *)
Lemma function_written : forall t n vis kind sp t' id,
  lower_function_ root t n vis kind sp = Some (t', id) ->
  let v := match vis with Some v => v | None => visibility_of n end in
  let fs := written_function (match kind with Some k => k | None => written_kind n end) (bit v v_public) (bit v v_stock) (bit v v_static) sp n in
  exists ps ffs, t' = plus t (d_fns ps ffs) /\
    match id with
    | None => ffs = [] /\ fs = []
    | Some i => i = List.length (functions t) /\ exists f fv, ffs = [f] /\ fs = [fv] /\ forall d, view_function root (plus t' d) f = Some fv
    end.
Proof.
  intros t n vis kind sp t' id. unfold lower_function_, written_function, named.
  destruct (lower_parameters root t n) as [[t1 r]|] eqn:P; [|discriminate].
  destruct (parameters_written _ _ _ _ P) as (ps & -> & R).
  destruct (name_of n) as [nm|].
  - destruct (idof n) as [a|] eqn:I; [|discriminate]. intros H. injection H as <- <-.
    eexists ps, [_]. split; [tree_eq|]. split; [cbn; rewrite app_nil_r; auto|].
    eexists _, _. split; [reflexivity|]. split; [reflexivity|].
    intros d. unfold view_function. cbn [fn_params fn_ast fn_name fn_knd fn_vis fn_special fn_ret].
    match goal with |- context [read_params root ?T r] => assert (Q : read_params root T r = Some (written_params n)) end.
    { match goal with |- read_params root (plus (alloc_function ?f ?t1) d) r = _ =>
        replace (plus (alloc_function f t1) d) with (plus t1 (plus (d_fns [] [f]) d)) by tree_eq end. apply R. }
    rewrite Q, (place_id _ _ I), type_written, kind_written. reflexivity.
  - intros H. injection H as <- <-. exists ps, []. split; auto.
Qed.

(** * Declarations *)
Definition adds (t t' : itree) (vs : list view) : Prop :=
  exists d, t' = plus t d /\ all (view_item root t') (top d) = Some vs.
Lemma adds_none : forall t, adds t t [].
Proof. intros t. exists empty_tree. rewrite plus_nil. auto. Qed.
Lemma adds_trans : forall a b c x y, adds a b x -> adds b c y -> adds a c (x ++ y).
Proof.
  intros a b c x y (d & -> & Hx) (e & -> & Hy). exists (plus d e). split; [apply plus_assoc|].
  cbn [plus top]. apply all_app; auto. eapply all_mono; [|exact Hx]. intros i v. apply item_mono.
Qed.
Lemma adds_each : forall A (f : itree -> A -> option itree) (w : A -> list view) l,
  (forall a t t', In a l -> f t a = Some t' -> adds t t' (w a)) ->
  forall t t', each f l t = Some t' -> adds t t' (flat_map w l).
Proof.
  induction l as [|a r IH]; cbn [each flat_map]; intros S t t' H.
  - injection H as <-. apply adds_none.
  - destruct (f t a) as [t1|] eqn:E; [|discriminate].
    eapply adds_trans; [eapply S; eauto; left; auto|]. eapply IH; eauto. intros; eapply S; eauto. right; auto.
Qed.
(** Entered after some silent growth. *)
Lemma adds_item : forall t q d x vs,
  top q = [] -> top d = [x] -> all (view_item root (plus (plus t q) d)) [x] = Some vs -> adds t (plus (plus t q) d) vs.
Proof.
  intros t q d x vs Q D V. exists (plus q d). split; [apply plus_assoc|]. cbn [plus top]. rewrite Q, D. exact V.
Qed.

Lemma at_fn_here : forall t q d f fv, functions q = [f] -> view_function root (plus (plus t q) d) f = Some fv ->
  at_index (functions (plus (plus t q) d)) (view_function root (plus (plus t q) d)) (List.length (functions t)) = Some fv.
Proof.
  intros t q d f fv Q V. replace (functions (plus (plus t q) d)) with (functions t ++ f :: functions d).
  - rewrite at_last. exact V.
  - cbn [plus functions]. rewrite Q, <- app_assoc. reflexivity.
Qed.
Lemma adds_function : forall t n t', lower_function root t n = Some t' -> adds t t' (map VFunction (plain_function n)).
Proof.
  intros t n t'. unfold lower_function. destruct (lower_function_ root t n None None None) as [[t1 id]|] eqn:F; [|discriminate].
  apply function_written in F. destruct F as (ps & ffs & -> & F).
  destruct (visibility_written n) as (W1 & W2 & W3). cbv zeta beta in F. rewrite W1, W2, W3 in F. clear W1 W2 W3.
  fold (plain_function n) in F. destruct id as [i|]; intros H; injection H as <-.
  - destruct F as (-> & f & fv & -> & -> & V).
    replace (push (FFunction (List.length (functions t))) (plus t (d_fns ps [f])))
      with (plus (plus t (d_fns ps [f])) (ITree [FFunction (List.length (functions t))] [] [] [] [] [] [] [] [] [] [] [] [] [] [])) by tree_eq.
    apply adds_item with (x := FFunction (List.length (functions t))); auto.
    cbn [all view_item map]. rewrite (at_fn_here t (d_fns ps [f]) _ f fv); auto.
  - destruct F as (-> & ->). exists (d_fns ps []). auto.
Qed.

Lemma adds_variable : forall vis ty n c t t',
  (bit vis v_public = word k_anon_public n /\ bit vis v_stock = word k_anon_stock n /\ bit vis v_static = word k_anon_static n) ->
  lower_variable root vis ty t c = Some t' -> adds t t' (written_variable ty n c).
Proof.
  intros vis ty n c t t' (W1 & W2 & W3). unfold lower_variable, written_variable, named.
  destruct (name_of c) as [nm|]; [|intros H; injection H as <-; apply adds_none].
  destruct (idof c) as [a|] eqn:I; [|discriminate]. intros H. injection H as <-.
  eexists (ITree [FVariable (List.length (variables t))] [] [_] [] [] [] [] [] [] [] [] [] [] [] []). split; [tree_eq|].
  cbn [top]. apply all_one. cbn [view_item push variables alloc_variable].
  rewrite at_last. unfold view_variable. cbn [var_ast var_name var_vis var_type]. rewrite (place_id _ _ I), W1, W2, W3. auto.
Qed.
Lemma adds_variables : forall t n t', lower_global_variable root t n = Some t' -> adds t t' (written_variables n).
Proof.
  intros t n t' H. unfold lower_global_variable in H. rewrite type_written in H.
  assert (G : forall l (f : syn -> list view), flat_map f (filter (has_kind k_variable_declaration) l) =
                flat_map (fun c => if has_kind k_variable_declaration c then f c else []) l).
  { intros l f. induction l as [|c r IH]; cbn; auto. destruct (has_kind k_variable_declaration c); cbn; rewrite IH; auto. }
  unfold written_variables, kids_of_kind. rewrite G. eapply adds_each; [|exact H]. cbv beta.
  intros c u u' _. destruct (has_kind k_variable_declaration c).
  - apply adds_variable. apply visibility_written.
  - intros E. injection E as <-. apply adds_none.
Qed.
Lemma adds_old_variables : forall t n t', lower_old_global_variable root t n = Some t' -> adds t t' (written_old_variables n).
Proof.
  intros t n t' H. unfold lower_old_global_variable in H. unfold written_old_variables, kids_of_kind.
  eapply adds_each; [|exact H]. cbv beta. intros c u u' _. rewrite type_written. apply adds_variable. apply visibility_written.
Qed.

(** The entries of an enum: both declarations of the file and the range of the enum. *)
Definition d_variants (k : nat) (vs : list variant) : itree :=
  ITree (map FVariant (seq k (List.length vs))) [] [] [] [] [] [] [] [] [] [] [] [] [] vs.
Lemma each_variants : forall l t t', each (lower_variant root) l t = Some t' ->
  exists vs, t' = plus t (d_variants (List.length (variants t)) vs) /\
    all (view_variant root) vs = Some (flat_map (fun e => named e (fun nm => VariantView nm (place_of e))) l).
Proof.
  induction l as [|c r IH]; cbn [each flat_map]; intros t t' H.
  - injection H as <-. exists []. split; auto. change (d_variants _ []) with empty_tree. rewrite plus_nil. auto.
  - unfold lower_variant at 1 in H. unfold named at 1.
    destruct (name_of c) as [nm|]; [|apply IH; auto].
    destruct (idof c) as [a|] eqn:I; [|discriminate].
    destruct (IH _ _ H) as (vs & -> & V).
    exists (Variant nm a :: vs). split.
    + unfold d_variants. tree_eq. rewrite app_length. cbn [List.length]. rewrite Nat.add_1_r. reflexivity.
    + cbn [all app]. unfold view_variant at 1. cbn [va_ast va_name]. rewrite (place_id _ _ I), V. reflexivity.
Qed.
Lemma adds_variants : forall t vs v, all (view_variant root) vs = Some v ->
  forall d, all (view_item root (plus (plus t (d_variants (List.length (variants t)) vs)) d)) (map FVariant (seq (List.length (variants t)) (List.length vs))) = Some (map VVariant v).
Proof.
  intros t vs v H d. rewrite all_map. cbn [view_item].
  assert (G : all (at_index (variants t ++ vs ++ variants d) (view_variant root)) (seq (List.length (variants t)) (List.length vs)) = Some v).
  { rewrite <- H, <- (read_added _ _ (view_variant root) vs (variants t) (variants d)). unfold indices. cbn [fst snd].
    f_equal. f_equal. lia. }
  cbn [plus variants d_variants]. rewrite <- app_assoc.
  revert v H G. generalize (seq (List.length (variants t)) (List.length vs)) as l.
  intros l v _. clear. revert v. induction l as [|i l IH]; cbn [all]; intros v G; [injection G as <-; auto|].
  destruct (at_index _ _ i); [|discriminate]. destruct (all _ l) as [w|]; [|discriminate]. injection G as <-.
  rewrite (IH w eq_refl). reflexivity.
Qed.
Lemma adds_enum : forall t n t', lower_enum root t n = Some t' -> adds t t' (written_enum root n).
Proof.
  intros t n t' H. unfold lower_enum in H.
  assert (P : forall t1, match child_by_field_name "entries" n with
             | Some es => each (lower_variant root) (filter (has_kind k_enum_entry) (children es)) t
             | None => Some t end = Some t1 ->
             exists vs, t1 = plus t (d_variants (List.length (variants t)) vs) /\ all (view_variant root) vs = Some (written_variants n)).
  { intros t1. unfold written_variants, inside. destruct (child_by_field_name "entries" n) as [es|].
    - cbn [opt flat_map]. rewrite app_nil_r. apply each_variants.
    - intros E. injection E as <-. exists []. split; auto. change (d_variants _ []) with empty_tree. rewrite plus_nil. auto. }
  destruct (match child_by_field_name "entries" n with Some es => _ | None => _ end) as [t1|]; [|discriminate].
  destruct (P t1 eq_refl) as (vs & -> & V). clear P.
  destruct (idof n) as [a|] eqn:I; [|discriminate]. injection H as <-.
  set (nm := match name_of n with Some nm => nm | None => _ end).
  assert (N : nm = enum_name root n).
  { subst nm. unfold enum_name. unfold id_of in I. rewrite I. auto. }
  set (T1 := plus t (d_variants (List.length (variants t)) vs)).
  set (R := (List.length (variants t), List.length (variants T1))).
  exists (ITree (map FVariant (seq (List.length (variants t)) (List.length vs)) ++ [FEnum (List.length (enums T1))]) [] [] [] [] [] [] [] [] [Enum nm R a] [] [] [] [] vs).
  split; [unfold T1, d_variants; tree_eq|].
  cbn [top]. unfold written_enum. apply all_app.
  - replace (push _ _) with (plus T1 (ITree [FEnum (List.length (enums T1))] [] [] [] [] [] [] [] [] [Enum nm R a] [] [] [] [] [])) by tree_eq.
    apply adds_variants. auto.
  - apply all_one. cbn [view_item push enums alloc_enum]. rewrite at_last. unfold view_enum. cbn [en_variants en_ast en_name].
    cbn [push alloc_enum variants]. subst R T1. cbn [plus variants d_variants]. rewrite app_length.
    rewrite <- (app_nil_r (variants t ++ vs)), <- app_assoc, read_added, V, (place_id _ _ I), N. reflexivity.
Qed.

(** Members entered one after the other into one table. *)
Lemma run : forall A B C (sel : itree -> list B) (V : itree -> B -> option C) (f : itree -> A -> option itree) (w : A -> list C) l,
  (forall a b, sel (plus a b) = sel a ++ sel b) -> sel empty_tree = [] ->
  (forall t d b c, V t b = Some c -> V (plus t d) b = Some c) ->
  (forall a t t', In a l -> f t a = Some t' -> exists d, t' = plus t d /\ top d = [] /\ all (V t') (sel d) = Some (w a)) ->
  forall t t', each f l t = Some t' -> exists d, t' = plus t d /\ top d = [] /\ all (V t') (sel d) = Some (flat_map w l).
Proof.
  intros A B C sel V f w l Sp Se M. induction l as [|a r IH]; intros S t t' H; cbn [each flat_map] in *.
  - injection H as <-. exists empty_tree. rewrite plus_nil, Se. auto.
  - destruct (f t a) as [t1|] eqn:E; [|discriminate].
    destruct (S a t t1 (or_introl eq_refl) E) as (d & -> & D & Vd).
    destruct (IH (fun b u u' I => S b u u' (or_intror I)) _ _ H) as (e & -> & De & Ve).
    exists (plus d e). split; [apply plus_assoc|]. split; [cbn [plus top]; rewrite D, De; auto|].
    rewrite Sp. apply all_app; auto. eapply all_mono; [|exact Vd]. apply M.
Qed.

Lemma typedef_view : forall T n e r ty a nm at_,
  read_params root T r = Some (written_params e) ->
  idof at_ = Some a -> type_in "returnType" e = Some ty -> n = Typedef nm r ty a ->
  all (view_typedef root T) [n] = Some (written_typedef nm at_ e).
Proof.
  intros T n e r ty a nm at_ R I Ty ->. cbn [all]. unfold view_typedef, written_typedef. cbn [td_params td_ast td_name td_type].
  rewrite R, (place_id _ _ I). rewrite type_written in Ty. rewrite Ty. reflexivity.
Qed.

Lemma find_hd : forall A (f : A -> bool) l, find f l = hd_error (filter f l).
Proof. induction l as [|a r IH]; cbn; auto. destruct (f a); auto. Qed.

Lemma adds_typedef : forall t n t', lower_typedef root t n = Some t' ->
  adds t t' (flat_map (fun e => flat_map (fun ds => ds) (named n (fun nm => map VTypedef (written_typedef (Some nm) n e))))
             (firstn 1 (kids_of_kind k_typedef_expression n))).
Proof.
  intros t n t'. unfold lower_typedef, named, kids_of_kind. rewrite find_hd.
  destruct (name_of n) as [nm|]; [destruct (filter _ _) as [|e r]|]; cbn [hd_error firstn].
  - intros H. injection H as <-. apply adds_none.
  - destruct (type_in "returnType" e) as [ty|] eqn:Ty.
    + destruct (lower_parameters root t e) as [[t1 rg]|] eqn:P; [|discriminate].
      destruct (idof n) as [a|] eqn:I; [|discriminate]. intros H. injection H as <-.
      apply parameters_written in P. destruct P as (ps & -> & R).
      set (T1 := plus t (d_params ps)) in *.
      replace (push _ _) with (plus T1 (ITree [FTypedef (List.length (typedefs T1))] [] [] [] [] [] [] [] [] [] [Typedef (Some nm) rg ty a] [] [] [] [])) by tree_eq.
      set (D := ITree _ _ _ _ _ _ _ _ _ _ _ _ _ _ _).
      apply adds_item with (x := FTypedef (List.length (typedefs T1))); auto. fold T1.
      cbn [flat_map]. rewrite !app_nil_r. cbn [all view_item].
      replace (typedefs (plus T1 D)) with (typedefs T1 ++ [Typedef (Some nm) rg ty a]) by auto. rewrite at_last.
      pose proof (typedef_view (plus T1 D) _ e rg ty a (Some nm) n (R D) I Ty eq_refl) as V. cbn [all] in V.
      destruct (view_typedef root (plus T1 D) _); [|discriminate]. injection V as <-. reflexivity.
    + intros H. injection H as <-. rewrite type_written in Ty.
      cbn [flat_map]. unfold written_typedef. rewrite Ty. apply adds_none.
  - intros H. injection H as <-. destruct (filter _ _); cbn; apply adds_none.
Qed.

Lemma adds_typeset : forall t n t', lower_typeset root t n = Some t' ->
  adds t t' (named n (fun nm => VTypeset nm (flat_map (fun e => written_typedef None e e) (kids_of_kind k_typedef_expression n)) (place_of n))).
Proof.
  intros t n t'. unfold lower_typeset, named. destruct (name_of n) as [nm|]; [|intros H; injection H as <-; apply adds_none].
  destruct (each (lower_typeset_member root) (filter (has_kind k_typedef_expression) (children n)) t) as [t1|] eqn:E; [|discriminate].
  destruct (idof n) as [a|] eqn:I; [|discriminate]. intros H. injection H as <-.
  apply (run _ _ _ typedefs (view_typedef root) _ (fun e => written_typedef None e e)) in E; auto using typedef_mono.
  - destruct E as (q & -> & Q & V).
    set (T1 := plus t q) in *. set (R := (List.length (typedefs t), _)).
    replace (push _ _) with (plus T1 (ITree [FTypeset (List.length (typesets T1))] [] [] [] [] [] [] [] [] [] [] [Typeset nm R a] [] [] [])) by tree_eq.
    set (D := ITree _ _ _ _ _ _ _ _ _ _ _ _ _ _ _).
    apply adds_item with (x := FTypeset (List.length (typesets T1))); auto. fold T1.
    apply all_one. cbn [view_item]. replace (typesets (plus T1 D)) with (typesets T1 ++ [Typeset nm R a]) by auto. rewrite at_last.
    unfold view_typeset. cbn [ts_typedefs ts_ast ts_name]. rewrite (place_id _ _ I).
    replace (typedefs (plus T1 D)) with (typedefs t ++ typedefs q ++ []) by (unfold T1; cbn; rewrite !app_nil_r; auto).
    replace R with (List.length (typedefs t), List.length (typedefs t) + List.length (typedefs q)) by (unfold R, T1; cbn; rewrite app_length; auto).
    rewrite read_added. unfold kids_of_kind.
    rewrite (all_mono _ _ _ (view_typedef root (plus T1 D)) _ _ (typedef_mono T1 D) V). reflexivity.
  - intros e u u' _. unfold lower_typeset_member. destruct (type_in "returnType" e) as [ty|] eqn:Ty.
    + destruct (lower_parameters root u e) as [[u1 rg]|] eqn:P; [|discriminate].
      destruct (idof e) as [b|] eqn:Ie; [|discriminate]. intros H. injection H as <-.
      apply parameters_written in P. destruct P as (ps & -> & R).
      set (T1 := plus u (d_params ps)) in *.
      exists (plus (d_params ps) (ITree [] [] [] [] [] [] [] [] [] [] [Typedef None rg ty b] [] [] [] [])).
      split; [unfold T1; tree_eq|]. split; [auto|].
      replace (alloc_typedef _ _) with (plus T1 (ITree [] [] [] [] [] [] [] [] [] [] [Typedef None rg ty b] [] [] [] [])) by tree_eq.
      cbn [plus typedefs d_params app]. eapply typedef_view; eauto. 
    + intros H. injection H as <-. exists empty_tree. rewrite plus_nil. repeat split; auto.
      unfold written_typedef. rewrite <- type_written, Ty. reflexivity.
Qed.

Lemma functag_view_ : forall T r a nm e, read_params root T r = Some (written_params e) -> idof e = Some a ->
  view_functag root T (Functag nm r (type_in "returnType" e) a) = Some (written_functag nm e).
Proof.
  intros T r a nm e R I. unfold view_functag, written_functag. cbn [ft_params ft_ast ft_name ft_type].
  rewrite R, (place_id _ _ I), type_written. reflexivity.
Qed.
Lemma adds_functag : forall t n t', lower_functag root t n = Some t' ->
  adds t t' (map VFunctag (named n (fun nm => written_functag (Some nm) n))).
Proof.
  intros t n t'. unfold lower_functag, named. destruct (name_of n) as [nm|]; [|intros H; injection H as <-; apply adds_none].
  destruct (lower_parameters root t n) as [[t1 rg]|] eqn:P; [|discriminate].
  destruct (idof n) as [a|] eqn:I; [|discriminate]. intros H. injection H as <-.
  apply parameters_written in P. destruct P as (ps & -> & R).
  set (T1 := plus t (d_params ps)) in *. set (G := Functag _ _ _ _).
  replace (push _ _) with (plus T1 (ITree [FFunctag (List.length (functags T1))] [] [] [] [] [] [] [] [] [] [] [] [G] [] [])) by tree_eq.
  set (D := ITree _ _ _ _ _ _ _ _ _ _ _ _ _ _ _).
  apply adds_item with (x := FFunctag (List.length (functags T1))); auto. fold T1.
  apply all_one. cbn [view_item]. replace (functags (plus T1 D)) with (functags T1 ++ [G]) by auto. rewrite at_last.
  unfold G. rewrite (functag_view_ _ _ _ _ n); auto.
Qed.
Lemma adds_funcenum : forall t n t', lower_funcenum root t n = Some t' ->
  adds t t' (named n (fun nm => VFuncenum nm (map (written_functag None) (kids_of_kind k_funcenum_member n)) (place_of n))).
Proof.
  intros t n t'. unfold lower_funcenum, named. destruct (name_of n) as [nm|]; [|intros H; injection H as <-; apply adds_none].
  destruct (each (lower_funcenum_member root) (filter (has_kind k_funcenum_member) (children n)) t) as [t1|] eqn:E; [|discriminate].
  destruct (idof n) as [a|] eqn:I; [|discriminate]. intros H. injection H as <-.
  apply (run _ _ _ functags (view_functag root) _ (fun e => [written_functag None e])) in E; auto using functag_mono.
  - destruct E as (q & -> & Q & V).
    set (T1 := plus t q) in *. set (R := (List.length (functags t), _)).
    replace (push _ _) with (plus T1 (ITree [FFuncenum (List.length (funcenums T1))] [] [] [] [] [] [] [] [] [] [] [] [] [Funcenum nm R a] [])) by tree_eq.
    set (D := ITree _ _ _ _ _ _ _ _ _ _ _ _ _ _ _).
    apply adds_item with (x := FFuncenum (List.length (funcenums T1))); auto. fold T1.
    apply all_one. cbn [view_item]. replace (funcenums (plus T1 D)) with (funcenums T1 ++ [Funcenum nm R a]) by auto. rewrite at_last.
    unfold view_funcenum. cbn [fe_functags fe_ast fe_name]. rewrite (place_id _ _ I).
    replace (functags (plus T1 D)) with (functags t ++ functags q ++ []) by (unfold T1; cbn; rewrite !app_nil_r; auto).
    replace R with (List.length (functags t), List.length (functags t) + List.length (functags q)) by (unfold R, T1; cbn; rewrite app_length; auto).
    rewrite read_added. unfold kids_of_kind.
    rewrite (all_mono _ _ _ (view_functag root (plus T1 D)) _ _ (functag_mono T1 D) V).
    reflexivity.
  - intros e u u' _. unfold lower_funcenum_member.
    destruct (lower_parameters root u e) as [[u1 rg]|] eqn:P; [|discriminate].
    destruct (idof e) as [b|] eqn:Ie; [|discriminate]. intros H. injection H as <-.
    apply parameters_written in P. destruct P as (ps & -> & R).
    set (T1 := plus u (d_params ps)) in *. set (G := Functag _ _ _ _).
    exists (plus (d_params ps) (ITree [] [] [] [] [] [] [] [] [] [] [] [] [G] [] [])).
    split; [unfold T1; tree_eq|]. split; [auto|].
    replace (alloc_functag _ _) with (plus T1 (ITree [] [] [] [] [] [] [] [] [] [] [] [] [G] [] [])) by tree_eq.
    cbn [plus functags d_params app]. apply all_one. apply functag_view_; auto.
Qed.

(** Members that also make a list of where they are. *)
Lemma run_items : forall A B C (V : itree -> B -> option C) (f : itree * list B -> A -> option (itree * list B)) (w : A -> list C) l,
  (forall t d b c, V t b = Some c -> V (plus t d) b = Some c) ->
  (forall a t i s', In a l -> f (t, i) a = Some s' ->
     exists d new, s' = (plus t d, i ++ new) /\ top d = [] /\ all (V (plus t d)) new = Some (w a)) ->
  forall t i s', each f l (t, i) = Some s' ->
     exists d new, s' = (plus t d, i ++ new) /\ top d = [] /\ all (V (plus t d)) new = Some (flat_map w l).
Proof.
  intros A B C V f w l M. induction l as [|a r IH]; intros S t i s' H; cbn [each flat_map] in *.
  - injection H as <-. exists empty_tree, []. rewrite plus_nil, app_nil_r. auto.
  - destruct (f (t, i) a) as [s1|] eqn:E; [|discriminate].
    destruct (S a t i s1 (or_introl eq_refl) E) as (d & new & -> & D & Vd).
    destruct (IH (fun b u j u' I => S b u j u' (or_intror I)) _ _ _ H) as (e & new' & -> & De & Ve).
    exists (plus d e), (new ++ new'). rewrite plus_assoc, app_assoc in *. split; auto.
    split; [cbn [plus top]; rewrite D, De; auto|]. apply all_app; auto.
    eapply all_mono; [|exact Vd]. intros b c Hb. rewrite <- plus_assoc. apply M. auto.
Qed.

Lemma at_fn_new : forall t ps f fv, (forall d, view_function root (plus (plus t (d_fns ps [f])) d) f = Some fv) ->
  at_index (functions (plus t (d_fns ps [f]))) (view_function root (plus t (d_fns ps [f]))) (List.length (functions t)) = Some fv.
Proof.
  intros t ps f fv V. cbn [plus functions d_fns]. rewrite at_last.
  specialize (V empty_tree). rewrite plus_nil in V. exact V.
Qed.

Lemma es_child : forall e t i s', lower_enum_struct_child root (t, i) e = Some s' ->
  exists d new, s' = (plus t d, i ++ new) /\ top d = [] /\ all (view_es_item root (plus t d)) new = Some (written_es_item e).
Proof.
  intros e t i s'. unfold lower_enum_struct_child, written_es_item.
  assert (N : exists d new, (t, i) = (plus t d, i ++ new) /\ top d = [] /\ all (view_es_item root (plus t d)) new = Some [])
    by (exists empty_tree, []; rewrite plus_nil, app_nil_r; auto).
  destruct (has_kind k_enum_struct_field e).
  - rewrite type_written. unfold named. destruct (name_of e) as [nm|]; destruct (written_type "type" e) as [ty|]; cbn [opt flat_map app];
      try (intros H; injection H as <-; exact N).
    destruct (idof e) as [a|] eqn:I; [|discriminate]. intros H. injection H as <-.
    exists (ITree [] [] [] [] [] [Field nm ty a] [] [] [] [] [] [] [] [] []), [ESField (List.length (fields t))].
    split; [f_equal; tree_eq|]. split; auto.
    apply all_one. cbn [view_es_item plus fields]. rewrite at_last. cbn [fld_ast fld_name fld_type]. rewrite (place_id _ _ I). auto.
  - destruct (has_kind k_enum_struct_method e); [|intros H; injection H as <-; exact N].
    destruct (lower_function_ root t e None None None) as [[t1 id]|] eqn:F; [|discriminate].
    apply function_written in F. destruct F as (ps & ffs & -> & F).
    destruct (visibility_written e) as (W1 & W2 & W3). cbv zeta beta in F. rewrite W1, W2, W3 in F. clear W1 W2 W3.
    fold (plain_function e) in F. destruct id as [j|]; intros H; injection H as <-.
    + destruct F as (-> & f & fv & -> & -> & V). exists (d_fns ps [f]), [ESMethod (List.length (functions t))].
      split; auto. split; auto. apply all_one. cbn [view_es_item]. rewrite (at_fn_new _ _ _ _ V). auto.
    + destruct F as (-> & ->). exists (d_fns ps []), []. rewrite app_nil_r. auto.
Qed.
Lemma adds_enum_struct : forall t n t', lower_enum_struct root t n = Some t' ->
  adds t t' (named n (fun nm => VEnumStruct nm (flat_map written_es_item (children n)) (place_of n))).
Proof.
  intros t n t'. unfold lower_enum_struct, named. destruct (name_of n) as [nm|]; [|intros H; injection H as <-; apply adds_none].
  destruct (each (lower_enum_struct_child root) (children n) (t, [])) as [[t1 items]|] eqn:E; [|discriminate].
  destruct (idof n) as [a|] eqn:I; [|discriminate]. intros H. injection H as <-.
  apply (run_items _ _ _ (view_es_item root) _ written_es_item) in E; auto using es_mono, es_child.
  destruct E as (q & new & E & Q & V). injection E as -> ->. cbn [app] in *.
  set (T1 := plus t q) in *. set (G := EnumStruct _ _ _).
  replace (push _ _) with (plus T1 (ITree [FEnumStruct (List.length (enum_structs T1))] [] [] [] [G] [] [] [] [] [] [] [] [] [] [])) by tree_eq.
  set (D := ITree _ _ _ _ _ _ _ _ _ _ _ _ _ _ _).
  apply adds_item with (x := FEnumStruct (List.length (enum_structs T1))); auto. fold T1.
  apply all_one. cbn [view_item]. replace (enum_structs (plus T1 D)) with (enum_structs T1 ++ [G]) by auto. rewrite at_last.
  unfold view_enum_struct. cbn [G es_items es_ast es_name].
  rewrite (all_mono _ _ _ (view_es_item root (plus T1 D)) _ _ (es_mono T1 D) V), (place_id _ _ I). reflexivity.
Qed.

(** * Methodmaps *)
Lemma accessor_written : forall e1 ty kind e2 t t', lower_property_method root e1 ty kind t e2 = Some t' ->
  exists d, t' = plus t d /\ top d = [] /\ all (view_function root t') (functions d) = Some (written_accessor ty kind e1 e2).
Proof.
  intros e1 ty kind e2 t t'. unfold lower_property_method, written_accessor.
  assert (N : exists d, t = plus t d /\ top d = [] /\ all (view_function root t) (functions d) = Some [])
    by (exists empty_tree; rewrite plus_nil; auto).
  destruct (has_kind k_methodmap_property_getter e2).
  - destruct (idof e1) as [a|] eqn:I; [|discriminate]. intros H. injection H as <-.
    eexists (d_fns [] [_]). split; [tree_eq|]. split; auto.
    cbn [functions d_fns]. apply all_one. unfold view_function. cbn [fn_params fn_ast fn_name fn_knd fn_vis fn_special fn_ret].
    rewrite read_params_none, (place_id _ _ I). reflexivity.
  - destruct (has_kind k_methodmap_property_setter e2); [|intros H; injection H as <-; exact N].
    destruct (child_by_field_name "parameter" e2) as [p|]; [|intros H; injection H as <-; exact N].
    destruct (idof p) as [pa|] eqn:Ip; [|discriminate].
    destruct (idof e1) as [a|] eqn:I; [|discriminate]. intros H. injection H as <-.
    eexists (d_fns [_] [_]). split; [tree_eq|]. split; auto.
    cbn [functions d_fns opt map]. apply all_one. unfold view_function. cbn [fn_params fn_ast fn_name fn_knd fn_vis fn_special fn_ret].
    match goal with |- context [read_params root ?T ?r] => assert (Q : read_params root T r =
       Some [ParamView (written_type "type" p) false false (has_field "storage_class" p) (place_of p)]) end.
    { unfold read_params. cbn [alloc_function alloc_param params]. rewrite app_length. cbn [List.length].
      pose proof (read_added _ _ (view_param root) [Param false false (has_field "storage_class" p) (type_in "type" p) pa] (params t) []) as RA.
      cbn [app List.length] in RA. rewrite RA. apply all_one. unfold view_param. cbn [par_ast par_type par_default par_rest par_const].
      rewrite (place_id _ _ Ip), type_written. reflexivity. }
    rewrite Q, (place_id _ _ I). reflexivity.
Qed.
Lemma accessors_written : forall ty e1 t t', lower_accessors root ty t e1 = Some t' ->
  exists d, t' = plus t d /\ top d = [] /\ all (view_function root t') (functions d) = Some (written_accessors ty e1).
Proof.
  intros ty e1 t t'. unfold lower_accessors, written_accessors.
  destruct (has_kind k_methodmap_property_method e1); [|destruct (has_kind k_methodmap_property_native e1)].
  - apply (run _ _ _ functions (view_function root)); auto using function_mono. intros; apply accessor_written; auto.
  - apply (run _ _ _ functions (view_function root)); auto using function_mono. intros; apply accessor_written; auto.
  - intros H. injection H as <-. exists empty_tree. rewrite plus_nil. auto.
Qed.
Lemma mm_none : forall t i, exists d new, (t, i) = (plus t d, i ++ new) /\ top d = [] /\ all (view_mm_item root (plus t d)) new = Some [].
Proof. intros. exists empty_tree, []. rewrite plus_nil, app_nil_r. auto. Qed.
Lemma property_written : forall e t i s', lower_property root (t, i) e = Some s' ->
  exists d new, s' = (plus t d, i ++ new) /\ top d = [] /\ all (view_mm_item root (plus t d)) new = Some (written_property e).
Proof.
  intros e t i s'. unfold lower_property, written_property, named. rewrite type_written.
  destruct (name_of e) as [nm|]; destruct (written_type "type" e) as [ty|]; cbn [opt flat_map app];
    try (intros H; injection H as <-; apply mm_none).
  destruct (each (lower_accessors root ty) (children e) t) as [t1|] eqn:E; [|discriminate].
  destruct (idof e) as [a|] eqn:I; [|discriminate]. intros H. injection H as <-.
  apply (run _ _ _ functions (view_function root) _ (written_accessors ty)) in E; auto using function_mono.
  2:{ intros; apply accessors_written; auto. }
  destruct E as (q & -> & Q & V). set (T1 := plus t q) in *. set (R := (List.length (functions t), _)).
  exists (plus q (ITree [] [] [] [] [] [] [] [Property nm R ty a] [] [] [] [] [] [] [])), [MMProperty (List.length (properties T1))].
  set (D := ITree _ _ _ _ _ _ _ _ _ _ _ _ _ _ _).
  rewrite <- plus_assoc. fold T1. split; [f_equal; unfold D; tree_eq|]. split; [cbn; rewrite Q; auto|].
  apply all_one. cbn [view_mm_item]. replace (properties (plus T1 D)) with (properties T1 ++ [Property nm R ty a]) by auto. rewrite at_last.
  unfold view_property. cbn [pr_accessors pr_ast pr_name pr_type]. rewrite (place_id _ _ I).
  replace (functions (plus T1 D)) with (functions t ++ functions q ++ []) by (unfold T1; cbn; rewrite !app_nil_r; auto).
  replace R with (List.length (functions t), List.length (functions t) + List.length (functions q)) by (unfold R, T1; cbn; rewrite app_length; auto).
  rewrite read_added.
  rewrite (all_mono _ _ _ (view_function root (plus T1 D)) _ _ (function_mono T1 D) V). reflexivity.
Qed.
Lemma method_written : forall (native : bool) sp e t i s',
  lower_methodmap_method root (if native then Some Native else None) sp (t, i) e = Some s' ->
  exists d new, s' = (plus t d, i ++ new) /\ top d = [] /\ all (view_mm_item root (plus t d)) new = Some (written_method native sp e).
Proof.
  intros native sp e t i s'. unfold lower_methodmap_method.
  set (vis := if existsb _ _ then _ else _).
  destruct (lower_function_ root t e (Some vis) _ sp) as [[t1 id]|] eqn:F; [|discriminate].
  apply function_written in F. destruct F as (ps & ffs & -> & F). cbv zeta beta in F.
  assert (W : bit vis v_public = true /\ bit vis v_stock = false /\ bit vis v_static = existsb (has_kind k_anon_static) (children e)).
  { unfold vis. destruct (existsb _ _); auto. }
  destruct W as (W1 & W2 & W3). rewrite W1, W2, W3 in F.
  replace (match (if native then Some Native else None) with Some k => k | None => written_kind e end)
    with (if native then Native else written_kind e) in F by (destruct native; auto).
  unfold written_method.
  destruct id as [j|]; intros H; injection H as <-.
  - destruct F as (-> & f & fv & -> & -> & V). exists (d_fns ps [f]), [MMMethod (List.length (functions t))].
    split; auto. split; auto. apply all_one. cbn [view_mm_item]. rewrite (at_fn_new _ _ _ _ V). auto.
  - destruct F as (-> & ->). exists (d_fns ps []), []. rewrite app_nil_r. auto.
Qed.
Lemma mm_child : forall e t i s', lower_methodmap_child root (t, i) e = Some s' ->
  exists d new, s' = (plus t d, i ++ new) /\ top d = [] /\ all (view_mm_item root (plus t d)) new = Some (written_mm_item e).
Proof.
  intros e t i s'. unfold lower_methodmap_child, written_mm_item, method_kinds. cbn [flat_map].
  unfold has_kind. rewrite app_nil_r.
  Ltac here K := apply Nat.eqb_eq in K; rewrite ?K; cbn -[lower_methodmap_method written_method lower_property written_property];
    rewrite ?app_nil_r.
  destruct (s_kind e =? k_methodmap_property) eqn:K1; [here K1; apply property_written|].
  destruct (s_kind e =? k_methodmap_method) eqn:K2; [here K2; apply (method_written false None)|].
  destruct (s_kind e =? k_methodmap_method_constructor) eqn:K3; [here K3; apply (method_written false (Some Constructor))|].
  destruct (s_kind e =? k_methodmap_method_destructor) eqn:K4; [here K4; apply (method_written false (Some Destructor))|].
  destruct (s_kind e =? k_methodmap_native) eqn:K5; [here K5; apply (method_written true None)|].
  destruct (s_kind e =? k_methodmap_native_constructor) eqn:K6; [here K6; apply (method_written true (Some Constructor))|].
  destruct (s_kind e =? k_methodmap_native_destructor) eqn:K7; [here K7; apply (method_written true (Some Destructor))|].
  cbn [app]. intros H. injection H as <-. apply mm_none.
Qed.
Lemma adds_methodmap : forall t n t', lower_methodmap root t n = Some t' ->
  adds t t' (named n (fun nm => VMethodmap nm (option_map s_text (child_by_field_name "inherits" n))
                         (flat_map written_mm_item (children n)) (place_of n))).
Proof.
  intros t n t'. unfold lower_methodmap, named. destruct (name_of n) as [nm|]; [|intros H; injection H as <-; apply adds_none].
  destruct (each (lower_methodmap_child root) (children n) (t, [])) as [[t1 items]|] eqn:E; [|discriminate].
  destruct (idof n) as [a|] eqn:I; [|discriminate]. intros H. injection H as <-.
  apply (run_items _ _ _ (view_mm_item root) _ written_mm_item) in E; auto using mm_mono, mm_child.
  destruct E as (q & new & E & Q & V). injection E as -> ->. cbn [app] in *.
  set (T1 := plus t q) in *. set (G := Methodmap _ _ _ _).
  replace (push _ _) with (plus T1 (ITree [FMethodmap (List.length (methodmaps T1))] [] [] [] [] [] [G] [] [] [] [] [] [] [] [])) by tree_eq.
  set (D := ITree _ _ _ _ _ _ _ _ _ _ _ _ _ _ _).
  apply adds_item with (x := FMethodmap (List.length (methodmaps T1))); auto. fold T1.
  apply all_one. cbn [view_item]. replace (methodmaps (plus T1 D)) with (methodmaps T1 ++ [G]) by auto. rewrite at_last.
  unfold view_methodmap. cbn [G mm_items mm_ast mm_name mm_inherits].
  rewrite (all_mono _ _ _ (view_mm_item root (plus T1 D)) _ _ (mm_mono T1 D) V), (place_id _ _ I). reflexivity.
Qed.

(** * The file *)
Lemma adds_child : forall t n t', lower_child root t n = Some t' -> adds t t' (written_item root n).
Proof.
  intros t n t'. unfold lower_child, written_item.
  destruct (s_kind n =? k_function_definition) eqn:K1; [apply adds_function|].
  destruct (s_kind n =? k_function_declaration) eqn:K2; [apply adds_function|]. cbn [orb].
  destruct (s_kind n =? k_enum) eqn:K3.
  { apply Nat.eqb_eq in K3. rewrite K3. apply adds_enum. }
  destruct (s_kind n =? k_global_variable_declaration); [apply adds_variables|].
  destruct (s_kind n =? k_old_global_variable_declaration); [apply adds_old_variables|].
  destruct (s_kind n =? k_enum_struct); [apply adds_enum_struct|].
  destruct (s_kind n =? k_methodmap); [apply adds_methodmap|].
  destruct (s_kind n =? k_typedef); [apply adds_typedef|].
  destruct (s_kind n =? k_typeset); [apply adds_typeset|].
  destruct (s_kind n =? k_functag); [apply adds_functag|].
  destruct (s_kind n =? k_funcenum); [apply adds_funcenum|].
  intros H. injection H as <-. apply adds_none.
Qed.
Lemma adds_macro : forall n t t', lower_macro root t n = Some t' -> adds t t' (named n (fun nm => VMacro nm (place_of n))).
Proof.
  intros n t t'. unfold lower_macro, named. destruct (name_of n) as [nm|]; [|intros H; injection H as <-; apply adds_none].
  destruct (idof n) as [a|] eqn:I; [|discriminate]. intros H. injection H as <-.
  eexists (ITree [FMacro (List.length (macros t))] [] [] [_] [] [] [] [] [] [] [] [] [] [] []). split; [tree_eq|].
  cbn [top]. apply all_one. cbn [view_item push macros alloc_macro]. rewrite at_last. cbn [mac_ast mac_name].
  rewrite (place_id _ _ I). auto.
Qed.
Lemma lower_written : forall t, lower root = Some t -> all (view_item root t) (top t) = Some (outline root).
Proof.
  intros t. unfold lower. destruct (each (lower_child root) (children root) empty_tree) as [t1|] eqn:E; [|discriminate].
  intros M. apply (adds_each _ _ (written_item root)) in E; [|intros; apply adds_child; auto].
  apply (adds_each _ _ (fun n => named n (fun nm => VMacro nm (place_of n)))) in M; [|intros; apply adds_macro; auto].
  destruct (adds_trans _ _ _ _ _ E M) as (d & -> & V). replace (plus empty_tree d) with d in *.
  - exact V.
  - destruct d. reflexivity.
Qed.
End root.
