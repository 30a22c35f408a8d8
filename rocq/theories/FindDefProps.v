(** C50: the name in a declaration leads to the declaration, and a parameter or local to its function.
    C51: a name in a body is looked up in the function around it. *)
From Coq Require Import List String Bool Arith Lia.
From Verif Require Import AstIdModel AstIdSpec AstIdProps TypeRefModel ItemTreeModel ItemTreeSpec ItemTreeProofs ItemTreeProps FindDefModel FindDefSpec FindDefProofs.
Import ListNotations.
Local Open Scope string_scope.
Local Open Scope nat_scope.
Local Open Scope list_scope.

(** The definitions of a file under a name are its items with that name, in order; the macro with a number is the
    macro definition with that number. *)
Theorem C50_def_map : forall t m, file_def_map t = Some m ->
  (forall nm, get nm (dm_values m) = match filter (named_item t nm) (top t) with [] => None | l => Some l end) /\
  (forall nm, get_first m nm = hd_error (filter (named_item t nm) (top t))) /\
  (forall i, get_macro m i = nth_error (filter is_fmacro (top t)) i).
Proof.
  intros t m H. destruct (def_map_values t m H) as (V & M & _). split; [intros nm; rewrite V; destruct (filter (named_item t nm) (top t)); auto|]. split; [apply get_first_named; auto|].
  intros i. unfold get_macro. rewrite M. auto.
Qed.
Print Assumptions C50_def_map.

Lemma def_map_some : forall root t, lower root = Some t -> exists m, file_def_map t = Some m.
Proof.
  intros root t L. destruct (file_def_map t) as [m|] eqn:E; [eauto|]. exfalso. revert E. apply each_ok.
  intros m x I. destruct (top_view root t L x I) as (v & _ & V). destruct (view_facts _ _ _ _ V) as (N & _).
  unfold declare_item. rewrite N. discriminate.
Qed.

Lemma reach_up : forall n up s, reach n up s -> s = Spot n up \/
  exists a i r f, sp_up s = (a, i) :: r /\ nth_error (s_kids a) i = Some (f, sp_node s) /\ reach n up (Spot a r).
Proof.
  induction 1 as [n up|n up i f c s I R IH]; [auto|]. right. destruct IH as [->|(a & j & r & g & E & N & R')].
  - exists n, i, up, f. cbn. repeat split; auto. constructor.
  - exists a, j, r, g. repeat split; auto. eapply reach_kid; eauto.
Qed.
Lemma spot_up : forall root s a i r, spot_in root s -> sp_up s = (a, i) :: r ->
  spot_in root (Spot a r) /\ exists f, nth_error (s_kids a) i = Some (f, sp_node s).
Proof.
  intros root s a i r R E. destruct (reach_up _ _ _ R) as [->|(b & j & q & f & E' & N & R')]; [discriminate|].
  rewrite E in E'. injection E' as <- <- <-. eauto.
Qed.
Lemma field_index_child : forall f l k i, field_index f k l = Some i -> k <= i /\
  forall g c, nth_error l (i - k) = Some (g, c) -> hd_error (map snd (filter (fun x => String.eqb (fst x) f) l)) = Some c.
Proof.
  induction l as [|[g d] r IH]; intros k i H; cbn [field_index] in H; [discriminate|].
  cbn [filter fst]. destruct (String.eqb g f).
  - injection H as <-. split; auto. rewrite Nat.sub_diag. cbn. congruence.
  - apply IH in H. destruct H as (L & N). split; [lia|]. intros g' c. replace (i - k) with (S (i - S k)) by lia. cbn [nth_error]. apply N.
Qed.
Lemma name_node : forall root s, spot_in root s -> is_name_node s = true ->
  exists a i r, sp_up s = (a, i) :: r /\ spot_in root (Spot a r) /\ name_of a = Some (s_text (sp_node s)).
Proof.
  intros root s R N. unfold is_name_node in N. destruct (sp_up s) as [|[a i] r] eqn:E; [discriminate|].
  destruct (field_index "name" 0 (s_kids a)) as [j|] eqn:F; [|discriminate]. apply Nat.eqb_eq in N. subst j.
  destruct (spot_up _ _ _ _ _ R E) as (R' & f & Nth). exists a, i, r. repeat split; auto.
  apply field_index_child in F. destruct F as (_ & F). rewrite Nat.sub_0_r in F. apply F in Nth.
  unfold name_of, child_by_field_name, children_by_field_name. rewrite Nth. auto.
Qed.

(** For every declaration of a file, whatever its sort: the name in it leads to the item of the file that stands for
    this declaration, and to nothing else. *)
Theorem C50_own_name : forall root t m es_table mm_table node_ptr_expr fuel s p v,
  proper (plain root) -> lower root = Some t -> file_def_map t = Some m ->
  spot_in root s -> is_name_node s = true -> parent s = Some p ->
  alone root (sp_node p) -> at_file_level root p -> global_if_variable p ->
  In v (outline root) -> view_at v = place_of (sp_node p) ->
  exists x, find_name_def root t m es_table mm_table node_ptr_expr (S fuel) s = Val (RDef (Top x)) /\
            key_of x = view_key v /\ is_declaration root t x (sp_node p) (s_text (sp_node s)).
Proof.
  intros root t m es mm npe fuel s p v P L M R N Pa A F G Iv Pv.
  destruct (name_node _ _ R N) as (a & i & r & E & R' & Nm). unfold parent in Pa. rewrite E in Pa. injection Pa as <-.
  cbn [sp_node] in *.
  destruct (declared root t m L M es mm P fuel (Spot a r) v R' A F Iv Pv) as (x & v' & T & K & Ix & Iv' & Vx & Pv' & Nv).
  exists x. split; [|split; [auto|split; [auto|exists v'; auto]]].
  destruct (outline_from _ _ Iv) as (d & Ud & Pd & Kd & _). assert (d = a) as -> by (apply (proj2 A); auto; congruence).
  unfold find_name_def. rewrite N. cbn [negb]. unfold parent at 1. rewrite E. cbn [ask bind sp_node].
  cbn [sp_node] in T. 
  destruct v; cbn [view_key kinds_of_key] in *; cbn [In] in Kd;
    repeat (destruct Kd as [Kd|Kd]; [|try contradiction]); try contradiction;
    rewrite <- Kd; cbn -[FindDefModel.to_def pointer]; rewrite <- ?Kd; cbn -[FindDefModel.to_def pointer]; try (rewrite T; reflexivity).
  all: unfold global_if_variable in G; cbn [sp_node] in G; rewrite <- Kd in G;
    destruct (G ltac:(cbn; auto)) as (b & j & q & Eq & Kb); cbn in Eq; subst r; cbn -[FindDefModel.to_def pointer];
    cbn in Kb; destruct Kb as [Kb|[Kb|[]]]; rewrite <- ?Kb; cbn -[FindDefModel.to_def pointer]; rewrite T; reflexivity.
Qed.
Print Assumptions C50_own_name.

(** * The function something belongs to *)
Lemma nearest_some : forall kinds ups c, nearest kinds ups = Some c ->
  exists pre i, ups = pre ++ (sp_node c, i) :: sp_up c /\ (forall a j, In (a, j) pre -> ~ In (s_kind a) kinds) /\ In (s_kind (sp_node c)) kinds.
Proof.
  induction ups as [|[a j] r IH]; intros c H; cbn [nearest] in H; [discriminate|].
  destruct (existsb (Nat.eqb (s_kind a)) kinds) eqn:E.
  - injection H as <-. exists [], j. cbn. repeat split; auto. apply existsb_exists in E. destruct E as (k & I & Q). apply Nat.eqb_eq in Q. congruence.
  - destruct (IH c H) as (pre & i & -> & N & I). exists ((a, j) :: pre), i. cbn. repeat split; auto.
    intros b l [X|X]; [injection X as <- <-; intros Q|eapply N; eauto].
    assert (existsb (Nat.eqb (s_kind a)) kinds = true) by (apply existsb_exists; exists (s_kind a); split; auto; apply Nat.eqb_refl). congruence.
Qed.
Lemma reach_app : forall root pre n s, spot_in root s -> forall a i r, sp_up s = pre ++ (a, i) :: r -> n = Spot a r -> spot_in root n.
Proof.
  intros root. induction pre as [|[b j] q IH]; intros n s R a i r E ->; cbn [app] in E.
  - apply (spot_up _ _ _ _ _ R E).
  - destruct (spot_up _ _ _ _ _ R E) as (R' & _). eapply IH; [exact R'|reflexivity|reflexivity].
Qed.
Lemma nearest_in : forall root s c kinds, spot_in root s -> nearest kinds (sp_up s) = Some c -> spot_in root c.
Proof.
  intros root s c kinds R N. apply nearest_some in N. destruct N as (pre & i & E & _). eapply reach_app; eauto. destruct c; auto.
Qed.

Section owners.
Variable root : syn.
Variable t : itree.
Variable m : def_map.
Hypothesis Proper : proper (plain root).
Hypothesis Low : lower root = Some t.
Hypothesis Map : file_def_map t = Some m.
Variable es_table mm_table : def -> key -> ptr -> res def.
Variable node_ptr_expr : def -> ptr -> option nat.
Notation look_up := (look_up root t m es_table mm_table).
Notation find_container := (find_container root t m es_table mm_table).
Notation to_def := (to_def root t m es_table mm_table).

Lemma container_walk : forall fuel s c, spot_in root s -> alone root (sp_node s) -> nearest (source_file :: owners) (sp_up s) = Some c ->
  exists i, find_container (S fuel) (pointer (sp_node s)) = walk (to_def fuel) ((sp_node c, i) :: sp_up c).
Proof.
  intros fuel s c R A N. apply nearest_some in N. destruct N as (pre & i & E & P & _). exists i.
  cbn [FindDefModel.find_container]. rewrite (locate_spot root s); auto. cbn [must bind]. rewrite E, walk_pass; auto.
Qed.

Lemma function_owner : forall fuel s c v nm,
  spot_in root s -> alone root (sp_node s) -> nearest (source_file :: owners) (sp_up s) = Some c ->
  In (s_kind (sp_node c)) [k_function_definition; k_function_declaration; k_functag; k_typedef] ->
  alone root (sp_node c) -> at_file_level root c -> name_of (sp_node c) = Some nm ->
  In v (outline root) -> view_at v = place_of (sp_node c) ->
  exists x, find_container (S (S fuel)) (pointer (sp_node s)) = Val (CBody (Top x)) /\ key_of x = view_key v /\ is_declaration root t x (sp_node c) nm.
Proof.
  intros fuel s c v nm R A N K Ac F Nm Iv Pv.
  destruct (container_walk (S fuel) s c R A N) as (i & ->).
  destruct (declared root t m Low Map es_table mm_table Proper fuel c v (nearest_in _ _ _ _ R N) Ac F Iv Pv)
    as (x & v' & T & Kx & Ix & Iv' & Vx & Pv' & Nv).
  exists x. split; [|split; [auto|split; [auto|exists v'; auto]]].
  destruct (outline_from _ _ Iv) as (d & Ud & Pd & Kd & _). assert (d = sp_node c) as -> by (apply (proj2 Ac); auto; congruence).
  cbn [walk]. cbn [In] in K.
  destruct v; cbn [view_key kinds_of_key] in *; cbn [In] in Kd;
  repeat (destruct Kd as [Kd|Kd]; [|try contradiction]); try contradiction;
  repeat (destruct K as [K|K]; [|try contradiction]); try contradiction; rewrite <- K in Kd; try discriminate Kd;
  rewrite <- K; cbn -[FindDefModel.to_def pointer]; rewrite T; reflexivity.
Qed.

(** A typedef: the function type inside it. *)
Lemma typedef_owner : forall fuel s e c v nm,
  spot_in root s -> alone root (sp_node s) -> nearest (source_file :: owners) (sp_up s) = Some e ->
  s_kind (sp_node e) = k_typedef_expression -> parent e = Some c -> s_kind (sp_node c) = k_typedef ->
  alone root (sp_node c) -> at_file_level root c -> name_of (sp_node c) = Some nm ->
  In v (outline root) -> view_at v = place_of (sp_node c) ->
  exists x, find_container (S (S fuel)) (pointer (sp_node s)) = Val (CBody (Top x)) /\ key_of x = view_key v /\ is_declaration root t x (sp_node c) nm.
Proof.
  intros fuel s e c v nm R A N Ke Pe Kc Ac F Nm Iv Pv.
  destruct (container_walk (S fuel) s e R A N) as (i & ->).
  unfold parent in Pe. destruct (sp_up e) as [|[c0 j] r] eqn:Ue; [discriminate|]. injection Pe as <-. cbn [sp_node] in *.
  destruct (spot_up _ _ _ _ _ (nearest_in _ _ _ _ R N) Ue) as (Rc & _).
  destruct (declared root t m Low Map es_table mm_table Proper fuel (Spot c0 r) v Rc Ac F Iv Pv)
    as (x & v' & T & Kx & Ix & Iv' & Vx & Pv' & Nv). cbn [sp_node] in *.
  exists x. split; [|split; [auto|split; [auto|exists v'; auto]]].
  destruct (outline_from _ _ Iv) as (d & Ud & Pd & Kd & _). assert (d = c0) as -> by (apply (proj2 Ac); auto; congruence).
  cbn [walk]. rewrite Ke, Kc in *. cbn -[FindDefModel.to_def pointer].
  destruct v; cbn [view_key kinds_of_key In] in *; repeat (destruct Kd as [Kd|Kd]; [|try contradiction]); try contradiction; try discriminate Kd.
  rewrite T. reflexivity.
Qed.

(** The members of a typeset and of a funcenum. *)
Lemma typeset_from : forall nm ds p, In (VTypeset nm ds p) (outline root) -> exists n, In n (children root) /\ p = place_of n /\
  s_kind n = k_typeset /\ ds = flat_map (fun e => written_typedef None e e) (kids_of_kind k_typedef_expression n) /\ name_of n = Some nm.
Proof.
  intros nm ds p I. unfold outline in I. apply in_app_or in I. destruct I as [I|I].
  - apply in_flat_map in I. destruct I as (n & In_ & I). exists n. split; auto. unfold written_item in I.
    destruct (s_kind n =? k_typeset) eqn:K.
    + apply Nat.eqb_eq in K. rewrite K in I. cbn -[written_typedef] in I. apply named_in in I. destruct I as (nm' & N & E). injection E as <- -> ->. auto.
    + exfalso. repeat match type of I with
      | In _ (if ?b then _ else _) => destruct b
      end; try discriminate;
      unfold written_variables, written_old_variables, written_variable, written_enum in I;
      repeat match type of I with
      | In _ (map _ _) => apply in_map_iff in I; destruct I as (? & I & ?); try discriminate I
      | In _ (flat_map _ _) => apply in_flat_map in I; destruct I as (? & ? & I)
      | In _ (named _ _) => apply named_in in I; destruct I as (? & ? & I); try discriminate I
      | In _ (_ ++ _) => apply in_app_or in I; destruct I as [I|I]
      | In _ [_] => destruct I as [I|[]]; try discriminate I
      | In _ [] => destruct I
      | In _ ?x => match goal with H : In x (named _ _) |- _ => apply named_in in H; destruct H as (? & ? & ->) end
      end.
  - unfold written_macros in I. apply in_flat_map in I. destruct I as (n & _ & I). apply named_in in I. destruct I as (? & ? & I). discriminate.
Qed.
Lemma funcenum_from : forall nm gs p, In (VFuncenum nm gs p) (outline root) -> exists n, In n (children root) /\ p = place_of n /\
  s_kind n = k_funcenum /\ gs = map (written_functag None) (kids_of_kind k_funcenum_member n) /\ name_of n = Some nm.
Proof.
  intros nm ds p I. unfold outline in I. apply in_app_or in I. destruct I as [I|I].
  - apply in_flat_map in I. destruct I as (n & In_ & I). exists n. split; auto. unfold written_item in I.
    destruct (s_kind n =? k_funcenum) eqn:K.
    + apply Nat.eqb_eq in K. rewrite K in I. cbn -[written_functag] in I. apply named_in in I. destruct I as (nm' & N & E). injection E as <- -> ->. auto.
    + exfalso. repeat match type of I with
      | In _ (if ?b then _ else _) => destruct b
      end; try discriminate;
      unfold written_variables, written_old_variables, written_variable, written_enum in I;
      repeat match type of I with
      | In _ (map _ _) => apply in_map_iff in I; destruct I as (? & I & ?); try discriminate I
      | In _ (flat_map _ _) => apply in_flat_map in I; destruct I as (? & ? & I)
      | In _ (named _ _) => apply named_in in I; destruct I as (? & ? & I); try discriminate I
      | In _ (_ ++ _) => apply in_app_or in I; destruct I as [I|I]
      | In _ [_] => destruct I as [I|[]]; try discriminate I
      | In _ [] => destruct I
      | In _ ?x => match goal with H : In x (named _ _) |- _ => apply named_in in H; destruct H as (? & ? & ->) end
      end.
  - unfold written_macros in I. apply in_flat_map in I. destruct I as (n & _ & I). apply named_in in I. destruct I as (? & ? & I). discriminate.
Qed.

Lemma container_step : forall fuel p, find_container (S fuel) p = try s := must (locate p root []) in walk (to_def fuel) (sp_up s).
Proof. reflexivity. Qed.
Lemma typeset_owner : forall fuel s e c nm ds d,
  spot_in root s -> alone root (sp_node s) -> nearest (source_file :: owners) (sp_up s) = Some e ->
  s_kind (sp_node e) = k_typedef_expression -> parent e = Some c -> s_kind (sp_node c) = k_typeset ->
  alone root (sp_node e) -> alone root (sp_node c) -> at_file_level root c ->
  In (VTypeset nm ds (place_of (sp_node c))) (outline root) -> In d ds -> tv_at d = place_of (sp_node e) ->
  exists i j, find_container (S (S (S fuel))) (pointer (sp_node s)) = Val (CBody (InTypeset i j)) /\
              is_typeset_member root t i j (sp_node c) (sp_node e).
Proof.
  intros fuel s e c nm ds d R A N Ke Pe Kc Ae Ac F Iv Id Pd.
  destruct (container_walk (S (S fuel)) s e R A N) as (i0 & ->).
  unfold parent in Pe. destruct (sp_up e) as [|[c0 j0] r] eqn:Ue; [discriminate|]. injection Pe as <-. cbn [sp_node] in *.
  pose proof (nearest_in _ _ _ _ R N) as Re.
  destruct (spot_up _ _ _ _ _ Re Ue) as (Rc & _).
  destruct (declared root t m Low Map es_table mm_table Proper fuel (Spot c0 r) _ Rc Ac F Iv eq_refl)
    as (x & v' & T & Kx & Ix & Iv' & Vx & Pv' & Nv). cbn [sp_node] in *.
  cbn [walk]. rewrite Ke, Kc. cbn -[FindDefModel.to_def FindDefModel.find_container FindDefModel.look_up pointer].
  unfold FindDefModel.to_def at 1. rewrite (container_step (S fuel)). rewrite (locate_spot root e); auto. cbn [must bind].
  rewrite Ue. cbn [walk]. rewrite Kc. cbn -[FindDefModel.to_def FindDefModel.find_container FindDefModel.look_up pointer]. cbn [view_key] in T. rewrite T. cbn [bind].
  cbn [view_key] in Kx. destruct x as [i|i|i|i|i|i|i|i|i|i|i]; try discriminate Kx.
  pose proof Vx as Vx0. cbn [view_item] in Vx. unfold at_index in Vx. destruct (nth_error (typesets t) i) as [ts|] eqn:Ets; [|discriminate].
  unfold view_typeset in Vx. destruct (all _ (indices (ts_typedefs ts))) as [ds'|] eqn:Eds; [|discriminate].
  destruct (place root (ts_ast ts)) as [p|] eqn:Ep; [|discriminate]. injection Vx as <-. cbn [view_at] in Pv'. subst p.
  assert (ds' = ds /\ ts_name ts = nm) as [-> Enm].
  { destruct (typeset_from _ _ _ Iv) as (n1 & I1 & P1 & K1 & D1 & N1). destruct (typeset_from _ _ _ Iv') as (n2 & I2 & P2 & K2 & D2 & N2).
    assert (n1 = c0) as -> by (apply (proj2 Ac); auto using child_under).
    assert (n2 = c0) as -> by (apply (proj2 Ac); auto using child_under). split; congruence. }
  cbn [FindDefModel.look_up]. rewrite Ets. cbn [must bind].
  assert (Row : forall j v, at_index (typedefs t) (view_typedef root t) j = Some v -> typeset_row root t i j = Some (KTypedef, tv_at v, InTypeset i j)).
  { intros j v. unfold at_index, typeset_row. destruct (nth_error (typedefs t) j) as [td|]; [|discriminate]. unfold view_typedef, place.
    destruct (read_params root t (td_params td)); [|discriminate]. destruct (get_raw (plain root) (td_ast td)); [|discriminate]. intros X. injection X as <-. auto. }
  destruct (all_some _ _ (typeset_row root t i) (indices (ts_typedefs ts))) as (rows & Er).
  { intros j Ij. destruct (all_in' _ _ _ _ _ Eds j Ij) as (v & _ & V). rewrite (Row j v V). discriminate. }
  rewrite Er. cbn [must bind].
  destruct (all_in _ _ _ _ _ Eds d Id) as (j1 & Ij1 & V1).
  assert (Rin : In (KTypedef, pointer (sp_node e), InTypeset i j1) rows).
  { destruct (all_in' _ _ _ _ _ Er j1 Ij1) as (rw & Irw & Erw). rewrite (Row j1 d V1) in Erw. injection Erw as <-. rewrite Pd in Irw. exact Irw. }
  destruct (find_row KTypedef (pointer (sp_node e)) rows) as [y|] eqn:Ef; [|exfalso; revert Ef; eapply find_row_some; eauto].
  apply find_row_in in Ef. destruct (all_in _ _ _ _ _ Er _ Ef) as (j & Ij & Rj).
  destruct (all_in' _ _ _ _ _ Eds j Ij) as (v & Iv2 & V). rewrite (Row j v V) in Rj. injection Rj as Pj <-. cbn [ask bind].
  exists i, j. split; [reflexivity|]. split; [|split].
  - exists nm. split; [auto|]. exists (VTypeset (ts_name ts) ds (place_of c0)). subst nm. repeat split; auto.
  - eauto.
  - exists v. split; auto.
Qed.
Lemma funcenum_owner : forall fuel s e c nm gs g,
  spot_in root s -> alone root (sp_node s) -> nearest (source_file :: owners) (sp_up s) = Some e ->
  s_kind (sp_node e) = k_funcenum_member -> parent e = Some c -> s_kind (sp_node c) = k_funcenum ->
  alone root (sp_node e) -> alone root (sp_node c) -> at_file_level root c ->
  In (VFuncenum nm gs (place_of (sp_node c))) (outline root) -> In g gs -> gv_at g = place_of (sp_node e) ->
  exists i j, find_container (S (S (S fuel))) (pointer (sp_node s)) = Val (CBody (InFuncenum i j)) /\
              is_funcenum_member root t i j (sp_node c) (sp_node e).
Proof.
  intros fuel s e c nm ds d R A N Ke Pe Kc Ae Ac F Iv Id Pd.
  destruct (container_walk (S (S fuel)) s e R A N) as (i0 & ->).
  unfold parent in Pe. destruct (sp_up e) as [|[c0 j0] r] eqn:Ue; [discriminate|]. injection Pe as <-. cbn [sp_node] in *.
  pose proof (nearest_in _ _ _ _ R N) as Re.
  destruct (spot_up _ _ _ _ _ Re Ue) as (Rc & _).
  destruct (declared root t m Low Map es_table mm_table Proper fuel (Spot c0 r) _ Rc Ac F Iv eq_refl)
    as (x & v' & T & Kx & Ix & Iv' & Vx & Pv' & Nv). cbn [sp_node] in *.
  cbn [walk]. rewrite Ke. cbn -[FindDefModel.to_def FindDefModel.find_container FindDefModel.look_up pointer].
  unfold FindDefModel.to_def at 1. rewrite (container_step (S fuel)). rewrite (locate_spot root e); auto. cbn [must bind].
  rewrite Ue. cbn [walk]. rewrite Kc. cbn -[FindDefModel.to_def FindDefModel.find_container FindDefModel.look_up pointer]. cbn [view_key] in T. rewrite T. cbn [bind].
  cbn [view_key] in Kx. destruct x as [i|i|i|i|i|i|i|i|i|i|i]; try discriminate Kx.
  pose proof Vx as Vx0. cbn [view_item] in Vx. unfold at_index in Vx. destruct (nth_error (funcenums t) i) as [ts|] eqn:Ets; [|discriminate].
  unfold view_funcenum in Vx. destruct (all _ (indices (fe_functags ts))) as [ds'|] eqn:Eds; [|discriminate].
  destruct (place root (fe_ast ts)) as [p|] eqn:Ep; [|discriminate]. injection Vx as <-. cbn [view_at] in Pv'. subst p.
  assert (ds' = ds /\ fe_name ts = nm) as [-> Enm].
  { destruct (funcenum_from _ _ _ Iv) as (n1 & I1 & P1 & K1 & D1 & N1). destruct (funcenum_from _ _ _ Iv') as (n2 & I2 & P2 & K2 & D2 & N2).
    assert (n1 = c0) as -> by (apply (proj2 Ac); auto using child_under).
    assert (n2 = c0) as -> by (apply (proj2 Ac); auto using child_under). split; congruence. }
  cbn [FindDefModel.look_up]. rewrite Ets. cbn [must bind].
  assert (Row : forall j v, at_index (functags t) (view_functag root t) j = Some v -> funcenum_row root t i j = Some (KFunctag, gv_at v, InFuncenum i j)).
  { intros j v. unfold at_index, funcenum_row. destruct (nth_error (functags t) j) as [td|]; [|discriminate]. unfold view_functag, place.
    destruct (read_params root t (ft_params td)); [|discriminate]. destruct (get_raw (plain root) (ft_ast td)); [|discriminate]. intros X. injection X as <-. auto. }
  destruct (all_some _ _ (funcenum_row root t i) (indices (fe_functags ts))) as (rows & Er).
  { intros j Ij. destruct (all_in' _ _ _ _ _ Eds j Ij) as (v & _ & V). rewrite (Row j v V). discriminate. }
  rewrite Er. cbn [must bind].
  destruct (all_in _ _ _ _ _ Eds d Id) as (j1 & Ij1 & V1).
  assert (Rin : In (KFunctag, pointer (sp_node e), InFuncenum i j1) rows).
  { destruct (all_in' _ _ _ _ _ Er j1 Ij1) as (rw & Irw & Erw). rewrite (Row j1 d V1) in Erw. injection Erw as <-. rewrite Pd in Irw. exact Irw. }
  destruct (find_row KFunctag (pointer (sp_node e)) rows) as [y|] eqn:Ef; [|exfalso; revert Ef; eapply find_row_some; eauto].
  apply find_row_in in Ef. destruct (all_in _ _ _ _ _ Er _ Ef) as (j & Ij & Rj).
  destruct (all_in' _ _ _ _ _ Eds j Ij) as (v & Iv2 & V). rewrite (Row j v V) in Rj. injection Rj as Pj <-. cbn [ask bind].
  exists i, j. split; [reflexivity|]. split; [|split].
  - exists nm. split; [auto|]. exists (VFuncenum (fe_name ts) ds (place_of c0)). subst nm. repeat split; auto.
  - eauto.
  - exists v. split; auto.
Qed.
End owners.

(** The name of a parameter or of a local variable leads into the body of the function, the functag, the typedef, or the
    member of the typeset or funcenum it is declared in, and in that body to the expression made for its declaration. *)
Theorem C50_local : forall root t m es_table mm_table fuel s p o,
  proper (plain root) -> lower root = Some t -> file_def_map t = Some m ->
  spot_in root s -> is_name_node s = true -> parent s = Some p -> local_declaration p ->
  alone root (sp_node p) -> owned root p o ->
  exists d, stands_for root t d o /\
    forall node_ptr_expr, find_name_def root t m es_table mm_table node_ptr_expr (S (S (S fuel))) s =
      match node_ptr_expr d (place_of (sp_node p)) with Some e => Val (RLocal d e) | None => Nothing end.
Proof.
  intros root t m es mm fuel s p o P L M R N Pa Ld A O.
  destruct (name_node _ _ R N) as (a & i & r & E & R' & Nm). unfold parent in Pa. rewrite E in Pa. injection Pa as <-.
  cbn [sp_node] in *.
  assert (G : exists d, stands_for root t d o /\ find_container root t m es mm (S (S (S fuel))) (pointer a) = Val (CBody d)).
  { destruct O.
    - destruct (function_owner root t m P L M es mm (S fuel) (Spot a r) c v nm) as (x & X & K & D); auto.
      { cbn [In] in *. tauto. } exists (Top x). split; auto. exists nm. auto.
    - destruct (typedef_owner root t m P L M es mm (S fuel) (Spot a r) e c v nm) as (x & X & K & D); auto.
      exists (Top x). split; auto. exists nm. auto.
    - destruct (typeset_owner root t m P L M es mm fuel (Spot a r) e c nm ds d) as (k & j & X & D); auto.
      exists (InTypeset k j). auto.
    - destruct (funcenum_owner root t m P L M es mm fuel (Spot a r) e c nm gs g) as (k & j & X & D); auto.
      exists (InFuncenum k j). auto. }
  destruct G as (d & St & C). exists d. split; auto. intros npe.
  assert (T : local_to_def root t m es mm npe (S (S (S fuel))) (pointer a) = match npe d (place_of a) with Some e => Val (RLocal d e) | None => Nothing end).
  { unfold local_to_def. rewrite C. cbn [bind]. change (pointer a) with (place_of a). destruct (npe d (place_of a)); auto. }
  unfold find_name_def. rewrite N. cbn [negb]. unfold parent at 1. rewrite E. cbn [ask bind sp_node].
  destruct Ld as [K|(K & b & j & q & Eq & Kb)]; cbn [sp_node] in K.
  - rewrite K. cbn -[FindDefModel.local_to_def FindDefModel.to_def pointer]. rewrite K. cbn -[FindDefModel.local_to_def FindDefModel.to_def pointer]. exact T.
  - cbn [sp_up] in Eq. subst r. cbn [In] in K, Kb. destruct K as [K|[K|[]]]; rewrite <- K; cbn -[FindDefModel.local_to_def FindDefModel.to_def pointer]; rewrite <- K; cbn -[FindDefModel.local_to_def FindDefModel.to_def pointer];
    destruct Kb as [Kb|[Kb|[]]]; rewrite <- Kb; cbn -[FindDefModel.local_to_def FindDefModel.to_def pointer]; exact T.
Qed.
Print Assumptions C50_local.

(** * Names in a body *)
Lemma climb_some : forall ups n i c, nearest stop_kinds ((n, i) :: ups) = Some c -> climb n ups = c.
Proof.
  induction ups as [|[a j] r IH]; intros n i c H; cbn [climb]; unfold one_of; cbn [nearest] in H;
    destruct (existsb (Nat.eqb (s_kind n)) stop_kinds); try congruence. apply (IH a j c H).
Qed.
Lemma climb_none : forall ups n i, nearest stop_kinds ((n, i) :: ups) = None ->
  forall pre root j, (n, i) :: ups = pre ++ [(root, j)] -> climb n ups = Spot root [].
Proof.
  induction ups as [|[a j] r IH]; intros n i H pre root k E; cbn [climb]; unfold one_of; cbn [nearest] in H;
    destruct (existsb (Nat.eqb (s_kind n)) stop_kinds); try discriminate.
  - destruct pre as [|? [|? ?]]; cbn in E; congruence.
  - destruct pre as [|q pre]; cbn in E; [discriminate|]. injection E as <- E. eapply IH; eauto.
Qed.
Lemma reach_last : forall n up s, reach n up s -> s = Spot n up \/ exists pre j, sp_up s = pre ++ (n, j) :: up.
Proof.
  induction 1 as [n up|n up i f c s I R IH]; [auto|]. right. destruct IH as [->|(pre & j & E)].
  - exists [], i. auto.
  - exists (pre ++ [(c, j)]), i. rewrite E, <- app_assoc. auto.
Qed.
Lemma first_item : forall root t m nm v, lower root = Some t -> file_def_map t = Some m -> first_named root nm = Some v ->
  exists x, get_first m nm = Some x /\ In x (top t) /\ In v (outline root) /\ view_item root t x = Some v /\ view_name v = Some nm.
Proof.
  intros root t m nm v L M F. rewrite (get_first_named t m M).
  pose proof (lower_written root t L) as W. unfold first_named in F. revert W F. generalize (outline root). generalize (top t).
  induction l as [|x l IH]; intros vs W F; cbn [all] in W.
  - injection W as <-. discriminate.
  - destruct (view_item root t x) as [w|] eqn:V; [|discriminate]. destruct (all (view_item root t) l) as [ws|] eqn:A; [|discriminate].
    injection W as <-. cbn [find] in F. destruct (view_facts _ _ _ _ V) as (N & _).
    cbn [filter]. unfold named_item at 1. rewrite N. destruct (view_name w) as [n|] eqn:Vn.
    + destruct (String.eqb n nm) eqn:Q.
      * injection F as <-. apply String.eqb_eq in Q. subst n. exists x. cbn. auto 8.
      * destruct (IH _ eq_refl F) as (y & ? & ? & ? & ? & ?). exists y. cbn. auto 8.
    + destruct (IH _ eq_refl F) as (y & ? & ? & ? & ? & ?). exists y. cbn. auto 8.
Qed.

(** A name in a function of the file is asked about in that function, if no declaration of the file before it has the
    name of the function; likewise a name in a method or accessor, with the enum struct or methodmap around it, and a
    name in a typedef. Everything else, and a name in an enum, is asked about in the file. *)
Theorem C51_owner : forall root t m es_table mm_table node_ptr_expr file_id global_ident in_function in_signature include_node
    method_named accessor_named fuel s p,
  let find_def := find_def root t m es_table mm_table node_ptr_expr file_id global_ident in_function in_signature include_node
    method_named accessor_named fuel in
  lower root = Some t -> file_def_map t = Some m ->
  spot_in root s -> parent s = Some p -> is_name_node s = false -> ~ In (s_kind (sp_node p)) [131; 132] ->
  match nearest around (sp_up s) with
  | None => s_kind root = source_file -> find_def s = source_node_to_def file_id global_ident s
  | Some c =>
      (s_kind (sp_node c) = 163 -> find_def s = source_node_to_def file_id global_ident s) /\
      forall nm v,
      (s_kind (sp_node c) = 144 -> name_of (sp_node c) = Some nm -> option_map s_kind (child_by_field_name "body" (sp_node c)) = Some 201 ->
       first_named root nm = Some v -> view_key v = KFunction -> view_at v = place_of (sp_node c) ->
       exists x, is_declaration root t x (sp_node c) nm /\ find_def s = in_function (Top x) c s) /\
      (s_kind (sp_node c) = 169 -> name_of (sp_node c) = Some nm ->
       first_named root nm = Some v -> view_key v = KTypedef -> view_at v = place_of (sp_node c) ->
       exists x, is_declaration root t x (sp_node c) nm /\ find_def s = in_signature (Top x) (s_text (sp_node s))) /\
      (forall o onm, In (s_kind (sp_node c)) [168; 177; 178; 179; 180; 181; 182] -> name_of (sp_node c) = Some nm ->
       parent c = Some o -> name_of (sp_node o) = Some onm ->
       first_named root onm = Some v -> In (view_key v) [KEnumStruct; KMethodmap] -> view_at v = place_of (sp_node o) ->
       exists x, is_declaration root t x (sp_node o) onm /\ view_item root t x = Some v /\
         find_def s = match method_named (Top x) nm with Some d => in_function d c s | None => Nothing end) /\
      (forall a pr o onm, (In (s_kind (sp_node c)) [187; 188] /\ parent c = Some a \/ In (s_kind (sp_node c)) [185; 186] /\ c = a) ->
       parent a = Some pr -> name_of (sp_node pr) = Some nm -> parent pr = Some o -> name_of (sp_node o) = Some onm ->
       option_map s_kind (child_by_field_name "body" (sp_node a)) = Some 201 ->
       first_named root onm = Some v -> view_key v = KMethodmap -> view_at v = place_of (sp_node o) ->
       forall g, find (fun n => has_kind 187 n || has_kind 188 n) (children (sp_node a)) = Some g ->
       exists x, is_declaration root t x (sp_node o) onm /\ view_item root t x = Some v /\
         find_def s = match accessor_named (Top x) nm (has_kind 187 g) with Some d => in_function d a s | None => Nothing end)
  end.
Proof.
  intros root t m es mm npe fid gi inf ins inc mn an fuel s p fd L M R Pa N Ni. subst fd.
  unfold parent in Pa. destruct (sp_up s) as [|[a i] r] eqn:E; [discriminate|]. injection Pa as <-. cbn [sp_node] in Ni.
  assert (D : find_def root t m es mm npe fid gi inf ins inc mn an fuel s =
     let c := climb a r in let k := s_kind (sp_node c) in
     if k =? k_function_definition then function_node_to_def m inf c s
      else if one_of k [k_methodmap_property_getter; k_methodmap_property_setter] then
        try c' := ask (parent c) in property_method_node_to_def m inf an c' s
      else if one_of k [k_methodmap_property_native; k_methodmap_property_method] then property_method_node_to_def m inf an c s
      else if one_of k [k_enum_struct_method; k_methodmap_native; k_methodmap_native_constructor; k_methodmap_native_destructor;
                        k_methodmap_method; k_methodmap_method_constructor; k_methodmap_method_destructor] then method_node_to_def m inf mn c s
      else if k =? k_typedef then typedef_node_to_def m ins c s
      else if one_of k [k_enum; source_file] then source_node_to_def fid gi s
      else Panic).
  { unfold find_def, find_name_def. rewrite N. cbn [negb]. unfold parent at 1. rewrite E. cbn [ask bind sp_node sp_up].
    assert (X : one_of (s_kind a) [131; 132] = false).
    { unfold one_of. destruct (existsb _ _) eqn:X; auto. apply existsb_exists in X. destruct X as (k & I & X). apply Nat.eqb_eq in X. subst k. contradiction. }
    rewrite X. reflexivity. }
  change around with stop_kinds.
  destruct (nearest stop_kinds ((a, i) :: r)) as [c|] eqn:C.
  - apply climb_some in C. rewrite C in D. cbn zeta in D. split.
    { intros K. rewrite D, K. reflexivity. }
    intros nm v. split; [|split; [|split]].
    + intros K Nm B F Kv Pv. destruct (first_item _ _ _ _ _ L M F) as (x & G & Ix & Iv & Vx & Vn).
      destruct (view_facts _ _ _ _ Vx) as (_ & Kx & _). exists x. split; [split; auto; exists v; auto|].
      rewrite D, K. cbn [Nat.eqb k_function_definition]. unfold function_node_to_def, name_in. rewrite Nm. cbn [ask bind].
      destruct (child_by_field_name "body" (sp_node c)) as [b|]; [|discriminate]. injection B as B. cbn [ask bind]. rewrite B. cbn -[get_first]. rewrite G. cbn [ask bind].
      destruct x; cbn in Kx; try congruence; auto.
    + intros K Nm F Kv Pv. destruct (first_item _ _ _ _ _ L M F) as (x & G & Ix & Iv & Vx & Vn).
      destruct (view_facts _ _ _ _ Vx) as (_ & Kx & _). exists x. split; [split; auto; exists v; auto|].
      rewrite D, K. cbn -[typedef_node_to_def]. unfold typedef_node_to_def, name_in. rewrite Nm. cbn [ask bind]. rewrite G. cbn [ask bind].
      destruct x; cbn in Kx; try congruence; auto.
    + intros o onm K Nm Po On F Kv Pv. destruct (first_item _ _ _ _ _ L M F) as (x & G & Ix & Iv & Vx & Vn).
      destruct (view_facts _ _ _ _ Vx) as (_ & Kx & _). exists x. split; [split; auto; exists v; auto|]. split; [exact Vx|].
      assert (D' : find_def root t m es mm npe fid gi inf ins inc mn an fuel s = method_node_to_def m inf mn c s).
      { rewrite D. cbn [In] in K. repeat (destruct K as [K|K]; [rewrite <- K; reflexivity|]). destruct K. }
      rewrite D'. unfold method_node_to_def, name_in. rewrite Nm, Po. cbn [ask bind]. rewrite On. cbn [ask bind]. rewrite G. cbn [ask bind].
      rewrite Kx in Kv. destruct x; cbn in Kv; repeat (destruct Kv as [Kv|Kv]; try discriminate Kv); try contradiction;
        destruct (mn _ nm); reflexivity.
    + intros e pr o onm K Pe Pn Po On B F Kv Pv g Fg. destruct (first_item _ _ _ _ _ L M F) as (x & G & Ix & Iv & Vx & Vn).
      destruct (view_facts _ _ _ _ Vx) as (_ & Kx & _). exists x. split; [split; auto; exists v; auto|]. split; [exact Vx|].
      assert (D' : find_def root t m es mm npe fid gi inf ins inc mn an fuel s = property_method_node_to_def m inf an e s).
      { rewrite D. destruct K as [(K & Pc)|(K & <-)]; cbn [In] in K.
        - repeat (destruct K as [K|K]; [rewrite <- K; cbn -[property_method_node_to_def]; rewrite Pc; reflexivity|]). destruct K.
        - repeat (destruct K as [K|K]; [rewrite <- K; reflexivity|]). destruct K. }
      rewrite D'. unfold property_method_node_to_def, name_in. rewrite Pe. cbn [ask bind]. rewrite Po. cbn [ask bind].
      unfold k_methodmap_property_getter, k_methodmap_property_setter. rewrite Fg. cbn [ask bind]. rewrite Pn. cbn [ask bind]. rewrite On. cbn [ask bind].
      destruct (child_by_field_name "body" (sp_node e)) as [b|]; [|discriminate]. injection B as B. cbn [ask bind]. rewrite B. cbn -[get_first has_kind]. rewrite G. cbn [ask bind].
      destruct x; cbn in Kx; try congruence; destruct (an _ nm _); reflexivity.
  - intros K. destruct (reach_last _ _ _ R) as [->|(pre & j & E')]; [discriminate E|].
    rewrite E in E'. rewrite (climb_none r a i C pre root j E') in D. cbn [sp_node] in D. rewrite K in D. exact D.
Qed.
Print Assumptions C51_owner.

(** * A file *)
Fixpoint go (n : syn) (up : list (syn * nat)) (path : list nat) : option spot :=
  match path with
  | [] => Some (Spot n up)
  | i :: r => match nth_error (s_kids n) i with Some (_, c) => go c ((n, i) :: up) r | None => None end
  end.
Lemma go_reach : forall path n up s, go n up path = Some s -> reach n up s.
Proof.
  induction path as [|i r IH]; cbn [go]; intros n up s H; [injection H as <-; constructor|].
  destruct (nth_error (s_kids n) i) as [[f c]|] eqn:E; [|discriminate]. eapply reach_kid; eauto.
Qed.
(** [forward void f(int q);], [void f(int x) { int y; x; #define A }], a typeset [T] with the members
    [function int (int a);] and [function void (int b);], [public Plugin myinfo = {...};],
    [native int operator+(int l, int r) = ...;] *)
Definition b_file : syn :=
  Syn 130 0 250 "" [
    ("", Syn 145 0 22 "forward void f(int q);" [("", Syn 146 0 7 "forward" [("", leaf 46 0 7 "forward")]); ("name", leaf 1 13 14 "f");
       ("parameters", Syn 147 14 21 "(int q)" [("", Syn 148 15 20 "int q" [("type", leaf 85 15 18 "int"); ("name", leaf 1 19 20 "q")])])]);
    ("", Syn 144 30 80 "void f(int x) {...}" [("name", leaf 1 35 36 "f");
       ("parameters", Syn 147 36 43 "(int x)" [("", Syn 148 37 42 "int x" [("type", leaf 85 37 40 "int"); ("name", leaf 1 41 42 "x")])]);
       ("body", Syn 201 44 80 "{...}" [
          ("", Syn 153 46 52 "int y;" [("type", leaf 85 46 49 "int"); ("", Syn 156 50 51 "y" [("name", leaf 1 50 51 "y")])]);
          ("", Syn 210 54 56 "x;" [("", leaf 1 54 55 "x")]);
          ("", Syn 134 60 69 "#define A" [("name", leaf 1 68 69 "A")])])]);
    ("", Syn 170 90 140 "typeset T {...}" [("name", leaf 1 98 99 "T");
       ("", Syn 171 100 117 "function int (int a)" [("returnType", leaf 85 109 112 "int");
          ("parameters", Syn 147 113 117 "(int a)" [("", Syn 148 114 116 "int a" [("name", leaf 1 115 116 "a")])])]);
       ("", Syn 171 119 138 "function void (int b)" [("returnType", leaf 83 128 132 "void");
          ("parameters", Syn 147 133 138 "(int b)" [("", Syn 148 134 137 "int b" [("name", leaf 1 136 137 "b")])])])]);
    ("", Syn 191 150 190 "public Plugin myinfo = {}" [("type", leaf 1 157 163 "Plugin"); ("name", leaf 1 164 170 "myinfo")]);
    ("", Syn 150 200 240 "native int operator+(int l, int r) = Add;" [
       ("parameters", Syn 147 220 234 "(int l, int r)" [("", Syn 148 221 226 "int l" [("name", leaf 1 225 226 "l")])])])].
Definition b_tree : itree := match lower b_file with Some t => t | None => empty_tree end.
Definition b_map : def_map := match file_def_map b_tree with Some m => m | None => DefMap [] [] [] end.
Lemma b_lower : lower b_file = Some b_tree.
Proof. vm_compute. reflexivity. Qed.
Lemma b_def_map : file_def_map b_tree = Some b_map.
Proof. vm_compute. reflexivity. Qed.
Definition b_spot (path : list nat) : spot := match go b_file [] path with Some s => s | None => Spot b_file [] end.
Lemma b_in : forall path, go b_file [] path <> None -> spot_in b_file (b_spot path).
Proof. intros path H. unfold b_spot, spot_in. destruct (go b_file [] path) as [s|] eqn:E; [|congruence]. eapply go_reach; eauto. Qed.

(** The two names [f] lead to the two declarations; [x] and [y] into the second, [b] into the second member of [T]. *)
Example C50_nontrivial : forall es_table mm_table,
  let ask_name path := find_name_def b_file b_tree b_map es_table mm_table (fun _ p => Some (snd p)) 5 (b_spot path) in
  ask_name [0; 1] = Val (RDef (Top (FFunction 0))) /\ ask_name [1; 0] = Val (RDef (Top (FFunction 1))) /\
  ask_name [1; 1; 0; 1] = Val (RLocal (Top (FFunction 1)) 42) /\ ask_name [1; 2; 0; 1; 0] = Val (RLocal (Top (FFunction 1)) 51) /\
  ask_name [2; 2; 1; 0; 0] = Val (RLocal (InTypeset 0 1) 137) /\ ask_name [1; 2; 1; 0] = Nothing.
Proof. intros. vm_compute. repeat split; reflexivity. Qed.

(** A macro defined inside a function is a declaration of the file, but asking for the name in its definition crashes: its
    container is the function, which has no table of definitions (source_to_def.rs:221). *)
Theorem C50_local_define_crash_refuted : exists root t m s p nm,
  lower root = Some t /\ file_def_map t = Some m /\ spot_in root s /\ is_name_node s = true /\ parent s = Some p /\
  In (VMacro nm (place_of (sp_node p))) (outline root) /\ s_text (sp_node s) = nm /\
  forall es_table mm_table npe, find_name_def root t m es_table mm_table npe 5 s = Panic.
Proof.
  exists b_file, b_tree, b_map, (b_spot [1; 2; 2; 0]), (b_spot [1; 2; 2]), "A".
  split; [apply b_lower|]. split; [apply b_def_map|]. split; [apply b_in; discriminate|]. split; [reflexivity|]. split; [reflexivity|].
  split; [vm_compute; auto 10|]. split; [reflexivity|]. intros. vm_compute. reflexivity.
Qed.
Print Assumptions C50_local_define_crash_refuted.

(** Asking for the name of a structure such as [myinfo] crashes (semantics.rs:162). *)
Theorem C50_struct_name_crash_refuted : exists root t m s p,
  lower root = Some t /\ file_def_map t = Some m /\ spot_in root s /\ is_name_node s = true /\ parent s = Some p /\
  s_kind (sp_node p) = 191 /\
  forall es_table mm_table npe, find_name_def root t m es_table mm_table npe 5 s = Panic.
Proof.
  exists b_file, b_tree, b_map, (b_spot [3; 1]), (b_spot [3]).
  split; [apply b_lower|]. split; [apply b_def_map|]. split; [apply b_in; discriminate|]. repeat (split; [reflexivity|]).
  intros. vm_compute. reflexivity.
Qed.
Print Assumptions C50_struct_name_crash_refuted.

(** Asking for the name of a parameter of an operator declaration crashes (source_to_def.rs:71). *)
Theorem C50_alias_parameter_crash_refuted : exists root t m s p,
  lower root = Some t /\ file_def_map t = Some m /\ spot_in root s /\ is_name_node s = true /\ parent s = Some p /\
  local_declaration p /\
  forall es_table mm_table npe, find_name_def root t m es_table mm_table npe 5 s = Panic.
Proof.
  exists b_file, b_tree, b_map, (b_spot [4; 0; 0; 0]), (b_spot [4; 0; 0]).
  split; [apply b_lower|]. split; [apply b_def_map|]. split; [apply b_in; discriminate|]. repeat (split; [reflexivity|]).
  split; [left; reflexivity|]. intros. vm_compute. reflexivity.
Qed.
Print Assumptions C50_alias_parameter_crash_refuted.

(** [x] in the body of the second function is asked about in the first declaration of the name [f], the [forward], which
    is not the function around it. *)
Theorem C51_forward_refuted : exists root t m s c nm v x,
  lower root = Some t /\ file_def_map t = Some m /\ spot_in root s /\ nearest around (sp_up s) = Some c /\
  s_kind (sp_node c) = 144 /\ name_of (sp_node c) = Some nm /\
  In (VFunction v) (outline root) /\ fv_at v = place_of (sp_node c) /\
  (forall es_table mm_table npe fid gi in_function ins inc mn an,
     find_def root t m es_table mm_table npe fid gi in_function ins inc mn an 5 s = in_function (Top x) c s) /\
  ~ is_declaration root t x (sp_node c) nm.
Proof.
  exists b_file, b_tree, b_map, (b_spot [1; 2; 1; 0]), (b_spot [1]), "f",
    (FnView "f" Def false false false [ParamView (Some TInt) false false false (148, 37, 42)] None None (144, 30, 80)), (FFunction 0).
  split; [apply b_lower|]. split; [apply b_def_map|]. split; [apply b_in; discriminate|]. repeat (split; [reflexivity|]).
  split; [vm_compute; auto 10|]. split; [reflexivity|]. split; [intros; vm_compute; reflexivity|].
  intros (_ & v & _ & V & P & _). vm_compute in V. injection V as <-. vm_compute in P. discriminate.
Qed.
Print Assumptions C51_forward_refuted.

(** A function whose name an earlier variable has: any name in its body crashes (semantics.rs:455). *)
Definition clash_file : syn :=
  Syn 130 0 60 "" [
    ("", Syn 152 0 6 "int f;" [("type", leaf 85 0 3 "int"); ("", Syn 156 4 5 "f" [("name", leaf 1 4 5 "f")])]);
    ("", Syn 144 10 50 "void f() { g; }" [("name", leaf 1 15 16 "f"); ("parameters", leaf 147 16 18 "()");
       ("body", Syn 201 20 50 "{ g; }" [("", Syn 210 22 24 "g;" [("", leaf 1 22 23 "g")])])])].
Theorem C51_clash_crash_refuted : exists root t m s c,
  lower root = Some t /\ file_def_map t = Some m /\ spot_in root s /\ nearest around (sp_up s) = Some c /\ s_kind (sp_node c) = 144 /\
  forall es_table mm_table npe fid gi in_function ins inc mn an,
    find_def root t m es_table mm_table npe fid gi in_function ins inc mn an 5 s = Panic.
Proof.
  destruct (lower clash_file) as [t|] eqn:L; [|vm_compute in L; discriminate].
  destruct (file_def_map t) as [m|] eqn:M; [|exfalso; vm_compute in L; injection L as <-; vm_compute in M; discriminate].
  destruct (go clash_file [] [1; 2; 0; 0]) as [s|] eqn:S; [|vm_compute in S; discriminate].
  destruct (go clash_file [] [1]) as [c|] eqn:C; [|vm_compute in C; discriminate].
  exists clash_file, t, m, s, c. split; [auto|]. split; [auto|]. split; [eapply go_reach; eauto|].
  vm_compute in L, S, C. injection L as <-. injection S as <-. injection C as <-. vm_compute in M. injection M as <-.
  split; [reflexivity|]. split; [reflexivity|]. intros. vm_compute. reflexivity.
Qed.
Print Assumptions C51_clash_crash_refuted.

(** A function whose body is a statement without braces: any name in it crashes (semantics.rs:457). *)
Definition bare_file : syn :=
  Syn 130 0 60 "" [
    ("", Syn 144 10 50 "int f() return g;" [("name", leaf 1 15 16 "f"); ("parameters", leaf 147 16 18 "()");
       ("body", Syn 211 20 29 "return g;" [("", leaf 1 27 28 "g")])])].
Theorem C51_statement_body_crash_refuted : exists root t m s c nm v,
  lower root = Some t /\ file_def_map t = Some m /\ spot_in root s /\ nearest around (sp_up s) = Some c /\ s_kind (sp_node c) = 144 /\
  name_of (sp_node c) = Some nm /\ first_named root nm = Some v /\ view_key v = KFunction /\ view_at v = place_of (sp_node c) /\
  forall es_table mm_table npe fid gi in_function ins inc mn an,
    find_def root t m es_table mm_table npe fid gi in_function ins inc mn an 5 s = Panic.
Proof.
  destruct (lower bare_file) as [t|] eqn:L; [|vm_compute in L; discriminate].
  destruct (file_def_map t) as [m|] eqn:M; [|exfalso; vm_compute in L; injection L as <-; vm_compute in M; discriminate].
  destruct (go bare_file [] [0; 2; 0]) as [s|] eqn:S; [|vm_compute in S; discriminate].
  destruct (go bare_file [] [0]) as [c|] eqn:C; [|vm_compute in C; discriminate].
  exists bare_file, t, m, s, c, "f", (VFunction (FnView "f" Def false false false [] None None (144, 10, 50))). split; [auto|]. split; [auto|]. split; [eapply go_reach; eauto|].
  vm_compute in L, S, C. injection L as <-. injection S as <-. injection C as <-. vm_compute in M. injection M as <-.
  repeat (split; [reflexivity|]). intros. vm_compute. reflexivity.
Qed.
Print Assumptions C51_statement_body_crash_refuted.

(** The name [q] of a parameter in the first function: what is around it is the file, since a declaration without a body is
    not looked for; [y] in the second is asked about in a function. *)
Example C51_nontrivial : forall es_table mm_table npe,
  let ask_in path := find_def b_file b_tree b_map es_table mm_table npe 0 (fun nm => if String.eqb nm "Plugin" then Some (WOther 3 KEnumStruct (Top (FEnumStruct 7))) else None)
      (fun d c s => Val (RLocal d (List.length (sp_up s)))) (fun _ _ => Panic) (fun _ => Panic) (fun _ _ => None) (fun _ _ _ => None) 5 (b_spot path) in
  ask_in [3; 0] = Val (RDef (Top (FEnumStruct 7))) /\ ask_in [1; 2; 1; 0] = Val (RLocal (Top (FFunction 0)) 4) /\
  ask_in [1; 0] = Val (RDef (Top (FFunction 1))).
Proof. intros. vm_compute. repeat split; reflexivity. Qed.

(** What is asked about in the file is what the names of the file mean, for macros, variables, enums, variants, enum
    structs and methodmaps; of several functions it is the first of this file. *)
Theorem C51_file_scope : forall fid gi s v, gi (s_text (sp_node s)) = Some v ->
  match v with
  | WOther f k d => In k [KMacro; KGlobal; KEnumStruct; KMethodmap; KEnum; KVariant] -> source_node_to_def fid gi s = Val (RDef d)
  | WFunctions l => forall pre d post, l = pre ++ (fid, d) :: post -> (forall f e, In (f, e) pre -> f <> fid) -> source_node_to_def fid gi s = Val (RDef d)
  | WLocal _ _ => True
  end.
Proof.
  intros fid gi s v G. unfold source_node_to_def. rewrite G. cbn [ask bind]. destruct v as [l|o e|f k d]; auto.
  - clear G. intros pre d post -> N. assert (F : find (fun x => fst x =? fid) (pre ++ (fid, d) :: post) = Some (fid, d)).
    { induction pre as [|[f e] r IH]; cbn [app find fst].
      - rewrite Nat.eqb_refl. auto.
      - assert (f <> fid) by (eapply N; cbn; auto). apply Nat.eqb_neq in H. rewrite H. apply IH. intros; eapply N; cbn; eauto. }
    rewrite F. auto.
  - cbn. intros I. repeat (destruct I as [<-|I]; [reflexivity|]). destruct I.
Qed.
Print Assumptions C51_file_scope.

(** The name of a typedef, typeset, functag or funcenum, used at file level, leads nowhere although it has a meaning, and so
    does the name of a function of another file (semantics.rs:250-265). *)
Theorem C51_file_scope_refuted :
  (forall fid gi s f k d, In k [KTypedef; KTypeset; KFunctag; KFuncenum] -> gi (s_text (sp_node s)) = Some (WOther f k d) ->
     source_node_to_def fid gi s = Nothing) /\
  (forall fid gi s l, (forall f d, In (f, d) l -> f <> fid) -> gi (s_text (sp_node s)) = Some (WFunctions l) ->
     source_node_to_def fid gi s = Nothing).
Proof.
  split.
  - intros fid gi s f k d K G. unfold source_node_to_def. rewrite G. cbn in K. repeat (destruct K as [<-|K]; [reflexivity|]). destruct K.
  - intros fid gi s l N G. unfold source_node_to_def. rewrite G. cbn [ask bind].
    destruct (find (fun x => fst x =? fid) l) as [[f d]|] eqn:F; auto. apply find_some in F. destruct F as (I & Q). apply Nat.eqb_eq in Q.
    exfalso. eapply N; eauto.
Qed.
Print Assumptions C51_file_scope_refuted.
