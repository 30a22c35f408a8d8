(** C50: the name of a method, getter or setter leads to it, and names declared in it lead into it. *)
From Coq Require Import List String Bool Arith Lia.
From Verif Require Import AstIdModel AstIdSpec TypeRefModel ItemTreeModel ItemTreeSpec FindDefModel FindDefSpec FindDefProofs FindDefProps MethodTable MethodTableSpec.
Import ListNotations.
Local Open Scope string_scope.
Local Open Scope nat_scope.
Local Open Scope list_scope.

Lemma find_row_app : forall k p a b d, In (k, p, d) b -> exists e, find_row k p (a ++ b) = Some e /\ In (k, p, e) b.
Proof.
  intros k p a b d I. destruct (find_row k p b) as [e|] eqn:F; [|exfalso; revert F; eapply find_row_some; eauto].
  exists e. split; [|exact (find_row_in _ _ _ _ F)]. induction a as [|[[k' p'] d'] r IH]; cbn [app find_row]; [exact F|]. rewrite IH. reflexivity.
Qed.

Section file.
Variable root : syn.
Ltac other I := exfalso; repeat match type of I with
  | In _ (if ?b then _ else _) => destruct b
  end; try discriminate;
  unfold written_variables, written_old_variables, written_variable, written_enum in I;
  repeat match type of I with
  | In _ (map _ _) => apply in_map_iff in I; destruct I as (? & I & ?); try discriminate I
  | In _ (flat_map _ _) => apply in_flat_map in I; destruct I as (? & ? & I)
  | In _ (named _ _) => apply named_in in I; destruct I as (? & ? & I); try discriminate I
  | In _ (_ ++ _) => apply in_app_or in I; destruct I as [I|I]
  | In _ [_] => destruct I as [I|[]]; try discriminate I
  | In _ [] => destruct I
  | In _ ?x => match goal with H : In x (named _ _) |- _ => apply named_in in H; destruct H as (? & ? & ->) end
  end.
Lemma enum_struct_from : forall nm l p, In (VEnumStruct nm l p) (outline root) -> exists n, In n (children root) /\ p = place_of n /\
  s_kind n = k_enum_struct /\ l = flat_map written_es_item (children n) /\ name_of n = Some nm.
Proof.
  intros nm l p I. unfold outline in I. apply in_app_or in I. destruct I as [I|I].
  - apply in_flat_map in I. destruct I as (n & In_ & I). exists n. split; auto. unfold written_item in I.
    destruct (s_kind n =? k_enum_struct) eqn:K.
    + apply Nat.eqb_eq in K. rewrite K in I. cbn -[written_es_item] in I. apply named_in in I. destruct I as (nm' & N & E). injection E as <- -> ->. auto.
    + other I.
  - unfold written_macros in I. apply in_flat_map in I. destruct I as (n & _ & I). apply named_in in I. destruct I as (? & ? & I). discriminate.
Qed.
Lemma methodmap_from : forall nm h l p, In (VMethodmap nm h l p) (outline root) -> exists n, In n (children root) /\ p = place_of n /\
  s_kind n = k_methodmap /\ l = flat_map written_mm_item (children n) /\ h = option_map s_text (child_by_field_name "inherits" n) /\ name_of n = Some nm.
Proof.
  intros nm h l p I. unfold outline in I. apply in_app_or in I. destruct I as [I|I].
  - apply in_flat_map in I. destruct I as (n & In_ & I). exists n. split; auto. unfold written_item in I.
    destruct (s_kind n =? k_methodmap) eqn:K.
    + apply Nat.eqb_eq in K. rewrite K in I. cbn -[written_mm_item] in I. apply named_in in I. destruct I as (nm' & N & E). injection E as <- -> -> ->. auto 8.
    + other I.
  - unfold written_macros in I. apply in_flat_map in I. destruct I as (n & _ & I). apply named_in in I. destruct I as (? & ? & I). discriminate.
Qed.
(** One enum struct or methodmap at one place. *)
Lemma one_view : forall v w n f, In v (outline root) -> In w (outline root) -> alone root n -> view_at v = place_of n -> view_at w = place_of n ->
  view_key w = view_key v -> has_member v f -> w = v.
Proof.
  intros v w n f Iv Iw A Pv Pw K H. destruct v; cbn [has_member] in H; try contradiction; destruct w; cbn [view_key] in K; try discriminate K; cbn [view_at] in *.
  - destruct (enum_struct_from _ _ _ Iv) as (na & I1 & P1 & _ & D1 & N1). destruct (enum_struct_from _ _ _ Iw) as (nb & I2 & P2 & _ & D2 & N2).
    assert (na = n) as -> by (apply (proj2 A); auto using child_under; congruence).
    assert (nb = n) as -> by (apply (proj2 A); auto using child_under; congruence). congruence.
  - destruct (methodmap_from _ _ _ _ Iv) as (na & I1 & P1 & _ & D1 & H1 & N1). destruct (methodmap_from _ _ _ _ Iw) as (nb & I2 & P2 & _ & D2 & H2 & N2).
    assert (na = n) as -> by (apply (proj2 A); auto using child_under; congruence).
    assert (nb = n) as -> by (apply (proj2 A); auto using child_under; congruence). congruence.
Qed.

Variable t : itree.
Variable m : def_map.
Hypothesis Proper : proper (plain root).
Hypothesis Low : lower root = Some t.
Hypothesis Map : file_def_map t = Some m.
Variable es_other mm_other : nat -> key -> ptr -> res def.
Variable fields_read : nat -> bool.
Variable inherited_rows : nat -> option (list row).
Notation est := (es_table root t es_other fields_read).
Notation mmt := (mm_table root t mm_other inherited_rows).
Notation find_container := (find_container root t m est mmt).
Notation to_def := (to_def root t m est mmt).

(** The fields of the enum struct can be read, and so can the members that the methodmap inherits. *)
Definition readable (x : file_item) : Prop :=
  match x with FEnumStruct i => fields_read i = true | FMethodmap i => inherited_rows i <> None | _ => True end.

Lemma function_row_view : forall mk j f, at_index (functions t) (view_function root t) j = Some f -> function_row root t mk j = Some (KFunction, fv_at f, mk j).
Proof.
  intros mk j f H. unfold at_index in H. unfold function_row. destruct (nth_error (functions t) j) as [g|]; [|discriminate]. unfold view_function, place in H.
  destruct (read_params root t (fn_params g)); [|discriminate]. destruct (get_raw (plain root) (fn_ast g)); [|discriminate]. injection H as <-. reflexivity.
Qed.
Lemma es_rows_view : forall i x y, view_es_item root t x = Some y ->
  es_rows root t i x = Some (match x, y with ESMethod j, EVMethod f => [(KFunction, fv_at f, InEnumStruct i j)] | _, _ => [] end).
Proof.
  intros i [j|j] y H; cbn [view_es_item es_rows] in *.
  - destruct (at_index (functions t) (view_function root t) j) as [f|] eqn:E; [|discriminate]. injection H as <-. rewrite (function_row_view _ _ _ E). reflexivity.
  - reflexivity.
Qed.
Lemma mm_rows_view : forall i x y, view_mm_item root t x = Some y -> exists rows, mm_rows root t i x = Some rows /\
  (forall k p d, In (k, p, d) rows -> k = KFunction /\ exists j f, d = InMethodmap i j /\ at_index (functions t) (view_function root t) j = Some f /\ fv_at f = p /\
     (x = MMMethod j \/ exists q pr, x = MMProperty q /\ nth_error (properties t) q = Some pr /\ In j (indices (pr_accessors pr)))) /\
  (forall f, (y = MVMethod f \/ exists n ty acc p, y = MVProperty n ty acc p /\ In f acc) -> exists j, In (KFunction, fv_at f, InMethodmap i j) rows).
Proof.
  intros i [j|q] y H; cbn [view_mm_item mm_rows] in *.
  - destruct (at_index (functions t) (view_function root t) j) as [f|] eqn:E; [|discriminate]. injection H as <-. rewrite (function_row_view _ _ _ E).
    eexists. split; [reflexivity|]. split.
    + intros k p d [I|[]]. injection I as <- <- <-. split; [reflexivity|]. exists j, f. auto.
    + intros g [G|(n & ty & acc & p & G & _)]; [|discriminate G]. injection G as <-. exists j. left. reflexivity.
  - unfold at_index in H. destruct (nth_error (properties t) q) as [pr|] eqn:Np; [|discriminate]. unfold view_property, place in H.
    destruct (all (at_index (functions t) (view_function root t)) (indices (pr_accessors pr))) as [acc|] eqn:Aa; [|discriminate].
    destruct (get_raw (plain root) (pr_ast pr)) as [p|]; [|discriminate]. injection H as <-.
    destruct (all_some _ _ (function_row root t (InMethodmap i)) (indices (pr_accessors pr))) as (rows & Er).
    { intros j Ij. destruct (all_in' _ _ _ _ _ Aa j Ij) as (f & _ & F). rewrite (function_row_view _ _ _ F). discriminate. }
    rewrite Er. exists rows. split; [reflexivity|]. split.
    + intros k p' d I. destruct (all_in _ _ _ _ _ Er _ I) as (j & Ij & Rj). destruct (all_in' _ _ _ _ _ Aa j Ij) as (f & _ & F).
      rewrite (function_row_view _ _ _ F) in Rj. injection Rj as <- <- <-. split; [reflexivity|]. exists j, f. repeat (split; auto). right. exists q, pr. auto.
    + intros f [G|(n & ty & acc' & p' & G & If)]; [discriminate G|]. injection G as _ _ <- _.
      destruct (all_in _ _ _ _ _ Aa f If) as (j & Ij & F). destruct (all_in' _ _ _ _ _ Er j Ij) as (r & Ir & Rr). rewrite (function_row_view _ _ _ F) in Rr. injection Rr as <-. eauto.
Qed.

(** The table of the container leads from the method to its number. *)
Lemma method_row : forall x v f (c o : spot) nm, is_declaration root t x (sp_node o) nm -> view_item root t x = Some v -> readable x ->
  has_member v f -> fv_at f = place_of (sp_node c) ->
  exists d, is_method root t d (sp_node c) (sp_node o) /\
    FindDefModel.look_up root t m est mmt (match x with FEnumStruct _ => CEnumStruct (Top x) | _ => CMethodmap (Top x) end) KFunction (pointer (sp_node c)) = Val d.
Proof.
  intros x v f c o nm D V Rd H P. change (pointer (sp_node c)) with (place_of (sp_node c)). destruct (view_facts _ _ _ _ V) as (_ & K & _).
  destruct v as [| | |n l q|n h l q| | | | | |]; cbn [has_member] in H; try contradiction; destruct x; cbn [view_key key_of] in K; try discriminate K;
    cbn [view_item] in V; unfold at_index in V; cbn [FindDefModel.look_up MethodTable.es_table MethodTable.mm_table readable] in *.
  - destruct (nth_error (enum_structs t) i) as [s|] eqn:N; [|discriminate]. unfold view_enum_struct in V.
    destruct (all (view_es_item root t) (es_items s)) as [vs|] eqn:Al; [|discriminate]. destruct (place root (es_ast s)); [|discriminate]. injection V as _ <- _.
    cbn [must bind]. rewrite Rd. cbn [must bind].
    destruct (all_some _ _ (es_rows root t i) (es_items s)) as (rows & Er).
    { intros y Iy. destruct (all_in' _ _ _ _ _ Al y Iy) as (w & _ & W). rewrite (es_rows_view i y w W). discriminate. }
    rewrite Er. cbn [must bind].
    destruct (all_in _ _ _ _ _ Al _ H) as (y & Iy & Vy). pose proof (es_rows_view i y _ Vy) as Ry.
    destruct (all_in' _ _ _ _ _ Er y Iy) as (r & Ir & Rr). rewrite Ry in Rr. injection Rr as <-.
    destruct y as [j|j]; [|cbn [view_es_item] in Vy; unfold at_index in Vy; destruct (nth_error (fields t) j) as [g|]; [|discriminate]; destruct (place root (fld_ast g)); discriminate].
    destruct (find_row_app KFunction (place_of (sp_node c)) [] (List.concat rows) (InEnumStruct i j)) as (e & Fe & Ie).
    { apply in_concat. eexists. split; [exact Ir|]. rewrite <- P. left. reflexivity. }
    cbn [app] in Fe. rewrite Fe. exists e. split; [|reflexivity].
    apply in_concat in Ie as (r2 & I2 & Ie). destruct (all_in _ _ _ _ _ Er r2 I2) as (y2 & Iy2 & R2). destruct (all_in' _ _ _ _ _ Al y2 Iy2) as (w2 & _ & W2).
    rewrite (es_rows_view i y2 w2 W2) in R2. injection R2 as <-. destruct y2 as [j2|j2]; [|destruct w2; destruct Ie]. destruct w2 as [f2|]; [|destruct Ie].
    destruct Ie as [Ie|[]]. injection Ie as Pe <-. cbn [is_method]. split; [eauto|]. split; [eauto|]. exists f2. split; [|congruence].
    cbn [view_es_item] in W2. destruct (at_index (functions t) (view_function root t) j2); [|discriminate]. injection W2 as ->. reflexivity.
  - destruct (nth_error (methodmaps t) i) as [s|] eqn:N; [|discriminate]. unfold view_methodmap in V.
    destruct (all (view_mm_item root t) (mm_items s)) as [vs|] eqn:Al; [|discriminate]. destruct (place root (mm_ast s)); [|discriminate]. injection V as _ _ <- _.
    cbn [must bind]. destruct (inherited_rows i) as [old|]; [|congruence]. cbn [must bind].
    destruct (all_some _ _ (mm_rows root t i) (mm_items s)) as (rows & Er).
    { intros y Iy. destruct (all_in' _ _ _ _ _ Al y Iy) as (w & _ & W). destruct (mm_rows_view i y w W) as (r & -> & _). discriminate. }
    rewrite Er. cbn [must bind].
    assert (G : exists y w, In y (mm_items s) /\ view_mm_item root t y = Some w /\ (w = MVMethod f \/ exists n ty acc p, w = MVProperty n ty acc p /\ In f acc)).
    { destruct H as [H|(n' & ty & acc & p' & H & If)]; destruct (all_in _ _ _ _ _ Al _ H) as (y & Iy & Vy); exists y; eexists; split; try exact Iy; (split; [exact Vy|]); [left; reflexivity|].
      right. eexists _, _, _, _. split; [reflexivity|exact If]. }
    destruct G as (y & w & Iy & Vy & G). destruct (mm_rows_view i y w Vy) as (r & Ry & _ & Ga). destruct (Ga f G) as (j & Ij).
    destruct (all_in' _ _ _ _ _ Er y Iy) as (r' & Ir & Rr). rewrite Ry in Rr. injection Rr as <-.
    destruct (find_row_app KFunction (place_of (sp_node c)) old (List.concat rows) (InMethodmap i j)) as (e & Fe & Ie).
    { apply in_concat. exists r. split; [exact Ir|]. rewrite <- P. exact Ij. }
    exists e. split; [|exact (f_equal ask Fe)].
    apply in_concat in Ie as (r2 & I2 & Ie). destruct (all_in _ _ _ _ _ Er r2 I2) as (y2 & Iy2 & R2). destruct (all_in' _ _ _ _ _ Al y2 Iy2) as (w2 & _ & W2).
    destruct (mm_rows_view i y2 w2 W2) as (r3 & R3 & Gb & _). rewrite R3 in R2. injection R2 as ->. destruct (Gb _ _ _ Ie) as (_ & j2 & f2 & -> & A2 & P2 & Y2).
    cbn [is_method]. split; [eauto|]. split; [|eauto]. exists s. split; [exact N|]. destruct Y2 as [->|(q2 & pr & -> & Np & Jn)]; [left; exact Iy2|right; eauto].
Qed.

Lemma method_to_def : forall fuel (c o : spot) v f, spot_in root c -> method_in root c o v f -> (forall x nm, is_declaration root t x (sp_node o) nm -> readable x) ->
  exists d, to_def (S (S fuel)) KFunction (pointer (sp_node c)) = Val d /\ is_method root t d (sp_node c) (sp_node o).
Proof.
  intros fuel c o v f R (Kc & Ac & Nr & Ao & Fl & Iv & Pv & H & P) Rd.
  assert (Ro : spot_in root o) by exact (nearest_in _ _ _ _ R Nr).
  destruct (declared root t m Low Map est mmt Proper fuel o v Ro Ao Fl Iv Pv) as (x & w & T & Kx & Ix & Iw & Vx & Pw & Nw).
  assert (w = v) as ->.
  { apply (one_view v w (sp_node o) f); auto. destruct (view_facts _ _ _ _ Vx) as (_ & Kv & _). congruence. }
  assert (Nm : exists nm, view_name v = Some nm /\ In (s_kind (sp_node o)) (kinds_of_key (view_key v))).
  { destruct (outline_from _ _ Iv) as (n & Un & Pn & Kn & nm & Hn & _). assert (En : n = sp_node o) by (apply (proj2 Ao); auto; congruence). rewrite En in *. exists nm. split; assumption. }
  destruct Nm as (nm & Hn & Ko).
  assert (D : is_declaration root t x (sp_node o) nm) by (split; [exact Ix|]; exists v; repeat (split; auto)).
  destruct (method_row x v f c o nm D Vx (Rd x nm D) H P) as (d & Im & L). exists d. split; [|exact Im].
  destruct (container_walk root t m Proper est mmt (S fuel) c o R Ac Nr) as (i & W). unfold FindDefModel.to_def at 1. rewrite W.
  cbn [walk]. destruct v; cbn [has_member] in H; try contradiction; cbn [view_key kinds_of_key In] in Ko; destruct Ko as [Ko|[]]; cbn [view_key] in Kx; destruct x; try discriminate Kx;
    rewrite <- Ko; cbn -[FindDefModel.to_def FindDefModel.look_up pointer]; cbn [view_key] in T; rewrite T; cbn [bind]; exact L.
Qed.
End file.

(** The name in a method leads to the method, and so does the word [get] or [set] of an accessor. Methods of the same name
    are kept apart here. *)
Theorem C50_method_name : forall root t m es_other mm_other fields_read inherited_rows node_ptr_expr fuel s p c o v f,
  proper (plain root) -> lower root = Some t -> file_def_map t = Some m ->
  spot_in root s -> is_name_node s = true -> parent s = Some p ->
  (c = p \/ In (s_kind (sp_node p)) [k_methodmap_property_getter; k_methodmap_property_setter] /\ parent p = Some c) ->
  method_in root c o v f -> (forall x nm, is_declaration root t x (sp_node o) nm -> readable fields_read inherited_rows x) ->
  exists d, find_name_def root t m (es_table root t es_other fields_read) (mm_table root t mm_other inherited_rows) node_ptr_expr (S (S fuel)) s = Val (RDef d) /\
    is_method root t d (sp_node c) (sp_node o).
Proof.
  intros root t m eo mo fr ir npe fuel s p c o v f P L M R N Pa Pc Mi Rd.
  assert (Up : forall a b, spot_in root a -> parent a = Some b -> spot_in root b).
  { intros a b Ra Pb. unfold parent in Pb. destruct (sp_up a) as [|[n j] r] eqn:E; [discriminate|]. injection Pb as <-. exact (proj1 (spot_up _ _ _ _ _ Ra E)). }
  assert (Rc : spot_in root c) by (destruct Pc as [->|(_ & Pc)]; eauto).
  destruct (method_to_def root t m P L M eo mo fr ir fuel c o v f Rc Mi Rd) as (d & T & Im). exists d. split; [|exact Im].
  pose proof Mi as (Kc & _). unfold find_name_def. rewrite N. cbn [negb]. rewrite Pa. cbn [ask bind].
  assert (Q : (if one_of (s_kind (sp_node p)) [k_methodmap_property_setter; k_methodmap_property_getter] then ask (parent p) else Val p) = Val c).
  { destruct Pc as [->|(K & Pc)].
    - cbn [In function_kinds] in Kc. repeat (destruct Kc as [Kc|Kc]; [rewrite <- Kc; reflexivity|]). destruct Kc.
    - cbn [In] in K. rewrite Pc. destruct K as [K|[K|[]]]; rewrite <- K; reflexivity. }
  rewrite Q. cbn [bind].
  assert (O : one_of (s_kind (sp_node c)) function_kinds = true).
  { unfold one_of. apply existsb_exists. exists (s_kind (sp_node c)). split; [exact Kc|apply Nat.eqb_refl]. }
  rewrite O, T. reflexivity.
Qed.
Print Assumptions C50_method_name.

(** The name of a parameter or of a local variable in a method leads into the body of this method. *)
Theorem C50_method_local : forall root t m es_other mm_other fields_read inherited_rows fuel s p c o v f,
  proper (plain root) -> lower root = Some t -> file_def_map t = Some m ->
  spot_in root s -> is_name_node s = true -> parent s = Some p -> local_declaration p -> alone root (sp_node p) ->
  nearest (source_file :: owners) (sp_up p) = Some c -> method_in root c o v f ->
  (forall x nm, is_declaration root t x (sp_node o) nm -> readable fields_read inherited_rows x) ->
  exists d, is_method root t d (sp_node c) (sp_node o) /\
    forall node_ptr_expr, find_name_def root t m (es_table root t es_other fields_read) (mm_table root t mm_other inherited_rows) node_ptr_expr (S (S (S fuel))) s =
      match node_ptr_expr d (place_of (sp_node p)) with Some e => Val (RLocal d e) | None => Nothing end.
Proof.
  intros root t m eo mo fr ir fuel s p c o v f P L M R N Pa Ld A Nr Mi Rd.
  destruct (name_node _ _ R N) as (a & i & r & E & R' & Nm). unfold parent in Pa. rewrite E in Pa. injection Pa as <-. cbn [sp_node] in *.
  destruct (method_to_def root t m P L M eo mo fr ir fuel c o v f (nearest_in _ _ _ _ R' Nr) Mi Rd) as (d & T0 & Im). exists d. split; [exact Im|]. intros npe.
  set (es := es_table root t eo fr) in *. set (mm := mm_table root t mo ir) in *.
  assert (C : FindDefModel.find_container root t m es mm (S (S (S fuel))) (pointer a) = Val (CBody d)).
  { destruct (container_walk root t m P es mm (S (S fuel)) (Spot a r) c R' A Nr) as (k & W). cbn [sp_node] in W. rewrite W.
    pose proof Mi as (Kc & _). cbn [walk]. cbn [In function_kinds] in Kc.
    repeat (destruct Kc as [Kc|Kc]; [rewrite <- Kc; cbn -[FindDefModel.to_def pointer]; rewrite T0; reflexivity|]). destruct Kc. }
  assert (T : local_to_def root t m es mm npe (S (S (S fuel))) (pointer a) = match npe d (place_of a) with Some e => Val (RLocal d e) | None => Nothing end).
  { unfold local_to_def. rewrite C. cbn [bind]. change (pointer a) with (place_of a). destruct (npe d (place_of a)); auto. }
  unfold find_name_def. rewrite N. cbn [negb]. unfold parent at 1. rewrite E. cbn [ask bind sp_node].
  destruct Ld as [K|(K & b & j & q & Eq & Kb)]; cbn [sp_node] in K.
  - rewrite K. cbn -[FindDefModel.local_to_def FindDefModel.to_def pointer]. rewrite K. cbn -[FindDefModel.local_to_def FindDefModel.to_def pointer]. exact T.
  - cbn [sp_up] in Eq. subst r. cbn [In] in K, Kb. destruct K as [K|[K|[]]]; rewrite <- K; cbn -[FindDefModel.local_to_def FindDefModel.to_def pointer]; rewrite <- K; cbn -[FindDefModel.local_to_def FindDefModel.to_def pointer];
    destruct Kb as [Kb|[Kb|[]]]; rewrite <- Kb; cbn -[FindDefModel.local_to_def FindDefModel.to_def pointer]; exact T.
Qed.
Print Assumptions C50_method_local.
