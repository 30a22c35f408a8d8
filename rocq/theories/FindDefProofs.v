(** Finding definitions: proofs. *)
From Coq Require Import List String Bool Arith Lia.
From Verif Require Import AstIdModel AstIdSpec AstIdProps TypeRefModel ItemTreeModel ItemTreeSpec ItemTreeProofs ItemTreeProps FindDefModel FindDefSpec.
Import ListNotations.
Local Open Scope string_scope.
Local Open Scope nat_scope.
Local Open Scope list_scope.

(** * The way to a node *)
Lemma reach_under : forall n up s, reach n up s -> under n (sp_node s).
Proof.
  induction 1 as [|n up i f c s I R IH]; [constructor|]. eapply under_kid; eauto.
  unfold children. apply in_map_iff. exists (f, c). split; auto. eapply nth_error_In; eauto.
Qed.
Fixpoint size (n : syn) : nat := let 'Syn _ _ _ _ c := n in S (fold_right (fun x a => size (snd x) + a) 0 c).
Lemma size_kid : forall n c, In c (children n) -> size c < size n.
Proof.
  intros [k s e x cs] c I. unfold children in I. cbn [s_kids] in I. cbn [size]. induction cs as [|[f d] r IH]; [destruct I|].
  cbn [map snd fold_right] in *. destruct I as [->|I]; [lia|]. specialize (IH I). lia.
Qed.
Lemma size_under : forall n m, under n m -> size m <= size n.
Proof. induction 1; auto. apply size_kid in H. lia. Qed.
Lemma under_below : forall n m, under n m -> below (plain n) (plain m).
Proof. induction 1; [constructor|]. eapply below_kid; eauto using plain_kid. Qed.
Lemma under_trans : forall a b c, under a b -> under b c -> under a c.
Proof. induction 1; auto. intros. eapply under_kid; eauto. Qed.

Lemma locate_eq : forall p n up, locate p n up =
  if ptr_eqb (pointer n) p then Some (Spot n up)
  else (fix first (i : nat) (l : list (string * syn)) : option spot :=
           match l with
           | [] => None
           | (_, c) :: r => if covers p (plain c) then locate p c ((n, i) :: up) else first (S i) r
           end) 0 (s_kids n).
Proof. intros p [k s e x c] up. reflexivity. Qed.

Lemma nth_le : forall l a b i c, in_order a l b -> nth_error l i = Some c -> a <= start_of c /\ start_of c <= stop_of c /\ stop_of c <= b.
Proof. intros l a b i c O N. apply in_order_kid with (l := l); auto. eapply nth_error_In; eauto. Qed.

Lemma first_kid : forall (n : syn) up p l a b k i f c m,
  in_order a (map (fun x => plain (snd x)) l) b -> (forall x, In x l -> proper (plain (snd x))) ->
  nth_error l i = Some (f, c) -> under c m -> start_of (plain m) < stop_of (plain m) -> p = pointer m ->
  (fix first (i : nat) (l : list (string * syn)) : option spot :=
           match l with
           | [] => None
           | (_, c) :: r => if covers p (plain c) then locate p c ((n, i) :: up) else first (S i) r
           end) k l = locate p c ((n, k + i) :: up).
Proof.
  intros n up p. induction l as [|[g d] r IH]; intros a b k i f c m O P N U L ->; [destruct i; discriminate|].
  cbn [map snd] in O. destruct O as (O1 & O2 & O3). destruct i as [|i]; cbn [nth_error] in N.
  - injection N as <- <-. pose proof (below_range _ _ (P _ (or_introl eq_refl)) (under_below _ _ U) O2) as (X & Y & Z). cbn [snd] in X, Y, Z.
    unfold covers, pointer, ptr_of. rewrite (proj2 (Nat.leb_le _ _) X), (proj2 (Nat.leb_le _ _) Z). cbn [andb]. rewrite Nat.add_0_r. auto.
  - assert (covers (pointer m) (plain d) = false) as ->.
    { pose proof (in_order_kid _ _ _ (plain c) O3) as (X & Y & Z).
      { change (plain c) with ((fun x => plain (snd x)) (f, c)). apply in_map. eapply nth_error_In; eauto. }
      pose proof (P (f, c) (or_intror (nth_error_In _ _ N))) as Pc. cbn [snd] in Pc.
      pose proof (below_range _ _ Pc (under_below _ _ U) Y) as (X' & Y' & Z').
      unfold covers, pointer, ptr_of. apply andb_false_iff. right. apply Nat.leb_gt. lia. }
    rewrite (IH (stop_of (plain d)) b (S k) i f c m); auto.
    + replace (S k + i) with (k + S i) by lia. auto.
    + intros x I. apply P. cbn; auto.
Qed.

Lemma plain_kids' : forall n, kids_of (plain n) = map (fun x => plain (snd x)) (s_kids n).
Proof. intros [k s e x c]. reflexivity. Qed.

Lemma locate_spot : forall root s, proper (plain root) -> spot_in root s -> alone root (sp_node s) ->
  locate (pointer (sp_node s)) root [] = Some s.
Proof.
  intros root s P R (L & U). unfold spot_in in R.
  assert (G : forall n up, reach n up s -> under root n -> locate (pointer (sp_node s)) n up = Some s).
  { induction 1 as [n up|n up i f c s I R' IH]; intros Un.
    - rewrite locate_eq. cbn [sp_node]. rewrite (proj2 (ptr_eqb_iff _ _) eq_refl). auto.
    - assert (Ic : In c (children n)) by (unfold children; apply in_map_iff; exists (f, c); split; auto; eapply nth_error_In; eauto).
      rewrite locate_eq. destruct (ptr_eqb (pointer n) (pointer (sp_node s))) eqn:E.
      + apply ptr_eqb_iff in E. apply U in E; auto. subst.
        pose proof (size_under _ _ (reach_under _ _ _ R')). pose proof (size_kid _ _ Ic). lia.
      + rewrite (first_kid n up _ (s_kids n) (start_of (plain n)) (stop_of (plain n)) 0 i f c (sp_node s)); auto.
        * apply IH; auto. eapply under_trans; eauto. eapply under_kid; eauto. constructor.
        * rewrite <- plain_kids'. apply P. apply under_below; auto.
        * intros x Ix. eapply proper_below; [exact P|].
          assert (Ix' : In (snd x) (children n)) by (unfold children; apply in_map; auto).
          apply (under_below root (snd x)). eapply under_trans; [exact Un|]. eapply under_kid; [exact Ix'|constructor].
        * apply reach_under with (up := (n, i) :: up). auto. }
  apply G; auto. constructor.
Qed.

(** * The rows of a table *)
Lemma all_in : forall A B (f : A -> option B) l vs, all f l = Some vs -> forall v, In v vs -> exists x, In x l /\ f x = Some v.
Proof.
  induction l as [|a r IH]; cbn [all]; intros vs H v I.
  - injection H as <-. destruct I.
  - destruct (f a) as [b|] eqn:E; [|discriminate]. destruct (all f r) as [bs|] eqn:E2; [|discriminate]. injection H as <-.
    destruct I as [<-|I]; [exists a; cbn; auto|]. destruct (IH _ eq_refl _ I) as (x & Ix & Fx). exists x. cbn; auto.
Qed.
Lemma all_in' : forall A B (f : A -> option B) l vs, all f l = Some vs -> forall x, In x l -> exists v, In v vs /\ f x = Some v.
Proof.
  induction l as [|a r IH]; cbn [all]; intros vs H x I; [destruct I|].
  destruct (f a) as [b|] eqn:E; [|discriminate]. destruct (all f r) as [bs|] eqn:E2; [|discriminate]. injection H as <-.
  destruct I as [<-|I]; [exists b; cbn; auto|]. destruct (IH _ eq_refl _ I) as (v & Iv & Fv). exists v. cbn; auto.
Qed.
Lemma all_some : forall A B (f : A -> option B) l, (forall x, In x l -> f x <> None) -> exists vs, all f l = Some vs.
Proof.
  induction l as [|a r IH]; intros H; cbn [all]; [eauto|].
  destruct (f a) eqn:E; [|exfalso; eapply H; cbn; eauto]. destruct IH as (vs & ->); [intros; apply H; cbn; auto|]. eauto.
Qed.
Lemma key_eqb_iff : forall a b, key_eqb a b = true <-> a = b.
Proof. destruct a, b; cbn; split; congruence. Qed.
Lemma find_row_in : forall k p rows d, find_row k p rows = Some d -> In (k, p, d) rows.
Proof.
  induction rows as [|[[k' p'] d'] r IH]; cbn [find_row]; intros d H; [discriminate|].
  destruct (find_row k p r) as [e|] eqn:E; [injection H as <-; cbn; auto|].
  destruct (key_eqb k' k && ptr_eqb p' p) eqn:Q; [|discriminate]. injection H as <-.
  apply andb_true_iff in Q. destruct Q as (Q1 & Q2). apply key_eqb_iff in Q1. apply ptr_eqb_iff in Q2. subst. cbn; auto.
Qed.
Lemma find_row_some : forall k p rows d, In (k, p, d) rows -> find_row k p rows <> None.
Proof.
  induction rows as [|[[k' p'] d'] r IH]; cbn [find_row]; intros d I; [destruct I|].
  destruct (find_row k p r) eqn:E; [discriminate|]. destruct I as [I|I]; [|exfalso; eapply IH; eauto].
  injection I as -> -> ->. rewrite (proj2 (key_eqb_iff k k) eq_refl), (proj2 (ptr_eqb_iff p p) eq_refl). discriminate.
Qed.

(** * Items and views *)
Lemma view_facts : forall root t x v, view_item root t x = Some v ->
  item_name t x = Some (view_name v) /\ view_key v = key_of x /\
  exists a, item_ast t x = Some a /\ get_raw (plain root) a = Some (view_at v).
Proof.
  intros root t x v. destruct x; cbn [view_item key_of]; unfold at_index, item_name, item_ast, place;
    match goal with |- context [nth_error ?l ?i] => destruct (nth_error l i) as [r|] eqn:N end; try discriminate; cbn [option_map].
  all: unfold view_function, view_variable, view_enum_struct, view_methodmap, view_enum, view_typeset, view_funcenum, view_typedef, view_functag, view_variant, place.
  all: repeat match goal with |- context [match ?o with Some _ => _ | None => None end] => destruct o eqn:? end; try discriminate.
  all: intros H; injection H as <-.
  all: repeat match goal with Q : (match ?o with Some _ => _ | None => None end) = Some _ |- _ => destruct o eqn:?; [|discriminate] end.
  all: try match goal with Q : Some _ = Some _ |- _ => injection Q as <- end.
  all: cbn; repeat split; eauto.
Qed.

(** Where a declaration comes from. *)
Definition kinds_of_key (k : key) : list nat :=
  match k with
  | KFunction => [k_function_definition; k_function_declaration]
  | KGlobal => [k_variable_declaration; k_old_variable_declaration]
  | KMacro => [k_preproc_macro; k_preproc_define]
  | KEnumStruct => [k_enum_struct] | KMethodmap => [k_methodmap] | KEnum => [k_enum] | KVariant => [k_enum_entry]
  | KTypedef => [k_typedef] | KTypeset => [k_typeset] | KFunctag => [k_functag] | KFuncenum => [k_funcenum]
  | KField => [] | KProperty => []
  end.
Definition comes_from (root : syn) (v : view) (n : syn) : Prop :=
  under root n /\ view_at v = place_of n /\ In (s_kind n) (kinds_of_key (view_key v)) /\
  exists nm, view_name v = Some nm /\ forall nm', name_of n = Some nm' -> nm' = nm.

Lemma named_in : forall A n (f : string -> A) v, In v (named n f) -> exists nm, name_of n = Some nm /\ v = f nm.
Proof. intros A n f v. unfold named. destruct (name_of n) as [nm|]; cbn; [|tauto]. intros [<-|[]]. eauto. Qed.
Lemma child_under : forall root n, In n (children root) -> under root n.
Proof. intros. eapply under_kid; eauto. constructor. Qed.
Lemma in_opt : forall A (a : A) o, In a (opt o) -> o = Some a.
Proof. intros A a [b|]; cbn; [|tauto]. intros [->|[]]; auto. Qed.
Lemma under_nodes : forall root n, In n (nodes_below root) -> under root n.
Proof.
  intros root. remember (size root) as z eqn:Z. revert root Z. induction z as [z IH] using lt_wf_ind. intros [k s e x c] -> n [<-|I]; [constructor|].
  apply in_flat_map in I. destruct I as ([f d] & Id & I).
  assert (Ic : In d (children (Syn k s e x c))) by (unfold children; apply in_map_iff; exists (f, d); auto).
  eapply under_kid; [exact Ic|]. eapply IH; [apply size_kid; exact Ic|reflexivity|exact I].
Qed.

Ltac named_view H := apply named_in in H; destruct H as (?nm & ?Nm & ->).
Lemma written_from : forall root n v, In n (children root) -> In v (written_item root n) -> exists d, comes_from root v d.
Proof.
  intros root n v I V. pose proof (child_under _ _ I) as U. unfold written_item in V.
  Ltac done_named n Nm K := exists n; repeat split; auto; [rewrite K; cbn; auto|cbn; eexists; split; [reflexivity|intros nm' E; rewrite Nm in E; congruence]].
  destruct (s_kind n =? k_function_definition) eqn:K; [apply Nat.eqb_eq in K|clear K; destruct (s_kind n =? k_function_declaration) eqn:K; [apply Nat.eqb_eq in K|clear K]].
  1, 2: apply in_map_iff in V; destruct V as (f & <- & V); unfold plain_function, written_function in V; named_view V; done_named n Nm K.
  destruct (s_kind n =? k_global_variable_declaration).
  { unfold written_variables in V. apply in_flat_map in V. destruct V as (d & Id & V). unfold written_variable in V. named_view V.
    apply filter_In in Id. destruct Id as (Id & K). unfold has_kind in K. apply Nat.eqb_eq in K.
    exists d. repeat split; auto; [eapply under_trans; eauto; eapply under_kid; eauto; constructor|rewrite K; cbn; auto|
      cbn; eexists; split; [reflexivity|intros nm' E; rewrite Nm in E; congruence]]. }
  destruct (s_kind n =? k_old_global_variable_declaration).
  { unfold written_old_variables in V. apply in_flat_map in V. destruct V as (d & Id & V). unfold written_variable in V. named_view V.
    apply filter_In in Id. destruct Id as (Id & K). unfold has_kind in K. apply Nat.eqb_eq in K.
    exists d. repeat split; auto; [eapply under_trans; eauto; eapply under_kid; eauto; constructor|rewrite K; cbn; auto|
      cbn; eexists; split; [reflexivity|intros nm' E; rewrite Nm in E; congruence]]. }
  destruct (s_kind n =? k_enum) eqn:K.
  { apply Nat.eqb_eq in K. unfold written_enum in V. apply in_app_or in V. destruct V as [V|[<-|[]]].
    - apply in_map_iff in V. destruct V as (w & <- & V). unfold written_variants in V. apply in_flat_map in V. destruct V as (d & Id & V).
      named_view V. apply filter_In in Id. destruct Id as (Id & Kd). unfold has_kind in Kd. apply Nat.eqb_eq in Kd.
      unfold inside in Id. apply in_flat_map in Id. destruct Id as (es & Ie & Id). apply in_opt in Ie. apply field_child in Ie.
      exists d. repeat split; auto.
      + eapply under_trans; [exact U|]. eapply under_kid; [exact Ie|]. eapply under_kid; [exact Id|constructor].
      + rewrite Kd; cbn; auto.
      + cbn; eexists; split; [reflexivity|intros nm' E; rewrite Nm in E; congruence].
    - exists n. repeat split; auto; [rewrite K; cbn; auto|]. cbn [view_name]. eexists; split; [reflexivity|].
      intros nm' E. unfold enum_name. rewrite E. auto. }
  clear K. destruct (s_kind n =? k_enum_struct) eqn:K; [apply Nat.eqb_eq in K; named_view V; done_named n Nm K|].
  clear K. destruct (s_kind n =? k_methodmap) eqn:K; [apply Nat.eqb_eq in K; named_view V; done_named n Nm K|].
  clear K. destruct (s_kind n =? k_typedef) eqn:K.
  { apply Nat.eqb_eq in K. apply in_flat_map in V. destruct V as (e & _ & V). apply in_flat_map in V. destruct V as (l & V & Il).
    named_view V. apply in_map_iff in Il. destruct Il as (d & <- & Il). unfold written_typedef in Il. apply in_map_iff in Il.
    destruct Il as (ty & <- & _). done_named n Nm K. }
  clear K. destruct (s_kind n =? k_typeset) eqn:K; [apply Nat.eqb_eq in K; named_view V; done_named n Nm K|].
  clear K. destruct (s_kind n =? k_functag) eqn:K.
  { apply Nat.eqb_eq in K. apply in_map_iff in V. destruct V as (g & <- & V). named_view V. done_named n Nm K. }
  clear K. destruct (s_kind n =? k_funcenum) eqn:K; [apply Nat.eqb_eq in K; named_view V; done_named n Nm K|].
  destruct V.
Qed.
Lemma outline_from : forall root v, In v (outline root) -> exists n, comes_from root v n.
Proof.
  intros root v V. unfold outline in V. apply in_app_or in V. destruct V as [V|V].
  - apply in_flat_map in V. destruct V as (n & I & V). eapply written_from; eauto.
  - unfold written_macros in V. apply in_flat_map in V. destruct V as (n & I & V). apply filter_In in I. destruct I as (I & K).
    named_view V. exists n. repeat split; auto using under_nodes.
    + unfold is_macro, has_kind in K. apply orb_true_iff in K. destruct K as [K|K]; apply Nat.eqb_eq in K; rewrite K; cbn; auto.
    + cbn; eexists; split; [reflexivity|intros nm' E; rewrite Nm in E; congruence].
Qed.

(** * The definitions of a file *)
Definition has_name (t : itree) (x : file_item) : bool := match item_name t x with Some (Some _) => true | _ => false end.
Lemma get_enter : forall nm x vs nm', get nm' (enter nm x vs) =
  if String.eqb nm nm' then Some (match get nm' vs with Some l => l ++ [x] | None => [x] end) else get nm' vs.
Proof.
  induction vs as [|[n l] r IH]; intros nm'; cbn [enter get].
  - destruct (String.eqb nm nm'); auto.
  - destruct (String.eqb n nm) eqn:E.
    + apply String.eqb_eq in E. subst. cbn [get]. destruct (String.eqb nm nm'); auto.
    + cbn [get]. rewrite IH. destruct (String.eqb nm nm') eqn:E2; auto.
      apply String.eqb_eq in E2. subst. rewrite E. auto.
Qed.
Definition some_list {A} (l : list A) : option (list A) := match l with [] => None | _ => Some l end.
Lemma def_map_each : forall t l m m', each (declare_item t) l m = Some m' ->
  (forall nm, get nm (dm_values m') = some_list ((match get nm (dm_values m) with Some l => l | None => [] end) ++ filter (named_item t nm) l)
     \/ get nm (dm_values m) = Some []) /\
  dm_macros m' = dm_macros m ++ filter is_fmacro l /\ dm_decls m' = dm_decls m ++ filter (has_name t) l.
Proof.
  induction l as [|x r IH]; intros m m' H; cbn [each filter] in *.
  - injection H as <-. rewrite !app_nil_r. repeat split; auto. intros nm. rewrite app_nil_r.
    destruct (get nm (dm_values m)) as [[|y l]|]; cbn; auto.
  - unfold declare_item at 1 in H. destruct (item_name t x) as [o|] eqn:N; [|discriminate].
    apply IH in H. destruct H as (G & Mc & Dc). split; [|split].
    + intros nm. destruct (G nm) as [E|E].
      * rewrite E. unfold named_item at 2. rewrite N.
        destruct o as [n|].
        -- destruct (is_fmacro x); cbn [dm_values declare]; rewrite get_enter;
             destruct (String.eqb n nm) eqn:Q; destruct (get nm (dm_values m)) as [l|]; rewrite <- ?app_assoc; auto.
        -- destruct (is_fmacro x); cbn [dm_values]; auto.
      * destruct o as [n|]; destruct (is_fmacro x); cbn [dm_values declare] in E; auto; rewrite get_enter in E;
          (destruct (String.eqb n nm); [|auto]); destruct (get nm (dm_values m)) as [[|y l]|]; discriminate.
    + rewrite Mc. destruct o as [n|]; destruct (is_fmacro x); cbn [dm_macros declare]; rewrite <- ?app_assoc; auto.
    + rewrite Dc. unfold has_name at 2. rewrite N. destruct o as [n|]; destruct (is_fmacro x); cbn [dm_decls declare]; rewrite <- ?app_assoc; auto.
Qed.
Lemma def_map_values : forall t m, file_def_map t = Some m ->
  (forall nm, get nm (dm_values m) = some_list (filter (named_item t nm) (top t))) /\
  dm_macros m = filter is_fmacro (top t) /\ dm_decls m = filter (has_name t) (top t).
Proof.
  intros t m H. apply def_map_each in H. destruct H as (G & Mc & Dc). split; [|auto].
  intros nm. destruct (G nm) as [E|E]; [exact E|discriminate].
Qed.
Lemma get_first_named : forall t m, file_def_map t = Some m -> forall nm, get_first m nm = hd_error (filter (named_item t nm) (top t)).
Proof.
  intros t m H nm. unfold get_first. rewrite (proj1 (def_map_values t m H) nm). destruct (filter _ _); auto.
Qed.

Section file.
Variable root : syn.
Variable t : itree.
Variable m : def_map.
Hypothesis Low : lower root = Some t.
Hypothesis Map : file_def_map t = Some m.

Lemma top_view : forall x, In x (top t) -> exists v, In v (outline root) /\ view_item root t x = Some v.
Proof. intros x I. eapply all_in'; eauto using lower_written. Qed.
Lemma view_top : forall v, In v (outline root) -> exists x, In x (top t) /\ view_item root t x = Some v.
Proof. intros v I. eapply all_in; eauto using lower_written. Qed.
Lemma all_named : dm_decls m = top t.
Proof.
  rewrite (proj2 (proj2 (def_map_values t m Map))).
  assert (H : forall l, (forall x, In x l -> has_name t x = true) -> filter (has_name t) l = l).
  { induction l as [|x l IH]; cbn; auto. intros A. rewrite (A x) by auto. rewrite IH; auto. }
  apply H. intros x I. destruct (top_view x I) as (v & Iv & Vx). destruct (outline_from _ _ Iv) as (n & _ & _ & _ & nm & N & _).
  destruct (view_facts _ _ _ _ Vx) as (F & _). unfold has_name. rewrite F, N. auto.
Qed.
Lemma file_rows : exists rows, all (file_row root t) (dm_decls m) = Some rows /\
  (forall k p d, In (k, p, d) rows <-> exists x v, d = Top x /\ In x (top t) /\ In v (outline root) /\ view_item root t x = Some v /\ k = view_key v /\ p = view_at v).
Proof.
  rewrite all_named.
  assert (F : forall x, In x (top t) -> exists v, In v (outline root) /\ view_item root t x = Some v /\ file_row root t x = Some (view_key v, view_at v, Top x)).
  { intros x I. destruct (top_view x I) as (v & Iv & Vx). exists v. repeat split; auto.
    destruct (view_facts _ _ _ _ Vx) as (_ & K & a & A & P). unfold file_row. rewrite A, P, K. auto. }
  destruct (all_some _ _ (file_row root t) (top t)) as (rows & R).
  { intros x I. destruct (F x I) as (v & _ & _ & ->). discriminate. }
  exists rows. split; auto. intros k p d. split.
  - intros I. destruct (all_in _ _ _ _ _ R _ I) as (x & Ix & Fx). destruct (F x Ix) as (v & Iv & Vx & Rx).
    rewrite Rx in Fx. injection Fx as <- <- <-. exists x, v. auto 8.
  - intros (x & v & -> & Ix & Iv & Vx & -> & ->). destruct (all_in' _ _ _ _ _ R _ Ix) as (r & Ir & Rx).
    destruct (F x Ix) as (v' & Iv' & Vx' & Rx'). rewrite Vx in Vx'. injection Vx' as <-. rewrite Rx' in Rx. injection Rx as <-. auto.
Qed.

Variable es_table mm_table : def -> key -> ptr -> res def.
Variable node_ptr_expr : def -> ptr -> option nat.
Notation look_up := (look_up root t m es_table mm_table).
Notation find_container := (find_container root t m es_table mm_table).
Notation to_def := (to_def root t m es_table mm_table).
Notation find_name_def := (find_name_def root t m es_table mm_table node_ptr_expr).

Lemma look_up_file : forall v, In v (outline root) -> exists x v', look_up CFile (view_key v) (view_at v) = Val (Top x) /\
  In x (top t) /\ In v' (outline root) /\ view_item root t x = Some v' /\ view_key v' = view_key v /\ view_at v' = view_at v.
Proof.
  intros v Iv. cbn [FindDefModel.look_up]. destruct file_rows as (rows & R & S). rewrite R. cbn [must bind].
  destruct (view_top v Iv) as (y & Iy & Vy).
  destruct (find_row (view_key v) (view_at v) rows) as [d|] eqn:E.
  - apply find_row_in in E. apply S in E. destruct E as (x & v' & -> & Ix & Iv' & Vx & K & P). exists x, v'. cbn. auto 8.
  - exfalso. revert E. eapply find_row_some. apply S. exists y, v. eauto 8.
Qed.

Hypothesis Proper : proper (plain root).

Lemma walk_pass : forall td pre post, (forall a j, In (a, j) pre -> ~ In (s_kind a) (source_file :: owners)) ->
  walk td (pre ++ post) = walk td post.
Proof.
  intros td. induction pre as [|[a j] r IH]; intros post H; [auto|].
  pose proof (H a j (or_introl eq_refl)) as N. cbn [app walk].
  assert (E : forall k, In k (source_file :: owners) -> (s_kind a =? k) = false).
  { intros k I. apply Nat.eqb_neq. intros X. apply N. rewrite X. auto. }
  assert (F : one_of (s_kind a) function_kinds = false).
  { unfold one_of. destruct (existsb _ _) eqn:X; auto. apply existsb_exists in X. destruct X as (k & I & X).
    rewrite E in X; [discriminate|]. right. apply in_or_app. auto. }
  rewrite F. rewrite !E by (cbn; auto 30). cbn [orb]. apply IH. intros; eapply H; cbn; eauto.
Qed.
Lemma container_file : forall fuel s, spot_in root s -> alone root (sp_node s) -> at_file_level root s ->
  find_container (S fuel) (pointer (sp_node s)) = Val CFile.
Proof.
  intros fuel s R A (K & between & i & E & N). cbn [FindDefModel.find_container]. rewrite (locate_spot root s); auto. cbn [must bind].
  rewrite E, walk_pass; auto. cbn [walk]. rewrite K. auto.
Qed.
(** The item found for a declaration of the file. *)
Lemma declared : forall fuel s v, spot_in root s -> alone root (sp_node s) -> at_file_level root s ->
  In v (outline root) -> view_at v = place_of (sp_node s) ->
  exists x v', to_def (S fuel) (view_key v) (pointer (sp_node s)) = Val (Top x) /\ key_of x = view_key v /\ In x (top t) /\ In v' (outline root) /\
    view_item root t x = Some v' /\ view_at v' = place_of (sp_node s) /\
    forall nm, name_of (sp_node s) = Some nm -> view_name v' = Some nm.
Proof.
  intros fuel s v R A F Iv P. unfold FindDefModel.to_def. rewrite container_file; auto. cbn [bind].
  destruct (look_up_file v Iv) as (x & v' & L & Ix & Iv' & Vx & K & P').
  change (pointer (sp_node s)) with (place_of (sp_node s)). rewrite <- P. exists x, v'.
  destruct (view_facts _ _ _ _ Vx) as (_ & K' & _). repeat split; auto; try congruence.
  intros nm N. destruct (outline_from _ _ Iv') as (d & Ud & Pd & Kd & nm' & N' & Q).
  assert (d = sp_node s) as -> by (apply (proj2 A); auto; congruence). rewrite N'. f_equal. symmetry. auto.
Qed.
End file.
