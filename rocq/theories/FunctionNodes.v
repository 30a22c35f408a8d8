(** Which nodes are functions, for finding definitions (C50) and for the bodies names are looked up in (C72). *)
From Coq Require Import List String Bool Arith Lia.
From Verif Require Import AstIdModel TypeRefModel ItemTreeModel ItemTreeSpec FindDefModel CursorModel.
Import ListNotations.
Local Open Scope string_scope.
Local Open Scope nat_scope.
Local Open Scope list_scope.

Lemma kind_is k n : has_kind k n = true -> s_kind n = k.
Proof. unfold has_kind. apply Nat.eqb_eq. Qed.

(** How a node can be read as a function: at the top of a file, in an enum struct, in a methodmap, in a property. *)
Definition read_as_function (root n : syn) (fv : fn_view) : Prop :=
  In (VFunction fv) (written_item root n) \/ In (EVMethod fv) (written_es_item n) \/
  In (MVMethod fv) (written_mm_item n) \/ exists ty, In fv (written_accessors ty n).

Ltac is_fn K := rewrite K; cbn; tauto.

(** Every node read as a function by the outline of a file is a function when a definition is looked for. *)
Theorem C50_functions : forall root n fv, read_as_function root n fv -> In (s_kind n) function_kinds.
Proof.
  intros root n fv [H|[H|[H|(ty & H)]]].
  - unfold written_item in H.
    destruct (s_kind n =? k_function_definition) eqn:K1; [apply Nat.eqb_eq in K1; is_fn K1|].
    destruct (s_kind n =? k_function_declaration) eqn:K2; [apply Nat.eqb_eq in K2; is_fn K2|].
    exfalso.  assert (T : forall (l : list typedef_view), In (VFunction fv) (map VTypedef l) -> False).
    { intros l I. apply in_map_iff in I as (x & I & _). discriminate I. }
    assert (V : forall ty c, In (VFunction fv) (written_variable ty n c) -> False).
    { intros ty c I. unfold written_variable, named in I. destruct (name_of c); [destruct I as [I|[]]; discriminate I|destruct I]. }
    repeat match type of H with In _ (if ?b then _ else _) => destruct b end; try exact H.
    + apply in_flat_map in H as (c & _ & H). exact (V _ _ H).
    + apply in_flat_map in H as (c & _ & H). exact (V _ _ H).
    + apply in_app_or in H as [H|H]; [apply in_map_iff in H as (x & H & _)|destruct H as [H|[]]]; discriminate H.
    + unfold named in H. destruct (name_of n); [destruct H as [H|[]]; discriminate H|destruct H].
    + unfold named in H. destruct (name_of n); [destruct H as [H|[]]; discriminate H|destruct H].
    + apply in_flat_map in H as (e & _ & H). apply in_flat_map in H as (x & I & H).
      unfold named in I. destruct (name_of n); [destruct I as [<-|[]]; exact (T _ H)|destruct I].
    + unfold named in H. destruct (name_of n); [destruct H as [H|[]]; discriminate H|destruct H].
    + apply in_map_iff in H as (x & H & _). discriminate H.
    + unfold named in H. destruct (name_of n); [destruct H as [H|[]]; discriminate H|destruct H].
  - unfold written_es_item in H. destruct (has_kind k_enum_struct_field n).
    + exfalso. apply in_flat_map in H as (x & _ & H). unfold named, opt in H. destruct (name_of n); [|destruct H].
      destruct H as [H|[]]. discriminate H.
    + destruct (has_kind k_enum_struct_method n) eqn:K; [apply kind_is in K; is_fn K|destruct H].
  - unfold written_mm_item in H. apply in_app_or in H as [H|H].
    + exfalso. destruct (has_kind k_methodmap_property n); [|destruct H]. unfold written_property in H.
      apply in_flat_map in H as (x & _ & H). unfold named, opt in H. destruct (name_of n); [|destruct H].
      destruct H as [H|[]]. discriminate H.
    + apply in_flat_map in H as ((k & native & sp) & I & H). destruct (has_kind k n) eqn:K; [|destruct H].
      apply kind_is in K. rewrite K. unfold method_kinds in I. cbn [In] in I.
      repeat (destruct I as [I|I]; [injection I as <- _ _; cbn; tauto|]). destruct I.
  - unfold written_accessors in H.
    destruct (has_kind k_methodmap_property_method n) eqn:K1; [apply kind_is in K1; is_fn K1|].
    destruct (has_kind k_methodmap_property_native n) eqn:K2; [apply kind_is in K2; is_fn K2|destruct H].
Qed.
Print Assumptions C50_functions.

(** And no others are: each of these kinds is read as a function where the node has a name, or a getter inside. *)
Theorem C50_only_functions : forall root n, In (s_kind n) function_kinds ->
  (~ In (s_kind n) [185; 186] -> name_of n <> None) ->
  (In (s_kind n) [185; 186] -> exists g, In g (children n) /\ has_kind k_methodmap_property_getter g = true) ->
  exists fv, read_as_function root n fv.
Proof.
  intros root n K Nm Ge.
  assert (W : forall kind a b c sp, ~ In (s_kind n) [185; 186] -> exists fv, In fv (written_function kind a b c sp n)).
  { intros kind a b c sp X. apply Nm in X. unfold written_function, named. destruct (name_of n); [|congruence]. eexists. left. reflexivity. }
  assert (A : forall ty kind, In (s_kind n) [185; 186] -> exists fv, In fv (flat_map (written_accessor ty kind n) (children n))).
  { intros ty kind X. destruct (Ge X) as (g & Ig & Kg). eexists. apply in_flat_map. exists g. split; [exact Ig|]. unfold written_accessor. rewrite Kg. left. reflexivity. }
  unfold function_kinds in K. cbn [In] in K. unfold read_as_function.
  repeat destruct K as [K|K].
  - destruct (W (written_kind n) (word k_anon_public n) (word k_anon_stock n) (word k_anon_static n) None ltac:(rewrite <- K; vm_compute; intuition discriminate)) as (fv & I).
    exists fv. left. unfold written_item. rewrite <- K. cbn [Nat.eqb]. apply in_map. exact I.
  - destruct (W (written_kind n) (word k_anon_public n) (word k_anon_stock n) (word k_anon_static n) None ltac:(rewrite <- K; vm_compute; intuition discriminate)) as (fv & I).
    exists fv. left. unfold written_item. rewrite <- K. cbn. apply in_map. exact I.
  - destruct (W (written_kind n) (word k_anon_public n) (word k_anon_stock n) (word k_anon_static n) None ltac:(rewrite <- K; vm_compute; intuition discriminate)) as (fv & I).
    exists fv. right. left. unfold written_es_item, has_kind. rewrite <- K. cbn. apply in_map. exact I.
  - destruct (W Native true false (existsb (has_kind k_anon_static) (children n)) None ltac:(rewrite <- K; vm_compute; intuition discriminate)) as (fv & I).
    exists fv. right. right. left. unfold written_mm_item. apply in_or_app. right. apply in_flat_map.
    exists (k_methodmap_native, (true, None)). split; [cbn; tauto|]. unfold has_kind at 1. rewrite <- K, Nat.eqb_refl. apply in_map. exact I.
  - destruct (W Native true false (existsb (has_kind k_anon_static) (children n)) (Some Constructor) ltac:(rewrite <- K; vm_compute; intuition discriminate)) as (fv & I).
    exists fv. right. right. left. unfold written_mm_item. apply in_or_app. right. apply in_flat_map.
    exists (k_methodmap_native_constructor, (true, Some Constructor)). split; [cbn; tauto|]. unfold has_kind at 1. rewrite <- K, Nat.eqb_refl. apply in_map. exact I.
  - destruct (W Native true false (existsb (has_kind k_anon_static) (children n)) (Some Destructor) ltac:(rewrite <- K; vm_compute; intuition discriminate)) as (fv & I).
    exists fv. right. right. left. unfold written_mm_item. apply in_or_app. right. apply in_flat_map.
    exists (k_methodmap_native_destructor, (true, Some Destructor)). split; [cbn; tauto|]. unfold has_kind at 1. rewrite <- K, Nat.eqb_refl. apply in_map. exact I.
  - destruct (W (written_kind n) true false (existsb (has_kind k_anon_static) (children n)) None ltac:(rewrite <- K; vm_compute; intuition discriminate)) as (fv & I).
    exists fv. right. right. left. unfold written_mm_item. apply in_or_app. right. apply in_flat_map.
    exists (k_methodmap_method, (false, None)). split; [cbn; tauto|]. unfold has_kind at 1. rewrite <- K, Nat.eqb_refl. apply in_map. exact I.
  - destruct (W (written_kind n) true false (existsb (has_kind k_anon_static) (children n)) (Some Constructor) ltac:(rewrite <- K; vm_compute; intuition discriminate)) as (fv & I).
    exists fv. right. right. left. unfold written_mm_item. apply in_or_app. right. apply in_flat_map.
    exists (k_methodmap_method_constructor, (false, Some Constructor)). split; [cbn; tauto|]. unfold has_kind at 1. rewrite <- K, Nat.eqb_refl. apply in_map. exact I.
  - destruct (W (written_kind n) true false (existsb (has_kind k_anon_static) (children n)) (Some Destructor) ltac:(rewrite <- K; vm_compute; intuition discriminate)) as (fv & I).
    exists fv. right. right. left. unfold written_mm_item. apply in_or_app. right. apply in_flat_map.
    exists (k_methodmap_method_destructor, (false, Some Destructor)). split; [cbn; tauto|]. unfold has_kind at 1. rewrite <- K, Nat.eqb_refl. apply in_map. exact I.
  - destruct (A TInt Native ltac:(rewrite <- K; vm_compute; intuition discriminate)) as (fv & I). exists fv. right. right. right. exists TInt. unfold written_accessors, has_kind at 1 2. rewrite <- K. cbn. exact I.
  - destruct (A TInt Def ltac:(rewrite <- K; vm_compute; intuition discriminate)) as (fv & I). exists fv. right. right. right. exists TInt. unfold written_accessors, has_kind at 1. rewrite <- K. cbn. exact I.
  - destruct K.
Qed.
Print Assumptions C50_only_functions.

(** The parameters a body is lowered with: those of a setter are the one the setter takes, a getter takes none, and of any other
    function they are the first list of parameters in it. *)
Theorem C72_parameters : forall n,
  (In (s_kind n) [185; 186] ->
     (forall before e after, children n = before ++ e :: after -> s_kind e = 188 -> (forall b, In b before -> s_kind b <> 188) ->
        params_list n = child_by_field_name "parameter" e) /\
     ((forall e, In e (children n) -> s_kind e <> 188) -> params_list n = None)) /\
  (~ In (s_kind n) [185; 186] ->
     (forall before e after, children n = before ++ e :: after -> s_kind e = 147 -> (forall b, In b before -> s_kind b <> 147) ->
        params_list n = Some e) /\
     ((forall e, In e (children n) -> s_kind e <> 147) -> params_list n = None)).
Proof.
  intro n.
  assert (F : forall k before e after, s_kind e = k -> (forall b, In b before -> s_kind b <> k) ->
            find (has_kind k) (before ++ e :: after) = Some e).
  { intros k before e after E B. induction before as [|b r IH]; cbn [find app].
    - unfold has_kind. rewrite E, Nat.eqb_refl. reflexivity.
    - unfold has_kind at 1. destruct (Nat.eqb_spec (s_kind b) k) as [Q|_]; [destruct (B b (or_introl eq_refl) Q)|].
      apply IH. intros x I. apply B. right. exact I. }
  assert (G : forall k l, (forall b, In b l -> s_kind b <> k) -> find (has_kind k) l = None).
  { intros k l B. induction l as [|b r IH]; [reflexivity|]. cbn [find]. unfold has_kind at 1.
    destruct (Nat.eqb_spec (s_kind b) k) as [Q|_]; [destruct (B b (or_introl eq_refl) Q)|]. apply IH. intros x I. apply B. right. exact I. }
  unfold params_list. split; intro K.
  - assert (O : one_of (s_kind n) [k_methodmap_property_native; k_methodmap_property_method] = true).
    { destruct K as [<-|[<-|[]]]; reflexivity. }
    rewrite O. split.
    + intros before e after C E B. rewrite C, (F k_methodmap_property_setter) by assumption. reflexivity.
    + intro B. rewrite (G k_methodmap_property_setter) by assumption. reflexivity.
  - assert (O : one_of (s_kind n) [k_methodmap_property_native; k_methodmap_property_method] = false).
    { unfold one_of. apply not_true_iff_false. intro X. apply existsb_exists in X as (k & I & E). apply Nat.eqb_eq in E. subst k. exact (K I). }
    rewrite O. split.
    + intros before e after C E B. rewrite C, (F k_parameter_declarations) by assumption. reflexivity.
    + intro B. apply (G k_parameter_declarations). assumption.
Qed.
Print Assumptions C72_parameters.

(** A setter with its parameter. *)
Example C72_parameters_nontrivial :
  let par := Syn 148 4 9 "int v" [("name", Syn 1 8 9 "v" [])] in
  let set := Syn 188 0 10 "set(int v)" [("name", Syn 80 0 3 "set" []); ("parameter", par)] in
  let n := Syn 186 0 13 "" [("", set); ("body", Syn 201 11 13 "{}" [])] in
  params_list n = Some par /\ In (s_kind n) function_kinds /\
  read_as_function n n (FnView "set" Def false false false [ParamView None false false false (place_of par)] None None (place_of n)).
Proof.
  split; [vm_compute; reflexivity|]. split; [vm_compute; tauto|]. right. right. right. exists TInt. vm_compute. left. reflexivity.
Qed.
