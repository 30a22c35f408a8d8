(** C49: a file's item tree lists its declarations. *)
From Coq Require Import List String Bool Arith NArith Lia.
From Verif Require Import AstIdModel AstIdSpec AstIdProps TypeRefModel ItemTreeModel ItemTreeSpec ItemTreeProofs.
Import ListNotations.
Local Open Scope string_scope.
Local Open Scope nat_scope.
Local Open Scope list_scope.

(** Reading the item tree of a file, table by table and index by index, gives exactly what the file declares: each
    declaration once, in the order of the text, with its name, its words, its parameters, its members and the
    place it stands at; then the macros. *)
Theorem C49_items : forall root t, lower root = Some t -> all (view_item root t) (top t) = Some (outline root).
Proof. intros. apply lower_written; auto. Qed.
Print Assumptions C49_items.

(** * Types *)
Lemma app_empty : forall s, (s ++ "")%string = s.
Proof. induction s; cbn; congruence. Qed.
Lemma trim_colons_spec : forall s, exists cs, s = (trim_colons s ++ cs)%string /\ colons cs /\ forall m, trim_colons s <> (m ++ ":")%string.
Proof.
  induction s as [|c r (cs & E & C & L)].
  - exists "". repeat split; auto. { intros i c; destruct i; discriminate. } intros m; destruct m; discriminate.
  - cbn [trim_colons]. destruct (trim_colons r) as [|c' r'] eqn:T.
    + destruct (Ascii.eqb_spec c (Ascii.ascii_of_nat 58)) as [->|N].
      * exists (String (Ascii.ascii_of_nat 58) cs). cbn in E. rewrite E. split; auto. split.
        { intros [|i] x; cbn; [congruence|apply C]. }
        intros m; destruct m; discriminate.
      * exists cs. cbn in E. rewrite E. split; auto. split; auto.
        intros m. destruct m as [|x m]; cbn; [intros H; injection H; auto|].
        intros H. injection H as _ H. destruct m; discriminate.
    + exists cs. split; [rewrite E at 1; auto|]. split; auto.
      intros [|x m] H; cbn in H; [discriminate|]. injection H as _ H. eapply L; eauto.
Qed.

(** A word for a type is the type it stands for; of an old style tag the colons are left out. *)
Theorem C49_types : forall n, stands_for n (type_of n).
Proof.
  intros n. unfold stands_for, type_of. repeat split.
  all: try (intros K; rewrite K; reflexivity).
  - intros [K|K]; rewrite K; reflexivity.
  - intros K. rewrite K. cbn. destruct (trim_colons_spec (s_text n)) as (cs & E & C & L). exists (trim_colons (s_text n)), cs. auto.
  - intros N. repeat match goal with
    | |- context [s_kind n =? ?k] => destruct (Nat.eqb_spec (s_kind n) k) as [K|_]; [exfalso; apply N; rewrite K; cbn; auto 12|]
    end. reflexivity.
Qed.
Print Assumptions C49_types.

(** * No crash *)
Lemma each_ok : forall A S (f : S -> A -> option S) l, (forall s a, In a l -> f s a <> None) -> forall s, each f l s <> None.
Proof.
  induction l as [|a r IH]; intros H s; cbn [each]; [discriminate|].
  destruct (f s a) eqn:E; [|exfalso; eapply H; cbn; eauto]. apply IH. intros; apply H; cbn; auto.
Qed.
Lemma field_child : forall f n c, child_by_field_name f n = Some c -> In c (children n).
Proof.
  intros f n c. unfold child_by_field_name, children_by_field_name, children.
  destruct (filter _ _) as [|[x y] l] eqn:E; cbn; [discriminate|]. intros H. injection H as <-.
  apply in_map_iff. exists (x, y). split; auto. apply filter_In with (f := fun c => String.eqb (fst c) f). rewrite E. cbn; auto.
Qed.
Lemma plain_kids : forall n, kids_of (plain n) = map plain (children n).
Proof. intros [k s e x c]. cbn. unfold children. cbn. rewrite map_map. auto. Qed.
Lemma plain_kid : forall c n, In c (children n) -> In (plain c) (kids_of (plain n)).
Proof. intros. rewrite plain_kids. apply in_map. auto. Qed.
Lemma plain_kind : forall n, kind_of (plain n) = s_kind n.
Proof. intros [k s e x c]. auto. Qed.

Section root.
Variable root : syn.
Hypothesis G : grammatical root.
Notation idof n := (id_of root n).
Definition open_ (h : syn) : Prop := under root h /\ opened (plain root) (plain h).

Lemma under_kid' : forall a b c, under a b -> In c (children b) -> under a c.
Proof. induction 1; intros; eapply under_kid; eauto using under_here. Qed.
Lemma open_kid : forall h c, open_ h -> In c (children h) -> is_container (s_kind c) = true -> open_ c.
Proof.
  intros h c (U & O) I K. split; [eapply under_kid'; eauto|]. eapply opened_kid; eauto using plain_kid. rewrite plain_kind; auto.
Qed.
Lemma id_child : forall h c, open_ h -> In c (children h) -> s_kind c <> source_file -> is_var_stmt (s_kind c) = false -> idof c <> None.
Proof.
  intros h c (_ & O) I K V E. unfold id_of in E. apply (proj1 (C40_crash_iff _ _)) with (m := plain c) in E; auto.
  eapply item_plain; eauto using plain_kid; rewrite plain_kind; auto.
Qed.
Ltac kind K := unfold has_kind in K; apply Nat.eqb_eq in K.
Ltac id_ok L := let E := fresh "E" in destruct (idof _) eqn:E; [try discriminate|exfalso; revert E; eapply L].

Lemma parameters_ok : forall t n, open_ n -> lower_parameters root t n <> None.
Proof.
  intros t n O. unfold lower_parameters. destruct (child_by_field_name "parameters" n) as [ps|] eqn:F; [|discriminate].
  pose proof (proj1 (G n ps (proj1 O)) F) as K. unfold has_kind. rewrite K. cbn [Nat.eqb].
  assert (Op : open_ ps) by (eapply open_kid; eauto using field_child; rewrite K; auto).
  replace (k_parameter_declarations =? k_parameter_declarations) with true by auto.
  destruct (each (lower_param root) (children ps) t) eqn:E; [discriminate|]. exfalso. revert E. apply each_ok.
  intros s a I. unfold lower_param.
  destruct (has_kind k_parameter_declaration a || has_kind k_rest_parameter a) eqn:K'; [|discriminate].
  apply orb_true_iff in K'. id_ok (id_child ps); eauto; destruct K' as [K'|K']; kind K'; rewrite K'; auto; discriminate.
Qed.
Lemma function__ok : forall h n vis k sp t, open_ h -> In n (children h) -> open_ n -> is_var_stmt (s_kind n) = false -> s_kind n <> source_file ->
  lower_function_ root t n vis k sp <> None.
Proof.
  intros h n vis k sp t O I On V S. unfold lower_function_.
  destruct (lower_parameters root t n) as [[t1 ps]|] eqn:P; [|exfalso; revert P; apply parameters_ok; auto].
  destruct (name_of n); [|discriminate]. id_ok (id_child h); eauto.
Qed.

Lemma child_ok : forall n t, In n (children root) -> lower_child root t n <> None.
Proof.
  intros n t I.
  assert (Or : open_ root) by (split; constructor).
  unfold lower_child.
  destruct ((s_kind n =? k_function_definition) || (s_kind n =? k_function_declaration)) eqn:K.
  { apply orb_true_iff in K. unfold lower_function.
    destruct (lower_function_ root t n None None None) as [[t1 id]|] eqn:F; [discriminate|exfalso; revert F].
    eapply function__ok; [| |eapply open_kid| |]; eauto;
      destruct K as [K|K]; apply Nat.eqb_eq in K; rewrite K; auto; discriminate. }
  clear K. destruct (s_kind n =? k_enum) eqn:K.
  { apply Nat.eqb_eq in K. unfold lower_enum.
    assert (On : open_ n) by (eapply open_kid; eauto; rewrite K; auto).
    destruct (match child_by_field_name "entries" n with Some es => _ | None => _ end) eqn:E.
    - id_ok (id_child root); eauto; rewrite K; auto; discriminate.
    - exfalso. destruct (child_by_field_name "entries" n) as [es|] eqn:F; [|discriminate]. revert E. apply each_ok.
      intros s a Ia. apply filter_In in Ia. destruct Ia as (Ia & Ka). kind Ka.
      pose proof (proj1 (proj2 (G n es (proj1 On))) F) as Ke.
      assert (Oe : open_ es) by (eapply open_kid; eauto using field_child; rewrite Ke; auto).
      unfold lower_variant. destruct (name_of a); [|discriminate]. id_ok (id_child es); eauto; rewrite Ka; auto; discriminate. }
  clear K. destruct (s_kind n =? k_global_variable_declaration) eqn:K.
  { apply Nat.eqb_eq in K. unfold lower_global_variable. apply each_ok. intros s a Ia.
    destruct (has_kind k_variable_declaration a) eqn:Ka; [|discriminate]. kind Ka. unfold lower_variable.
    destruct (name_of a); [|discriminate]. destruct (idof a) eqn:E; [discriminate|]. exfalso.
    unfold id_of in E. apply (proj1 (C40_crash_iff _ _)) with (m := plain a) in E; auto.
    eapply item_variable with (st := plain n); [constructor| | | |]; eauto using plain_kid; rewrite plain_kind, ?K, ?Ka; auto. }
  clear K. destruct (s_kind n =? k_old_global_variable_declaration) eqn:K.
  { apply Nat.eqb_eq in K. unfold lower_old_global_variable. apply each_ok. intros s a Ia.
    apply filter_In in Ia. destruct Ia as (Ia & Ka). kind Ka. unfold lower_variable.
    destruct (name_of a); [|discriminate]. destruct (idof a) eqn:E; [discriminate|]. exfalso.
    unfold id_of in E. apply (proj1 (C40_crash_iff _ _)) with (m := plain a) in E; auto.
    eapply item_variable with (st := plain n); [constructor| | | |]; eauto using plain_kid; rewrite plain_kind, ?K, ?Ka; auto. }
  clear K. destruct (s_kind n =? k_enum_struct) eqn:K.
  { apply Nat.eqb_eq in K. assert (On : open_ n) by (eapply open_kid; eauto; rewrite K; auto).
    unfold lower_enum_struct. destruct (name_of n); [|discriminate].
    destruct (each (lower_enum_struct_child root) (children n) (t, [])) as [[t1 items]|] eqn:E.
    - id_ok (id_child root); eauto; rewrite K; auto; discriminate.
    - exfalso. revert E. apply each_ok. intros [u i] a Ia. unfold lower_enum_struct_child.
      destruct (has_kind k_enum_struct_field a) eqn:Ka.
      + kind Ka. destruct (name_of a); [|discriminate]. destruct (type_in "type" a); [|discriminate].
        id_ok (id_child n); eauto; rewrite Ka; auto; discriminate.
      + clear Ka. destruct (has_kind k_enum_struct_method a) eqn:Ka; [|discriminate]. kind Ka.
        destruct (lower_function_ root u a None None None) as [[t1 id]|] eqn:F; [discriminate|exfalso; revert F].
        eapply function__ok; [| |eapply open_kid| |]; eauto; rewrite Ka; auto; discriminate. }
  clear K. destruct (s_kind n =? k_methodmap) eqn:K.
  { apply Nat.eqb_eq in K. assert (On : open_ n) by (eapply open_kid; eauto; rewrite K; auto).
    unfold lower_methodmap. destruct (name_of n); [|discriminate].
    destruct (each (lower_methodmap_child root) (children n) (t, [])) as [[t1 items]|] eqn:E.
    - id_ok (id_child root); eauto; rewrite K; auto; discriminate.
    - exfalso. revert E. apply each_ok. intros [u i] a Ia. unfold lower_methodmap_child.
      destruct (has_kind k_methodmap_property a) eqn:Ka.
      + kind Ka. assert (Oa : open_ a) by (eapply open_kid; eauto; rewrite Ka; auto).
        unfold lower_property. destruct (name_of a); [|discriminate]. destruct (type_in "type" a) as [ty|]; [|discriminate].
        destruct (each (lower_accessors root ty) (children a) u) eqn:E.
        * id_ok (id_child n); eauto; rewrite Ka; auto; discriminate.
        * exfalso. revert E. apply each_ok. intros v b Ib. unfold lower_accessors.
          assert (P : forall k w, is_container (s_kind b) = true -> is_var_stmt (s_kind b) = false -> s_kind b <> source_file ->
                      each (lower_property_method root b ty k) (children b) w <> None).
          { intros k w C Vb Sb. assert (Ob : open_ b) by (eapply open_kid; eauto). apply each_ok. intros x c Ic. unfold lower_property_method.
            destruct (has_kind k_methodmap_property_getter c) eqn:Kc; [|clear Kc; destruct (has_kind k_methodmap_property_setter c) eqn:Kc].
            - id_ok (id_child a b); auto.
            - kind Kc. assert (Oc : open_ c) by (eapply open_kid; eauto; rewrite Kc; auto).
              destruct (child_by_field_name "parameter" c) as [p|] eqn:F; [|discriminate].
              pose proof (proj2 (proj2 (G c p (proj1 Oc))) F) as Kp.
              destruct (idof p) eqn:Ep.
              + destruct (idof b) eqn:Eb; [discriminate|]. exfalso. revert Eb. eapply (id_child a); auto.
              + exfalso. revert Ep. eapply (id_child c); eauto using field_child; rewrite Kp; auto; discriminate.
            - discriminate. }
          destruct (has_kind k_methodmap_property_method b) eqn:Kb; [|clear Kb; destruct (has_kind k_methodmap_property_native b) eqn:Kb; [|discriminate]];
            kind Kb; apply P; rewrite Kb; auto; discriminate.
      + clear Ka.
        assert (M : forall k sp, is_container (s_kind a) = true -> is_var_stmt (s_kind a) = false -> s_kind a <> source_file ->
                    lower_methodmap_method root k sp (u, i) a <> None).
        { intros k sp C Va Sa. unfold lower_methodmap_method.
          destruct (lower_function_ root u a _ k sp) as [[t1 id]|] eqn:F; [discriminate|exfalso; revert F].
          eapply function__ok; eauto. eapply open_kid; eauto. }
        repeat match goal with
        | |- (if has_kind ?k a then _ else _) <> None =>
            let Ka := fresh "Ka" in destruct (has_kind k a) eqn:Ka; [kind Ka; apply M; rewrite Ka; auto; discriminate|clear Ka]
        end. discriminate. }
  clear K. destruct (s_kind n =? k_typedef) eqn:K.
  { apply Nat.eqb_eq in K. assert (On : open_ n) by (eapply open_kid; eauto; rewrite K; auto).
    unfold lower_typedef. destruct (name_of n); [|discriminate].
    destruct (find _ _) as [e|] eqn:F; [|discriminate]. apply find_some in F. destruct F as (Ie & Ke). kind Ke.
    assert (Oe : open_ e) by (eapply open_kid; eauto; rewrite Ke; auto).
    destruct (type_in "returnType" e); [|discriminate].
    destruct (lower_parameters root t e) as [[t1 ps]|] eqn:P; [|exfalso; revert P; apply parameters_ok; auto].
    id_ok (id_child root); eauto; rewrite K; auto; discriminate. }
  clear K. destruct (s_kind n =? k_typeset) eqn:K.
  { apply Nat.eqb_eq in K. assert (On : open_ n) by (eapply open_kid; eauto; rewrite K; auto).
    unfold lower_typeset. destruct (name_of n); [|discriminate].
    destruct (each _ _ t) eqn:E.
    - id_ok (id_child root); eauto; rewrite K; auto; discriminate.
    - exfalso. revert E. apply each_ok. intros u e Ie. apply filter_In in Ie. destruct Ie as (Ie & Ke). kind Ke.
      assert (Oe : open_ e) by (eapply open_kid; eauto; rewrite Ke; auto).
      unfold lower_typeset_member. destruct (type_in "returnType" e); [|discriminate].
      destruct (lower_parameters root u e) as [[t1 ps]|] eqn:P; [|exfalso; revert P; apply parameters_ok; auto].
      id_ok (id_child n); eauto; rewrite Ke; auto; discriminate. }
  clear K. destruct (s_kind n =? k_functag) eqn:K.
  { apply Nat.eqb_eq in K. assert (On : open_ n) by (eapply open_kid; eauto; rewrite K; auto).
    unfold lower_functag. destruct (name_of n); [|discriminate].
    destruct (lower_parameters root t n) as [[t1 ps]|] eqn:P; [|exfalso; revert P; apply parameters_ok; auto].
    id_ok (id_child root); eauto; rewrite K; auto; discriminate. }
  clear K. destruct (s_kind n =? k_funcenum) eqn:K; [|discriminate].
  apply Nat.eqb_eq in K. assert (On : open_ n) by (eapply open_kid; eauto; rewrite K; auto).
  unfold lower_funcenum. destruct (name_of n); [|discriminate].
  destruct (each _ _ t) eqn:E.
  - id_ok (id_child root); eauto; rewrite K; auto; discriminate.
  - exfalso. revert E. apply each_ok. intros u e Ie. apply filter_In in Ie. destruct Ie as (Ie & Ke). kind Ke.
    assert (Oe : open_ e) by (eapply open_kid; eauto; rewrite Ke; auto).
    unfold lower_funcenum_member.
    destruct (lower_parameters root u e) as [[t1 ps]|] eqn:P; [|exfalso; revert P; apply parameters_ok; auto].
    id_ok (id_child n); eauto; rewrite Ke; auto; discriminate.
Qed.

Lemma lower_ok : macros_in_view root -> lower root <> None.
Proof.
  intros M. unfold lower. destruct (each (lower_child root) (children root) empty_tree) as [t|] eqn:E.
  - apply each_ok. intros s a Ia. apply filter_In in Ia. destruct Ia as (Ia & Ka).
    unfold lower_macro. destruct (name_of a) as [nm|] eqn:N; [|discriminate].
    destruct (idof a) eqn:Ea; [discriminate|]. exfalso. eapply M; eauto.
  - exfalso. revert E. apply each_ok. intros. apply child_ok; auto.
Qed.
End root.

Lemma each_some : forall A S (f : S -> A -> option S) l s s', each f l s = Some s' -> forall a, In a l -> exists u, f u a <> None.
Proof.
  induction l as [|b r IH]; intros s s' H a I; [destruct I|]. cbn [each] in H.
  destruct (f s b) as [s1|] eqn:E; [|discriminate]. destruct I as [->|I]; [exists s; congruence|eapply IH; eauto].
Qed.

(** For a grammatical syntax tree, making the item tree crashes exactly when a macro definition stands where no ids
    are given. *)
Theorem C49_crash_iff : forall root, grammatical root -> (lower root = None <-> ~ macros_in_view root).
Proof.
  intros root G. split.
  - intros E M. revert E. apply lower_ok; auto.
  - intros N. destruct (lower root) as [t|] eqn:E; auto. exfalso. apply N. intros n nm I K Nm.
    unfold lower in E. destruct (each (lower_child root) (children root) empty_tree) as [t1|]; [|discriminate].
    eapply each_some in E as (u & E); [|apply filter_In; eauto]. unfold lower_macro in E. rewrite Nm in E.
    intros H. unfold id_of in E. rewrite H in E. auto.
Qed.
Print Assumptions C49_crash_iff.

Lemma under_in : forall a b, under a b -> In b (nodes_below a).
Proof.
  induction 1 as [a|a c b I U IH].
  - destruct a; cbn; auto.
  - destruct a as [k x y t cs]. cbn. right. apply in_flat_map. unfold children in I. apply in_map_iff in I.
    destruct I as ([f c'] & E & I). cbn in E. subst. exists (f, c). auto.
Qed.

(** * A file *)
Definition leaf (k a b : nat) (t : string) : syn := Syn k a b t [].
Definition a_file : syn :=
  Syn 130 0 200 "" [
    ("", Syn 133 0 19 "#define MAX(%0) %0" [("name", leaf 1 8 11 "MAX")]);
    ("", Syn 152 20 45 "public int a, b[3];" [
       ("visibility", Syn 155 20 26 "public" [("", leaf 52 20 26 "public")]); ("type", leaf 85 27 30 "int");
       ("", Syn 156 31 32 "a" [("name", leaf 1 31 32 "a")]); ("", Syn 156 34 38 "b[3]" [("name", leaf 1 34 35 "b")])]);
    ("", Syn 163 46 66 "enum { One, Two }" [
       ("entries", Syn 164 51 66 "{ One, Two }" [("", Syn 165 53 56 "One" [("name", leaf 1 53 56 "One")]);
                                                ("", Syn 165 58 61 "Two" [("name", leaf 1 58 61 "Two")])])]);
    ("", Syn 175 70 150 "methodmap M < N {...}" [("name", leaf 1 80 81 "M"); ("inherits", leaf 1 84 85 "N");
       ("", Syn 183 88 120 "property int p {...}" [("type", leaf 85 97 100 "int"); ("name", leaf 1 101 102 "p");
          ("", Syn 185 104 118 "native get();" [("", leaf 187 111 116 "get()")])]);
       ("", Syn 178 122 148 "native M(char[] s, any ...);" [("name", leaf 1 129 130 "M");
          ("parameters", Syn 147 130 146 "(char[] s, any ...)" [
             ("", Syn 148 131 139 "char[] s" [("type", leaf 87 131 135 "char"); ("type", leaf 197 135 137 "[]")]);
             ("", Syn 149 141 145 "any ..." [("type", leaf 91 141 144 "any")])])])]);
    ("", Syn 191 160 190 "public Plugin myinfo = {}" [("type", leaf 1 167 173 "Plugin"); ("name", leaf 1 174 180 "myinfo")])].

Example C49_nontrivial :
  option_map (fun t => all (view_item a_file t) (top t)) (lower a_file) = Some (Some [
    VVariable "a" true false false (Some TInt) (156, 31, 32); VVariable "b" true false false (Some TInt) (156, 34, 38);
    VVariant (VariantView "One" (165, 53, 56)); VVariant (VariantView "Two" (165, 58, 61));
    VEnum "unnamed_enum_3" [VariantView "One" (165, 53, 56); VariantView "Two" (165, 58, 61)] (163, 46, 66);
    VMethodmap "M" (Some "N") [
      MVProperty "p" TInt [FnView "get" Native true false false [] None (Some TInt) (185, 104, 118)] (183, 88, 120);
      MVMethod (FnView "M" Native true false false
        [ParamView (Some (TArray TChar 1)) false false false (148, 131, 139); ParamView (Some TAny) false true false (149, 141, 145)]
        (Some Constructor) None (178, 122, 148))] (175, 70, 150);
    VMacro "MAX" (133, 0, 19)]).
Proof. vm_compute. reflexivity. Qed.

(** A structure such as [public Plugin myinfo = {...}] is a variable of the file, but it has no entry: no function
    handles its kind of node (lower.rs:45-62). *)
Theorem C49_struct_variable_refuted : exists root n nm,
  In n (children root) /\ s_kind n = 191 /\ name_of n = Some nm /\
  exists t vs, lower root = Some t /\ all (view_item root t) (top t) = Some vs /\
    forall a b c ty p, ~ In (VVariable nm a b c ty p) vs.
Proof.
  exists a_file, (Syn 191 160 190 "public Plugin myinfo = {}" [("type", leaf 1 167 173 "Plugin"); ("name", leaf 1 174 180 "myinfo")]), "myinfo".
  split; [cbn; auto 10|]. split; [auto|]. split; [auto|].
  destruct (lower a_file) as [t|] eqn:E; [|vm_compute in E; discriminate].
  exists t, (outline a_file). split; [auto|]. split; [apply C49_items; auto|].
  intros a b c ty p. replace (outline a_file) with (match lower a_file with Some t => match all (view_item a_file t) (top t) with Some l => l | None => [] end | None => [] end).
  - vm_compute. intros H. repeat (destruct H as [H|H]; [discriminate H|]). destruct H.
  - rewrite E, (C49_items _ _ E). auto.
Qed.
Print Assumptions C49_struct_variable_refuted.

(** A macro in an old style [struct] makes the whole file crash. *)
Theorem C49_macro_crash_refuted : exists root, grammatical root /\ lower root = None.
Proof.
  exists (Syn 130 0 40 "" [("", Syn 189 0 40 "" [("", Syn 134 10 20 "#define A" [("name", leaf 1 18 19 "A")])])]).
  split; [|vm_compute; auto].
  intros n c U. apply under_in in U. cbn in U.
  repeat split; intros F; exfalso; repeat (destruct U as [<-|U]; [cbn in F; discriminate F|]); destruct U.
Qed.
Print Assumptions C49_macro_crash_refuted.
