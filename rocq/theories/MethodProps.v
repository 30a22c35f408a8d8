(** The method of an enum struct or methodmap that a name in it is asked about in: it is the one around the name (C72), except
    where a later member has its name (C72_destructor_refuted). *)
From Coq Require Import List String Bool Arith Lia.
From Verif Require Import AstIdModel AstIdSpec TypeRefModel ItemTreeModel ItemTreeSpec FindDefModel FindDefSpec FindDefProofs FindDefProps GotoModel GotoProofs GotoProps MethodModel CursorModel CursorSpec.
Import ListNotations.
Local Open Scope string_scope.
Local Open Scope nat_scope.
Local Open Scope list_scope.

Lemma all_app : forall {A B} (f : A -> option B) l m vs ws, all f l = Some vs -> all f m = Some ws -> all f (l ++ m) = Some (vs ++ ws).
Proof.
  intros A B f l. induction l as [|a l IH]; intros m vs ws H K; cbn in *; [injection H as <-; exact K|].
  destruct (f a) as [b|]; [|discriminate]. destruct (all f l) as [bs|]; [|discriminate]. injection H as <-. rewrite (IH m bs ws eq_refl K). reflexivity.
Qed.
Lemma all_rev : forall {A B} (f : A -> option B) l vs, all f l = Some vs -> all f (rev l) = Some (rev vs).
Proof.
  intros A B f l. induction l as [|a l IH]; intros vs H; cbn in *; [injection H as <-; reflexivity|].
  destruct (f a) as [b|] eqn:E; [|discriminate]. destruct (all f l) as [bs|]; [|discriminate]. injection H as <-. cbn [rev].
  apply all_app; [exact (IH bs eq_refl)|]. cbn. rewrite E. reflexivity.
Qed.
Lemma find_all : forall {A B} (f : A -> option B) p q l vs, all f l = Some vs -> (forall x y, f x = Some y -> p x = q y) ->
  match find q vs with
  | Some y => exists x, find p l = Some x /\ In x l /\ f x = Some y
  | None => find p l = None
  end.
Proof.
  intros A B f p q l. induction l as [|a l IH]; intros vs H Pq; cbn in H; [injection H as <-; reflexivity|].
  destruct (f a) as [b|] eqn:E; [|discriminate]. destruct (all f l) as [bs|]; [|discriminate]. injection H as <-. cbn [find].
  rewrite (Pq a b E). destruct (q b); [exists a; split; [reflexivity|]; split; [left; reflexivity|exact E]|].
  specialize (IH bs eq_refl Pq). destruct (find q bs) as [y|]; [|exact IH]. destruct IH as (x & F & I & Fx). exists x. split; [exact F|]. split; [right; exact I|exact Fx].
Qed.
Lemma last_all : forall {A B} (f : A -> option B) (name : A -> option string) (vname : B -> string) l vs nm, all f l = Some vs ->
  (forall x y, f x = Some y -> name x = Some (vname y)) ->
  match last_of vname nm vs with
  | Some y => exists x, item_named name l nm = Some x /\ In x l /\ f x = Some y
  | None => item_named name l nm = None
  end.
Proof.
  intros A B f name vname l vs nm H N. unfold last_of, item_named. apply all_rev in H.
  pose proof (find_all f (has_name name nm) (fun x => String.eqb (vname x) nm) (rev l) (rev vs) H) as F.
  assert (Pq : forall x y, f x = Some y -> has_name name nm x = String.eqb (vname y) nm) by (intros x y E; unfold has_name; rewrite (N x y E); reflexivity).
  specialize (F Pq). destruct (find (fun x => String.eqb (vname x) nm) (rev vs)) as [y|]; [|exact F].
  destruct F as (x & Fx & I & E). exists x. split; [exact Fx|]. split; [apply in_rev; exact I|exact E].
Qed.

Section file.
Variable root : syn.
Variable t : itree.
Variable member_node : def -> res syn.
Variable inherited_method : nat -> string -> option def.
Variable inherited_accessor : nat -> string -> bool -> option def.

Lemma function_view : forall j f, at_index (functions t) (view_function root t) j = Some f ->
  function_name t j = Some (fv_name f) /\ exists g, nth_error (functions t) j = Some g /\ get_raw (plain root) (fn_ast g) = Some (fv_at f).
Proof.
  intros j f H. unfold at_index in H. unfold function_name. destruct (nth_error (functions t) j) as [g|]; [|discriminate]. unfold view_function, place in H.
  destruct (read_params root t (fn_params g)) as [ps|]; [|discriminate]. destruct (get_raw (plain root) (fn_ast g)) as [p|] eqn:G; [|discriminate].
  injection H as <-. split; [reflexivity|]. exists g. split; [reflexivity|exact G].
Qed.
Lemma es_name_view : forall x y, view_es_item root t x = Some y -> es_item_name t x = Some (es_view_name y).
Proof.
  intros [j|j] y H; cbn [view_es_item es_item_name] in *.
  - destruct (at_index (functions t) (view_function root t) j) as [f|] eqn:E; [|discriminate]. injection H as <-. exact (proj1 (function_view j f E)).
  - unfold at_index in H. destruct (nth_error (fields t) j) as [g|]; [|discriminate]. destruct (place root (fld_ast g)); [|discriminate]. injection H as <-. reflexivity.
Qed.
Lemma mm_name_view : forall x y, view_mm_item root t x = Some y -> mm_item_name t x = Some (mm_view_name y).
Proof.
  intros [j|j] y H; cbn [view_mm_item mm_item_name] in *.
  - destruct (at_index (functions t) (view_function root t) j) as [f|] eqn:E; [|discriminate]. injection H as <-. exact (proj1 (function_view j f E)).
  - unfold at_index in H. destruct (nth_error (properties t) j) as [g|]; [|discriminate]. unfold view_property in H.
    destruct (all _ (indices (pr_accessors g))); [|discriminate]. destruct (place root (pr_ast g)); [|discriminate]. injection H as <-. reflexivity.
Qed.

Hypothesis Proper : AstIdSpec.proper (plain root).
Lemma source_at : forall j f (c : spot), at_index (functions t) (view_function root t) j = Some f -> spot_in root c -> alone root (sp_node c) ->
  fv_at f = place_of (sp_node c) -> method_source t root j = Val (sp_node c).
Proof.
  intros j f c H R A P. destruct (function_view j f H) as (_ & g & N & G). unfold method_source. rewrite N. cbn [must bind]. rewrite G. cbn [must bind].
  rewrite P. change (place_of (sp_node c)) with (pointer (sp_node c)). rewrite (locate_spot root c); auto.
Qed.

(** The method of the name, of the enum struct or methodmap, is the last member of that name. *)
Lemma method_found : forall x v nm (c : spot), view_item root t x = Some v -> method_at v nm = Some (place_of (sp_node c)) ->
  spot_in root c -> alone root (sp_node c) ->
  exists d, method_named t inherited_method (Top x) nm = Some d /\ of_file t d /\ def_node root t member_node d = Val (sp_node c).
Proof.
  intros x v nm c V M R A. destruct (view_facts _ _ _ _ V) as (_ & K & _).
  destruct v as [| | |n l p|n h l p| | | | | |]; cbn [method_at] in M; try discriminate M; destruct x; cbn [view_key key_of] in K; try discriminate K; cbn [view_item] in V; unfold at_index in V; cbn [method_named].
  - destruct (nth_error (enum_structs t) i) as [s|] eqn:N; [|discriminate]. unfold view_enum_struct in V.
    destruct (all (view_es_item root t) (es_items s)) as [vs|] eqn:Al; [|discriminate]. destruct (place root (es_ast s)); [|discriminate]. injection V as _ <- _.
    pose proof (last_all _ _ _ _ _ nm Al es_name_view) as F. destruct (last_of es_view_name nm vs) as [[f|]|]; try discriminate M. injection M as M.
    destruct F as (y & F & I & Y). rewrite F. destruct y as [j|j].
    + exists (InEnumStruct i j). split; [reflexivity|]. split; [exists s; auto|]. cbn [def_node]. cbn [view_es_item] in Y.
      destruct (at_index (functions t) (view_function root t) j) as [g|] eqn:G; [|discriminate]. injection Y as ->. exact (source_at j f c G R A M).
    + cbn [view_es_item] in Y. unfold at_index in Y. destruct (nth_error (fields t) j) as [g|]; [|discriminate]. destruct (place root (fld_ast g)); discriminate.
  - destruct (nth_error (methodmaps t) i) as [s|] eqn:N; [|discriminate]. unfold view_methodmap in V.
    destruct (all (view_mm_item root t) (mm_items s)) as [vs|] eqn:Al; [|discriminate]. destruct (place root (mm_ast s)); [|discriminate]. injection V as _ _ <- _.
    pose proof (last_all _ _ _ _ _ nm Al mm_name_view) as F. destruct (last_of mm_view_name nm vs) as [[f|]|]; try discriminate M. injection M as M.
    destruct F as (y & F & I & Y). rewrite F. destruct y as [j|j].
    + exists (InMethodmap i j). split; [reflexivity|]. split; [exists s; auto|]. cbn [def_node]. cbn [view_mm_item] in Y.
      destruct (at_index (functions t) (view_function root t) j) as [g|] eqn:G; [|discriminate]. injection Y as ->. exact (source_at j f c G R A M).
    + cbn [view_mm_item] in Y. unfold at_index in Y. destruct (nth_error (properties t) j) as [g|]; [|discriminate]. unfold view_property in Y.
      destruct (all _ (indices (pr_accessors g))); [|discriminate]. destruct (place root (pr_ast g)); discriminate.
Qed.
(** Likewise the accessor, of the last member of that name, if it is a property. *)
Lemma accessor_found : forall x v nm getter (c : spot), view_item root t x = Some v -> accessor_at v nm getter = Some (place_of (sp_node c)) ->
  spot_in root c -> alone root (sp_node c) ->
  exists d, accessor_named t inherited_accessor (Top x) nm getter = Some d /\ of_file t d /\ def_node root t member_node d = Val (sp_node c).
Proof.
  intros x v nm getter c V M R A. destruct (view_facts _ _ _ _ V) as (_ & K & _).
  destruct v as [| | | |n h l p| | | | | |]; cbn [accessor_at] in M; try discriminate M; destruct x; cbn [view_key key_of] in K; try discriminate K; cbn [view_item] in V; unfold at_index in V; cbn [accessor_named].
  destruct (nth_error (methodmaps t) i) as [s|] eqn:N; [|discriminate]. unfold view_methodmap in V.
  destruct (all (view_mm_item root t) (mm_items s)) as [vs|] eqn:Al; [|discriminate]. destruct (place root (mm_ast s)); [|discriminate]. injection V as _ _ <- _.
  pose proof (last_all _ _ _ _ _ nm Al mm_name_view) as F. destruct (last_of mm_view_name nm vs) as [[f|n' ty acc p']|]; try discriminate M.
  destruct F as (y & F & I & Y). rewrite F. destruct y as [j|j].
  - cbn [view_mm_item] in Y. destruct (at_index (functions t) (view_function root t) j); discriminate.
  - cbn [view_mm_item] in Y. unfold at_index in Y. destruct (nth_error (properties t) j) as [pr|] eqn:Np; [|discriminate]. unfold view_property in Y.
    destruct (all (at_index (functions t) (view_function root t)) (indices (pr_accessors pr))) as [as_|] eqn:Aa; [|discriminate]. destruct (place root (pr_ast pr)); [|discriminate]. injection Y as _ _ -> _.
    pose proof (find_all _ (is_accessor t getter) (fun f => String.eqb (fv_name f) (if getter then "get" else "set")) _ _ Aa) as G.
    assert (Pq : forall x y, at_index (functions t) (view_function root t) x = Some y -> is_accessor t getter x = String.eqb (fv_name y) (if getter then "get" else "set")).
    { intros x y E. unfold is_accessor, has_name. rewrite (proj1 (function_view x y E)). reflexivity. }
    specialize (G Pq). destruct (find _ acc) as [f|]; [|discriminate M]. cbn [option_map] in M. injection M as M.
    destruct G as (k & Fk & Ik & Vk). rewrite Fk. exists (InMethodmap i k). split; [reflexivity|]. split; [exists s; split; [exact N|]; right; exists j, pr; auto|].
    cbn [def_node]. exact (source_at k f c Vk R A M).
Qed.
(** The last member of a name is the only one that counts: a property behind a method of its name hides it, and the other way
    round. Only what a methodmap does not have is looked for in its ancestors. *)
Theorem C72_hidden : forall i nm h l p name, view_item root t (FMethodmap i) = Some (VMethodmap nm h l p) ->
  match last_of mm_view_name name l with
  | Some (MVMethod _) => forall getter, accessor_named t inherited_accessor (Top (FMethodmap i)) name getter = None
  | Some (MVProperty _ _ _ _) => method_named t inherited_method (Top (FMethodmap i)) name = None
  | None => method_named t inherited_method (Top (FMethodmap i)) name = inherited_method i name /\
      forall getter, accessor_named t inherited_accessor (Top (FMethodmap i)) name getter = inherited_accessor i name getter
  end.
Proof.
  intros i nm h l p name V. cbn [view_item] in V. unfold at_index in V. cbn [accessor_named method_named].
  destruct (nth_error (methodmaps t) i) as [s|] eqn:N; [|discriminate]. unfold view_methodmap in V.
  destruct (all (view_mm_item root t) (mm_items s)) as [vs|] eqn:Al; [|discriminate]. destruct (place root (mm_ast s)); [|discriminate]. injection V as _ _ <- _.
  pose proof (last_all _ _ _ _ _ name Al mm_name_view) as F. destruct (last_of mm_view_name name vs) as [[f|n' ty acc p']|].
  - destruct F as (y & F & I & Y). rewrite F. destruct y as [j|j]; [reflexivity|]. cbn [view_mm_item] in Y. unfold at_index in Y.
    destruct (nth_error (properties t) j) as [pr|]; [|discriminate]. unfold view_property in Y.
    destruct (all (at_index (functions t) (view_function root t)) (indices (pr_accessors pr))); [|discriminate]. destruct (place root (pr_ast pr)); discriminate.
  - destruct F as (y & F & I & Y). rewrite F. destruct y as [j|j]; [|reflexivity]. cbn [view_mm_item] in Y. destruct (at_index (functions t) (view_function root t) j); discriminate.
  - rewrite F. split; reflexivity.
Qed.
End file.
Print Assumptions C72_hidden.
