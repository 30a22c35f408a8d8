(** C72: the cursor on the name of a declaration, of a method or accessor, and of what is declared in one. *)
From Coq Require Import List ZArith String Bool Arith Lia.
From Verif Require Import PreTypes PosModel PosSpec AstIdModel AstIdSpec AstIdProps TypeRefModel ItemTreeModel ItemTreeSpec FindDefModel FindDefSpec FindDefProofs FindDefProps GotoModel GotoSpec GotoProofs GotoProps MethodModel MethodProps MethodTable MethodTableSpec MethodTableProps CursorModel CursorSpec CursorProps.
From Verif Require OffsetProps LowerModel LowerSpec WrittenSpec OffsetModel HirModel.
Import ListNotations.
Local Open Scope string_scope.
Local Open Scope nat_scope.
Local Open Scope list_scope.

Lemma method_node : forall root t member_node d (c o : spot), AstIdSpec.proper (plain root) -> spot_in root c -> alone root (sp_node c) ->
  is_method root t d (sp_node c) (sp_node o) -> def_node root t member_node d = Val (sp_node c) /\ of_file t d.
Proof.
  intros root t mn d c o P R A M. destruct d as [| | |i j|i j]; cbn [is_method] in M; try contradiction.
  - destruct M as (_ & Ms & f & F & Pf). split; [|exact Ms]. cbn [def_node]. exact (source_at root t P j f c F R A Pf).
  - destruct M as (_ & (s & Ns & Is) & f & F & Pf). split; [|exists s; auto]. cbn [def_node]. exact (source_at root t P j f c F R A Pf).
Qed.

Section world.
Variable sources : nat -> source.
Variable f : nat.
Notation root := (so_root (sources f)).
Variable t : itree.
Variable m : FindDefModel.def_map.
Variable es_other mm_other : nat -> key -> ptr -> FindDefModel.res def.
Variable fields_read : nat -> bool.
Variable inherited_rows : nat -> option (list row).
Variable global_ident : string -> option value.
Variable in_signature : def -> string -> FindDefModel.res resolution.
Variable include_node : spot -> FindDefModel.res resolution.
Variable inherited_method : nat -> string -> option def.
Variable inherited_accessor : nat -> string -> bool -> option def.
Variable fuel : nat.
Variable parse_f64 : string -> option nat.
Variable member_node : def -> FindDefModel.res syn.
Variable owner : def -> nat.
Variable def_of : nat -> def.
Variable maps : list HirModel.def_map.
Variable object : def -> option (bool * nat).
Variable db : HirModel.database.
Variable other_def : OffsetModel.found_def -> FindDefModel.res resolution.
Variable other_file : nat -> spot -> FindDefModel.res resolution.
Variable macro_def : Z -> Z -> option resolution.
Variable def_file : resolution -> nat.
Notation est := (es_table root t es_other fields_read).
Notation mmt := (mm_table root t mm_other inherited_rows).
Definition asks_own : nat -> spot -> FindDefModel.res resolution :=
  asks sources f t m est mmt global_ident in_signature include_node inherited_method inherited_accessor fuel parse_f64 member_node owner def_of maps object db other_def other_file.
Notation answer := (handle_goto_definition resolution sources asks_own macro_def def_file (def_source root t parse_f64 member_node)).
Notation shows := (hover resolution sources asks_own macro_def def_file (def_source root t parse_f64 member_node)).
Notation readable := (readable fields_read inherited_rows).

Hypothesis Here : forall d j, def_file (RLocal d j) = f.
Hypothesis Here_def : forall d, def_file (RDef d) = f.
Hypothesis Proper : AstIdSpec.proper (plain root).
Hypothesis Lowered : ItemTreeModel.lower root = Some t.
Hypothesis Mapped : file_def_map t = Some m.

(** The cursor is on the name in a declaration of a method, getter or setter that counts at some place: the declaration
    itself is the target. *)
Theorem C72_method_declaration_partial : forall lines p s c o v fv b par at_ x full name,
  written (sources f) lines -> cursor_on (sources f) lines p s -> is_name_node s = true -> parent s = Some par ->
  local_declaration par -> alone root (sp_node par) -> nearest (source_file :: owners) (sp_up par) = Some c ->
  method_in root c o v fv -> (forall y nm, is_declaration root t y (sp_node o) nm -> readable y) ->
  (In (s_kind (sp_node c)) [k_methodmap_property_native; k_methodmap_property_method] ->
     forall g n, In g (children (sp_node c)) -> child_by_field_name "parameter" g = Some n -> s_kind n = 148) ->
  child_by_field_name "body" (sp_node c) = Some b -> s_kind b = 201 ->
  well_written root parse_f64 (sp_node c) b -> (x = "this" -> HirModel.resolve_global maps "this" = None) ->
  means_at root (sp_node c) b at_ x (Some (sp_node par)) ->
  shown lines (node_range (so_text (sources f)) (sp_node s)) name ->
  shown lines (node_range (so_text (sources f)) (sp_node par)) full ->
  answer f p = Val [Link (Some name) f full name] /\ le (rstart name) p /\ le p (rend name) /\ inside name full.
Proof.
  intros lines p s c o v fv b par at_ x full name W Cu N Pa Ld Al Nr Mi Rd Pk B Kb Wr Th Me Shn Shf.
  pose proof Cu as (_ & _ & q & _ & Sm). pose proof Sm as (R & _). pose proof Mi as (Kc & Ac & _).
  assert (Rp : spot_in root par) by exact (parent_in sources f s par R Pa).
  assert (Rc : spot_in root c) by exact (FindDefProps.nearest_in _ _ _ _ Rp Nr).
  destruct (C50_method_local root t m es_other mm_other fields_read inherited_rows fuel s par c o v fv Proper Lowered Mapped R N Pa Ld Al Nr Mi Rd) as (d & Im & Fn).
  destruct (method_node root t member_node d c o Proper Rc Ac Im) as (Src & _).
  apply (declared_in sources f t m est mmt global_ident in_signature include_node inherited_method inherited_accessor fuel parse_f64 member_node owner def_of maps object db
    other_def other_file macro_def def_file Here Proper d lines p s c b par at_ x full name); auto.
  destruct (in_dec Nat.eq_dec (s_kind (sp_node c)) [k_methodmap_property_native; k_methodmap_property_method]) as [K|K].
  - intros n E. unfold params_list in E. right. destruct (one_of (s_kind (sp_node c)) _) eqn:O.
    + destruct (find _ (children (sp_node c))) as [g|] eqn:F; [|discriminate E]. apply List.find_some in F as (I & _). exact (Pk K g n I E).
    + exfalso. unfold one_of in O. rewrite <- not_true_iff_false in O. apply O. apply existsb_exists. exists (s_kind (sp_node c)). split; [exact K|apply Nat.eqb_refl].
  - apply params_kind_plain. exact K.
Qed.

(** The cursor is on the name of a declaration of the file that is not in a function, or on the name of a method, or on the word
    [get] or [set]: the target is the declaration around it, and hovering shows its text. *)
Definition names (s c : spot) : Prop :=
  is_name_node s = true /\ exists p, parent s = Some p /\
  ((c = p /\ at_file_level root c /\ alone root (sp_node c) /\ global_if_variable c /\ exists v, In v (outline root) /\ view_at v = place_of (sp_node c)) \/
   ((c = p \/ In (s_kind (sp_node p)) [k_methodmap_property_getter; k_methodmap_property_setter] /\ parent p = Some c) /\
    exists o v fv, method_in root c o v fv /\ forall y nm, is_declaration root t y (sp_node o) nm -> readable y)).
Theorem C72_own_name_partial : forall lines p s c u full name,
  written (sources f) lines -> cursor_on (sources f) lines p s -> names s c ->
  shown lines (node_range (so_text (sources f)) (sp_node s)) u ->
  shown lines (node_range (so_text (sources f)) (sp_node c)) full -> shown lines (node_range (so_text (sources f)) (inner_name (sp_node c))) name ->
  answer f p = Val [Link (Some u) f full name] /\ le (rstart u) p /\ le p (rend u) /\ inside name full /\
  (forall docs, shows docs false f p = Val (Answer u (fenced_block (text_of (so_text (sources f)) (sp_node c))))).
Proof.
  intros lines p s c u full name W (C & A & q & Sp & Sm) (N & par & Pa & Nm) Shu Shf Shn. pose proof Sm as (R & _).
  assert (Rp : spot_in root par) by exact (parent_in sources f s par R Pa).
  assert (G : exists d, asks_own f s = Val (RDef d) /\ def_node root t member_node d = Val (sp_node c) /\ spot_in root c).
  { destruct Nm as [(-> & Fl & Al & Gl & v & Iv & Pv)|(Pc & o & v & fv & Mi & Rd)].
    - destruct (C50_own_name root t m est mmt (ptr_expr root t parse_f64 member_node) (S (S fuel)) s par v Proper Lowered Mapped R N Pa Al Fl Gl Iv Pv) as (x & F & _ & D).
      exists (Top x). split; [|split; [|exact Rp]].
      + unfold asks_own, asks. rewrite Nat.eqb_refl. unfold FindDefModel.find_def. rewrite F. reflexivity.
      + cbn [def_node]. exact (item_source_of root t x (sp_node par) _ par Proper Rp Al eq_refl D).
    - assert (Rc : spot_in root c) by (destruct Pc as [->|(_ & Pc)]; [exact Rp|exact (parent_in sources f par c Rp Pc)]).
      destruct (C50_method_name root t m es_other mm_other fields_read inherited_rows (ptr_expr root t parse_f64 member_node) (S fuel) s par c o v fv Proper Lowered Mapped R N Pa Pc Mi Rd) as (d & F & Im).
      pose proof Mi as (_ & Ac & _). destruct (method_node root t member_node d c o Proper Rc Ac Im) as (Src & _). exists d. split; [|split; assumption].
      unfold asks_own, asks. rewrite Nat.eqb_refl. unfold FindDefModel.find_def. rewrite F. reflexivity. }
  destruct G as (d & F & Src & Rc).
  assert (Pn : AstIdSpec.proper (plain (sp_node c))) by (eapply proper_below; [exact Proper|apply under_below; exact (reach_under _ _ _ Rc)]).
  assert (G : forall docs, answer f p = Val [Link (Some u) f full name] /\ le (rstart u) p /\ le p (rend u) /\ inside name full /\
    shows docs false f p = Val (Answer u (fenced_block (text_of (so_text (sources f)) (sp_node c))))).
  { intros docs. destruct (C60_code_partial resolution sources asks_own macro_def def_file (def_source root t parse_f64 member_node) docs f lines p q s
      (RDef d) u (sp_node c) lines full name) as (H & B1 & B2 & B3 & B4 & _); auto; try (rewrite Here_def; auto; fail).
    rewrite Here_def in H, B4. auto. }
  destruct (G (fun _ _ => "")) as (H & B1 & B2 & B3 & _). repeat (split; [assumption|]). intros docs. apply (G docs).
Qed.
End world.
Print Assumptions C72_method_declaration_partial.
Print Assumptions C72_own_name_partial.

(** The file of CursorMethods: the cursor on [S], on [m], on the [a] and the [b] in the method, on the [M] and the [c] of the
    constructor, on [set], and on the [v] of the setter. *)
From Verif Require Import CursorMethods.
Definition own_k : nat -> pos -> FindDefModel.res (list link) :=
  handle_goto_definition resolution (fun _ => source_k)
    (asks_own (fun _ => source_k) 0 tree_k defs_k (fun _ _ _ => Nothing) (fun _ _ _ => Nothing) (fun _ => true) (fun _ => Some [])
       (fun _ => None) (fun _ _ => Nothing) (fun _ => Nothing) (fun _ _ => None) (fun _ _ _ => None)
       2 float_e (fun _ => Nothing) owner_k def_k [] (fun _ => None) OffsetProps.empty_db (fun _ => Nothing) (fun _ _ => Nothing))
    (fun _ _ => None) (fun _ => 0) (def_source root_k tree_k float_e (fun _ => Nothing)).
Definition across_k (l1 c1 l2 c2 : Z) : range := Rng (Pos l1 c1) (Pos l2 c2).
Definition self_k (u full : range) : FindDefModel.res (list link) := Val [Link (Some u) 0 full u].
(** The conditions on methods hold of the method, the constructor and the setter. *)
Lemma method_in_k : (exists v f, method_in root_k method_k (spot_k [0]) v f) /\ (exists v f, method_in root_k constructor_k (spot_k [1]) v f) /\
  (exists v f, method_in root_k setter_k (spot_k [1]) v f).
Proof.
  assert (S : exists n l, In (VEnumStruct n l (place_of struct_k)) (outline root_k) /\ exists f, In (EVMethod f) l /\ fv_at f = place_of (sp_node method_k)).
  { eexists _, _. split; [left; vm_compute; reflexivity|]. eexists. split; [right; left; reflexivity|vm_compute; reflexivity]. }
  assert (M : exists n h l, In (VMethodmap n h l (place_of map_k)) (outline root_k) /\ (exists f, In (MVMethod f) l /\ fv_at f = place_of (sp_node constructor_k)) /\
    exists f n ty acc p, In (MVProperty n ty acc p) l /\ In f acc /\ fv_at f = place_of (sp_node setter_k)).
  { eexists _, _, _. split; [right; left; vm_compute; reflexivity|]. split; [eexists; split; [left; reflexivity|vm_compute; reflexivity]|].
    eexists _, _, _, _, _. split; [right; right; left; reflexivity|]. split; [left; reflexivity|vm_compute; reflexivity]. }
  assert (Fl : forall i s, go root_k [] [i] = Some s -> at_file_level root_k s).
  { intros i s G. split; [reflexivity|]. exists [], i. cbn [go] in G. destruct (nth_error (s_kids root_k) i) as [[fl c]|]; [|discriminate]. injection G as <-. split; [reflexivity|]. intros a j []. }
  destruct S as (n & l & Iv & f & Im & Pf). destruct M as (n2 & h & l2 & Iv2 & (f2 & Im2 & Pf2) & f3 & n3 & ty & acc & p & Im3 & If3 & Pf3).
  split; [|split].
  - exists (VEnumStruct n l (place_of struct_k)), f. split; [vm_compute; auto|]. split; [apply (alone_spot_k [0; 5]); [reflexivity|vm_compute; lia]|]. split; [reflexivity|].
    split; [apply (alone_spot_k [0]); [reflexivity|vm_compute; lia]|]. split; [apply (Fl 0); reflexivity|]. repeat (split; auto).
  - exists (VMethodmap n2 h l2 (place_of map_k)), f2. split; [vm_compute; auto 12|]. split; [apply (alone_spot_k [1; 3]); [reflexivity|vm_compute; lia]|]. split; [reflexivity|].
    split; [apply (alone_spot_k [1]); [reflexivity|vm_compute; lia]|]. split; [apply (Fl 1); reflexivity|]. split; [exact Iv2|]. split; [reflexivity|]. split; [left; exact Im2|exact Pf2].
  - exists (VMethodmap n2 h l2 (place_of map_k)), f3. split; [vm_compute; auto 12|]. split; [apply (alone_spot_k [1; 5; 4]); [reflexivity|vm_compute; lia]|]. split; [reflexivity|].
    split; [apply (alone_spot_k [1]); [reflexivity|vm_compute; lia]|]. split; [apply (Fl 1); reflexivity|]. split; [exact Iv2|]. split; [reflexivity|].
    split; [right; exists n3, ty, acc, p; auto|exact Pf3].
Qed.
Example C72_own_nontrivial : 
  map (own_k 0) [Pos 0 12; Pos 2 6; Pos 2 12; Pos 2 21; Pos 5 9; Pos 5 15; Pos 7 26; Pos 7 34] =
    [self_k (at_e 0 12 13) (across_k 0 0 3 1); self_k (at_e 2 6 7) (at_e 2 2 32); self_k (at_e 2 12 13) (at_e 2 8 13); self_k (at_e 2 21 22) (at_e 2 21 22);
     self_k (at_e 5 9 10) (at_e 5 2 28); self_k (at_e 5 15 16) (at_e 5 11 16); self_k (at_e 7 26 29) (at_e 7 19 47); self_k (at_e 7 34 35) (at_e 7 30 35)].
Proof. vm_compute. reflexivity. Qed.
