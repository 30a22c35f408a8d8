(** C60: go to definition and hover show the definition of what is under the cursor, where it is written. *)
From Coq Require Import List ZArith Bool String Ascii Arith Lia.
From Verif Require Import PreTypes PosModel PosSpec PosProofs AstIdModel AstIdSpec AstIdProps TypeRefModel ItemTreeModel ItemTreeSpec ItemTreeProofs ItemTreeProps FindDefModel FindDefSpec FindDefProofs FindDefProps GotoModel GotoSpec GotoProofs.
Import ListNotations.
Local Open Scope string_scope.
Local Open Scope Z_scope.
Local Open Scope list_scope.

Section world.
Variable D : Type.
Variable sources : nat -> source.
Variable find_def : nat -> spot -> res D.
Variable macro_def : Z -> Z -> option D.
Variable def_file : D -> nat.
Variable def_source : D -> res syn.
Variable docs : nat -> syn -> string.
Notation goto := (goto_definition D sources find_def macro_def def_file def_source).
Notation hover := (hover D sources find_def macro_def def_file def_source docs).
Notation handle := (handle_goto_definition D sources find_def macro_def def_file def_source).

Lemma ask_code_at : forall f lines p q s d u,
  AstIdSpec.proper (plain (so_root (sources f))) -> written (sources f) lines ->
  same lines p q -> outside_arguments (sources f) p ->
  smallest (so_text (sources f)) (so_root (sources f)) q s -> find_def f s = Val d ->
  shown lines (node_range (so_text (sources f)) (sp_node s)) u ->
  ask_code D sources find_def f p = Val (u, d).
Proof.
  intros f lines [k c] [k' c'] s d u P W (E & S) A Sm Fd Sh. cbn [pline pcol] in *. subst k'. unfold ask_code.
  destruct (W k) as (F & H & O). unfold outside_arguments in A. cbn [pline] in A.
  rewrite (C27_forward (so_args (sources f)) (so_offsets (sources f)) k (lines k) c c' F H O (seen_place _ _ _ S) A).
  rewrite (innermost_smallest _ _ _ _ P Sm), Fd. cbn [bind]. rewrite (shown_range _ _ _ _ W Sh). reflexivity.
Qed.

Lemma nested_name : forall text n, AstIdSpec.proper (plain n) -> inside (node_range text (inner_name n)) (node_range text n).
Proof.
  intros text n P. assert (U : under n (inner_name n)).
  { unfold inner_name.
    assert (K : forall (g : syn) c, child_by_field_name "name" g = Some c -> In c (children g)).
    { intros g c. unfold child_by_field_name, children_by_field_name, children. intros X.
      assert (I : In c (map snd (filter (fun x => String.eqb (fst x) "name") (s_kids g)))) by (destruct (map _ _); cbn in *; [discriminate|injection X as ->; auto]).
      apply in_map_iff in I as (x & <- & I). apply filter_In in I as (I & _). apply in_map; auto. }
    destruct (_ || _).
    - assert (G : forall l c, find_map (fun c => if (s_kind c =? k_methodmap_property_getter)%nat || (s_kind c =? k_methodmap_property_setter)%nat
                                 then child_by_field_name "name" c else None) l = Some c -> exists g, In g l /\ In c (children g)).
      { induction l as [|g l IH]; cbn [find_map]; [discriminate|]. intros c.
        destruct (_ || _); [destruct (child_by_field_name "name" g) as [c0|] eqn:E|].
        - intros X. injection X as ->. exists g. split; [cbn; auto|]. apply K; auto.
        - intros X. destruct (IH c X) as (g' & I & J). exists g'. cbn; auto.
        - intros X. destruct (IH c X) as (g' & I & J). exists g'. cbn; auto. }
      destruct (find_map _ _) as [c|] eqn:E; [|constructor]. destruct (G _ _ E) as (g & I & J).
      eapply under_kid; [exact I|]. eapply under_kid; [exact J|constructor].
    - destruct (child_by_field_name "name" n) as [c|] eqn:E; [|constructor]. eapply under_kid; [apply K; exact E|constructor]. }
  pose proof (below_range _ _ P (under_below _ _ U) (proper_le _ P)) as (X & Y & Z).
  split; apply point_mono; auto.
Qed.

(** The cursor is in code. One link is sent. Its origin is where the editor has the smallest node under the cursor, and
    it holds the cursor; its target is where the editor has the definition, its selection where it has the name, and the
    selection is within the target. Hovering marks the same origin, and shows the text of the definition. *)
Theorem C60_code_partial : forall f lines p q s d u n lines' full name,
  AstIdSpec.proper (plain (so_root (sources f))) -> written (sources f) lines ->
  same lines p q -> in_code lines p -> outside_arguments (sources f) p ->
  smallest (so_text (sources f)) (so_root (sources f)) q s -> find_def f s = Val d ->
  shown lines (node_range (so_text (sources f)) (sp_node s)) u ->
  def_source d = Val n -> AstIdSpec.proper (plain n) -> written (sources (def_file d)) lines' ->
  shown lines' (node_range (so_text (sources (def_file d))) n) full ->
  shown lines' (node_range (so_text (sources (def_file d))) (inner_name n)) name ->
  handle f p = Val [Link (Some u) (def_file d) full name] /\ le (rstart u) p /\ le p (rend u) /\ inside name full /\
  hover false f p = Val (Answer u (fenced_block (text_of (so_text (sources (def_file d))) n))) /\
  hover true f p = Val (Answer u (fenced_block (text_of (so_text (sources (def_file d))) n) ++ nl ++ nl ++ "---" ++ nl ++ nl ++ docs (def_file d) n)%string).
Proof.
  intros f lines p q s d u n lines' full name P W S C A Sm Fd Sh Src Pn W' Shf Shn.
  pose proof (ask_code_at f lines p q s d u P W S A Sm Fd Sh) as K.
  pose proof (find_use_code _ _ _ W C) as N.
  assert (M : find_macro_def D macro_def (so_offsets (sources f)) p = None) by (unfold find_macro_def; rewrite N; auto).
  split; [|split; [|split; [|split]]].
  - unfold handle_goto_definition, goto_definition. rewrite M, K. cbn [bind]. rewrite Src. cbn [bind]. unfold find_inner_name_range.
    rewrite (shown_range _ _ _ _ W' Shf), (shown_range _ _ _ _ W' Shn). reflexivity.
  - destruct Sm as (_ & (H1 & _) & _). destruct Sh as (Sh1 & _). exact (same_le _ _ _ _ _ _ W Sh1 S H1).
  - destruct Sm as (_ & (_ & H2) & _). destruct Sh as (_ & Sh2 & _). apply (same_le _ _ _ _ _ _ W S Sh2). unfold lt in H2. unfold le. lia.
  - destruct (nested_name (so_text (sources (def_file d))) n Pn) as (X & Y). destruct Shf as (A1 & A2 & _), Shn as (B1 & B2 & _).
    split; [exact (same_le _ _ _ _ _ _ W' A1 B1 X)|exact (same_le _ _ _ _ _ _ W' B2 A2 Y)].
  - unfold GotoModel.hover, find_macro_hover. rewrite M. cbn [ask bind]. rewrite K. cbn [bind]. rewrite Src. cbn [bind]. auto.
Qed.

(** Nothing is answered for code that means nothing. *)
Theorem C60_nothing : forall f lines p q s,
  AstIdSpec.proper (plain (so_root (sources f))) -> written (sources f) lines ->
  same lines p q -> in_code lines p -> outside_arguments (sources f) p ->
  smallest (so_text (sources f)) (so_root (sources f)) q s -> find_def f s = Nothing ->
  handle f p = Nothing /\ forall b, hover b f p = Nothing.
Proof.
  intros f lines [k c] [k' c'] s P W S C A Sm Fd. pose proof (find_use_code _ _ _ W C) as N.
  assert (M : find_macro_def D macro_def (so_offsets (sources f)) (Pos k c) = None) by (unfold find_macro_def; rewrite N; auto).
  assert (K : ask_code D sources find_def f (Pos k c) = Nothing).
  { destruct S as (E & S). cbn [pline pcol] in *. subst k'. unfold ask_code. destruct (W k) as (F & H & O). unfold outside_arguments in A. cbn [pline] in A.
    rewrite (C27_forward (so_args (sources f)) (so_offsets (sources f)) k (lines k) c c' F H O (seen_place _ _ _ S) A).
    rewrite (innermost_smallest _ _ _ _ P Sm), Fd. reflexivity. }
  split; [|intros b].
  - unfold handle_goto_definition, goto_definition. rewrite M, K. reflexivity.
  - unfold GotoModel.hover, find_macro_hover. rewrite M. cbn [ask bind]. rewrite K. reflexivity.
Qed.

(** The cursor touches the name of a macro use whose definition is known: the origin is the name, the target the
    definition, wherever no macro is used in the lines where it begins and ends. *)
Theorem C60_macro : forall f lines p o d n lines' full name,
  written (sources f) lines -> first_touched lines p o -> macro_def (o_file o) (o_idx o) = Some d ->
  def_source d = Val n -> written (sources (def_file d)) lines' ->
  let text := so_text (sources (def_file d)) in
  shown lines' (node_range text n) full -> shown lines' (node_range text (inner_name n)) name ->
  (forall r k, In r [node_range text n; node_range text (inner_name n)] -> In k [pline (rstart r); pline (rend r)] -> no_uses (lines' k)) ->
  handle f p = Val [Link (Some (o_range o)) (def_file d) full name] /\ le (rstart (o_range o)) p /\ le p (rend (o_range o)).
Proof.
  intros f lines p o d n lines' full name W T M Src W' text Shf Shn Pl.
  assert (Q : forall r u, shown lines' r u -> (forall k, In k [pline (rstart r); pline (rend r)] -> no_uses (lines' k)) -> u = r).
  { intros [[l1 c1] [l2 c2]] [[m1 d1] [m2 d2]] ((E1 & S1) & (E2 & S2) & _) K. cbn [rstart rend pline pcol In] in *. subst m1 m2.
    destruct (W' l1) as (F1 & H1 & _), (W' l2) as (F2 & H2 & _).
    rewrite (no_uses_seen _ _ _ F1 H1 (K _ (or_introl eq_refl)) S1), (no_uses_seen _ _ _ F2 H2 (K _ (or_intror (or_introl eq_refl))) S2). reflexivity. }
  split; [|destruct T as (b & nm & a & w & i & r & E & B & _ & ->); split; unfold le; cbn; lia].
  unfold handle_goto_definition, goto_definition, find_macro_def. rewrite (find_use_touched _ _ _ _ W T), M, Src. cbn [bind].
  rewrite (Q _ _ Shf), (Q _ _ Shn); [reflexivity| |]; intros k K; eapply Pl; eauto; cbn; auto.
Qed.

(** Hovering a use shows the definition, and what the use is replaced by in the preprocessed line. *)
Theorem C60_macro_hover : forall f lines p o d n line before name args width info after doc,
  written (sources f) lines -> lines (pline p) = before ++ Use name args width info :: after ->
  o = Offset (Rng (Pos (pline p) (edit_end before)) (Pos (pline p) (edit_end before + name))) (width - name) args (fst info) (snd info) ->
  first_touched lines p o -> macro_def (o_file o) (o_idx o) = Some d -> def_source d = Val n ->
  line_from (so_text (sources f)) (Z.to_nat (pline p)) = Some line -> text_end (lines (pline p)) <= Z.of_nat (String.length line) ->
  hover doc f p = Val (Answer (o_range o)
    (fenced_block (text_of (so_text (sources (def_file d))) n) ++ nl ++ "Expands to:" ++ nl ++
     fenced_block (trim (substring (Z.to_nat (text_end before)) (Z.to_nat width) line)))%string).
Proof.
  intros f lines p o d n line before name args width info after doc W E Eo T M Src Ln Le.
  destruct (W (pline p)) as (F & H & O).
  unfold GotoModel.hover, find_macro_hover, find_macro_def. rewrite (find_use_touched _ _ _ _ W T), M. cbn [ask bind]. rewrite Src. cbn [bind].
  subst o. rewrite (C27_hover_shows_expansion _ _ _ _ _ _ _ _ _ F H E O). rewrite Ln. unfold slice.
  pose proof F as F'. rewrite E in F'. apply Forall_app in F' as (F1 & F2). inversion F2 as [|? ? F3 F4]; subst. cbn in F3.
  pose proof (ends_nonneg _ F1). pose proof (ends_nonneg _ F4). rewrite E, text_end_app, text_end_cons in Le. cbn [text_width] in Le.
  replace (text_end before <=? text_end before + width) with true by (symmetry; apply Z.leb_le; lia).
  replace (text_end before + width <=? Z.of_nat (String.length line)) with true by (symmetry; apply Z.leb_le; lia).
  cbn [andb]. replace (text_end before + width - text_end before) with width by lia. reflexivity.
Qed.

(** The cursor is on an argument of a macro use: what is asked about is the smallest node where the argument went, and
    the origin is the argument. *)
Theorem C60_argument_partial : forall f lines p ur sr rest s d n lines' full name,
  AstIdSpec.proper (plain (so_root (sources f))) -> written (sources f) lines -> in_code lines p ->
  filter (fun a => range_contains_pos (fst a) p) (on_line (so_args (sources f)) (pline p)) = (ur, sr) :: rest ->
  smallest (so_text (sources f)) (so_root (sources f)) (rstart sr) s -> find_def f s = Val d ->
  def_source d = Val n -> written (sources (def_file d)) lines' ->
  shown lines' (node_range (so_text (sources (def_file d))) n) full ->
  shown lines' (node_range (so_text (sources (def_file d))) (inner_name n)) name ->
  handle f p = Val [Link (Some ur) (def_file d) full name].
Proof.
  intros f lines p ur sr rest s d n lines' full name P W C A Sm Fd Src W' Shf Shn.
  assert (M : find_macro_def D macro_def (so_offsets (sources f)) p = None) by (unfold find_macro_def; rewrite (find_use_code _ _ _ W C); auto).
  assert (Q : forall B (g : B -> bool) l x r, filter g l = x :: r -> find g l = Some x).
  { intros B g. induction l as [|y l IH]; intros x r X; cbn in *; [discriminate|]. destruct (g y); [congruence|eauto]. }
  unfold handle_goto_definition, goto_definition. rewrite M. unfold ask_code, u_pos_to_s_pos. rewrite (Q _ _ _ _ _ A).
  rewrite (innermost_smallest _ _ _ _ P Sm), Fd. cbn [bind]. rewrite Src. cbn [bind]. unfold find_inner_name_range.
  rewrite (shown_range _ _ _ _ W' Shf), (shown_range _ _ _ _ W' Shn). reflexivity.
Qed.

(** Wherever the cursor is, one is answered if and only if the other is, for the same range (a macro's definition always
    has a node). *)
Theorem C60_agree : forall f p b,
  (forall file i d, macro_def file i = Some d -> def_source d <> Nothing) ->
  match goto f p, hover b f p with
  | Val x, Val y => an_range x = an_range y
  | Nothing, Nothing => True
  | Panic, Panic => True
  | _, _ => False
  end.
Proof.
  intros f p b Mn. unfold goto_definition, GotoModel.hover, find_macro_hover.
  destruct (find_macro_def D macro_def (so_offsets (sources f)) p) as [[o d]|] eqn:M; cbn [ask bind].
  - assert (Nn : def_source d <> Nothing).
    { unfold find_macro_def in M. destruct (find_use _ _) as [o'|]; [|discriminate]. destruct (macro_def _ _) as [d'|] eqn:Md; [|discriminate].
      injection M as <- <-. eapply Mn; eauto. }
    destruct (def_source d) as [n| |]; cbn [bind]; auto; [|congruence].
    destruct (hover_slice _ _ _). cbn [bind an_range]. auto.
  - destruct (ask_code D sources find_def f p) as [[u d]| |]; cbn [bind]; auto.
    destruct (def_source d); cbn [bind]; auto.
Qed.

(** The link is always to the file of the definition, with a selection. *)
Theorem C60_one_link : forall f p l, handle f p = Val l -> exists o d r s, l = [Link (Some o) (def_file d) r s].
Proof.
  intros f p l. unfold handle_goto_definition, goto_definition.
  destruct (find_macro_def D macro_def (so_offsets (sources f)) p) as [[o d]|].
  - destruct (def_source d); cbn; try discriminate. intros X. injection X as <-. do 4 eexists. reflexivity.
  - destruct (ask_code D sources find_def f p) as [[u d]| |]; cbn; try discriminate.
    destruct (def_source d); cbn; try discriminate. intros X. injection X as <-. do 4 eexists. reflexivity.
Qed.
End world.
Print Assumptions C60_code_partial.
Print Assumptions C60_nothing.
Print Assumptions C60_macro.
Print Assumptions C60_macro_hover.
Print Assumptions C60_argument_partial.
Print Assumptions C60_agree.
Print Assumptions C60_one_link.

(** * The name in a declaration *)
Lemma item_source_of : forall root t x n nm par, AstIdSpec.proper (plain root) -> spot_in root par -> alone root (sp_node par) ->
  n = sp_node par -> is_declaration root t x n nm -> item_source root t x = Val n.
Proof.
  intros root t x n nm par P R A -> (_ & v & _ & V & At & _). destruct (view_facts _ _ _ _ V) as (_ & _ & a & Ia & Ga).
  unfold item_source. rewrite Ia. cbn [must bind]. rewrite Ga. cbn [must bind]. rewrite At.
  change (place_of (sp_node par)) with (pointer (sp_node par)). rewrite (locate_spot root par); auto.
Qed.

(** With the cursor on the name in a declaration of the file: the declaration itself is the target, and the name the
    selection. All of FindDefModel takes part. *)
Theorem C60_own_name_partial : forall sources f t m es_table mm_table node_ptr_expr file_id global_ident in_function in_signature
    include_node method_named accessor_named fuel macro_def def_file other_source lines p q s par v name decl,
  let root := so_root (sources f) in
  let find_def g := if (g =? f)%nat then find_def root t m es_table mm_table node_ptr_expr file_id global_ident in_function in_signature
    include_node method_named accessor_named (S fuel) else fun _ => Nothing in
  let def_source d := match d with RDef (Top x) => item_source root t x | _ => other_source d end in
  (forall x, def_file (RDef (Top x)) = f) ->
  AstIdSpec.proper (plain root) -> lower root = Some t -> file_def_map t = Some m ->
  written (sources f) lines -> same lines p q -> in_code lines p -> outside_arguments (sources f) p ->
  smallest (so_text (sources f)) root q s -> is_name_node s = true -> parent s = Some par ->
  alone root (sp_node par) -> at_file_level root par -> global_if_variable par ->
  In v (outline root) -> view_at v = place_of (sp_node par) ->
  shown lines (node_range (so_text (sources f)) (sp_node s)) name ->
  shown lines (node_range (so_text (sources f)) (sp_node par)) decl ->
  handle_goto_definition resolution sources find_def macro_def def_file def_source f p = Val [Link (Some name) f decl name] /\
  le (rstart name) p /\ le p (rend name) /\ inside name decl.
Proof.
  intros sources f t m es mm npe fid gi inf ins inc mn an fuel macro_def def_file other lines p q s par v name decl root find_def def_source
    Df P L M W S C A Sm N Pa Al F G Iv Pv Shn Shd.
  pose proof Sm as (R & _).
  destruct (C50_own_name root t m es mm npe fuel s par v P L M R N Pa Al F G Iv Pv) as (x & Fx & Kx & Dx).
  destruct (name_node _ _ R N) as (a & i & r & E & R' & Nm). pose proof Pa as Pa0. unfold parent in Pa. rewrite E in Pa. injection Pa as <-. cbn [sp_node] in *.
  assert (In_ : inner_name a = sp_node s).
  { assert (Ka : In (s_kind a) (kinds_of_key (view_key v))).
    { destruct (outline_from _ _ Iv) as (d & Ud & Pd & Kd & _). assert (d = a) as -> by (apply (proj2 Al); auto; congruence). auto. }
    assert (Ch : child_by_field_name "name" a = Some (sp_node s)).
    { unfold is_name_node in N. rewrite E in N. destruct (field_index "name" 0 (s_kids a)) as [j|] eqn:Fi; [|discriminate]. apply Nat.eqb_eq in N. subst j.
      destruct (spot_up _ _ _ _ _ R E) as (_ & fl & Nth). apply field_index_child in Fi. destruct Fi as (_ & Fi). rewrite Nat.sub_0_r in Fi.
      apply Fi in Nth. exact Nth. }
    unfold inner_name. rewrite Ch.
    replace ((s_kind a =? k_methodmap_property_native)%nat || (s_kind a =? k_methodmap_property_method)%nat) with false; auto.
    clear -Ka. destruct (view_key v); cbn [kinds_of_key In] in Ka; repeat (destruct Ka as [<-|Ka]; [reflexivity|]); destruct Ka. }
  assert (Fd : find_def f s = Val (RDef (Top x))).
  { unfold find_def. rewrite Nat.eqb_refl. unfold FindDefModel.find_def. rewrite Fx. reflexivity. }
  assert (Sr : def_source (RDef (Top x)) = Val a) by (eapply (item_source_of root t x a _ (Spot a r)); eauto).
  assert (Pn : AstIdSpec.proper (plain a)).
  { eapply proper_below; [exact P|]. apply under_below. exact (reach_under _ _ _ R'). }
  assert (W' : written (sources (def_file (RDef (Top x)))) lines) by (rewrite Df; auto).
  destruct (C60_code_partial resolution sources find_def macro_def def_file def_source (fun _ _ => "") f lines p q s (RDef (Top x)) name a lines decl name)
    as (H & B1 & B2 & B3 & _); auto.
  - rewrite Df. auto.
  - rewrite Df, In_. auto.
  - rewrite Df in H. auto.
Qed.
Print Assumptions C60_own_name_partial.

(** * A file and what is answered *)
Definition text_a : string := "#define STK stock" ++ nl ++ "stock int f() {" ++ nl ++ "   }" ++ nl ++ "int g;" ++ nl.
Definition leaf_a (k s e : nat) : syn := Syn k s e (substring s (e - s) text_a) [].
Definition root_a : syn :=
  Syn 130 0 46 text_a [
    ("", Syn 134 0 17 "#define STK stock" [("", leaf_a 20 0 7); ("name", leaf_a 1 8 11); ("value", leaf_a 21 12 17)]);
    ("", Syn 144 18 38 "" [("visibility", leaf_a 53 18 23); ("returnType", leaf_a 85 24 27); ("name", leaf_a 1 28 29);
       ("parameters", leaf_a 147 29 31); ("body", leaf_a 201 32 38)]);
    ("", Syn 152 39 45 "" [("type", leaf_a 85 39 42); ("", Syn 156 43 44 "g" [("name", leaf_a 1 43 44)])])].
(** In the editor the second line is [STK int f() {]. *)
Definition lines_a (k : Z) : list piece := if k =? 1 then [Code 0; Use 3 0 5 (0, 0); Code 10] else [Code 100].
Definition offset_a : offset := Offset (Rng (Pos 1 0) (Pos 1 3)) 2 0 0 0.
Definition source_a : source := Source text_a root_a [(1, offset_a)] [].
(** Another file: [f();] *)
Definition text_b : string := "f();".
Definition root_b : syn :=
  Syn 130 0 4 text_b [("", Syn 210 0 4 text_b [("", Syn 213 0 3 "f()" [("function", Syn 1 0 1 "f" []); ("arguments", Syn 214 1 3 "()" [])]); ("", Syn 9 3 4 ";" [])])].
Definition source_b : source := Source text_b root_b [] [].
Definition lines_b (k : Z) : list piece := [Code 100].
(** A file whose one line is [    D() {}] in the editor. *)
Definition text_c : string := "    stock void VeryLongFunctionName() {}".
Definition root_c : syn :=
  Syn 130 4 40 text_c [("", Syn 144 4 40 "" [("visibility", Syn 53 4 9 "stock" []); ("returnType", Syn 83 10 14 "void" []); ("name", Syn 1 15 35 "VeryLongFunctionName" []);
    ("parameters", Syn 147 35 37 "()" []); ("body", Syn 201 38 40 "{}" [])])].
Definition lines_c (k : Z) : list piece := if k =? 0 then [Code 4; Use 1 0 31 (0, 0); Code 5] else [Code 100].
Definition source_c : source := Source text_c root_c [(0, Offset (Rng (Pos 0 4) (Pos 0 5)) 30 0 0 0)] [].
Definition sources_x (f : nat) : source := match f with 0%nat => source_a | 1%nat => source_b | _ => source_c end.

Lemma only_code : forall s, so_offsets s = [] -> written s lines_b.
Proof.
  intros s E k. unfold lines_b. rewrite E. repeat split; try (cbn; lia). repeat constructor; cbn; lia.
Qed.
Lemma written_a : written source_a lines_a.
Proof.
  intros k. unfold lines_a. destruct (Z.eqb_spec k 1) as [->|N].
  - repeat split; try (cbn; lia). repeat constructor; cbn; lia.
  - repeat split; try (cbn; lia); [repeat constructor; cbn; lia|]. unfold on_line. cbn [so_offsets source_a filter fst map]. destruct (Z.eqb_spec 1 k); [congruence|reflexivity].
Qed.
Lemma written_c : written source_c lines_c.
Proof.
  intros k. unfold lines_c. destruct (Z.eqb_spec k 0) as [->|N].
  - repeat split; try (cbn; lia). repeat constructor; cbn; lia.
  - repeat split; try (cbn; lia); [repeat constructor; cbn; lia|]. unfold on_line. cbn [so_offsets source_c filter fst map]. destruct (Z.eqb_spec 0 k); [congruence|reflexivity].
Qed.
Lemma written_b : written source_b lines_b. Proof. apply only_code. reflexivity. Qed.

Ltac seen_at b n a i := exists b, n, a, i; repeat split; cbn; lia.
Definition tree_a : itree := match lower root_a with Some t => t | None => empty_tree end.
Definition map_a : def_map := match file_def_map tree_a with Some m => m | None => DefMap [] [] [] end.
Definition find_x (f : nat) (s : spot) : res resolution :=
  match f with
  | 0%nat => FindDefModel.find_def root_a tree_a map_a (fun _ _ _ => Nothing) (fun _ _ _ => Nothing) (fun _ _ => None) 0 (fun _ => None)
               (fun _ _ _ => Nothing) (fun _ _ => Nothing) (fun _ => Nothing) (fun _ _ => None) (fun _ _ _ => None) 5 s
  | _ => if String.eqb (s_text (sp_node s)) "f" then Val (RDef (Top (FFunction 0))) else Nothing
  end.
Definition macro_x (f i : Z) : option resolution := option_map (fun x => RDef (Top x)) (get_macro map_a (Z.to_nat i)).
Definition source_x (d : resolution) : res syn := match d with RDef (Top x) => item_source root_a tree_a x | _ => Nothing end.
Definition handle_x := handle_goto_definition resolution sources_x find_x macro_x (fun _ => 0%nat) source_x.
Definition hover_x := hover resolution sources_x find_x macro_x (fun _ => 0%nat) source_x (fun _ _ => "").
Definition at_ (l c c' : Z) : range := Rng (Pos l c) (Pos l c').

(** The name [g] in its declaration; the use of [STK], in its name and right behind it; [f] in the other file, whose name is
    selected in column 8 of the editor; a bracket, which means nothing; what is shown for [STK] and [g]. *)
Example C60_nontrivial :
  handle_x 0 (Pos 3 4) = Val [Link (Some (at_ 3 4 5)) 0 (at_ 3 4 5) (at_ 3 4 5)] /\
  handle_x 0 (Pos 1 1) = Val [Link (Some (at_ 1 0 3)) 0 (at_ 0 0 17) (at_ 0 8 11)] /\
  handle_x 0 (Pos 1 3) = handle_x 0 (Pos 1 1) /\
  option_map li_selection (match handle_x 1 (Pos 0 0) with Val l => hd_error l | _ => None end) = Some (at_ 1 8 9) /\
  handle_x 1 (Pos 0 2) = Nothing /\
  hover_x true 0 (Pos 1 2) = Val (Answer (at_ 1 0 3) (fenced_block "#define STK stock" ++ nl ++ "Expands to:" ++ nl ++ fenced_block "stock")%string) /\
  hover_x false 0 (Pos 3 4) = Val (Answer (at_ 3 4 5) (fenced_block "g")).
Proof. vm_compute. repeat split; reflexivity. Qed.

(** A test for trees whose nodes are in order. *)
Fixpoint in_orderb (from : nat) (l : list node) (upto : nat) : bool :=
  match l with
  | [] => (from <=? upto)%nat
  | c :: r => (from <=? start_of c)%nat && (start_of c <=? stop_of c)%nat && in_orderb (stop_of c) r upto
  end.
Lemma in_orderb_sound : forall l a b, in_orderb a l b = true -> in_order a l b.
Proof.
  induction l as [|c l IH]; intros a b H; cbn in *; [apply Nat.leb_le; auto|].
  apply andb_true_iff in H as (H & H2). apply andb_true_iff in H as (H0 & H1). apply Nat.leb_le in H0. apply Nat.leb_le in H1. auto.
Qed.
Fixpoint properb (n : node) : bool :=
  match n with Node _ s e c => in_orderb s c e && forallb properb c end.
Lemma properb_sound : forall n, properb n = true -> AstIdSpec.proper n.
Proof.
  intros n H m B. induction B as [n|n c m I B IH].
  - destruct n. cbn in H. apply andb_true_iff in H as (H & _). apply in_orderb_sound. exact H.
  - apply IH. destruct n as [k s e cs]. cbn [properb kids_of] in *. apply andb_true_iff in H as (_ & H).
    rewrite forallb_forall in H. auto.
Qed.

(** The name [f] in the other file. *)
Definition spot_b : spot := match go root_b [] [0; 0; 0]%nat with Some s => s | None => Spot root_b [] end.
Lemma smallest_b : smallest text_b root_b (Pos 0 0) spot_b.
Proof.
  split; [apply (go_reach [0; 0; 0]%nat); reflexivity|]. split; [|intros c []].
  split; unfold le, lt; cbn; lia.
Qed.
Lemma in_code_b : forall p, in_code lines_b p.
Proof. intros p b nm (a & w & i & r & E & _). cbn in E. destruct b as [|x [|? ?]]; cbn in E; discriminate. Qed.
Lemma same_b : forall l c, 0 <= c <= 100 -> same lines_b (Pos l c) (Pos l c).
Proof. intros l c B. split; [reflexivity|]. exists [], 100, [], c. repeat split; cbn; lia. Qed.
Lemma shown_b : shown lines_b (node_range text_b (sp_node spot_b)) (at_ 0 0 1).
Proof. split; [apply same_b; lia|]. split; [apply same_b; lia|]. left. reflexivity. Qed.

(** Not so for a definition over several lines whose first line uses a macro: the last column is moved as if it were in the
    first line. [f] ends in column 4 of line 2, and the target sent ends before its closing brace. *)
Theorem C60_lines_refuted :
  exists sources find_def macro_def def_file def_source f lines p q s d u n lines' full name l,
    AstIdSpec.proper (plain (so_root (sources f))) /\ written (sources f) lines /\
    same lines p q /\ in_code lines p /\ outside_arguments (sources f) p /\
    smallest (so_text (sources f)) (so_root (sources f)) q s /\ find_def f s = Val d /\
    shown lines (node_range (so_text (sources f)) (sp_node s)) u /\
    def_source d = Val n /\ written (sources (def_file d)) lines' /\
    same lines' (rstart full) (rstart (node_range (so_text (sources (def_file d))) n)) /\
    same lines' (rend full) (rend (node_range (so_text (sources (def_file d))) n)) /\
    shown lines' (node_range (so_text (sources (def_file d))) (inner_name n)) name /\
    handle_goto_definition resolution sources find_def macro_def def_file def_source f p = Val [l] /\
    li_selection l = name /\ rend full = Pos 2 4 /\ rend (li_range l) = Pos 2 2.
Proof.
  exists sources_x, find_x, macro_x, (fun _ => 0%nat), source_x, 1%nat, lines_b, (Pos 0 0), (Pos 0 0), spot_b, (RDef (Top (FFunction 0))), (at_ 0 0 1).
  exists (match source_x (RDef (Top (FFunction 0))) with Val n => n | _ => root_a end), lines_a, (Rng (Pos 1 0) (Pos 2 4)), (at_ 1 8 9),
    (Link (Some (at_ 0 0 1)) 0 (Rng (Pos 1 0) (Pos 2 2)) (at_ 1 8 9)).
  split; [apply properb_sound; reflexivity|]. split; [apply written_b|]. split; [apply same_b; lia|]. split; [apply in_code_b|].
  split; [constructor|]. split; [apply smallest_b|]. split; [reflexivity|]. split; [apply shown_b|]. split; [reflexivity|].
  split; [apply written_a|].
  assert (N : exists n, source_x (RDef (Top (FFunction 0))) = Val n /\ node_range text_a n = Rng (Pos 1 0) (Pos 2 4) /\ node_range text_a (inner_name n) = at_ 1 10 11).
  { destruct (source_x (RDef (Top (FFunction 0)))) as [n| |] eqn:S; [|vm_compute in S; discriminate|vm_compute in S; discriminate].
    exists n. split; auto. vm_compute in S. injection S as <-. split; reflexivity. }
  destruct N as (n & -> & N1 & N2). cbn [sources_x source_a so_text]. rewrite N1, N2. cbn [rstart rend at_].
  split; [split; [reflexivity|]; seen_at (@nil piece) 0 [Use 3 0 5 (0, 0); Code 10] 0|].
  split; [split; [reflexivity|]; seen_at (@nil piece) 100 (@nil piece) 4|].
  split; [split; [split; [reflexivity|]; seen_at [Code 0; Use 3 0 5 (0, 0)] 10 (@nil piece) 5|split; [split; [reflexivity|]; seen_at [Code 0; Use 3 0 5 (0, 0)] 10 (@nil piece) 6|left; reflexivity]]|].
  vm_compute. auto.
Qed.
Print Assumptions C60_lines_refuted.

(** A function whose name comes out of a macro: the selection sent is not within the target, which LSP forbids. *)
Theorem C60_inside_refuted :
  exists sources find_def macro_def def_file def_source f lines p q s d u n lines' full l,
    AstIdSpec.proper (plain (so_root (sources f))) /\ written (sources f) lines /\
    same lines p q /\ in_code lines p /\ outside_arguments (sources f) p /\
    smallest (so_text (sources f)) (so_root (sources f)) q s /\ find_def f s = Val d /\
    shown lines (node_range (so_text (sources f)) (sp_node s)) u /\
    def_source d = Val n /\ AstIdSpec.proper (plain n) /\ written (sources (def_file d)) lines' /\
    shown lines' (node_range (so_text (sources (def_file d))) n) full /\
    handle_goto_definition nat sources find_def macro_def def_file def_source f p = Val [l] /\
    li_range l = full /\ ~ inside (li_selection l) (li_range l).
Proof.
  exists sources_x, (fun _ s => if String.eqb (s_text (sp_node s)) "f" then Val 2%nat else Nothing), (fun _ _ => None), (fun d => d),
    (fun _ => ask (hd_error (children root_c))), 1%nat, lines_b, (Pos 0 0), (Pos 0 0), spot_b, 2%nat, (at_ 0 0 1).
  exists (match children root_c with n :: _ => n | [] => root_c end), lines_c, (at_ 0 4 10), (Link (Some (at_ 0 0 1)) 2 (at_ 0 4 10) (at_ 0 0 5)).
  split; [apply properb_sound; reflexivity|]. split; [apply written_b|]. split; [apply same_b; lia|]. split; [apply in_code_b|].
  split; [constructor|]. split; [apply smallest_b|]. split; [reflexivity|]. split; [apply shown_b|]. split; [reflexivity|].
  split; [apply properb_sound; reflexivity|]. split; [apply written_c|].
  split.
  { split; [split; [reflexivity|]; seen_at (@nil piece) 4 [Use 1 0 31 (0, 0); Code 5] 4|].
    split; [split; [reflexivity|]; seen_at [Code 4; Use 1 0 31 (0, 0)] 5 (@nil piece) 5|left; reflexivity]. }
  split; [vm_compute; reflexivity|]. split; [reflexivity|]. intros (X & _). unfold le in X. cbn in X. lia.
Qed.
Print Assumptions C60_inside_refuted.

(** The end of a name that is not a macro's does not count: with the cursor right behind [f], where editors take it to be on
    [f], nothing is answered. (Right behind a macro's name it is, see above.) *)
Theorem C60_word_end_refuted :
  exists sources find_def macro_def def_file def_source f lines p q s d u,
    AstIdSpec.proper (plain (so_root (sources f))) /\ written (sources f) lines /\
    same lines p q /\ in_code lines p /\ outside_arguments (sources f) p /\
    spot_in (so_root (sources f)) s /\ children (sp_node s) = [] /\ find_def f s = Val d /\
    shown lines (node_range (so_text (sources f)) (sp_node s)) u /\ p = rend u /\
    handle_goto_definition resolution sources find_def macro_def def_file def_source f (rstart u) <> Nothing /\
    handle_goto_definition resolution sources find_def macro_def def_file def_source f p = Nothing.
Proof.
  exists sources_x, find_x, macro_x, (fun _ => 0%nat), source_x, 1%nat, lines_b, (Pos 0 1), (Pos 0 1), spot_b, (RDef (Top (FFunction 0))), (at_ 0 0 1).
  split; [apply properb_sound; reflexivity|]. split; [apply written_b|]. split; [apply same_b; lia|]. split; [apply in_code_b|].
  split; [constructor|]. split; [apply (go_reach [0; 0; 0]%nat); reflexivity|]. split; [reflexivity|]. split; [reflexivity|].
  split; [apply shown_b|]. split; [reflexivity|]. split; [|reflexivity].
  assert (X : match handle_x 1 (Pos 0 0) with Val _ => true | _ => false end = true) by (vm_compute; reflexivity).
  intros E. unfold handle_x in X. cbn [rstart at_] in E. rewrite E in X. discriminate.
Qed.
Print Assumptions C60_word_end_refuted.
