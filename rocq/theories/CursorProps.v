(** C72: with the cursor on a name in a function, "go to definition" leads in the editor to the declaration that counts
    there. *)
From Coq Require Import List ZArith String Bool Arith Lia.
From Verif Require Import PreTypes PosModel PosSpec PosProofs AstIdModel AstIdSpec AstIdProps TypeRefModel ItemTreeModel ItemTreeSpec ItemTreeProofs ItemTreeProps FindDefModel FindDefSpec FindDefProofs FindDefProps GotoModel GotoSpec GotoProofs GotoProps MethodModel MethodProps CursorModel CursorSpec.
From Verif Require OffsetProps LowerModel LowerSpec LowerProofs LowerProps LowerHir WrittenSpec WrittenLower WrittenProofs WrittenProps OffsetModel OffsetSpec HirModel HirNames SaidSpec SaidProps MemberSpec HirSpec.
Import ListNotations.
Local Open Scope string_scope.
Local Open Scope nat_scope.
Local Open Scope list_scope.

(** * Numbers of pointers *)
Lemma pointers_under : forall n m, under n m -> In (pointer m) (pointers n).
Proof.
  induction 1 as [[k a z x cs]|[k a z x cs] c m I _ IH]; cbn [pointers]; [left; reflexivity|right].
  unfold children in I. apply in_map_iff in I as (y & <- & I). apply in_flat_map. exists y. auto.
Qed.
Lemma index_in : forall p l, In p l -> nth_error l (index p l) = Some p.
Proof.
  induction l as [|q l IH]; [intros []|]. intros I. cbn [index]. destruct (ptr_eqb q p) eqn:E.
  - apply ptr_eqb_iff in E. subst. reflexivity.
  - destruct I as [->|I]; [rewrite (proj2 (ptr_eqb_iff p p) eq_refl) in E; discriminate|]. cbn [nth_error]. auto.
Qed.
Lemma number_under : forall root n, under root n -> pointer_no root (number root (pointer n)) = Some (pointer n).
Proof. intros root n U. apply index_in, pointers_under, U. Qed.
Lemma kind_ts : forall root n, LowerModel.kind_of (ts_of root n) = kind_no (s_kind n).
Proof. intros root [k a z x cs]. reflexivity. Qed.

Lemma locate_under : forall root n, AstIdSpec.proper (plain root) -> under root n -> alone root n ->
  exists s, locate (pointer n) root [] = Some s /\ sp_node s = n.
Proof.
  intros root n P U A.
  assert (R : forall a, under a n -> forall up, exists s, reach a up s /\ sp_node s = n).
  { clear. induction 1 as [a|a c m I _ IH]; intros up; [exists (Spot a up); split; [constructor|reflexivity]|].
    unfold children in I. apply in_map_iff in I as ([f x] & E & I). cbn [snd] in E. subst x. apply In_nth_error in I as (i & I).
    destruct (IH ((a, i) :: up)) as (s & R & E). exists s. split; [exact (reach_kid _ _ _ _ _ _ I R)|exact E]. }
  destruct (R root U []) as (s & Rs & <-). exists s. split; [|reflexivity]. apply locate_spot; auto.
Qed.

(** Every pointer that an expression comes from leads to an expression that comes from it. *)
Definition led {A} (m : LowerModel.M A) : Prop := forall s a s', m s = LowerModel.Ret a s' ->
  (forall i p, In (i, p) (LowerModel.expr_map_back s) -> LowerModel.node_expr s p <> None) ->
  forall i p, In (i, p) (LowerModel.expr_map_back s') -> LowerModel.node_expr s' p <> None.
Lemma lower_led : forall e pl b i s, LowerModel.lower e pl b = LowerModel.Ret i s ->
  forall j p, LowerModel.expr_source s j = Some p -> exists k, LowerModel.node_expr s p = Some k /\ LowerModel.expr_source s k = Some p.
Proof.
  intros e pl b i s E j p Sj.
  assert (N : LowerModel.node_expr s p <> None).
  { set (ns := (match pl with Some n => LowerSpec.nodes n | None => [] end ++ match b with Some n => LowerSpec.nodes n | None => [] end)%list).
    assert (Bind : forall A B (m : LowerModel.M A) (g : A -> LowerModel.M B), led m -> (forall a, led (g a)) -> led (LowerModel.bind m g)).
    { intros A B m0 g H K s0 y s1 E0 S. unfold LowerModel.bind in E0. destruct (m0 s0) as [|a s2] eqn:Em; [discriminate|]. exact (K _ _ _ _ E0 (H _ _ _ Em S)). }
    refine (LowerProps.walk_lower e ns (fun A m => led m) _ Bind _ _ _ _ pl b _ _ LowerModel.empty_state i s E _ j p (LowerProps.lookup_in _ _ _ Sj)).
    - intros A a s0 y s1 E0 S. injection E0 as <- <-. exact S.
    - intros s0 y s1 E0 S. injection E0 as <- <-. exact S.
    - intros n s0 y s1 E0 S. injection E0 as <- <-. exact S.
    - intros y d _ _ s0 z s1 E0 S. injection E0 as <- <-. cbn [LowerModel.expr_map_back]. intros k q I. unfold LowerModel.node_expr. cbn [LowerModel.expr_map].
      destruct (Nat.eq_dec q (LowerModel.ptr_of d)) as [->|Nq]; [rewrite LowerProps.lookup_here; discriminate|].
      rewrite LowerProps.lookup_fresh by exact Nq. destruct I as [I|I]; [injection I as <- <-; contradiction|]. exact (S k q I).
    - intros y s0 z s1 E0 S. injection E0 as <- <-. exact S.
    - intros n K. split; [|left; intros A s0 y s1 E0; discriminate]. unfold ns. destruct K as [-> | ->]; intros d D; apply in_or_app; auto.
    - intros n _. left. intros A s0 y s1 E0. discriminate.
    - intros k q []. }
  destruct (LowerModel.node_expr s p) as [k|] eqn:K; [|contradiction]. exists k. split; [reflexivity|].
  exact (proj1 (proj2 (LowerProps.C48_sources e pl b i s E)) p k K).
Qed.

(** * What the name means *)
Section function.
Variable root : syn.
Variable t : itree.
Variable parse_f64 : string -> option nat.
Variable member_node : def -> FindDefModel.res syn.
Variable owner : def -> nat.
Variable def_of : nat -> def.
Variable maps : list HirModel.def_map.
Variable object : def -> option (bool * nat).
Variable db : HirModel.database.
Variable other_def : OffsetModel.found_def -> FindDefModel.res resolution.
Notation body := (body_of root t parse_f64 member_node).
Notation asked := (in_function root t parse_f64 member_node owner def_of maps object db other_def).

(** The parameters are a list of parameters, or the one of a setter. *)
Definition params_kind (c : syn) : Prop := forall n, params_list c = Some n -> s_kind n = 147 \/ s_kind n = 148.
Lemma params_kind_plain : forall c, ~ In (s_kind c) [185; 186] -> params_kind c.
Proof.
  intros c K n E. unfold params_list in E. destruct (one_of (s_kind c) _) eqn:O.
  { exfalso. apply K. unfold one_of in O. apply existsb_exists in O as (k & I & O). apply Nat.eqb_eq in O. subst k. exact I. }
  apply List.find_some in E as (_ & F). unfold has_kind in F. apply Nat.eqb_eq in F. left. exact F.
Qed.

(** The body of the function is lowered without a crash. *)
Lemma body_made : forall d (c : syn) b, def_node root t member_node d = Val c -> params_kind c ->
  child_by_field_name "body" c = Some b -> well_written root parse_f64 c b ->
  exists i st, body d = Val (Some i, st) /\
    LowerModel.lower (environment root parse_f64) (option_map (ts_of root) (params_list c)) (Some (ts_of root b)) = LowerModel.Ret (Some i) st.
Proof.
  intros d c b Src K B (_ & _ & Cb & Cp). unfold body_of. rewrite Src. cbn [FindDefModel.bind]. rewrite B. cbn [option_map].
  set (pl := option_map (ts_of root) (params_list c)).
  assert (NC : LowerModel.lower (environment root parse_f64) pl (Some (ts_of root b)) <> LowerModel.Panic).
  { apply LowerProps.C48_no_crash.
    - intros n E. unfold pl in E. destruct (params_list c) as [y|] eqn:F; [|discriminate E]. cbn in E. injection E as <-. rewrite kind_ts.
      destruct (K y F) as [-> | ->]; [left|right]; reflexivity.
    - intros n [E|E]; [|injection E as <-; exact Cb]. unfold pl in E. destruct (params_list c) as [y|] eqn:F; [|discriminate E]. cbn in E. injection E as <-.
      exact (proj2 (Cp y eq_refl)). }
  destruct (LowerModel.lower (environment root parse_f64) pl (Some (ts_of root b))) as [|i st] eqn:E; [contradiction|].
  destruct i as [i|].
  - exists i, st. split; reflexivity.
  - exfalso. unfold LowerModel.lower, LowerModel.bind in E. destruct (LowerModel.collect_params _ _ _) as [|u s0]; [discriminate|].
    destruct (LowerModel.collect _ s0); discriminate.
Qed.

Lemma place_plain : forall s, plain_use s -> place_at s = OffsetModel.POther.
Proof.
  intros s (_ & p & i & r & E & N & F). unfold place_at, is_field_receiver_node. rewrite E.
  destruct (s_kind p =? 159) eqn:K1; [apply Nat.eqb_eq in K1; exfalso; apply N; rewrite K1; cbn; auto|].
  destruct (s_kind p =? 219) eqn:K2; [apply Nat.eqb_eq in K2; exfalso; apply N; rewrite K2; cbn; auto 6|].
  destruct (s_kind p =? 225) eqn:K3; [|reflexivity]. apply Nat.eqb_eq in K3. specialize (F K3). cbn [andb].
  destruct (field_index "field" 0 (s_kids p)) as [j|]; [|reflexivity]. destruct (i =? j) eqn:Ij; [|reflexivity].
  apply Nat.eqb_eq in Ij. subst. contradiction.
Qed.

(** The function is asked about the name, and finds the local variable of the declaration that counts, or else what the
    name means in the file. *)
Lemma asked_name : forall d c b s n, def_node root t member_node d = Val (sp_node c) -> params_kind (sp_node c) ->
  child_by_field_name "body" (sp_node c) = Some b -> s_kind b = 201 -> well_written root parse_f64 (sp_node c) b ->
  plain_use s -> def_of (owner d) = d ->
  (s_text (sp_node s) = "this" -> HirModel.resolve_global maps "this" = None) ->
  means_at root (sp_node c) b (start_of (plain (sp_node s))) (s_text (sp_node s)) n ->
  match n with
  | Some n => exists j i st, asked d c s = Val (RLocal d j) /\ body d = Val (i, st) /\
                LowerModel.expr_source st j = Some (number root (pointer n))
  | None => (forall r, asked d c s = Val r <->
      exists v w, HirModel.resolve_ident (HirNames.owner_resolver maps (object d)) (s_text (sp_node s)) = Some v /\
        OffsetSpec.leads_to v w /\ resolution_of def_of other_def (Some w) = Val r) /\
      ((forall v w, HirModel.resolve_ident (HirNames.owner_resolver maps (object d)) (s_text (sp_node s)) = Some v -> ~ OffsetSpec.leads_to v w) ->
       asked d c s = Nothing)
  end.
Proof.
  intros d c b s n Src K B Kb W U Od Th (Jc & dcl & Ar & De).
  destruct (body_made d (sp_node c) b Src K B W) as (i & st & Eb & El). destruct W as (Tb & Cb & _ & Cp).
  pose proof (WrittenProps.C66_place (span_no root) (environment root parse_f64) (option_map (ts_of root) (params_list (sp_node c))) (ts_of root b) i st
    (OffsetModel.FnInput (owner d) maps (HirNames.owner_resolver maps (object d)) (LowerHir.to_body st (Some i))
       (fun j => option_map (span_no root) (LowerModel.expr_source st j)) db)
    (object d) (start_of (plain (sp_node s))) dcl (s_text (sp_node s)) El) as H.
  rewrite kind_ts, Kb in H. specialize (H eq_refl Tb Cb).
  assert (Hp : forall n0, option_map (ts_of root) (params_list (sp_node c)) = Some n0 -> LowerSpec.everywhere WrittenLower.holds_expression n0).
  { intros n0 E. destruct (params_list (sp_node c)) as [y|] eqn:F; [|discriminate E]. cbn in E. injection E as <-. exact (proj1 (Cp y eq_refl)). }
  assert (Th' : s_text (sp_node s) = "this" -> HirModel.resolve_global maps (s_text (sp_node s)) = None) by (intros E; rewrite E; auto).
  specialize (H Hp eq_refl eq_refl eq_refl Th' Ar Jc). rewrite De in H.
  assert (A : asked d c s = resolution_of def_of other_def (OffsetModel.function_node_to_def
          (OffsetModel.FnInput (owner d) maps (HirNames.owner_resolver maps (object d)) (LowerHir.to_body st (Some i))
             (fun j => option_map (span_no root) (LowerModel.expr_source st j)) db)
          true OffsetModel.POther (s_text (sp_node s)) (start_of (plain (sp_node s))) (LowerModel.node_expr st (number root (pointer (sp_node s)))))).
  { unfold in_function. rewrite B, Kb. cbn [Nat.eqb]. rewrite Eb. cbn [FindDefModel.bind]. rewrite (place_plain s U). reflexivity. }
  destruct n as [n|]; cbn [option_map] in H.
  - destruct H as (j & Sj & H). exists j, (Some i), st. rewrite A, H. cbn [resolution_of OffsetModel.f_owner]. rewrite Od. auto.
  - rewrite A. specialize (H (LowerModel.node_expr st (number root (pointer (sp_node s))))). cbn [OffsetModel.f_base] in H.
    destruct (OffsetModel.function_node_to_def _ _ _ _ _ _) as [w|]; (split; [intros r|]).
    + pose proof (proj1 (H w) eq_refl) as (v & Rv & Lv). split.
      * intros E. exists v, w. auto.
      * intros (v' & d' & Rv' & Lv' & E). pose proof (proj2 (H d') (ex_intro _ v' (conj Rv' Lv'))) as F'. injection F' as ->. exact E.
    + intros N. pose proof (proj1 (H w) eq_refl) as (v & Rv & Lv). destruct (N v w Rv Lv).
    + split; [discriminate|]. intros (v' & d' & Rv' & Lv' & E). pose proof (proj2 (H d') (ex_intro _ v' (conj Rv' Lv'))) as F'. discriminate.
    + reflexivity.
Qed.

(** The declaration is found again from the local variable. *)
Lemma local_source : forall d j i st n, body d = Val (i, st) -> LowerModel.expr_source st j = Some (number root (pointer n)) ->
  AstIdSpec.proper (plain root) -> under root n -> alone root n ->
  def_source root t parse_f64 member_node (RLocal d j) = Val n.
Proof.
  intros d j i st n E S P U A. unfold def_source. rewrite E. cbn [FindDefModel.bind]. rewrite S. cbn [ask FindDefModel.bind].
  rewrite (number_under root n U). cbn [must FindDefModel.bind]. destruct (locate_under root n P U A) as (s & L & <-). rewrite L. reflexivity.
Qed.
End function.

(** * From the cursor to the declaration *)
(** The file [f] in a world of files. *)
Section world.
Variable sources : nat -> source.
Variable f : nat.
Notation root := (so_root (sources f)).
Variable t : itree.
Variable m : FindDefModel.def_map.
Variable es_table mm_table : def -> key -> ptr -> FindDefModel.res def.
Variable global_ident : string -> option value.
Variable in_signature : def -> string -> FindDefModel.res resolution.
Variable include_node : spot -> FindDefModel.res resolution.
Variable inherited_method : nat -> string -> option def.
Variable inherited_accessor : nat -> string -> bool -> option def.
Variable fuel : nat.
Variable parse_f64 : string -> option nat.
Variable member_node : def -> FindDefModel.res syn.
Variable owner : def -> nat.
Variable def_of : nat -> def.
Variable maps : list HirModel.def_map.
Variable object : def -> option (bool * nat).
Variable db : HirModel.database.
Variable other_def : OffsetModel.found_def -> FindDefModel.res resolution.
Variable other_file : nat -> spot -> FindDefModel.res resolution.
Variable macro_def : Z -> Z -> option resolution.
Variable def_file : resolution -> nat.
Definition asks (g : nat) : spot -> FindDefModel.res resolution :=
  if g =? f then
    FindDefModel.find_def root t m es_table mm_table (ptr_expr root t parse_f64 member_node) f global_ident
      (in_function root t parse_f64 member_node owner def_of maps object db other_def) in_signature include_node (method_named t inherited_method) (accessor_named t inherited_accessor) (S (S (S fuel)))
  else other_file g.
Notation answer := (handle_goto_definition resolution sources asks macro_def def_file (def_source root t parse_f64 member_node)).
Notation shows := (hover resolution sources asks macro_def def_file (def_source root t parse_f64 member_node)).

Hypothesis Here : forall d j, def_file (RLocal d j) = f.
Hypothesis Proper : AstIdSpec.proper (plain root).
Hypothesis Lowered : ItemTreeModel.lower root = Some t.
Hypothesis Mapped : file_def_map t = Some m.
Hypothesis Interned : forall d, of_file t d -> def_of (owner d) = d.

Lemma function_source : forall x (c : spot) nm, spot_in root c -> alone root (sp_node c) -> is_declaration root t x (sp_node c) nm ->
  item_source root t x = Val (sp_node c).
Proof. intros x c nm R A D. exact (item_source_of root t x (sp_node c) nm c Proper R A eq_refl D). Qed.

Lemma nearest_in : forall ks ups a s c, reach a [] s -> sp_up s = ups -> nearest ks ups = Some c -> reach a [] c.
Proof.
  intros ks ups. induction ups as [|[n i] r IH]; intros a s c R E N; [discriminate|]. cbn [nearest] in N.
  destruct (spot_up _ _ _ _ _ R E) as (R' & _). destruct (existsb _ _); [injection N as <-; exact R'|]. exact (IH a (Spot n r) c R' eq_refl N).
Qed.

Lemma in_params : forall s c b, in_definition root s c b -> params_kind (sp_node c).
Proof.
  intros s c b (_ & _ & _ & nm & v & [(_ & K & _)|[(_ & K & _)|(K & _ & G & _)]]).
  - apply params_kind_plain. rewrite K. cbn. intuition discriminate.
  - apply params_kind_plain. cbn [In] in *. intuition lia.
  - intros n E. unfold params_list in E. right. destruct (one_of (s_kind (sp_node c)) _) eqn:O.
    + destruct (find _ (children (sp_node c))) as [g|] eqn:F; [|discriminate E]. apply List.find_some in F as (I & _). exact (G g n I E).
    + exfalso. unfold one_of in O. rewrite <- not_true_iff_false in O. apply O. apply existsb_exists. exists (s_kind (sp_node c)). split; [|apply Nat.eqb_refl].
      cbn [In] in *. unfold k_methodmap_property_native, k_methodmap_property_method. tauto.
Qed.
Lemma parent_in : forall s c, spot_in root s -> parent s = Some c -> spot_in root c.
Proof.
  intros s c R P. unfold parent in P. destruct (sp_up s) as [|[n i] r] eqn:E; [discriminate|]. injection P as <-. exact (proj1 (spot_up _ _ _ _ _ R E)).
Qed.
Lemma asked_in : forall s c b p i r, spot_in root s -> is_name_node s = false -> sp_up s = (p, i) :: r -> ~ In (s_kind p) [131; 132] ->
  in_definition root s c b ->
  exists d, of_file t d /\ def_node root t member_node d = Val (sp_node c) /\
    asks f s = in_function root t parse_f64 member_node owner def_of maps object db other_def d c s.
Proof.
  intros s c b p i r R N E Np (A & B & Kb & nm & v & D).
  assert (Pa : parent s = Some (Spot p r)) by (unfold parent; rewrite E; reflexivity).
  pose proof (C51_owner root t m es_table mm_table (ptr_expr root t parse_f64 member_node) f global_ident
      (in_function root t parse_f64 member_node owner def_of maps object db other_def) in_signature include_node (method_named t inherited_method)
      (accessor_named t inherited_accessor) (S (S (S fuel))) s (Spot p r) Lowered Mapped R Pa N Np) as H.
  assert (Bk : option_map s_kind (child_by_field_name "body" (sp_node c)) = Some 201) by (rewrite B; cbn; rewrite Kb; reflexivity).
  unfold asks. rewrite Nat.eqb_refl.
  destruct D as [(Nr & K & Nm & Fi & Kv & Pv)|[(Nr & K & Nm & o & onm & Po & On & Fi & Pv & Me)|(K & (e & Nr & Ke) & _ & pr & o & onm & g & Ppr & Pn & Po & On & Fi & Pv & Fg & Me)]].
  - rewrite Nr in H. destruct H as (_ & H). destruct (H nm v) as (H1 & _). destruct (H1 K Nm Bk Fi Kv Pv) as (x & D & F).
    exists (Top x). split; [exact (proj1 D)|]. split; [exact (function_source x c nm (nearest_in _ _ _ _ _ R eq_refl Nr) A D)|exact F].
  - rewrite Nr in H. destruct H as (_ & H). destruct (H nm v) as (_ & _ & H3 & _).
    assert (Kv : In (view_key v) [KEnumStruct; KMethodmap]) by (destruct v; cbn [method_at] in Me; try discriminate Me; cbn; auto).
    destruct (H3 o onm K Nm Po On Fi Kv Pv) as (x & _ & Vx & F).
    destruct (method_found root t member_node inherited_method Proper x v nm c Vx Me (nearest_in _ _ _ _ _ R eq_refl Nr) A) as (d & Md & Od & Sd).
    rewrite Md in F. exists d. auto.
  - rewrite Nr in H. destruct H as (_ & H). destruct (H nm v) as (_ & _ & _ & H4).
    assert (Kv : view_key v = KMethodmap) by (destruct v; cbn [accessor_at] in Me; try discriminate Me; reflexivity).
    assert (Rc : spot_in root c).
    { pose proof (nearest_in _ _ _ _ _ R eq_refl Nr) as Re. destruct Ke as [<-|(_ & Ke)]; [exact Re|exact (parent_in e c Re Ke)]. }
    destruct (H4 c pr o onm) with (g := g) as (x & _ & Vx & F); auto.
    { destruct Ke as [->|(Ke & Pe)]; [right|left]; auto. }
    destruct (accessor_found root t member_node inherited_accessor Proper x v nm _ c Vx Me Rc A) as (d & Md & Od & Sd).
    rewrite Md in F. exists d. auto.
Qed.
Lemma asked_use : forall s c b, spot_in root s -> plain_use s -> in_definition root s c b ->
  exists d, of_file t d /\ def_node root t member_node d = Val (sp_node c) /\
    asks f s = in_function root t parse_f64 member_node owner def_of maps object db other_def d c s.
Proof.
  intros s c b R (N & p & i & r & E & Np & _) D. apply (asked_in s c b p i r); auto. intros I. apply Np. cbn in *. tauto.
Qed.

(** The cursor is on a name that is used in a function, and a declaration of the function counts there: one link is sent.
    Its origin is the name, and holds the cursor; its target is the declaration, where the editor has it, and what is
    selected is the name in the declaration. Hovering marks the name and shows the text of the declaration. *)
Theorem C72_local_partial : forall lines p s c b n u full name,
  written (sources f) lines -> cursor_on (sources f) lines p s -> plain_use s -> in_definition root s c b ->
  well_written root parse_f64 (sp_node c) b -> (s_text (sp_node s) = "this" -> HirModel.resolve_global maps "this" = None) ->
  means_at root (sp_node c) b (start_of (plain (sp_node s))) (s_text (sp_node s)) (Some n) -> under root n -> alone root n ->
  shown lines (node_range (so_text (sources f)) (sp_node s)) u ->
  shown lines (node_range (so_text (sources f)) n) full -> shown lines (node_range (so_text (sources f)) (inner_name n)) name ->
  answer f p = Val [Link (Some u) f full name] /\ le (rstart u) p /\ le p (rend u) /\ inside name full /\
  (forall docs, shows docs false f p = Val (Answer u (fenced_block (text_of (so_text (sources f)) n)))).
Proof.
  intros lines p s c b n u full name W (C & A & q & S & Sm) U D Wr Th Me Un Al Shu Shf Shn. pose proof Sm as (R & _).
  destruct (asked_use s c b R U D) as (x & Ix & Src & F). pose proof D as (_ & B & Kb & _). pose proof (in_params s c b D) as K.
  destruct (asked_name root t parse_f64 member_node owner def_of maps object db other_def x c b s (Some n) Src K B Kb Wr U (Interned x Ix) Th Me)
    as (j & i & st & As & Bo & So).
  rewrite As in F. pose proof (local_source root t parse_f64 member_node x j i st n Bo So Proper Un Al) as Ls.
  assert (Pn : AstIdSpec.proper (plain n)) by (eapply proper_below; [exact Proper|apply under_below; exact Un]).
  assert (G : forall docs, answer f p = Val [Link (Some u) f full name] /\ le (rstart u) p /\ le p (rend u) /\ inside name full /\
    shows docs false f p = Val (Answer u (fenced_block (text_of (so_text (sources f)) n)))).
  { intros docs. destruct (C60_code_partial resolution sources asks macro_def def_file (def_source root t parse_f64 member_node) docs f lines p q s
      (RLocal x j) u n lines full name) as (H & B1 & B2 & B3 & B4 & _); auto; try (rewrite Here; auto; fail).
    rewrite Here in H, B4. auto. }
  destruct (G (fun _ _ => "")) as (H & B1 & B2 & B3 & _). repeat (split; [assumption|]). intros docs. apply (G docs).
Qed.

(** The name in a declaration leads into the body of [d], whose node is [c]: then to the declaration itself. *)
Lemma declared_in : forall d lines p s c b par at_ x full name,
  written (sources f) lines -> cursor_on (sources f) lines p s -> is_name_node s = true -> parent s = Some par ->
  local_declaration par -> alone root (sp_node par) ->
  (forall npe, find_name_def root t m es_table mm_table npe (S (S (S fuel))) s = match npe d (place_of (sp_node par)) with Some e => Val (RLocal d e) | None => Nothing end) ->
  def_node root t member_node d = Val (sp_node c) -> params_kind (sp_node c) ->
  child_by_field_name "body" (sp_node c) = Some b -> s_kind b = 201 ->
  well_written root parse_f64 (sp_node c) b -> (x = "this" -> HirModel.resolve_global maps "this" = None) ->
  means_at root (sp_node c) b at_ x (Some (sp_node par)) ->
  shown lines (node_range (so_text (sources f)) (sp_node s)) name ->
  shown lines (node_range (so_text (sources f)) (sp_node par)) full ->
  answer f p = Val [Link (Some name) f full name] /\ le (rstart name) p /\ le p (rend name) /\ inside name full.
Proof.
  intros d lines p s c b par at_ x full name W (C & A & q & S & Sm) N Pa Ld Al Fn Src Kp B Kb Wr Th (Jc & dcl & Ar & De) Shn Shf.
  pose proof Sm as (R & _).
  destruct (name_node _ _ R N) as (a & i & r & E & R' & Nn). pose proof Pa as Pa0. unfold parent in Pa. rewrite E in Pa. injection Pa as <-. cbn [sp_node sp_up] in *.
  destruct (body_made root t parse_f64 member_node d (sp_node c) b Src Kp B Wr) as (k & st & Eb & El). destruct Wr as (Tb & Cb & _ & Cp).
  assert (Hp : forall n0, option_map (ts_of root) (params_list (sp_node c)) = Some n0 -> LowerSpec.everywhere WrittenLower.holds_expression n0).
  { intros n0 E0. destruct (params_list (sp_node c)) as [z|] eqn:F0; [|discriminate E0]. cbn in E0. injection E0 as <-. exact (proj1 (Cp z eq_refl)). }
  assert (Sj : exists j, LowerModel.expr_source st j = Some (number root (pointer a))).
  { pose proof (WrittenProps.C66_place (span_no root) (environment root parse_f64) (option_map (ts_of root) (params_list (sp_node c))) (ts_of root b) k st
      (OffsetModel.FnInput (owner d) maps (HirNames.owner_resolver maps (object d)) (LowerHir.to_body st (Some k))
         (fun j => option_map (span_no root) (LowerModel.expr_source st j)) db) (object d) at_ dcl x El) as H.
    rewrite kind_ts, Kb in H. specialize (H eq_refl Tb Cb Hp eq_refl eq_refl eq_refl).
    assert (Th' : x = "this" -> HirModel.resolve_global maps x = None) by (intros ->; auto).
    specialize (H Th' Ar Jc). rewrite De in H. cbn [option_map sp_node] in H. destruct H as (j & Hj & _). exists j. exact Hj. }
  destruct Sj as (j & Sj). destruct (lower_led _ _ _ _ _ El j _ Sj) as (j' & Nj & Sj').
  assert (Fd : asks f s = Val (RLocal d j')).
  { unfold asks. rewrite Nat.eqb_refl. unfold FindDefModel.find_def. rewrite (Fn (ptr_expr root t parse_f64 member_node)).
    unfold ptr_expr. rewrite Eb. change (place_of a) with (pointer a). rewrite Nj. reflexivity. }
  assert (Ua : under root a) by exact (reach_under _ _ _ R').
  pose proof (local_source root t parse_f64 member_node d j' (Some k) st a Eb Sj' Proper Ua Al) as Ls.
  assert (Pn : AstIdSpec.proper (plain a)) by (eapply proper_below; [exact Proper|apply under_below; exact Ua]).
  assert (In_ : inner_name a = sp_node s).
  { assert (Ch : child_by_field_name "name" a = Some (sp_node s)).
    { unfold is_name_node in N. rewrite E in N. destruct (field_index "name" 0 (s_kids a)) as [j0|] eqn:Fi; [|discriminate]. apply Nat.eqb_eq in N. subst j0.
      destruct (spot_up _ _ _ _ _ R E) as (_ & fl & Nth). apply field_index_child in Fi. destruct Fi as (_ & Fi). rewrite Nat.sub_0_r in Fi.
      apply Fi in Nth. exact Nth. }
    unfold inner_name. rewrite Ch.
    replace ((s_kind a =? k_methodmap_property_native)%nat || (s_kind a =? k_methodmap_property_method)%nat) with false; auto.
    destruct Ld as [Ld|[Ld _]]; cbn [sp_node In] in Ld; [rewrite Ld; reflexivity|]. destruct Ld as [<-|[<-|[]]]; reflexivity. }
  destruct (C60_code_partial resolution sources asks macro_def def_file (def_source root t parse_f64 member_node) (fun _ _ => "") f lines p q s
      (RLocal d j') name a lines full name) as (H & B1 & B2 & B3 & _); auto; try (rewrite Here; auto; fail).
  - rewrite Here, In_. auto.
  - rewrite Here in H. auto.
Qed.
(** The cursor is on the name in a declaration of a function that counts at some place: the declaration itself is the
    target. So the target of a link leads to itself. *)
Theorem C72_declaration_partial : forall lines p s c b nm v par at_ x full name,
  written (sources f) lines -> cursor_on (sources f) lines p s -> is_name_node s = true -> parent s = Some par ->
  local_declaration par -> alone root (sp_node par) -> nearest (source_file :: owners) (sp_up par) = Some c ->
  s_kind (sp_node c) = k_function_definition -> alone root (sp_node c) -> at_file_level root c -> name_of (sp_node c) = Some nm ->
  In v (outline root) -> view_at v = place_of (sp_node c) ->
  child_by_field_name "body" (sp_node c) = Some b -> s_kind b = 201 ->
  well_written root parse_f64 (sp_node c) b -> (x = "this" -> HirModel.resolve_global maps "this" = None) ->
  means_at root (sp_node c) b at_ x (Some (sp_node par)) ->
  shown lines (node_range (so_text (sources f)) (sp_node s)) name ->
  shown lines (node_range (so_text (sources f)) (sp_node par)) full ->
  answer f p = Val [Link (Some name) f full name] /\ le (rstart name) p /\ le p (rend name) /\ inside name full.
Proof.
  intros lines p s c b nm v par at_ x full name W Cu N Pa Ld Al Nr K Ac Fl Nm Iv Pv B Kb Wr Th Me Shn Shf. pose proof Cu as (_ & _ & q & _ & Sm). pose proof Sm as (R & _).
  assert (Rp : spot_in root par) by exact (parent_in s par R Pa).
  assert (Rc : spot_in root c) by exact (nearest_in _ _ _ _ _ Rp eq_refl Nr).
  assert (Ow : owned root par (Whole (sp_node c))).
  { eapply owned_plain; eauto. rewrite K. cbn. auto. }
  destruct (C50_local root t m es_table mm_table fuel s par (Whole (sp_node c)) Proper Lowered Mapped R N Pa Ld Al Ow) as (d & St & Fn).
  destruct d as [y| | | |]; cbn in St; try contradiction. destruct St as (nm' & _ & Dy).
  apply (declared_in (Top y) lines p s c b par at_ x full name); auto; [exact (function_source y c nm' Rc Ac Dy)|].
  apply params_kind_plain. rewrite K. cbn. intuition discriminate.
Qed.

(** A name that the function does not declare is taken to mean what it means in the file, and leads nowhere if it means nothing
    there. *)
Theorem C72_file_partial : forall s c b, spot_in root s -> plain_use s -> in_definition root s c b ->
  well_written root parse_f64 (sp_node c) b -> (s_text (sp_node s) = "this" -> HirModel.resolve_global maps "this" = None) ->
  means_at root (sp_node c) b (start_of (plain (sp_node s))) (s_text (sp_node s)) None ->
  exists x, of_file t x /\ def_node root t member_node x = Val (sp_node c) /\
  (forall r, asks f s = Val r <-> exists v d, HirModel.resolve_ident (HirNames.owner_resolver maps (object x)) (s_text (sp_node s)) = Some v /\
    OffsetSpec.leads_to v d /\ resolution_of def_of other_def (Some d) = Val r) /\
  ((forall v d, HirModel.resolve_ident (HirNames.owner_resolver maps (object x)) (s_text (sp_node s)) = Some v -> ~ OffsetSpec.leads_to v d) ->
   asks f s = Nothing).
Proof.
  intros s c b R U D Wr Th Me. destruct (asked_use s c b R U D) as (x & Ix & Src & F). pose proof D as (_ & B & Kb & _). pose proof (in_params s c b D) as K.
  exists x. split; [exact Ix|]. split; [exact Src|]. rewrite F.
  exact (asked_name root t parse_f64 member_node owner def_of maps object db other_def x c b s None Src K B Kb Wr U (Interned x Ix) Th Me).
Qed.

(** ** Members *)
(** No local variable hides a type that an expression of the function needs, and no array [T[] a] is indexed (MemberSpec). *)
Definition regular_in (x : def) : Prop := forall i st w, body_of root t parse_f64 member_node x = Val (Some i, st) ->
  HirModel.body_stmt (LowerHir.to_body st (Some i)) = Some w ->
  let types := HirModel.resolve_ident (HirNames.owner_resolver maps (object x)) in
  forall d v, In (d, v) (MemberSpec.places [] w) ->
    MemberSpec.regular db types (HirSpec.meaning (owner x) (HirNames.root_decls (LowerHir.to_body st (Some i))) types d) v.

Lemma field_ts : forall g n, g <> "" -> LowerModel.field g (LowerModel.kids_of (ts_of root n)) = option_map (ts_of root) (child_by_field_name g n).
Proof.
  intros g [k a z x cs] G. unfold child_by_field_name, children_by_field_name, LowerModel.field, LowerModel.fields. cbn [ts_of LowerModel.kids_of s_kids].
  induction cs as [|[h c] cs IH]; [reflexivity|]. cbn [map filter fst snd]. unfold LowerModel.has_field at 1. cbn [fst].
  destruct (String.eqb h g) eqn:Eg.
  - apply String.eqb_eq in Eg. subst h. apply String.eqb_neq in G. rewrite G, String.eqb_refl. reflexivity.
  - destruct (String.eqb h "") eqn:E0; [exact IH|]. rewrite Eg. exact IH.
Qed.
Lemma text_ts : forall n, LowerModel.text_of (ts_of root n) = s_text n.
Proof. intros [k a z x cs]. reflexivity. Qed.
Lemma ptr_ts : forall n, LowerModel.ptr_of (ts_of root n) = number root (pointer n).
Proof. intros [k a z x cs]. reflexivity. Qed.
Lemma child_of : forall s p i r g, spot_in root s -> sp_up s = (p, i) :: r -> field_index g 0 (s_kids p) = Some i -> child_by_field_name g p = Some (sp_node s).
Proof.
  intros s p i r g R E F. destruct (spot_up _ _ _ _ _ R E) as (_ & fl & Nth). apply field_index_child in F. destruct F as (_ & F). rewrite Nat.sub_0_r in F.
  exact (F _ _ Nth).
Qed.

Section asked.
Variable s c : spot.
Variable b : syn.
Hypothesis In_file : spot_in root s.
Hypothesis In_def : in_definition root s c b.
Hypothesis Well : well_written root parse_f64 (sp_node c) b.

(** The function is asked about the name, with its body. *)
Lemma asked_body : forall p i r, is_name_node s = false -> sp_up s = (p, i) :: r -> ~ In (s_kind p) [131; 132] ->
  exists x k st, of_file t x /\ def_node root t member_node x = Val (sp_node c) /\ body_of root t parse_f64 member_node x = Val (Some k, st) /\
    LowerModel.lower (environment root parse_f64) (option_map (ts_of root) (params_list (sp_node c))) (Some (ts_of root b)) = LowerModel.Ret (Some k) st /\
    asks f s = resolution_of def_of other_def (OffsetModel.function_node_to_def
      (OffsetModel.FnInput (owner x) maps (HirNames.owner_resolver maps (object x)) (LowerHir.to_body st (Some k))
         (fun j => option_map (span_no root) (LowerModel.expr_source st j)) db)
      true (place_at s) (s_text (sp_node s)) (start_of (plain (sp_node s))) (LowerModel.node_expr st (number root (pointer (sp_node s))))).
Proof.
  intros p i r N E Np. destruct (asked_in s c b p i r In_file N E Np In_def) as (x & Ix & Src & F). pose proof In_def as (_ & B & Kb & _). pose proof (in_params s c b In_def) as K.
  destruct (body_made root t parse_f64 member_node x (sp_node c) b Src K B Well) as (k & st & Eb & El).
  exists x, k, st. repeat (split; [assumption|]). rewrite F. unfold in_function. rewrite B, Kb. cbn [Nat.eqb]. rewrite Eb. reflexivity.
Qed.
Lemma params_hold : forall m, option_map (ts_of root) (params_list (sp_node c)) = Some m -> LowerSpec.everywhere WrittenLower.holds_expression m.
Proof.
  intros n E. destruct Well as (_ & _ & _ & Cp). destruct (params_list (sp_node c)) as [z|]; [|discriminate E]. cbn in E. injection E as <-.
  exact (proj1 (Cp z eq_refl)).
Qed.
Lemma found_iff : forall o (P : OffsetModel.found_def -> Prop) r, (forall d, o = Some d <-> P d) ->
  (resolution_of def_of other_def o = Val r <-> exists d, P d /\ resolution_of def_of other_def (Some d) = Val r).
Proof.
  intros o P r H. split.
  - destruct o as [d|]; [|discriminate]. intros E. exists d. split; [apply H; reflexivity|exact E].
  - intros (d & Pd & E). apply H in Pd. rewrite Pd. exact E.
Qed.

(** Behind a dot, the name leads to the field or property of that name of the type of what is in front of the dot, where the names in it
    mean what they are declared as around it. *)
Theorem C72_member_partial : forall p o dcl, behind_dot s p o -> not_called s -> expression_at root parse_f64 (sp_node c) b p (sp_node s) dcl ->
  (forall x, of_file t x -> def_node root t member_node x = Val (sp_node c) -> regular_in x) ->
  exists x k st e look, def_node root t member_node x = Val (sp_node c) /\ body_of root t parse_f64 member_node x = Val (k, st) /\
    let types := HirModel.resolve_ident (HirNames.owner_resolver maps (object x)) in
    SaidSpec.says (environment root parse_f64) (LowerModel.expr_source st) (ts_of root o) e /\
    SaidSpec.reads (LowerModel.expr_source st) (owner x)
      (flat_map WrittenSpec.declared_name (LowerProps.parameters (option_map (ts_of root) (params_list (sp_node c))))) types dcl look /\
    forall r, asks f s = Val r <-> exists a ty u, MemberSpec.typed db types look e (TName ty) /\
      MemberSpec.attribute_of db types ty (s_text (sp_node s)) a u /\ other_def (OffsetModel.FAttribute a) = Val r.
Proof.
  intros p o dcl (N & i & r & E & K & Fi & Ta) Nc (Un & Once) Rg.
  destruct (asked_body p i r N E) as (x & k & st & Ix & Src & Eb & El & As); [rewrite K; cbn; intuition discriminate|].
  destruct Well as (Tb & Cb & _ & _).
  set (fi := OffsetModel.FnInput (owner x) maps (HirNames.owner_resolver maps (object x)) (LowerHir.to_body st (Some k))
         (fun j => option_map (span_no root) (LowerModel.expr_source st j)) db) in *.
  pose proof In_def as (_ & _ & Kb & _).
  assert (Kb' : LowerModel.kind_of (ts_of root b) = LowerModel.block) by (rewrite kind_ts, Kb; reflexivity).
  assert (Kp : LowerModel.kind_of (ts_of root p) = LowerModel.field_access) by (rewrite kind_ts, K; reflexivity).
  assert (F1 : LowerModel.field "target" (LowerModel.kids_of (ts_of root p)) = Some (ts_of root o)) by (rewrite field_ts by discriminate; rewrite Ta; reflexivity).
  assert (F2 : LowerModel.field "field" (LowerModel.kids_of (ts_of root p)) = Some (ts_of root (sp_node s))).
  { rewrite field_ts by discriminate. rewrite (child_of s p i r "field" In_file E Fi). reflexivity. }
  rewrite <- ptr_ts in Once.
  destruct (SaidProps.C66_member_partial (span_no root) (environment root parse_f64) _ (ts_of root b) k st fi (object x) (ts_of root p) (ts_of root o)
    (ts_of root (sp_node s)) dcl El Kb' Tb Cb params_hold eq_refl eq_refl (fun w W => Rg x Ix Src k st w Eb W) Un Kp F1 F2 Once) as (e & look & Sa & Re & H).
  exists x, (Some k), st, e, look. split; [exact Src|]. split; [exact Eb|]. split; [exact Sa|]. split; [exact Re|]. intros q. rewrite As.
  assert (Pl : place_at s = OffsetModel.PMember false).
  { unfold place_at, is_field_receiver_node. unfold not_called in Nc. rewrite E in *. rewrite K, Fi, (Nat.eqb_refl i). cbn [Nat.eqb andb].
    destruct r as [|[g j] r]; [reflexivity|]. apply Nat.eqb_neq in Nc. rewrite Nc. reflexivity. }
  rewrite Pl. rewrite ptr_ts, text_ts in H. rewrite (found_iff _ _ q (fun d => H _ _ d)). split.
  - intros (d & (a & ty & u & -> & Ty & At) & Q). exists a, ty, u. auto.
  - intros (a & ty & u & Ty & At & Q). exists (OffsetModel.FAttribute a). split; [|exact Q]. exists a, ty, u. auto.
Qed.

(** The same for a method that is called. *)
Theorem C72_method_partial : forall p o g dcl, behind_dot s p o -> called s g p -> expression_at root parse_f64 (sp_node c) b g (sp_node s) dcl ->
  (forall x, of_file t x -> def_node root t member_node x = Val (sp_node c) -> regular_in x) ->
  exists x k st e look, def_node root t member_node x = Val (sp_node c) /\ body_of root t parse_f64 member_node x = Val (k, st) /\
    let types := HirModel.resolve_ident (HirNames.owner_resolver maps (object x)) in
    SaidSpec.says (environment root parse_f64) (LowerModel.expr_source st) (ts_of root o) e /\
    SaidSpec.reads (LowerModel.expr_source st) (owner x)
      (flat_map WrittenSpec.declared_name (LowerProps.parameters (option_map (ts_of root) (params_list (sp_node c))))) types dcl look /\
    forall r, asks f s = Val r <-> exists m ty, MemberSpec.typed db types look e (TName ty) /\
      MemberSpec.method_of db types ty (s_text (sp_node s)) m /\ other_def (OffsetModel.FFunction m) = Val r.
Proof.
  intros p o g dcl (N & i & r & E & K & Fi & Ta) (i' & j & r' & E' & Kg & Fg & a & Ag) (Un & Once) Rg.
  destruct (asked_body p i r N E) as (x & k & st & Ix & Src & Eb & El & As); [rewrite K; cbn; intuition discriminate|].
  destruct Well as (Tb & Cb & _ & _).
  set (fi := OffsetModel.FnInput (owner x) maps (HirNames.owner_resolver maps (object x)) (LowerHir.to_body st (Some k))
         (fun j => option_map (span_no root) (LowerModel.expr_source st j)) db) in *.
  pose proof In_def as (_ & _ & Kb & _).
  assert (Kb' : LowerModel.kind_of (ts_of root b) = LowerModel.block) by (rewrite kind_ts, Kb; reflexivity).
  assert (Kp : LowerModel.kind_of (ts_of root p) = LowerModel.field_access) by (rewrite kind_ts, K; reflexivity).
  assert (Kg' : LowerModel.kind_of (ts_of root g) = LowerModel.call_expression) by (rewrite kind_ts, Kg; reflexivity).
  assert (F1 : LowerModel.field "target" (LowerModel.kids_of (ts_of root p)) = Some (ts_of root o)) by (rewrite field_ts by discriminate; rewrite Ta; reflexivity).
  assert (F2 : LowerModel.field "field" (LowerModel.kids_of (ts_of root p)) = Some (ts_of root (sp_node s))).
  { rewrite field_ts by discriminate. rewrite (child_of s p i r "field" In_file E Fi). reflexivity. }
  assert (F3 : LowerModel.field "function" (LowerModel.kids_of (ts_of root g)) = Some (ts_of root p)) by (rewrite field_ts by discriminate; rewrite Fg; reflexivity).
  assert (F4 : LowerModel.field "arguments" (LowerModel.kids_of (ts_of root g)) = Some (ts_of root a)) by (rewrite field_ts by discriminate; rewrite Ag; reflexivity).
  rewrite <- ptr_ts in Once.
  destruct (SaidProps.C66_method_partial (span_no root) (environment root parse_f64) _ (ts_of root b) k st fi (object x) (ts_of root g) (ts_of root p) (ts_of root o)
    (ts_of root (sp_node s)) (ts_of root a) dcl El Kb' Tb Cb params_hold eq_refl eq_refl (fun w W => Rg x Ix Src k st w Eb W) Un Kg' F3 F4 Kp F1 F2 Once) as (e & look & Sa & Re & H).
  exists x, (Some k), st, e, look. split; [exact Src|]. split; [exact Eb|]. split; [exact Sa|]. split; [exact Re|]. intros q. rewrite As.
  assert (Pl : place_at s = OffsetModel.PMember true).
  { unfold place_at, is_field_receiver_node. rewrite E in E'. injection E' as <- ->. rewrite E, K, Fi, (Nat.eqb_refl i), Kg. reflexivity. }
  rewrite Pl. rewrite ptr_ts, text_ts in H. rewrite (found_iff _ _ q (fun d => H _ _ d)). split.
  - intros (d & (n & ty & -> & Ty & At) & Q). exists n, ty. auto.
  - intros (n & ty & Ty & At & Q). exists (OffsetModel.FFunction n). split; [|exact Q]. exists n, ty. auto.
Qed.

(** Behind [new], the name leads to the constructor of the methodmap. *)
Theorem C72_new_partial : forall p dcl, behind_new s p -> expression_at root parse_f64 (sp_node c) b p (sp_node s) dcl ->
  (forall x, of_file t x -> def_node root t member_node x = Val (sp_node c) -> regular_in x) ->
  exists x, def_node root t member_node x = Val (sp_node c) /\
    forall r, asks f s = Val r <-> exists m, MemberSpec.constructor_of db (HirModel.resolve_ident (HirNames.owner_resolver maps (object x))) (s_text (sp_node s)) m /\
      other_def (OffsetModel.FFunction m) = Val r.
Proof.
  intros p dcl (N & i & r & E & K & Fi & a & Ar) (Un & Once) Rg.
  destruct (asked_body p i r N E) as (x & k & st & Ix & Src & Eb & El & As); [rewrite K; cbn; intuition discriminate|].
  destruct Well as (Tb & Cb & _ & _).
  set (fi := OffsetModel.FnInput (owner x) maps (HirNames.owner_resolver maps (object x)) (LowerHir.to_body st (Some k))
         (fun j => option_map (span_no root) (LowerModel.expr_source st j)) db) in *.
  pose proof In_def as (_ & _ & Kb & _).
  assert (Kb' : LowerModel.kind_of (ts_of root b) = LowerModel.block) by (rewrite kind_ts, Kb; reflexivity).
  assert (Kp : LowerModel.kind_of (ts_of root p) = LowerModel.new_expression) by (rewrite kind_ts, K; reflexivity).
  assert (F1 : LowerModel.field "class" (LowerModel.kids_of (ts_of root p)) = Some (ts_of root (sp_node s))).
  { rewrite field_ts by discriminate. rewrite (child_of s p i r "class" In_file E Fi). reflexivity. }
  assert (F2 : LowerModel.field "arguments" (LowerModel.kids_of (ts_of root p)) = Some (ts_of root a)) by (rewrite field_ts by discriminate; rewrite Ar; reflexivity).
  rewrite <- ptr_ts in Once.
  pose proof (SaidProps.C66_new_partial (span_no root) (environment root parse_f64) _ (ts_of root b) k st fi (object x) (ts_of root p)
    (ts_of root (sp_node s)) (ts_of root a) dcl El Kb' Tb Cb params_hold eq_refl eq_refl (fun w W => Rg x Ix Src k st w Eb W) Un Kp F1 F2 Once) as H.
  exists x. split; [exact Src|]. intros q. rewrite As.
  assert (Pl : place_at s = OffsetModel.PNew).
  { unfold place_at. rewrite E, K. reflexivity. }
  rewrite Pl. rewrite ptr_ts, text_ts in H. rewrite (found_iff _ _ q (fun d => H _ _ d)). split.
  - intros (d & (n & -> & At) & Q). exists n. auto.
  - intros (n & At & Q). exists (OffsetModel.FFunction n). split; [|exact Q]. exists n. auto.
Qed.
End asked.
End world.
Print Assumptions C72_member_partial.
Print Assumptions C72_method_partial.
Print Assumptions C72_new_partial.
Print Assumptions C72_local_partial.
Print Assumptions C72_declaration_partial.
Print Assumptions C72_file_partial.

(** * A concrete case *)
(** In the editor the third line is [  { TYPE b; b = a; }], with a macro that stands for [int]. *)
Definition text_e : string :=
  "void f(int a) {" ++ nl ++ "  int b;" ++ nl ++ "  { int b; b = a; }" ++ nl ++ "  b = a;" ++ nl ++ "}" ++ nl.
Definition leaf_e (k s e : nat) : syn := Syn k s e (substring s (e - s) text_e) [].
Definition declares_e (s e v : nat) : syn := Syn 153 s e "" [("type", leaf_e 85 s (s + 3)); ("", Syn 156 v (v + 1) "b" [("name", leaf_e 1 v (v + 1))]); ("", leaf_e 105 (v + 1) e)].
Definition assigns_e (s : nat) : syn :=
  Syn 210 s (s + 6) "" [("", Syn 216 s (s + 5) "" [("left", leaf_e 1 s (s + 1)); ("operator", leaf_e 45 (s + 2) (s + 3)); ("right", leaf_e 1 (s + 4) (s + 5))]); ("", leaf_e 105 (s + 5) (s + 6))].
Definition params_e : syn := Syn 147 6 13 "" [("", leaf_e 2 6 7); ("", Syn 148 7 12 "int a" [("type", leaf_e 85 7 10); ("name", leaf_e 1 11 12)]); ("", leaf_e 3 12 13)].
Definition inner_e : syn := Syn 201 27 44 "" [("", leaf_e 68 27 28); ("", declares_e 29 35 33); ("", assigns_e 36); ("", leaf_e 69 43 44)].
Definition body_e : syn := Syn 201 14 55 "" [("", leaf_e 68 14 15); ("", declares_e 18 24 22); ("", inner_e); ("", assigns_e 47); ("", leaf_e 69 54 55)].
Definition function_e : syn := Syn 144 0 55 "" [("returnType", leaf_e 83 0 4); ("name", leaf_e 1 5 6); ("parameters", params_e); ("body", body_e)].
Definition root_e : syn := Syn 130 0 56 text_e [("", function_e)].
Definition lines_e (k : Z) : list piece := if (k =? 2)%Z then [Code 4; Use 4 0 3 (0%Z, 0%Z); Code 100] else [Code 100].
Definition source_e : source := Source text_e root_e [(2%Z, Offset (Rng (Pos 2 4) (Pos 2 8)) (-1) 0 0 0)] [].
Definition tree_e : itree := match ItemTreeModel.lower root_e with Some t => t | None => empty_tree end.
Definition map_e : FindDefModel.def_map := match file_def_map tree_e with Some m => m | None => DefMap [] [] [] end.
Definition float_e (_ : string) : option nat := None.
Definition handle_e : nat -> pos -> FindDefModel.res (list link) :=
  handle_goto_definition resolution (fun _ => source_e)
    (asks (fun _ => source_e) 0 tree_e map_e (fun _ _ _ => Nothing) (fun _ _ _ => Nothing) (fun _ => None) (fun _ _ => Nothing) (fun _ => Nothing) (fun _ _ => None) (fun _ _ _ => None)
       2 float_e (fun _ => Nothing) (fun _ => 0) (fun _ => Top (FFunction 0)) [] (fun _ => None) OffsetProps.empty_db (fun _ => Nothing) (fun _ _ => Nothing))
    (fun _ _ => None) (fun _ => 0) (def_source root_e tree_e float_e (fun _ => Nothing)).
Definition at_e (l c c' : Z) : range := Rng (Pos l c) (Pos l c').

(** The second [b] of the third line in its own block, the [a] beside it, the two names of the fourth line, and the three
    declarations themselves. *)
Example C72_nontrivial : map (handle_e 0) [Pos 2 12; Pos 2 16; Pos 3 2; Pos 3 6; Pos 2 9; Pos 1 6; Pos 0 11]%Z =
  map (fun x => Val [Link (Some (fst (fst x))) 0 (snd (fst x)) (snd x)])
    [(at_e 2 12 13, at_e 2 9 10, at_e 2 9 10); (at_e 2 16 17, at_e 0 7 12, at_e 0 11 12);
     (at_e 3 2 3, at_e 1 6 7, at_e 1 6 7); (at_e 3 6 7, at_e 0 7 12, at_e 0 11 12);
     (at_e 2 9 10, at_e 2 9 10, at_e 2 9 10); (at_e 1 6 7, at_e 1 6 7, at_e 1 6 7); (at_e 0 11 12, at_e 0 7 12, at_e 0 11 12)].
Proof. vm_compute. reflexivity. Qed.

(** The first of them as a case of the theorem. *)
Fixpoint nodes_e (n : syn) : list syn := let 'Syn _ _ _ _ cs := n in n :: flat_map (fun c => nodes_e (snd c)) cs.
Lemma under_nodes_e : forall n m, under n m -> In m (nodes_e n).
Proof.
  induction 1 as [[k a z x cs]|[k a z x cs] c m I _ IH]; cbn [nodes_e]; [left; reflexivity|right].
  unfold children in I. apply in_map_iff in I as (y & <- & I). apply in_flat_map. exists y. auto.
Qed.
Lemma nodup_image : forall {A B} (g : A -> B) l a b, NoDup (map g l) -> In a l -> In b l -> g a = g b -> a = b.
Proof.
  intros A B g l a b. induction l as [|x l IH]; intros N Ia Ib E; [destruct Ia|]. cbn in N. inversion N as [|? ? Nx Nl]; subst.
  destruct Ia as [->|Ia], Ib as [->|Ib]; auto.
  - exfalso. apply Nx. rewrite E. apply in_map. exact Ib.
  - exfalso. apply Nx. rewrite <- E. apply in_map. exact Ia.
Qed.
Fixpoint nodupb (l : list ptr) : bool := match l with [] => true | p :: r => negb (existsb (ptr_eqb p) r) && nodupb r end.
Lemma nodupb_sound : forall l, nodupb l = true -> NoDup l.
Proof.
  induction l as [|p l IH]; cbn [nodupb]; intros H; [constructor|]. apply andb_prop in H as (H & Hl). constructor; [|auto]. intros I.
  apply negb_true_iff in H. rewrite <- not_true_iff_false in H. apply H, existsb_exists. exists p. split; [exact I|]. apply ptr_eqb_iff. reflexivity.
Qed.
Lemma alone_e : forall n, under root_e n -> start_of (plain n) < stop_of (plain n) -> alone root_e n.
Proof.
  intros n U L. split; [exact L|]. intros a Ua E. apply (nodup_image place_of (nodes_e root_e)); auto using under_nodes_e.
  apply nodupb_sound. vm_compute. reflexivity.
Qed.
Definition spot_e : spot := match go root_e [] [0; 3; 2; 2; 0; 0] with Some s => s | None => Spot root_e [] end.
Definition around_e : spot := match go root_e [] [0] with Some s => s | None => Spot root_e [] end.
Definition decl_e : syn := Syn 156 33 34 "b" [("name", leaf_e 1 33 34)].
Lemma written_e : written source_e lines_e.
Proof.
  intros k. unfold lines_e. destruct (Z.eqb_spec k 2) as [->|N].
  - repeat split; try (cbn; lia). repeat constructor; cbn; lia.
  - repeat split; try (cbn; lia); [repeat constructor; cbn; lia|]. unfold on_line. cbn [so_offsets source_e filter fst map]. destruct (Z.eqb_spec 2 k); [congruence|reflexivity].
Qed.
Ltac seen_e b n a i := exists b, n, a, i; repeat split; cbn; lia.
Lemma cursor_e : cursor_on source_e lines_e (Pos 2 12) spot_e.
Proof.
  split; [|split; [constructor|exists (Pos 2 11); split]].
  - intros b nm (a & w & i & r & E & B). cbn in E. destruct b as [|x [|y [|z b]]]; cbn in E; try discriminate E.
    + injection E as <- <- <- <- <- <-. cbn in B. lia.
    + injection E as _ _ _ E. destruct b; discriminate E.
  - split; [reflexivity|]. seen_e [Code 4; Use 4 0 3 (0%Z, 0%Z)] 100%Z (@nil piece) 4%Z.
  - split; [apply (go_reach [0; 3; 2; 2; 0; 0]%nat); reflexivity|]. split; [|intros c []]. split; right; vm_compute; split; try reflexivity; discriminate.
Qed.
Lemma plain_e : plain_use spot_e.
Proof. split; [reflexivity|]. eexists _, _, _. split; [reflexivity|]. split; [vm_compute; intuition discriminate|discriminate]. Qed.
Lemma in_nodes_e : forall n m, In m (nodes_e n) -> under n m.
Proof.
  assert (K : forall z n m, FindDefProofs.size n <= z -> In m (nodes_e n) -> under n m).
  { induction z as [|z IH]; intros [k a e x cs] m L I; [cbn in L; lia|]. cbn [nodes_e] in I. destruct I as [<-|I]; [constructor|].
    apply in_flat_map in I as (y & Iy & I). eapply under_kid; [apply in_map; exact Iy|]. apply IH; [|exact I].
    pose proof (size_kid (Syn k a e x cs) (snd y) (in_map snd _ _ Iy)). lia. }
  intros n m. exact (K _ n m (le_n _)).
Qed.
Lemma under_e : under root_e decl_e.
Proof. apply in_nodes_e. vm_compute. auto 40. Qed.
Lemma definition_e : in_definition root_e spot_e around_e body_e.
Proof.
  split; [apply alone_e; [eapply under_kid; [left; reflexivity|constructor]|vm_compute; lia]|]. split; [reflexivity|]. split; [reflexivity|].
  eexists _, _. left. split; [reflexivity|]. split; [reflexivity|]. split; [vm_compute; reflexivity|]. split; [vm_compute; reflexivity|]. split; reflexivity.
Qed.
Lemma well_written_e : well_written root_e float_e (sp_node around_e) body_e.
Proof.
  split; [|split; [|split]].
  - let x := eval vm_compute in (ts_of root_e body_e) in change (ts_of root_e body_e) with x. WrittenProps.tid.
  - let x := eval vm_compute in (ts_of root_e body_e) in change (ts_of root_e body_e) with x. WrittenProps.tid.
  - let x := eval vm_compute in (ts_of root_e body_e) in change (ts_of root_e body_e) with x. cbn [LowerSpec.everywhere map fold_right]. repeat split; vm_compute; discriminate.
  - intros n H. vm_compute in H. injection H as <-. split.
    + match goal with |- LowerSpec.everywhere _ ?y => let x := eval vm_compute in y in change y with x end. WrittenProps.tid; destruct H; discriminate.
    + match goal with |- LowerSpec.everywhere _ ?y => let x := eval vm_compute in y in change y with x end. cbn [LowerSpec.everywhere map fold_right]. repeat split.
Qed.
Lemma means_e : means_at root_e (sp_node around_e) body_e 36 "b" (Some decl_e).
Proof.
  assert (Nb : forall b, ~ WrittenSpec.has_block (ts_of root_e (declares_e 18 24 22)) b /\ ~ WrittenSpec.has_block (ts_of root_e (declares_e 29 35 33)) b /\
    ~ WrittenSpec.has_block (ts_of root_e (assigns_e 36)) b /\ ~ WrittenSpec.has_block (ts_of root_e (assigns_e 47)) b).
  { intros b. repeat split; intros H; inversion H as [n K|n y b' I _]; subst; [discriminate K|destruct I|discriminate K|destruct I|discriminate K|destruct I|discriminate K|destruct I]. }
  split.
  - intros (b & H & E & _). inversion H as [n K|n y b' I Hb]; subst; [vm_compute in E; discriminate E|].
    change (WrittenSpec.statements (ts_of root_e body_e)) with [ts_of root_e (declares_e 18 24 22); ts_of root_e inner_e; ts_of root_e (assigns_e 47)] in I.
    destruct (Nb b) as (N1 & N2 & N3 & N4). destruct I as [<-|[<-|[<-|[]]]]; try contradiction.
    inversion Hb as [n K|n y b' I Hc]; subst; [vm_compute in E; discriminate E|].
    change (WrittenSpec.statements (ts_of root_e inner_e)) with [ts_of root_e (declares_e 29 35 33); ts_of root_e (assigns_e 36)] in I.
    destruct I as [<-|[<-|[]]]; contradiction.
  - eexists. split.
    + eapply WrittenSpec.around_part; [right; left; reflexivity|]. eapply WrittenSpec.around_part; [right; left; reflexivity|].
      apply WrittenSpec.around_own; [vm_compute; lia|vm_compute; discriminate|constructor].
    + vm_compute. reflexivity.
Qed.
Lemma shown_use_e : shown lines_e (Rng (Pos 2 11) (Pos 2 12)) (at_e 2 12 13).
Proof.
  split; [|split; [|left; reflexivity]]; (split; [reflexivity|]).
  - seen_e [Code 4; Use 4 0 3 (0%Z, 0%Z)] 100%Z (@nil piece) 4%Z.
  - seen_e [Code 4; Use 4 0 3 (0%Z, 0%Z)] 100%Z (@nil piece) 5%Z.
Qed.
Lemma shown_decl_e : shown lines_e (Rng (Pos 2 8) (Pos 2 9)) (at_e 2 9 10).
Proof.
  split; [|split; [|left; reflexivity]]; (split; [reflexivity|]).
  - seen_e [Code 4; Use 4 0 3 (0%Z, 0%Z)] 100%Z (@nil piece) 1%Z.
  - seen_e [Code 4; Use 4 0 3 (0%Z, 0%Z)] 100%Z (@nil piece) 2%Z.
Qed.
Example C72_instance : handle_e 0 (Pos 2 12) = Val [Link (Some (at_e 2 12 13)) 0 (at_e 2 9 10) (at_e 2 9 10)].
Proof.
  refine (proj1 (C72_local_partial (fun _ => source_e) 0 tree_e map_e _ _ _ _ _ _ _ _ float_e _ (fun _ => 0) (fun _ => Top (FFunction 0)) [] _ _ _ _ _ (fun _ => 0)
    (fun _ _ => eq_refl) _ _ _ _ lines_e (Pos 2 12) spot_e around_e body_e decl_e (at_e 2 12 13) (at_e 2 9 10) (at_e 2 9 10) written_e cursor_e plain_e definition_e well_written_e _ _ under_e _ _ _ _)).
  - apply properb_sound. vm_compute. reflexivity.
  - vm_compute. reflexivity.
  - vm_compute. reflexivity.
  - intros d I. destruct d as [x| | |es j|mm j]; cbn [of_file] in I; try contradiction.
    + vm_compute in I. destruct I as [<-|[]]. reflexivity.
    + destruct I as (y & I & _). vm_compute in I. destruct es; discriminate I.
    + destruct I as (y & I & _). vm_compute in I. destruct mm; discriminate I.
  - intros H. vm_compute in H. discriminate H.
  - exact means_e.
  - apply alone_e; [exact under_e|vm_compute; lia].
  - exact shown_use_e.
  - exact shown_decl_e.
  - exact shown_decl_e.
Qed.
