(** C66: the analysed body is the one that is written, and a member behind a dot leads to the member of what is written
    in front of it. *)
From Coq Require Import List String Ascii Bool Arith ZArith Lia.
From Verif Require Import TypeRefModel HirModel HirSpec HirNames OffsetModel OffsetSpec.
From Verif Require Import LowerModel LowerSpec LowerProofs LowerProps LowerHir WrittenSpec WrittenLower WrittenArena WrittenProofs WrittenProps.
From Verif Require Import SaidSpec SaidProofs SaidPaths SaidOnce.
From Verif Require MemberSpec MemberProps OffsetProps.
Import ListNotations.
Local Open Scope string_scope.
Local Open Scope nat_scope.
Local Open Scope list_scope.

Lemma params_fresh : forall e pl st, collect_params e pl empty_state = Ret tt st -> fresh st.
Proof.
  intros e pl st E.
  assert (J : just (bind (collect_params e pl) (fun _ => ret (@None nat)))).
  { refine (walk_lower e (match pl with Some n => nodes n | None => [] end) (@just) _ _ _ _ _ _ pl None _ _).
    - exact just_ret.
    - exact just_bind.
    - exact just_missing.
    - exact just_ident.
    - intros x d _ _. apply just_alloc.
    - intros x s0 a s' F E0. injection E0 as <- <-. split; [exact F|]. split; [exact (grows_refl s0)|]. auto.
    - intros n [-> | B]; [|discriminate]. split; [apply incl_refl|left; intros; apply does_panic].
    - intros n _. left. intros. apply does_panic. }
  assert (Q : bind (collect_params e pl) (fun _ => ret (@None nat)) empty_state = Ret None st) by (unfold bind; rewrite E; reflexivity).
  exact (proj1 (J empty_state None st fresh_empty Q)).
Qed.

(** The analysed body is the function as it is written. *)
Theorem C66_body : forall e pl b i s, lower e pl (Some b) = Ret (Some i) s -> everywhere holds_expression b ->
  exists x, body_stmt (to_body s (Some i)) = Some x /\ tells e (expr_source s) b x.
Proof.
  intros e pl b i s E H. unfold lower, bind in E. destruct (collect_params e pl empty_state) as [|[] s1] eqn:Ep; [discriminate|].
  destruct (collect (annotate e b) s1) as [|j s2] eqn:Eb; [discriminate|]. injection E as -> ->.
  destruct (td_collect e b (td_node e (size b) b (le_n _) H) s1 i s (params_fresh _ _ _ Ep) Eb) as (_ & _ & K).
  destruct (K s (grows_refl s)) as [R T]. eexists. split; [reflexivity|]. apply T. unfold len in R. lia.
Qed.
Print Assumptions C66_body.

(** ** Ids *)
Lemma within_ids : forall w e, MemberSpec.within w e -> In (expr_id w) (MemberSpec.expr_ids e).
Proof.
  intros w e H. induction H as [e|e p w I _ IH]; rewrite MemberProps.ids_parts; [left; reflexivity|]. right. apply in_flat_map. exists p. split; assumption.
Qed.
Lemma flat_same : forall A (g : A -> list nat) l a b i, NoDup (flat_map g l) -> In a l -> In b l -> In i (g a) -> In i (g b) -> a = b.
Proof.
  intros A g l a b i. induction l as [|x l IH]; intros N Ia Ib Ga Gb; [destruct Ia|]. cbn [flat_map] in N. apply MemberProps.nodup_app in N. destruct N as (_ & N2 & N3).
  destruct Ia as [->|Ia], Ib as [->|Ib].
  - reflexivity.
  - elim (N3 i Ga). apply in_flat_map. exists b. split; assumption.
  - elim (N3 i Gb). apply in_flat_map. exists a. split; assumption.
  - exact (IH N2 Ia Ib Ga Gb).
Qed.
Lemma flat_part : forall A (g : A -> list nat) l a, NoDup (flat_map g l) -> In a l -> NoDup (g a).
Proof.
  intros A g l a. induction l as [|x l IH]; intros N I; [destruct I|]. cbn [flat_map] in N. apply MemberProps.nodup_app in N. destruct N as (N1 & N2 & _).
  destruct I as [->|I]; [exact N1|exact (IH N2 I)].
Qed.
Lemma within_same : forall w e, MemberSpec.within w e -> forall w', MemberSpec.within w' e -> NoDup (MemberSpec.expr_ids e) -> expr_id w = expr_id w' -> w = w'.
Proof.
  intros w e H. induction H as [e|w p e I W IH]; intros w' H' N E; destruct H' as [|w' p' e I' W']; rewrite MemberProps.ids_parts in N; inversion N as [|? ? N1 N2]; subst.
  - reflexivity.
  - elim N1. rewrite E. apply in_flat_map. exists p'. split; [exact I'|exact (within_ids _ _ W')].
  - elim N1. rewrite <- E. apply in_flat_map. exists p. split; [exact I|exact (within_ids _ _ W)].
  - assert (p = p').
    { apply (flat_same _ _ _ _ _ (expr_id w) N2 I I' (within_ids _ _ W)). rewrite E. exact (within_ids _ _ W'). }
    subst p'. exact (IH w' W' (flat_part _ _ _ _ N2 I) E).
Qed.

(** ** Nodes *)
Lemma in_nodes_kid : forall b m x, In m (nodes b) -> In x (map snd (kids_of m)) -> In x (nodes b).
Proof.
  assert (G : forall k w m x, size w <= k -> In m (nodes w) -> In x (map snd (kids_of m)) -> In x (nodes w)).
  { induction k as [|k IH]; intros w' m' x' S V' J'; [destruct w'; cbn in S; lia|]. destruct (nodes_inv w' m' V') as [->|[u [U U']]].
    - exact (nodes_kid _ _ J' x' (nodes_self x')).
    - apply (nodes_kid _ _ U). apply (IH u m' x'); [|exact U'|exact J']. pose proof (in_sizes _ _ U). rewrite (size_kids w') in S. lia. }
  intros b m x. exact (G (size b) b m x (le_n _)).
Qed.
Lemma arguments_nodes : forall e b n c, In n (nodes b) -> In c (arguments e n) -> In c (nodes b).
Proof.
  intros e b n c N I. unfold arguments in I. destruct (field "arguments" (kids_of n)) as [a|] eqn:F; [|destruct I]. apply filter_In in I. destruct I as [I _].
  exact (in_nodes_kid _ _ _ (in_nodes_kid _ _ _ N (field_in _ _ _ F)) I).
Qed.
Lemma subs_nodes : forall e b n c, In n (nodes b) -> In c (subs e n) -> In c (nodes b).
Proof.
  intros e b n c N I. assert (Fd : forall f, In c (opt (field f (kids_of n))) -> In c (nodes b)).
  { intros f J. apply opt_in in J. exact (in_nodes_kid _ _ _ N (field_in _ _ _ J)). }
  assert (Ff : forall f, In c (filter (counted e) (opt (field f (kids_of n)))) -> In c (nodes b)) by (intros f J; apply filter_In in J; exact (Fd f (proj1 J))).
  pose proof (arguments_nodes e b n c N) as Ar. pose proof (in_nodes_kid b n) as Kd. unfold subs in I. cbv zeta in I.
  destruct (kind_of n); try (destruct I; fail); try exact (Fd _ I); try exact (Ff _ I); try exact (Ar I);
    try (apply in_app_or in I; destruct I as [I|I]; [exact (Fd _ I)|]; try exact (Fd _ I); apply in_app_or in I; destruct I as [I|I]; exact (Fd _ I)).
  - destruct (kids_of n) as [|[g x] l] eqn:K; [destruct I|]. destruct I as [<-|[]]. apply (Kd x N). left. reflexivity.
  - apply in_app_or in I. destruct I as [I|I]; [|exact (Ar I)]. destruct (field "function" (kids_of n)) as [g|] eqn:F; [|destruct I].
    pose proof (Kd g N (field_in _ _ _ F)) as G. destruct (kind_of g); try (destruct I as [<-|[]]; exact G). apply opt_in in I. exact (in_nodes_kid _ _ _ G (field_in _ _ _ I)).
  - apply filter_In in I. exact (Kd c N (proj1 I)).
  - exact (Kd c N I).
Qed.
Lemma sub_nodes : forall e b f n, sub e f n -> In n (nodes b) -> In f (nodes b).
Proof. intros e b f n H. induction H as [|n c _ I _ IH]; intros N; [exact N|]. apply IH. exact (subs_nodes e b n c N I). Qed.
Lemma own_nodes : forall e b n c, In n (nodes b) -> In c (own_exprs e n) -> In c (nodes b).
Proof.
  intros e b n c N I. assert (Fd : forall f, In c (opt (field f (kids_of n))) -> In c (nodes b)).
  { intros f J. apply opt_in in J. exact (in_nodes_kid _ _ _ N (field_in _ _ _ J)). }
  assert (Dc : forall k g, In c (flat_map (fun x => opt (field g (kids_of x))) (filter named (of_kind k (kids_of n)))) -> In c (nodes b)).
  { intros k g J. apply in_flat_map in J. destruct J as [v [J K]]. apply filter_In in J. destruct J as [J _]. apply opt_in in K.
    exact (in_nodes_kid _ _ _ (in_nodes_kid _ _ _ N (of_kind_in _ _ _ J)) (field_in _ _ _ K)). }
  unfold own_exprs in I. cbv zeta in I.
  destruct (kind_of n); try (destruct I; fail); try exact (Fd _ I); try exact (Dc _ _ I); try (destruct I as [<-|[]]; exact N).
  - apply in_app_or in I. destruct I as [I|I]; [exact (Fd _ I)|]. apply filter_In in I. exact (Fd _ (proj1 I)).
  - apply in_app_or in I. destruct I as [I|I]; [exact (Fd _ I)|]. apply in_flat_map in I. destruct I as [v [J K]]. apply filter_In in J. destruct J as [J _].
    exact (in_nodes_kid _ _ _ (in_nodes_kid _ _ _ N (of_kind_in _ _ _ J)) (fields_in _ _ _ K)).
Qed.
Lemma statements_nodes : forall b n y, In n (nodes b) -> In y (statements n) -> In y (nodes b).
Proof.
  intros b [k p t l] y N I. pose proof (in_nodes_kid b _ y N) as Kd. cbn [kids_of] in Kd.
  assert (Fd : forall f, In y (opt (field f l)) -> In y (nodes b)) by (intros f J; apply opt_in in J; exact (Kd (field_in _ _ _ J))).
  destruct k; cbn [statements] in I; try (destruct I; fail); try exact (Fd _ I).
  - apply filter_In in I. exact (Kd (proj1 I)).
  - apply in_app_or in I. destruct I as [I|I]; [exact (Kd (fields_in _ _ _ I))|exact (Fd _ I)].
  - apply in_app_or in I. destruct I as [I|I]; exact (Fd _ I).
  - apply in_flat_map in I. destruct I as [c [J K]]. apply opt_in in K. exact (in_nodes_kid _ _ _ (in_nodes_kid _ _ _ N (of_kind_in _ _ _ J)) (field_in _ _ _ K)).
Qed.
Lemma under_nodes : forall e b f d n d', under e f d n d' -> In n (nodes b) -> In f (nodes b).
Proof.
  intros e b f d n d' H. induction H as [d n c I S|d n y d' I _ IH]; intros N.
  - exact (sub_nodes e b f c S (own_nodes e b n c N I)).
  - apply IH. exact (statements_nodes b n y N I).
Qed.
Lemma under_some : forall e f d n d', under e f d n d' -> kind_of n = block \/ d <> [] -> d' <> [].
Proof.
  intros e f d n d' H. induction H as [d n c I S|d n y d' I _ IH]; intros K.
  - destruct K as [K|K]; [|exact K]. unfold own_exprs in I. rewrite K in I. destruct I.
  - apply IH. right. unfold enters. destruct K as [K|K]; [rewrite K; cbn; discriminate|]. destruct (is_kind (kind_of n) block); [discriminate|exact K].
Qed.

(** ** What is at a node of the function *)
Section at_node.
Variables (sp : nat -> span) (e : env) (pl : option ts) (b : ts) (i : nat) (s : state) (f : fn_input) (this : option (bool * nat)).
Hypothesis E : lower e pl (Some b) = Ret (Some i) s.
Hypothesis Kb : kind_of b = block.
Hypothesis Tb : everywhere (tidy sp) b.
Hypothesis Cb : everywhere complete b.
Hypothesis Hp : forall n, pl = Some n -> everywhere holds_expression n.
Hypothesis Fb : f_body f = to_body s (Some i).
Hypothesis Fm : f_base f = owner_resolver (f_maps f) this.
Let types := resolve_ident (f_base f).
Let look (d : list (list decl)) := meaning (f_owner f) (root_decls (f_body f)) types d.
Hypothesis Rg : forall x, body_stmt (f_body f) = Some x -> forall d w, In (d, w) (MemberSpec.places [] x) -> MemberSpec.regular (f_db f) types (look d) w.

Lemma at_node : forall n dcl, under e n [] b dcl -> exists w l, says e (expr_source s) n w /\
  reads (expr_source s) (f_owner f) (flat_map declared_name (parameters pl)) types dcl l /\
  forall text point r,
    (function_node_to_def f true (PMember false) text point (Some (expr_id w)) = Some r <->
     exists a, r = FAttribute a /\ MemberSpec.found (f_db f) types l w (MemberSpec.Attribute (expr_id w) a)) /\
    (function_node_to_def f true (PMember true) text point (Some (expr_id w)) = Some r <->
     exists m, r = FFunction m /\ MemberSpec.found (f_db f) types l w (MemberSpec.Method (expr_id w) m)) /\
    (function_node_to_def f true PNew text point (Some (expr_id w)) = Some r <->
     exists m, r = FFunction m /\ MemberSpec.found (f_db f) types l w (MemberSpec.Method (expr_id w) m)).
Proof.
  intros n dcl U. pose proof (everywhere_impl _ _ (tidy_holds sp) b Tb) as Hb.
  destruct (C66_body e pl b i s E Hb) as (x & Bx & Tx). destruct (C66_once e pl b i s E Hp Hb) as (x' & Bx' & N1 & N2). rewrite Bx in Bx'. injection Bx' as <-.
  rewrite <- Fb in Bx. specialize (N2 []). specialize (Rg x Bx).
  destruct (tells_under e (expr_source s) n [] b dcl U Cb x [] Tx (Forall2_nil _)) as (d & top & w & P & W & Sw & R).
  exists w, (look d). split; [exact Sw|]. split.
  - intros z. destruct (lower_does e pl b i s E Hp Hb) as (lo & L & Pr).
    assert (Bk : is_block x = true).
    { clear - Tx Kb Cb. destruct Tx; cbn [kind_of] in Kb; try discriminate Kb; try reflexivity; try (destruct H as [-> | ->]; discriminate Kb).
      pose proof (everywhere_here _ _ Cb) as C0. pose proof (SaidPaths.tells_plain e n C0 H) as Q. rewrite Kb in Q. discriminate. }
    assert (Rd : root_decls (f_body f) = map (fun x => (nth (fst x) (LowerModel.idents s) "", snd x)) (params s)).
    { unfold root_decls. rewrite Bx. assert (Lv : level x = []) by (clear - Bk; destruct x; try discriminate Bk; reflexivity). rewrite Lv, app_nil_r, Fb. reflexivity. }
    assert (Ne : d <> []).
    { pose proof (under_some _ _ _ _ _ U (or_introl Kb)) as Nd. intros ->. inversion R. subst. apply Nd. reflexivity. }
    unfold look, meaning. destruct d as [|h d]; [contradiction|]. rewrite Rd.
    pose proof (drel_assoc s z _ _ (drel_levels s _ _ _ _ R Pr)) as D. unfold declaration.
    destruct (assoc z (List.concat (map (@rev _) dcl) ++ rev (flat_map declared_name (parameters pl)))) as [q|].
    + destruct D as [j [D1 D2]]. exists j. rewrite D1. split; [exact D2|reflexivity].
    + rewrite D. reflexivity.
  - intros text point r. pose proof (OffsetProps.C62_member_partial f x this Bx N1 Fm) as M. cbv zeta in M. specialize (M Rg N2 text point (expr_id w) r).
    assert (Q : forall ev v, MemberProps.ev_id ev = expr_id w -> expr_id v = MemberProps.ev_id ev ->
      (exists d' e', In (d', e') (MemberSpec.places [] x) /\ MemberSpec.within v e' /\ MemberSpec.found (f_db f) types (look d') v ev) ->
      MemberSpec.found (f_db f) types (look d) w ev).
    { intros ev v E1 E2 (d' & e' & P' & W' & F'). assert (Same : (d, top) = (d', e')).
      { apply (flat_same _ (fun q => MemberSpec.expr_ids (snd q)) _ _ _ (expr_id w) N2 P P'); cbn [snd]; [exact (within_ids _ _ W)|]. rewrite <- E1, <- E2. exact (within_ids _ _ W'). }
      injection Same as <- <-. assert (v = w).
      { apply (within_same v top W' w W); [|congruence]. exact (flat_part _ (fun q => MemberSpec.expr_ids (snd q)) _ (d, top) N2 P). }
      subst v. exact F'. }
    destruct M as (M1 & M2 & M3). split; [|split].
    + rewrite M1. split.
      * intros (a & v & -> & H). exists a. split; [reflexivity|]. apply (Q _ v); [reflexivity| |exact H]. destruct H as (d' & e' & _ & _ & F'). cbn [MemberProps.ev_id].
        inversion F' as [q j z nm t0 a0 ty Ac| | | | | | |]; subst. inversion Ac; subst; reflexivity.
      * intros (a & -> & F'). exists a, w. split; [reflexivity|]. exists d, top. split; [exact P|]. split; [exact W|exact F'].
    + rewrite M2. split.
      * intros (a & v & -> & H). exists a. split; [reflexivity|]. apply (Q _ v); [reflexivity| |exact H]. destruct H as (d' & e' & _ & _ & F'). cbn [MemberProps.ev_id].
        inversion F'; subst; reflexivity.
      * intros (a & -> & F'). exists a, w. split; [reflexivity|]. exists d, top. split; [exact P|]. split; [exact W|exact F'].
    + rewrite M3. split.
      * intros (a & v & -> & H). exists a. split; [reflexivity|]. apply (Q _ v); [reflexivity| |exact H]. destruct H as (d' & e' & _ & _ & F'). cbn [MemberProps.ev_id].
        inversion F'; subst; reflexivity.
      * intros (a & -> & F'). exists a, w. split; [reflexivity|]. exists d, top. split; [exact P|]. split; [exact W|exact F'].
Qed.

Lemma tidy_switch : forall m, In m (nodes b) -> plain_switch m.
Proof.
  intros m M. assert (H : tidy sp m) by (exact (everywhere_here _ _ (everywhere_node _ b m Tb M))). destruct m as [k p t l]. intros K. cbn [kind_of kids_of] in *. apply H. exact K.
Qed.
End at_node.

Lemma field_has : forall f l (c : ts), field f l = Some c -> LowerSpec.has f l = true.
Proof. intros f l c H. unfold LowerSpec.has. rewrite H. reflexivity. Qed.
Lemma says_member : forall e src n w o y, says e src n w -> kind_of n = field_access -> field "target" (kids_of n) = Some o -> field "field" (kids_of n) = Some y ->
  exists j x, w = FieldAccess j x (text_of y) /\ src j = Some (ptr_of y) /\ says e src o x.
Proof.
  intros e src n w o y S K F1 F2. destruct S; cbn [kind_of kids_of] in *; try discriminate K; try (destruct H as [-> | ->]; discriminate K);
    try (rewrite K in H; discriminate H); try (destruct H as [[[-> | ->] _]|[-> _]]; discriminate K); try (destruct H as [[-> _]|[-> _]]; discriminate K).
  - destruct n as [k p t l]. cbn [kind_of kids_of] in *. subst k. cbn [counted] in H. rewrite (field_has _ _ _ F1), (field_has _ _ _ F2) in H. discriminate H.
  - subst. inversion H.
  - rewrite H0 in F1. injection F1 as ->. rewrite H1 in F2. injection F2 as ->. exists i, x. split; [reflexivity|]. split; assumption.
Qed.
Lemma says_called : forall e src n w c o y a, says e src n w -> kind_of n = call_expression -> field "function" (kids_of n) = Some c -> kind_of c = field_access ->
  field "target" (kids_of c) = Some o -> field "field" (kids_of c) = Some y -> field "arguments" (kids_of n) = Some a ->
  exists j x xs, w = MethodCall j x (text_of y) xs /\ src j = Some (ptr_of y) /\ says e src o x.
Proof.
  intros e src n w c o y a S K Fc Kc F1 F2 Fa. destruct S; cbn [kind_of kids_of] in *; try discriminate K; try (destruct H as [-> | ->]; discriminate K);
    try (rewrite K in H; discriminate H); try (destruct H as [[[-> | ->] _]|[-> _]]; discriminate K); try (destruct H as [[-> _]|[-> _]]; discriminate K).
  - destruct n as [k p t l]. cbn [kind_of kids_of] in *. subst k. cbn [counted] in H. rewrite Fc, Kc, (field_has _ _ _ Fa), (field_has _ _ _ F1), (field_has _ _ _ F2) in H. discriminate H.
  - subst. inversion H.
  - rewrite H in Fc. injection Fc as ->. rewrite Kc in H0. discriminate H0.
  - rewrite H0 in Fc. injection Fc as ->. rewrite H3 in F1. injection F1 as ->. rewrite H4 in F2. injection F2 as ->. exists i, x, xs. split; [reflexivity|]. split; assumption.
Qed.
Lemma says_made : forall e src n w y a, says e src n w -> kind_of n = new_expression -> field "class" (kids_of n) = Some y -> field "arguments" (kids_of n) = Some a ->
  exists j xs, w = New j (text_of y) xs /\ src j = Some (ptr_of y).
Proof.
  intros e src n w y a S K F1 F2. destruct S; cbn [kind_of kids_of] in *; try discriminate K; try (destruct H as [-> | ->]; discriminate K);
    try (rewrite K in H; discriminate H); try (destruct H as [[[-> | ->] _]|[-> _]]; discriminate K); try (destruct H as [[-> _]|[-> _]]; discriminate K).
  - destruct n as [k p t l]. cbn [kind_of kids_of] in *. subst k. cbn [counted] in H. rewrite (field_has _ _ _ F1), (field_has _ _ _ F2) in H. discriminate H.
  - subst. inversion H.
  - rewrite H0 in F1. injection F1 as ->. exists i, xs. split; [reflexivity|assumption].
Qed.

(** Behind a dot: the name leads to the field or property of that name of the type of what is written in front of it,
    read with the names that are declared around it. *)
Theorem C66_member_partial : forall sp e pl b i s f this n o y dcl,
  lower e pl (Some b) = Ret (Some i) s -> kind_of b = block -> everywhere (tidy sp) b -> everywhere complete b ->
  (forall m, pl = Some m -> everywhere holds_expression m) ->
  f_body f = to_body s (Some i) -> f_base f = owner_resolver (f_maps f) this ->
  let types := resolve_ident (f_base f) in
  (forall x, body_stmt (f_body f) = Some x -> forall d w, In (d, w) (MemberSpec.places [] x) ->
     MemberSpec.regular (f_db f) types (meaning (f_owner f) (root_decls (f_body f)) types d) w) ->
  under e n [] b dcl -> kind_of n = field_access -> field "target" (kids_of n) = Some o -> field "field" (kids_of n) = Some y ->
  count_occ Nat.eq_dec (map ptr_of (all_nodes pl b)) (ptr_of y) <= 1 ->
  exists x look, says e (expr_source s) o x /\ reads (expr_source s) (f_owner f) (flat_map declared_name (parameters pl)) types dcl look /\
  forall text point r, function_node_to_def f true (PMember false) text point (node_expr s (ptr_of y)) = Some r <->
    exists a t ty, r = FAttribute a /\ MemberSpec.typed (f_db f) types look x (TName t) /\ MemberSpec.attribute_of (f_db f) types t (text_of y) a ty.
Proof.
  intros sp e pl b i s f this n o y dcl E Kb Tb Cb Hp Fb Fm types Rg U K F1 F2 Once.
  destruct (at_node sp e pl b i s f this E Kb Tb Cb Hp Fb Fm Rg n dcl U) as (w & l & Sw & Rd & M).
  destruct (says_member _ _ _ _ _ _ Sw K F1 F2) as (j & x & -> & Src & Sx). exists x, l. split; [exact Sx|]. split; [exact Rd|]. intros text point r.
  pose proof (under_nodes e b n [] b dcl U (nodes_self b)) as N.
  rewrite (recorded_once e pl b i s n y j E Once (tidy_switch sp b Tb) N (field_in _ _ _ F2) (or_introl K) Src).
  destruct (M text point r) as (M1 & _). cbn [expr_id] in M1. rewrite M1. split.
  - intros (a & -> & Fd). inversion Fd as [q j' z nm t0 a0 ty Ac Ty At| | | | | | |]; subst. inversion Ac; subst. exists a, t0, ty. split; [reflexivity|]. split; assumption.
  - intros (a & t & ty & -> & Ty & At). exists a. split; [reflexivity|]. eapply MemberSpec.attribute_found; [constructor|exact Ty|exact At].
Qed.
Print Assumptions C66_member_partial.

(** The same for a method that is called. *)
Theorem C66_method_partial : forall sp e pl b i s f this n c o y a dcl,
  lower e pl (Some b) = Ret (Some i) s -> kind_of b = block -> everywhere (tidy sp) b -> everywhere complete b ->
  (forall m, pl = Some m -> everywhere holds_expression m) ->
  f_body f = to_body s (Some i) -> f_base f = owner_resolver (f_maps f) this ->
  let types := resolve_ident (f_base f) in
  (forall x, body_stmt (f_body f) = Some x -> forall d w, In (d, w) (MemberSpec.places [] x) ->
     MemberSpec.regular (f_db f) types (meaning (f_owner f) (root_decls (f_body f)) types d) w) ->
  under e n [] b dcl -> kind_of n = call_expression -> field "function" (kids_of n) = Some c -> field "arguments" (kids_of n) = Some a ->
  kind_of c = field_access -> field "target" (kids_of c) = Some o -> field "field" (kids_of c) = Some y ->
  count_occ Nat.eq_dec (map ptr_of (all_nodes pl b)) (ptr_of y) <= 1 ->
  exists x look, says e (expr_source s) o x /\ reads (expr_source s) (f_owner f) (flat_map declared_name (parameters pl)) types dcl look /\
  forall text point r, function_node_to_def f true (PMember true) text point (node_expr s (ptr_of y)) = Some r <->
    exists m t, r = FFunction m /\ MemberSpec.typed (f_db f) types look x (TName t) /\ MemberSpec.method_of (f_db f) types t (text_of y) m.
Proof.
  intros sp e pl b i s f this n c o y a dcl E Kb Tb Cb Hp Fb Fm types Rg U K Fc Fa Kc F1 F2 Once.
  destruct (at_node sp e pl b i s f this E Kb Tb Cb Hp Fb Fm Rg n dcl U) as (w & l & Sw & Rd & M).
  destruct (says_called _ _ _ _ _ _ _ _ Sw K Fc Kc F1 F2 Fa) as (j & x & xs & -> & Src & Sx). exists x, l. split; [exact Sx|]. split; [exact Rd|]. intros text point r.
  pose proof (in_nodes_kid b n c (under_nodes e b n [] b dcl U (nodes_self b)) (field_in _ _ _ Fc)) as N.
  rewrite (recorded_once e pl b i s c y j E Once (tidy_switch sp b Tb) N (field_in _ _ _ F2) (or_introl Kc) Src).
  destruct (M text point r) as (_ & M2 & _). cbn [expr_id] in M2. rewrite M2. split.
  - intros (m & -> & Fd). inversion Fd as [| |i0 x0 n0 l0 t0 f0 Ty Me| | | | |]; subst. exists m, t0. split; [reflexivity|]. split; assumption.
  - intros (m & t & -> & Ty & Me). exists m. split; [reflexivity|]. exact (MemberSpec.method_found _ _ _ _ _ _ _ _ _ Ty Me).
Qed.
Print Assumptions C66_method_partial.

(** Behind [new]: the name leads to the constructor of the methodmap it names. *)
Theorem C66_new_partial : forall sp e pl b i s f this n y a dcl,
  lower e pl (Some b) = Ret (Some i) s -> kind_of b = block -> everywhere (tidy sp) b -> everywhere complete b ->
  (forall m, pl = Some m -> everywhere holds_expression m) ->
  f_body f = to_body s (Some i) -> f_base f = owner_resolver (f_maps f) this ->
  let types := resolve_ident (f_base f) in
  (forall x, body_stmt (f_body f) = Some x -> forall d w, In (d, w) (MemberSpec.places [] x) ->
     MemberSpec.regular (f_db f) types (meaning (f_owner f) (root_decls (f_body f)) types d) w) ->
  under e n [] b dcl -> kind_of n = new_expression -> field "class" (kids_of n) = Some y -> field "arguments" (kids_of n) = Some a ->
  count_occ Nat.eq_dec (map ptr_of (all_nodes pl b)) (ptr_of y) <= 1 ->
  forall text point r, function_node_to_def f true PNew text point (node_expr s (ptr_of y)) = Some r <->
    exists m, r = FFunction m /\ MemberSpec.constructor_of (f_db f) types (text_of y) m.
Proof.
  intros sp e pl b i s f this n y a dcl E Kb Tb Cb Hp Fb Fm types Rg U K F1 F2 Once text point r.
  destruct (at_node sp e pl b i s f this E Kb Tb Cb Hp Fb Fm Rg n dcl U) as (w & l & Sw & Rd & M).
  destruct (says_made _ _ _ _ _ _ Sw K F1 F2) as (j & xs & -> & Src).
  pose proof (under_nodes e b n [] b dcl U (nodes_self b)) as N.
  rewrite (recorded_once e pl b i s n y j E Once (tidy_switch sp b Tb) N (field_in _ _ _ F1) (or_intror K) Src).
  destruct (M text point r) as (_ & _ & M3). cbn [expr_id] in M3. rewrite M3. split.
  - intros (m & -> & Fd). inversion Fd; subst. exists m. split; [reflexivity|assumption].
  - intros (m & -> & Me). exists m. split; [reflexivity|]. exact (MemberSpec.constructor_found _ _ _ _ _ _ _ Me).
Qed.
Print Assumptions C66_new_partial.

(** * A concrete case *)
(** [(S p){p.x=1;{M p;p.m(new M());}}]: [x] is the field of the enum struct of the parameter; in the inner block [p] is of the methodmap,
    so that [m] is its method, and [M] behind [new] is its constructor. *)
Definition said_params : ts := T parameter_declarations 100 "" [off (T parameter_declaration 101 "" [on "name" (leaf identifier 102 "p")])].
Definition said_field : ts := T field_access 12 "" [on "target" (leaf identifier 13 "p"); on "field" (leaf identifier 14 "x")].
Definition said_new : ts := T new_expression 46 "" [on "class" (leaf identifier 47 "M"); on "arguments" (T (other 215) 48 "" [])].
Definition said_callee : ts := T field_access 42 "" [on "target" (leaf identifier 43 "p"); on "field" (leaf identifier 44 "m")].
Definition said_call : ts := T call_expression 41 "" [on "function" said_callee; on "arguments" (T (other 215) 45 "" [off said_new])].
Definition said_tree : ts := T block 0 "" [off (leaf anon_LBRACE 1 "{");
  off (T expression_statement 10 "" [off (T assignment_expression 11 "" [on "left" said_field; on "right" (leaf int_literal 15 "1")])]);
  off (T block 20 "" [off (leaf anon_LBRACE 21 "{"); off (declares_a 30 "p"); off (T expression_statement 40 "" [off said_call]); off (leaf anon_RBRACE 22 "}")]);
  off (leaf anon_RBRACE 2 "}")].
Definition said_table : nat -> span := table [(0, (0, 27)); (1, (0, 1)); (2, (26, 27)); (10, (1, 7)); (11, (1, 6)); (12, (1, 4)); (13, (1, 2)); (14, (3, 4)); (15, (5, 6));
  (20, (7, 26)); (21, (7, 8)); (22, (25, 26)); (30, (8, 12)); (31, (10, 11)); (32, (10, 11)); (40, (12, 25)); (41, (12, 24)); (42, (12, 15)); (43, (12, 13)); (44, (14, 15));
  (45, (15, 24)); (46, (16, 23)); (47, (20, 21)); (48, (21, 23))].
Definition said_env : env := Env (fun _ => None) (fun p => Some p) (fun _ => Some (TName "M")).
Definition said_db : database := Database (fun _ => FunctionData "" None []) (fun _ => None) (fun _ => None)
  (fun _ n => if String.eqb n "x" then Some (IField TInt) else None) (fun _ n => if String.eqb n "m" then Some (IMapMethod 5) else None)
  (fun _ => Some 6) (fun _ => []) (fun _ => root_scopes) (fun j => match j with 0 => Some (TName "S") | 5 => Some (TName "M") | _ => None end).
Definition said_maps : list def_map := [DefMap 0 [("S", [(DEnumStruct, 1)]); ("M", [(DMethodmap, 2)])]].
Definition said_fn (sp : nat -> span) : option (fn_input * state) :=
  match lower said_env (Some said_params) (Some said_tree) with
  | Ret (Some i) s => Some (FnInput 0 said_maps (owner_resolver said_maps None) (to_body s (Some i)) (fun j => option_map sp (expr_source s j)) said_db, s)
  | _ => None
  end.
(** The types that its expressions need are not hidden. *)
Lemma said_regular : forall d w,
  In (d, w) [([[]], BinaryOp 4 (FieldAccess 2 (Ident 1 "p") "x") (Literal 3 TInt)); ([[("p", 5)]; []], MethodCall 9 (Ident 8 "p") "m" [New 7 "M" []])] ->
  MemberSpec.regular said_db (resolve_ident (owner_resolver said_maps None))
    (meaning 0 (root_decls (Body [("p", 0)] (Some (SBlock 11 [])))) (resolve_ident (owner_resolver said_maps None)) d) w.
Proof.
  intros d w I.
  assert (P : forall d', In d' [[[]]; [[("p", 5)]; []]] -> forall t, t <> "p" ->
    meaning 0 (root_decls (Body [("p", 0)] (Some (SBlock 11 [])))) (resolve_ident (owner_resolver said_maps None)) d' t = resolve_ident (owner_resolver said_maps None) t).
  { intros d' D t Np. assert (Eq : String.eqb "p" t = false) by (apply String.eqb_neq; intros Q; exact (Np (eq_sym Q))).
    destruct D as [<-|[<-|[]]]; unfold meaning, root_decls; cbn -[String.eqb resolve_ident owner_resolver said_maps]; rewrite ?Eq; reflexivity. }
  assert (Ty : forall l j t, MemberSpec.typed said_db (resolve_ident (owner_resolver said_maps None)) l (Ident j "p") (TName t) -> t <> "p").
  { intros l j t H. inversion H as [i0 n0 o e0 t0 L B|i0 n0 g t0 L B|i0 n0 fs g t0 L B|i0 n0 k d0 m L K B| | | | | | | | | | | | | |]; subst; try discriminate B.
    destruct e0 as [|[|[|[|[|[|e0]]]]]]; cbn in B; try discriminate B; injection B as <-; discriminate. }
  destruct I as [I|[I|[]]]; injection I as <- <-.
  - split; [reflexivity|]. intros v V. assert (W : v = BinaryOp 4 (FieldAccess 2 (Ident 1 "p") "x") (Literal 3 TInt) \/ v = FieldAccess 2 (Ident 1 "p") "x" \/ v = Ident 1 "p" \/ v = Literal 3 TInt).
    { inversion V as [|v1 p1 w1 P1 V1]; subst; [tauto|]. destruct P1 as [<-|[<-|[]]].
      - inversion V1 as [|v2 p2 w2 P2 V2]; subst; [tauto|]. destruct P2 as [<-|[]]. inversion V2 as [|v3 p3 w3 P3 V3]; subst; [tauto|]. destruct P3.
      - inversion V1 as [|v2 p2 w2 P2 V2]; subst; [tauto|]. destruct P2. }
    split; [|split; [|split]].
    + intros i0 x0 n0 t A Tt. apply (P [[]]); [left; reflexivity|]. destruct W as [-> |[-> |[-> | ->]]]; inversion A; subst. exact (Ty _ _ _ Tt).
    + intros i0 x0 n0 l t A. destruct W as [-> |[-> |[-> | ->]]]; discriminate A.
    + intros i0 n0 l A. destruct W as [-> |[-> |[-> | ->]]]; discriminate A.
    + intros i0 a0 b0 t n A. destruct W as [-> |[-> |[-> | ->]]]; discriminate A.
  - split; [reflexivity|]. intros v V. assert (W : v = MethodCall 9 (Ident 8 "p") "m" [New 7 "M" []] \/ v = Ident 8 "p" \/ v = New 7 "M" []).
    { inversion V as [|v1 p1 w1 P1 V1]; subst; [tauto|]. destruct P1 as [<-|[<-|[]]]; inversion V1 as [|v2 p2 w2 P2 V2]; subst; try tauto; destruct P2. }
    split; [|split; [|split]].
    + intros i0 x0 n0 t A. destruct W as [-> |[-> | ->]]; inversion A.
    + intros i0 x0 n0 l t A Tt. apply (P [[("p", 5)]; []]); [right; left; reflexivity|]. destruct W as [-> |[-> | ->]]; inversion A; subst. exact (Ty _ _ _ Tt).
    + intros i0 n0 l A. apply (P [[("p", 5)]; []]); [right; left; reflexivity|]. destruct W as [-> |[-> | ->]]; inversion A; subst. discriminate.
    + intros i0 a0 b0 t n A. destruct W as [-> |[-> | ->]]; discriminate A.
Qed.
Example C66_member_nontrivial : exists f s,
  said_fn said_table = Some (f, s) /\ everywhere (tidy said_table) said_tree /\ everywhere complete said_tree /\
  (forall n, Some said_params = Some n -> everywhere holds_expression n) /\
  (forall x, body_stmt (f_body f) = Some x -> forall d w, In (d, w) (MemberSpec.places [] x) ->
     MemberSpec.regular (f_db f) (resolve_ident (f_base f)) (meaning (f_owner f) (root_decls (f_body f)) (resolve_ident (f_base f)) d) w) /\
  (exists d, under said_env said_field [] said_tree d /\ declaration (flat_map declared_name (parameters (Some said_params))) d "p" = Some 101) /\
  (exists d, under said_env said_call [] said_tree d /\ declaration (flat_map declared_name (parameters (Some said_params))) d "p" = Some 31) /\
  (exists d, under said_env said_new [] said_tree d) /\
  NoDup (map ptr_of (all_nodes (Some said_params) said_tree)) /\
  function_node_to_def f true (PMember false) "x" 3 (node_expr s 14) = Some (FAttribute 1) /\
  function_node_to_def f true (PMember true) "m" 14 (node_expr s 44) = Some (FFunction 5) /\
  function_node_to_def f true PNew "M" 20 (node_expr s 47) = Some (FFunction 6).
Proof.
  eexists. eexists. split; [vm_compute; reflexivity|]. split; [unfold said_tree, said_field, said_call, said_callee, said_new, declares_a, leaf, on, off; tid|].
  split; [unfold said_tree, said_field, said_call, said_callee, said_new, declares_a, leaf, on, off; tid|].
  split; [intros n H; injection H as <-; unfold said_params, leaf, on, off; tid; destruct H; discriminate|]. split; [|split; [|split; [|split; [|split]]]].
  - cbn [f_body f_db f_base f_owner body_stmt]. intros x X d w I. injection X as <-. exact (said_regular d w I).
  - eexists. split; [eapply under_part; [cbn; left; reflexivity|]; eapply under_expr; [left; reflexivity|]; eapply sub_part; [reflexivity|left; reflexivity|];
      eapply sub_part; [reflexivity|left; reflexivity|]; apply sub_here|vm_compute; reflexivity].
  - eexists. split; [eapply under_part; [cbn; right; left; reflexivity|]; eapply under_part; [cbn; right; left; reflexivity|]; eapply under_expr; [left; reflexivity|];
      eapply sub_part; [reflexivity|left; reflexivity|]; apply sub_here|vm_compute; reflexivity].
  - eexists. eapply under_part; [cbn; right; left; reflexivity|]; eapply under_part; [cbn; right; left; reflexivity|]; eapply under_expr; [left; reflexivity|];
      eapply sub_part; [reflexivity|left; reflexivity|]; eapply sub_part; [reflexivity|right; left; reflexivity|]; apply sub_here.
  - repeat constructor; cbn; intuition discriminate.
  - split; [|split]; vm_compute; reflexivity.
Qed.
