(** C62: what a name in a function body leads to. *)
From Coq Require Import List String Bool Arith Lia.
From Verif Require Import TypeRefModel HirModel HirSpec HirScopes HirNames NameProps OffsetModel OffsetSpec OffsetProofs.
From Verif Require MemberSpec MemberProofs MemberProps.
From Verif Require LowerModel LowerSpec LowerHir.
Import ListNotations.
Local Open Scope string_scope.
Local Open Scope nat_scope.
Local Open Scope list_scope.

(** * The scope *)

Lemma scopes_noted b s : body_stmt b = Some s -> NoDup (stmt_ids s) ->
  noted (new_scopes b) 0 s /\ forall i k, by_id i (by_expr (new_scopes b)) = Some k -> In i (stmt_ids s).
Proof.
  intros E N. unfold new_scopes. rewrite E.
  pose proof (params_grow (params b) root_scopes) as G.
  set (s0 := fold_left (fun s p => add_entry (fst p) (snd p) 0 s) (params b) root_scopes) in *.
  assert (L : 0 < List.length (scopes s0)) by (pose proof (g_len _ _ _ _ _ G); simpl in *; lia).
  split; [now apply compute_noted|]. intros i k H. destruct (in_dec Nat.eq_dec i (stmt_ids s)) as [I|I]; [exact I|exfalso].
  rewrite (g_map _ _ _ _ _ (compute_grows s 0 s0 L) i I), (g_map _ _ _ _ _ G i (fun x => x)) in H. discriminate.
Qed.

(** Where a place stands, the scope found is that of the innermost block around it, or that of a block
    that ends just there. *)
Lemma found_scope b s at_ source p bl dcl : body_stmt b = Some s -> is_block s = true -> NoDup (stmt_ids s) ->
  laid at_ source s -> stands at_ p [] [] s bl dcl ->
  exists j, sound (new_scopes b) /\ here (new_scopes b) (rev (root_decls b)) bl dcl j /\ bl <> [] /\
    (scope_for_offset source (new_scopes b) p = Some j \/
     exists i l k, block_of s i l /\ snd (at_ i) = p /\ scope_for_offset source (new_scopes b) p = Some k /\
       here (new_scopes b) (rev (root_decls b)) (i :: bl) (flat_map level l :: dcl) k).
Proof.
  intros E K N L St. destruct (new_scopes_ok b s E N) as (So & H & lo & P). destruct (scopes_noted b s E N) as [No In_].
  destruct (locate (new_scopes b) (rev (root_decls b)) at_ source p s [] [] 0 lo bl dcl H No P L St) as (j & HJ & D).
  assert (NB : bl <> []).
  { destruct s; try discriminate. clear - St.     assert (G : forall bl dcl y bl' dcl', stands at_ p bl dcl y bl' dcl' -> bl <> [] \/ is_block y = true -> bl' <> []).
    { clear. intros bl dcl y bl' dcl' H. induction H as [bl dcl y W O F|bl dcl y z bl' dcl' Z H IH]; intros Q.
      - destruct y; cbn in *; try discriminate; destruct Q as [Q|Q]; congruence.
      - apply IH. left. destruct y; cbn in *; try discriminate; destruct Q as [Q|Q]; congruence. }
    exact (G _ _ _ _ _ St (or_intror eq_refl)). }
  exists j. split; [exact So|]. split; [exact HJ|]. split; [exact NB|].
  destruct D as [(E1 & _)|(b0 & tl & r0 & E0 & B & C0 & F0 & J0 & I0 & D)]; [contradiction|].
  pose proof (scope_for_offset_spec source (new_scopes b) p) as Sp.
  destruct (scope_for_offset source (new_scopes b) p) as [k|].
  - destruct Sp as (i & r & Hi & Ci & Min). destruct (D i r (In_ i k Hi) Ci) as [R|[(l & k' & BO & En & Hk & V & Lt)|R]].
    + left. congruence.
    + right. exists i, l, k. split; [exact BO|]. split; [exact En|]. split; [reflexivity|]. rewrite Hk in Hi. injection Hi as ->. econstructor; eauto.
    + exfalso. specialize (Min b0 r0 j J0 C0). lia.
  - exfalso. exact (Sp b0 r0 j J0 C0).
Qed.

(** Unless a block ends just at the place, both ways to find the scope agree: by the place, and by the
    blocks around the node ([scope_for], which is not used). *)
Theorem C62_scope : forall b s at_ source p bl dcl, body_stmt b = Some s -> is_block s = true -> NoDup (stmt_ids s) ->
  laid at_ source s -> stands at_ p [] [] s bl dcl ->
  (forall i l, block_of s i l -> snd (at_ i) <> p) ->
  scope_for_offset source (new_scopes b) p = node_scope (new_scopes b) bl.
Proof.
  intros b s at_ source p bl dcl E K N L St No. destruct (found_scope b s at_ source p bl dcl E K N L St) as (j & _ & H & NB & [F|(i & l & k & BO & En & _)]).
  - rewrite F, (node_scope_here _ _ _ _ _ H). destruct bl; [contradiction|reflexivity].
  - exfalso. exact (No i l BO En).
Qed.
Print Assumptions C62_scope.

(** Outside of the body, the name means what it means in the file. *)
Theorem C62_outside : forall b s at_ source p owner maps base, body_stmt b = Some s -> NoDup (stmt_ids s) -> laid at_ source s ->
  p < fst (at_ (stmt_id s)) \/ snd (at_ (stmt_id s)) < p ->
  resolver_at owner (new_scopes b) maps base source p = base.
Proof.
  intros b s at_ source p owner maps base E N L O. destruct (scopes_noted b s E N) as [_ In_].
  unfold resolver_at, resolver_for_scope. pose proof (scope_for_offset_spec source (new_scopes b) p) as Sp.
  destruct (scope_for_offset source (new_scopes b) p) as [k|]; [|simpl; apply app_nil_r].
  destruct Sp as (i & r & Hi & [S C] & _). pose proof (recorded_inside at_ source s i r L (In_ i k Hi) S) as R. unfold inside in R. lia.
Qed.
Print Assumptions C62_outside.

(** * The name *)

Lemma resolve_at owner s maps this root bl dcl j n : sound s -> here s root bl dcl j -> bl <> [] ->
  (n = "this" -> resolve_global maps n = None) ->
  resolve_ident (resolver_for_scope owner s maps (owner_resolver maps this) (Some j)) n =
  match assoc n (List.concat (map (@rev _) dcl) ++ root) with
  | Some e => Some (VLocal owner e)
  | None => resolve_ident (owner_resolver maps this) n
  end.
Proof.
  intros K H NB T. unfold resolver_for_scope, resolve_ident at 1. rewrite rev_app_distr, <- map_rev, rev_involutive.
  pose proof (resolve_blocks owner s root (SGlobal maps :: rev (owner_resolver maps this)) K _ _ _ H NB n) as R.
  cbn [hd tl] in R. fold (links s j). rewrite R.
  replace (resolve_in (SGlobal maps :: rev (owner_resolver maps this)) n) with (resolve_ident (owner_resolver maps this) n); [reflexivity|].
  destruct (String.eqb_spec n "this") as [Q|Q]; [|symmetry; now apply resolve_twice].
  cbn [resolve_in]. rewrite (T Q). reflexivity.
Qed.
Lemma assoc_not n : forall l : list decl, ~ In n (map fst l) -> assoc n (rev l) = None.
Proof.
  intros l H. assert (G : forall l : list decl, ~ In n (map fst l) -> assoc n l = None).
  { clear. induction l as [|[m x] l IH]; simpl; [reflexivity|]. intros H. destruct (String.eqb_spec m n) as [->|]; [elim H; now left|]. apply IH. tauto. }
  apply G. intros c. apply H. rewrite map_rev in c. now apply in_rev in c.
Qed.

(** A place in a body: the last declaration of the name in the innermost block around it that has one,
    then a parameter, then what the file says. Only a block that ends just there and declares the name
    can make it another. *)
Theorem C62_place : forall b s at_ source owner maps this p bl dcl n, body_stmt b = Some s -> is_block s = true -> NoDup (stmt_ids s) ->
  laid at_ source s -> stands at_ p [] [] s bl dcl -> (n = "this" -> resolve_global maps n = None) ->
  ~ declared_just_before at_ s p n ->
  resolve_ident (resolver_at owner (new_scopes b) maps (owner_resolver maps this) source p) n =
  meaning owner (root_decls b) (resolve_ident (owner_resolver maps this)) dcl n.
Proof.
  intros b s at_ source owner maps this p bl dcl n E K N L St T D.
  destruct (found_scope b s at_ source p bl dcl E K N L St) as (j & So & H & NB & F).
  assert (M : meaning owner (root_decls b) (resolve_ident (owner_resolver maps this)) dcl n =
              match assoc n (List.concat (map (@rev _) dcl) ++ rev (root_decls b)) with
              | Some e => Some (VLocal owner e) | None => resolve_ident (owner_resolver maps this) n end).
  { unfold meaning. destruct dcl as [|d dcl]; [|reflexivity]. inversion H; subst. contradiction. }
  rewrite M. unfold resolver_at. destruct F as [F|(i & l & k & BO & En & F & HK)]; rewrite F.
  - apply (resolve_at owner _ maps this _ _ _ _ n So H NB T).
  - rewrite (resolve_at owner _ maps this _ _ _ _ n So HK ltac:(discriminate) T). cbn [map List.concat]. rewrite <- app_assoc, assoc_app.
    rewrite assoc_not; [reflexivity|]. intros c. apply D. exists i, l. auto.
Qed.
Print Assumptions C62_place.

Lemma try_from_spec : forall v d, try_from v = Some d <-> leads_to v d.
Proof.
  intros v d. split.
  - destruct v as [o e|[|i l]|d']; cbn; intros H; inversion H; constructor.
  - intros []; reflexivity.
Qed.
Lemma leads_option : forall o d, match o with Some v => try_from v | None => None end = Some d <-> exists v, o = Some v /\ leads_to v d.
Proof.
  intros [v|] d; split.
  - intros H. exists v. split; [reflexivity|]. apply try_from_spec. exact H.
  - intros (v' & E & H). inversion E; subst. apply try_from_spec. exact H.
  - discriminate.
  - intros (v' & E & _). discriminate.
Qed.

(** The uses of names in expressions stand in the body, so [go to definition] on one finds what C29
    says of it. *)
Theorem C62_definition : forall f at_ s u this, body_stmt (f_body f) = Some s -> is_block s = true -> NoDup (stmt_ids s) ->
  laid at_ (f_source f) s -> In u (body_uses (f_body f)) -> f_base f = owner_resolver (f_maps f) this ->
  (u_name u = "this" -> resolve_global (f_maps f) "this" = None) ->
  exists r, f_source f (u_node u) = Some r /\
    (~ declared_just_before at_ s (fst r) (u_name u) ->
     forall ne d, function_node_to_def f true POther (u_name u) (fst r) ne = Some d <->
       exists v, meaning (f_owner f) (root_decls (f_body f)) (resolve_ident (f_base f)) (u_declared u) (u_name u) = Some v /\ leads_to v d).
Proof.
  intros f at_ s u this E K N L U B T. pose proof U as U'. unfold body_uses in U'. rewrite E in U'.
  destruct (uses_stand at_ (f_source f) s [] [] _ u L U') as (r & S & St). exists r. split; [exact S|]. intros D ne d.
  unfold function_node_to_def. cbn [negb]. rewrite B.
  rewrite (C62_place (f_body f) s at_ (f_source f) (f_owner f) (f_maps f) this (fst r) (u_blocks u) (u_declared u) (u_name u) E K N L St) by (try exact D; intros Q; rewrite Q in *; auto).
  apply leads_option.
Qed.
Print Assumptions C62_definition.

(** A function without a body only has the names of the file. *)
Theorem C62_no_body : forall f p text point ne,
  forall d, function_node_to_def f false p text point ne = Some d <-> exists v, resolve_ident (f_base f) text = Some v /\ leads_to v d.
Proof. intros. unfold function_node_to_def. cbn [negb]. apply leads_option. Qed.
Print Assumptions C62_no_body.

(** * Members *)

Lemma by_id_unique {A} i (a : A) : forall l, NoDup (map fst l) -> In (i, a) l -> by_id i l = Some a.
Proof.
  induction l as [|[k x] l IH]; simpl; intros N I; [contradiction|]. inversion N; subst. destruct I as [[= -> ->]|I].
  - now rewrite Nat.eqb_refl.
  - destruct (Nat.eqb_spec k i) as [->|]; [|auto]. elim H1. apply in_map_iff. exists (i, a). auto.
Qed.
Lemma plus_keys l : forall d a m, NoDup (map MemberProps.ev_id l) -> NoDup (map fst a) -> NoDup (map fst m) ->
  (forall i, In i (map MemberProps.ev_id l) -> ~ In i (map fst a) /\ ~ In i (map fst m)) ->
  let '(_, a', m') := MemberProofs.plus (d, a, m) l in NoDup (map fst a') /\ NoDup (map fst m').
Proof.
  induction l as [|ev l IH]; intros d a m N A M D; [simpl; auto|]. inversion N as [|? ? N1 N2]; subst.
  unfold MemberProofs.plus. cbn [fold_left]. fold (MemberProofs.plus (MemberProofs.add1 (d, a, m) ev) l).
  destruct (D _ (or_introl eq_refl)) as [D1 D2].
  assert (R : forall i, In i (map MemberProps.ev_id l) -> ~ In i (map fst a) /\ ~ In i (map fst m)) by (intros i I; apply D; now right).
  destruct ev as [e i|e i|x]; cbn [MemberProofs.add1 MemberProps.ev_id] in *; apply IH; auto; simpl; try (constructor; assumption).
  - intros j J. destruct (R j J). split; [|assumption]. intros [<-|c]; [contradiction|]. contradiction.
  - intros j J. destruct (R j J). split; [assumption|]. intros [<-|c]; [contradiction|]. contradiction.
Qed.
Lemma record_keys db owner maps this b s : body_stmt b = Some s -> NoDup (stmt_ids s) ->
  (forall d e, In (d, e) (MemberSpec.places [] s) -> MemberSpec.named_ok (meaning owner (root_decls b) (resolve_ident (owner_resolver maps this)) d) false e = true) ->
  NoDup (flat_map (fun x => MemberSpec.expr_ids (snd x)) (MemberSpec.places [] s)) ->
  NoDup (map fst (attributes (infer_query db owner (owner_resolver maps this) b))) /\
  NoDup (map fst (methods (infer_query db owner (owner_resolver maps this) b))).
Proof.
  intros E N R D. pose proof (MemberProps.body_says db owner maps this b s E N R) as B. cbv zeta in B.
  set (l := flat_map _ (MemberSpec.places [] s)) in B.
  assert (H : NoDup (map MemberProps.ev_id l)).
  { apply (MemberProps.flat_once _ (fun x => MemberSpec.expr_ids (snd x))); [|exact D]. intros x _. apply MemberProps.evf_once. }
  pose proof (plus_keys l [] [] [] H (NoDup_nil _) (NoDup_nil _) (fun i _ => conj (fun x => x) (fun x => x))) as P. rewrite <- B in P. exact P.
Qed.

(** A member behind a dot leads to the member of the type of the expression before it, the class behind
    [new] to its constructor; and to nothing else. [i] is the expression recorded for the name. *)
Theorem C62_member_partial : forall f s this, body_stmt (f_body f) = Some s -> NoDup (stmt_ids s) -> f_base f = owner_resolver (f_maps f) this ->
  let types := resolve_ident (f_base f) in
  let look := meaning (f_owner f) (root_decls (f_body f)) types in
  (forall d e, In (d, e) (MemberSpec.places [] s) -> MemberSpec.regular (f_db f) types (look d) e) ->
  NoDup (flat_map (fun x => MemberSpec.expr_ids (snd x)) (MemberSpec.places [] s)) ->
  let there w ev := exists d e, In (d, e) (MemberSpec.places [] s) /\ MemberSpec.within w e /\ MemberSpec.found (f_db f) types (look d) w ev in
  forall text point i r,
    (function_node_to_def f true (PMember false) text point (Some i) = Some r <->
     exists a w, r = FAttribute a /\ there w (MemberSpec.Attribute i a)) /\
    (function_node_to_def f true (PMember true) text point (Some i) = Some r <->
     exists m w, r = FFunction m /\ there w (MemberSpec.Method i m)) /\
    (function_node_to_def f true PNew text point (Some i) = Some r <->
     exists m w, r = FFunction m /\ there w (MemberSpec.Method i m)).
Proof.
  intros f s this E N B types look R D there text point i r.
  assert (X : forall ev, MemberSpec.about_members ev ->
            (MemberSpec.recorded (infer_query (f_db f) (f_owner f) (f_base f) (f_body f)) ev <-> exists w, there w ev)).
  { intros ev M. unfold there, look, types in *. rewrite B in *.
    rewrite (MemberProps.C55_exact_partial (f_db f) (f_owner f) (f_maps f) this (f_body f) s E N R ev M).
    split; [intros (d & e & w & H); eauto|intros (w & d & e & H); eauto]. }
  assert (KK : NoDup (map fst (attributes (infer_query (f_db f) (f_owner f) (f_base f) (f_body f)))) /\
               NoDup (map fst (methods (infer_query (f_db f) (f_owner f) (f_base f) (f_body f))))).
  { unfold look, types in R. rewrite B in *. eapply record_keys; eauto. intros d e I. exact (proj1 (R d e I)). }
  destruct KK as [K1 K2].
  assert (Q : forall m, by_id i (methods (infer_query (f_db f) (f_owner f) (f_base f) (f_body f))) = Some m <-> exists w, there w (MemberSpec.Method i m)).
  { intros m. rewrite <- (X (MemberSpec.Method i m) I). cbn [MemberSpec.recorded]. split; [apply by_id_in|apply by_id_unique; exact K2]. }
  assert (P : forall a, by_id i (attributes (infer_query (f_db f) (f_owner f) (f_base f) (f_body f))) = Some a <-> exists w, there w (MemberSpec.Attribute i a)).
  { intros a. rewrite <- (X (MemberSpec.Attribute i a) I). cbn [MemberSpec.recorded]. split; [apply by_id_in|apply by_id_unique; exact K1]. }
  assert (Z : (match by_id i (methods (infer_query (f_db f) (f_owner f) (f_base f) (f_body f))) with Some m => Some (FFunction m) | None => None end = Some r <->
     exists m w, r = FFunction m /\ there w (MemberSpec.Method i m))).
  { destruct (by_id i (methods _)) as [m|] eqn:F.
    - split; [intros [= <-]; destruct (proj1 (Q m) eq_refl) as (w & W); eauto|].
      intros (m' & w & -> & W). f_equal. f_equal. assert (Some m = Some m') by (apply Q; eauto). congruence.
    - split; [discriminate|]. intros (m' & w & _ & W). assert (None = Some m') by (apply Q; eauto). discriminate. }
  split; [|split; exact Z]. unfold function_node_to_def. cbn [negb].
  destruct (by_id i (attributes _)) as [a|] eqn:F.
  - split; [intros [= <-]; destruct (proj1 (P a) eq_refl) as (w & W); eauto|].
    intros (a' & w & -> & W). f_equal. f_equal. assert (Some a = Some a') by (apply P; eauto). congruence.
  - split; [discriminate|]. intros (a' & w & _ & W). assert (None = Some a') by (apply P; eauto). discriminate.
Qed.
Print Assumptions C62_member_partial.

(** * What goes wrong *)

Definition spans (l : list (nat * span)) (i : nat) : option span := by_id i l.
Definition at_of (l : list (nat * span)) (i : nat) : span := match by_id i l with Some r => r | None => (0, 0) end.
Definition empty_db : database := Database (fun _ => FunctionData "" None []) (fun _ => None) (fun _ => None) (fun _ _ => None)
  (fun _ _ => None) (fun _ => None) (fun _ => []) (fun _ => root_scopes) (fun _ => None).
Ltac lay :=
  repeat first
    [ apply Laid | apply Forall_nil | apply Forall_cons | apply FOP_nil | apply FOP_cons | apply conj
    | match goal with |- exists r, _ = Some r /\ _ => eexists; split; [vm_compute; reflexivity|] end
    | match goal with |- forall r, _ = Some r -> _ => let r := fresh in let H := fresh in intros r H; vm_compute in H; injection H as <- end
    | match goal with |- ?a = ?b => reflexivity end
    | progress cbn [is_block parts names idents flat_map app b_init b_id map snd fst stmt_id expr_id]
    | progress unfold within, outside, inside, between, smaller
    | (vm_compute; lia) ].

(** [{int a;{int a;}a=1000000;}]: the block that ends in front of the last [a] is smaller than the
    statement it is in, so [a] is taken for the variable of that block. *)
Definition brace_body : body := Body [] (Some (SBlock 9
  [SDecl 1 [Bind 0 "a" (Some TInt) None]; SBlock 4 [SDecl 3 [Bind 2 "a" (Some TInt) None]]; SExpr (BinaryOp 7 (Ident 5 "a") (Literal 6 TInt))])).
Definition brace_spans : list (nat * span) :=
  [(9, (0, 26)); (1, (1, 7)); (0, (5, 6)); (4, (7, 15)); (3, (8, 14)); (2, (12, 13)); (7, (15, 24)); (5, (15, 16)); (6, (17, 24))].
Definition brace_fn : fn_input := FnInput 0 [] [SGlobal []] brace_body (spans brace_spans) empty_db.
Theorem C62_brace_refuted :
  exists s u r, body_stmt brace_body = Some s /\ is_block s = true /\ NoDup (stmt_ids s) /\ laid (at_of brace_spans) (f_source brace_fn) s /\
    In u (body_uses brace_body) /\ f_source brace_fn (u_node u) = Some r /\
    meaning 0 (root_decls brace_body) (fun _ => None) (u_declared u) (u_name u) = Some (VLocal 0 0) /\ in_scope u = Some 0 /\
    function_node_to_def brace_fn true POther (u_name u) (fst r) None = Some (FLocal 0 2).
Proof.
  eexists. exists (Use "a" 5 [9] [[("a", 0)]] [[[("a", 0)]]; [[]]]). exists (15, 16). split; [reflexivity|]. split; [reflexivity|].
  split; [repeat constructor; simpl; intuition discriminate|]. split; [lay|]. split; [left; reflexivity|]. split; [reflexivity|].
  repeat split; vm_compute; reflexivity.
Qed.
Print Assumptions C62_brace_refuted.

(** The body of [for (;;) {int a; a;}] is not lowered (C48_for_refuted): the name of the variable
    declared in the block around it leads nowhere. With a condition and an iteration it is found. *)
Definition loop (header : list (option string * LowerModel.ts)) : LowerModel.ts :=
  LowerHir.body_of [LowerModel.T LowerModel.for_statement 10 "" (header ++
    [LowerHir.on "body" (LowerModel.T LowerModel.block 20 "" [
      LowerHir.off (LowerHir.leaf LowerModel.anon_LBRACE 21 "{");
      LowerHir.off (LowerModel.T LowerModel.variable_declaration_statement 22 "" [
        LowerHir.off (LowerModel.T LowerModel.variable_declaration 23 "" [LowerHir.on "name" (LowerHir.leaf LowerModel.identifier 24 "a")])]);
      LowerHir.off (LowerHir.statement 25 (LowerHir.leaf LowerModel.identifier 27 "a"));
      LowerHir.off (LowerHir.leaf LowerModel.anon_RBRACE 28 "}")])])].
(** The spans of the nodes in [{for (;;) {int a; a;}}] and in [{for (;1;1) {int a; a;}}]. *)
Definition loop_spans (k : nat) : list (nat * span) :=
  [(0, (0, 22 + k)); (10, (1, 21 + k)); (12, (7, 8)); (13, (9, 10)); (20, (10 + k, 21 + k)); (22, (11 + k, 17 + k)); (23, (15 + k, 16 + k)); (27, (18 + k, 19 + k))].
Definition lowered (l : list (nat * span)) (n : LowerModel.ts) : option fn_input :=
  match LowerModel.lower LowerHir.demo_env None (Some n) with
  | LowerModel.Panic => None
  | LowerModel.Ret i st => Some (FnInput 0 [] [SGlobal []] (LowerHir.to_body st i)
      (fun e => match LowerModel.expr_source st e with Some p => spans l p | None => None end) empty_db)
  end.
Theorem C62_for_refuted :
  LowerSpec.means LowerHir.demo_env (loop [])
    (LowerSpec.Tr (LowerModel.EBlock 0 [LowerSpec.Tr (LowerModel.ELoop [] LowerSpec.none None (LowerSpec.Tr (LowerModel.EBlock 20
      [LowerSpec.Tr (LowerModel.EDecl [LowerSpec.Tr (LowerModel.EBinding "a" (Some TInt) None)]); LowerSpec.Tr (LowerModel.EIdent "a")])))])) /\
  (exists f, lowered (loop_spans 0) (loop []) = Some f /\ function_node_to_def f true POther "a" 18 None = None) /\
  (exists f e, lowered (loop_spans 2) (loop [LowerHir.on "condition" (LowerHir.leaf LowerModel.int_literal 12 "1"); LowerHir.on "iteration" (LowerHir.leaf LowerModel.int_literal 13 "1")]) = Some f /\
     function_node_to_def f true POther "a" 20 None = Some (FLocal 0 e)).
Proof.
  split; [|split].
  - apply LowerSpec.m_block; [reflexivity|]. constructor; [right|constructor].
    change LowerSpec.none with (match @None LowerSpec.tree with Some u => u | None => LowerSpec.none end). eapply (LowerSpec.m_for LowerHir.demo_env _ _ _ _ None None); [constructor|constructor|constructor|reflexivity|].
    apply LowerSpec.m_block; [reflexivity|]. constructor; [right|constructor; [right|constructor]].
    + apply LowerSpec.m_declaration. constructor; [|constructor]. exists (LowerHir.leaf LowerModel.identifier 24 "a"), None. split; [reflexivity|]. split; [constructor|reflexivity].
    + apply LowerSpec.m_statement. apply LowerSpec.m_ident. now left.
  - eexists. split; [vm_compute; reflexivity|]. vm_compute. reflexivity.
  - eexists. eexists. split; [vm_compute; reflexivity|]. vm_compute. reflexivity.
Qed.
Print Assumptions C62_for_refuted.

(** * A concrete case *)
(** [{int a;if(a){int a;a=p;}a=p;}] in a function with the parameter [p]: each [a] leads to the
    declaration of its block, the condition to the outer one, and [p] to the parameter. *)
Definition demo_body : body := Body [("p", 20)] (Some (SBlock 9
  [SDecl 1 [Bind 0 "a" (Some TInt) None];
   SCondition 8 (Ident 2 "a") (SBlock 7 [SDecl 4 [Bind 3 "a" (Some TInt) None]; SExpr (BinaryOp 6 (Ident 5 "a") (Ident 15 "p"))]) None;
   SExpr (BinaryOp 12 (Ident 10 "a") (Ident 11 "p"))])).
Definition demo_spans : list (nat * span) :=
  [(9, (0, 30)); (1, (1, 7)); (0, (5, 6)); (8, (7, 25)); (2, (10, 11)); (7, (12, 25)); (4, (13, 19)); (3, (17, 18)); (6, (19, 22)); (5, (19, 20)); (15, (21, 22));
   (12, (26, 29)); (10, (26, 27)); (11, (28, 29))].
Definition demo_fn : fn_input := FnInput 0 [] [SGlobal []] demo_body (spans demo_spans) empty_db.
Example C62_nontrivial : exists s, body_stmt (f_body demo_fn) = Some s /\ is_block s = true /\ NoDup (stmt_ids s) /\
  laid (at_of demo_spans) (f_source demo_fn) s /\ f_base demo_fn = owner_resolver (f_maps demo_fn) None /\
  map (fun u => (u_name u, u_node u)) (body_uses (f_body demo_fn)) = [("a", 2); ("a", 5); ("p", 15); ("a", 10); ("p", 11)] /\
  (forall u r, In u (body_uses (f_body demo_fn)) -> f_source demo_fn (u_node u) = Some r -> ~ declared_just_before (at_of demo_spans) s (fst r) (u_name u)) /\
  map (fun x => function_node_to_def demo_fn true POther (fst x) (snd x) None) [("a", 10); ("a", 19); ("p", 21); ("a", 26); ("p", 28)] =
    [Some (FLocal 0 0); Some (FLocal 0 3); Some (FLocal 0 20); Some (FLocal 0 0); Some (FLocal 0 20)].
Proof.
  eexists. split; [reflexivity|]. split; [reflexivity|]. split; [repeat constructor; simpl; intuition discriminate|]. split; [lay|].
  split; [reflexivity|]. split; [reflexivity|]. split; [|vm_compute; reflexivity].
  intros u r U S (i & l & B & En & I).
  assert (E : i = 9 \/ i = 7).
  { clear - B. repeat match goal with
    | H : In _ _ |- _ => cbn in H
    | H : _ \/ _ |- _ => destruct H as [H|H]
    | H : False |- _ => destruct H
    | H : _ = ?y |- _ => subst y
    | H : block_of ?x ?i ?l |- _ => inversion H; subst; clear H; auto
    end. }
  assert (F : fst r = 30 \/ fst r = 25) by (rewrite <- En; destruct E; subst i; [now left|now right]). clear - U S F.
  cbn in U. repeat (destruct U as [<-|U]; [vm_compute in S; injection S as <-; destruct F; discriminate|]). destruct U.
Qed.
