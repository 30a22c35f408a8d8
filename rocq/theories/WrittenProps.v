(** C66: a name in a function leads to its declaration in the text. The body is the one that the lowering
    makes of the syntax tree; nothing is assumed about it. *)
From Coq Require Import List String Ascii Bool Arith ZArith Lia.
From Verif Require Import TypeRefModel HirModel HirSpec HirNames OffsetModel OffsetSpec.
From Verif Require Import LowerModel LowerSpec LowerProofs LowerProps LowerHir WrittenSpec WrittenLower WrittenArena WrittenProofs.
From Verif Require MemberSpec OffsetProps.
Import ListNotations.
Local Open Scope string_scope.
Local Open Scope nat_scope.
Local Open Scope list_scope.

Lemma fuel_enough : forall s n i lo hi, lowered s n i lo hi -> hi = len s -> i < 2 * List.length (exprs s).
Proof. intros s n i lo hi H ->. pose proof (lowered_range _ _ _ _ _ H). unfold len in *. lia. Qed.

(** Each statement and each expression of a body is in it once. *)
Theorem C66_once : forall e pl b i s, lower e pl (Some b) = Ret (Some i) s ->
  (forall n, pl = Some n -> everywhere holds_expression n) -> everywhere holds_expression b ->
  exists x, body_stmt (to_body s (Some i)) = Some x /\ NoDup (stmt_ids x) /\
    forall dcl, NoDup (flat_map (fun y => MemberSpec.expr_ids (snd y)) (MemberSpec.places dcl x)).
Proof.
  intros e pl b i s E Hp Hb. destruct (lower_does e pl b i s E Hp Hb) as (lo & L & _). eexists. split; [reflexivity|].
  destruct (lowered_ids (size b) s b (le_n _) i lo _ L _ (fuel_enough _ _ _ _ _ L eq_refl)) as [[N _] K]. split; [exact N|].
  intros dcl. exact (proj1 (K dcl)).
Qed.
Print Assumptions C66_once.

(** The body stands in the text as the tree does. *)
Theorem C66_laid : forall sp e pl b i s, lower e pl (Some b) = Ret (Some i) s ->
  (forall n, pl = Some n -> everywhere holds_expression n) -> everywhere (tidy sp) b ->
  exists x at_, body_stmt (to_body s (Some i)) = Some x /\ at_ (stmt_id x) = where_ sp b /\
    laid at_ (fun j => option_map sp (expr_source s j)) x.
Proof.
  intros sp e pl b i s E Hp Tb. destruct (lower_does e pl b i s E Hp (everywhere_impl _ _ (tidy_holds sp) b Tb)) as (lo & L & _).
  destruct (lowered_laid sp s (size b) b (le_n _) Tb i lo _ L _ (fuel_enough _ _ _ _ _ L eq_refl)) as [at_ H].
  destruct (H at_ (fun _ _ => eq_refl)) as (A & Q & _). eexists. exists at_. split; [reflexivity|]. split; [exact A|exact Q].
Qed.
Print Assumptions C66_laid.

(** A name at a place of a function leads to the declaration of the name that counts there; without one
    it leads to what the file means by it. *)
Theorem C66_place : forall sp e pl b i s f this p dcl x,
  lower e pl (Some b) = Ret (Some i) s -> kind_of b = block -> everywhere (tidy sp) b -> everywhere complete b ->
  (forall n, pl = Some n -> everywhere holds_expression n) ->
  f_body f = to_body s (Some i) -> f_source f = (fun j => option_map sp (expr_source s j)) -> f_base f = owner_resolver (f_maps f) this ->
  (x = "this" -> resolve_global (f_maps f) x = None) ->
  around sp p [] b dcl -> ~ just_closed sp b p x ->
  match declaration (flat_map declared_name (parameters pl)) dcl x with
  | Some q => exists j, expr_source s j = Some q /\ forall ne, function_node_to_def f true POther x p ne = Some (FLocal (f_owner f) j)
  | None => forall ne d, function_node_to_def f true POther x p ne = Some d <-> exists v, resolve_ident (f_base f) x = Some v /\ leads_to v d
  end.
Proof.
  intros sp e pl b i s f this p dcl x E Kb Tb Cb Hp Fb Fs Fm Th Ar Jc.
  pose proof (everywhere_impl _ _ (tidy_holds sp) b Tb) as Hb. destruct (lower_does e pl b i s E Hp Hb) as (lo & L & P).
  pose proof (fuel_enough _ _ _ _ _ L eq_refl) as Fu. destruct (lowered_laid sp s (size b) b (le_n _) Tb i lo _ L _ Fu) as [at_ H].
  destruct (H at_ (fun _ _ => eq_refl)) as (A & Q & Ft). clear H. specialize (Ft Cb).
  destruct (lowered_ids (size b) s b (le_n _) i lo _ L _ Fu) as [[N _] _].
  set (y := to_stmt (2 * List.length (exprs s)) s i) in *.
  assert (Ey : body_stmt (f_body f) = Some y) by (rewrite Fb; reflexivity).
  assert (Bk : is_block y = true).
  { destruct Ft as [n z _ B _ _]. rewrite B, Kb. reflexivity. }
  destruct (fits_stands sp s at_ p [] b dcl Ar y [] [] Ft (Forall2_nil _)) as (bl & hd & St & R).
  assert (Nb : ~ declared_just_before at_ y p x) by (intros D; exact (Jc (fits_closed sp s at_ b y p x Ft D))).
  change (fun j => option_map sp (expr_source s j)) with (source sp s) in Fs.
  pose proof (OffsetProps.C62_place (f_body f) y at_ (source sp s) (f_owner f) (f_maps f) this p bl hd x Ey Bk N Q St Th Nb) as M.
  assert (Rd : root_decls (f_body f) = map (fun x => (nth (fst x) (LowerModel.idents s) "", snd x)) (params s)).
  { unfold root_decls. rewrite Ey. assert (Lv : level y = []) by (clear - Bk; destruct y; try discriminate Bk; reflexivity). rewrite Lv, app_nil_r, Fb. reflexivity. }
  assert (Ne : hd <> []).
  { assert (G : forall q bl1 d1 w bl2 d2, stands at_ q bl1 d1 w bl2 d2 -> is_block w = true \/ d1 <> [] -> d2 <> []).
    { clear. intros q bl1 d1 w bl2 d2 S. induction S as [bl dcl w _ _ _|bl dcl w y bl' dcl' _ _ IH]; intros K.
      - destruct w; destruct K as [K|K]; try discriminate K; try exact K; discriminate.
      - apply IH. right. destruct w; destruct K as [K|K]; try discriminate K; try exact K; discriminate. }
    exact (G _ _ _ _ _ _ St (or_introl Bk)). }
  assert (Mm : forall base, meaning (f_owner f) (root_decls (f_body f)) base hd x =
    match assoc x (List.concat (map (@rev _) hd) ++ rev (root_decls (f_body f))) with Some j => Some (VLocal (f_owner f) j) | None => base x end).
  { intros base. unfold meaning. destruct hd as [|h hd']; [contradiction|reflexivity]. }
  rewrite Mm in M. rewrite Rd in M. pose proof (drel_assoc s x _ _ (drel_levels s _ _ _ _ R P)) as D. unfold declaration.
  destruct (assoc x (List.concat (map (@rev _) dcl) ++ rev (flat_map declared_name (parameters pl)))) as [q|].
  - destruct D as [j [D1 D2]]. rewrite D1 in M. exists j. split; [exact D2|]. intros ne. unfold function_node_to_def. cbn [negb]. rewrite Fs, Fm, M. reflexivity.
  - rewrite D in M. intros ne d. unfold function_node_to_def. cbn [negb]. rewrite Fs, Fm, M. apply OffsetProps.leads_option.
Qed.
Print Assumptions C66_place.

(** Each place of a function at which no block begins has something around it. *)
Theorem C66_somewhere : forall sp b p, within p (where_ sp b) -> (forall n, has_block b n -> fst (where_ sp n) <> p) -> exists dcl, around sp p [] b dcl.
Proof. intros sp b p W H. exact (somewhere sp (size b) b p [] (le_n _) W H). Qed.
Print Assumptions C66_somewhere.

(** * What goes wrong *)
(** [{int a;{int a;}a=1000000;}]: nothing is missing and each part is in its place, and yet the last [a]
    leads to the declaration in the block before it. *)
Definition table (l : list (nat * span)) (p : nat) : span := match by_id p l with Some r => r | None => (0, 0) end.
Definition declares_a (p : nat) (x : string) : ts := T variable_declaration_statement p "" [off (T variable_declaration (p + 1) "" [on "name" (leaf identifier (p + 2) x)])].
Definition assigns (p : nat) (x : string) (v : ts) : ts := T expression_statement p "" [off (T assignment_expression (p + 1) "" [on "left" (leaf identifier (p + 2) x); on "right" v])].
Definition brace_tree : ts := T block 0 "" [off (leaf anon_LBRACE 1 "{"); off (declares_a 10 "a");
  off (T block 20 "" [off (leaf anon_LBRACE 21 "{"); off (declares_a 30 "a"); off (leaf anon_RBRACE 22 "}")]);
  off (assigns 40 "a" (leaf int_literal 50 "1000000")); off (leaf anon_RBRACE 2 "}")].
Definition brace_table : nat -> span := table [(0, (0, 26)); (1, (0, 1)); (2, (25, 26)); (10, (1, 7)); (11, (5, 6)); (12, (5, 6));
  (20, (7, 15)); (21, (7, 8)); (22, (14, 15)); (30, (8, 14)); (31, (12, 13)); (32, (12, 13)); (40, (15, 25)); (41, (15, 24)); (42, (15, 16)); (50, (17, 24))].
Definition function_of (sp : nat -> span) (e : env) (pl : option ts) (b : ts) : option (fn_input * state) :=
  match lower e pl (Some b) with
  | Ret (Some i) s => Some (FnInput 0 [] [SGlobal []] (to_body s (Some i)) (fun j => option_map sp (expr_source s j)) OffsetProps.empty_db, s)
  | _ => None
  end.
Ltac tid :=
  repeat first
    [ apply Forall_nil | apply Forall_cons | apply FOP_nil | apply FOP_cons | apply conj | exact Logic.I
    | match goal with |- _ -> _ => let H := fresh in intros H; try discriminate H; try (exfalso; destruct H; discriminate); try (exfalso; apply H; reflexivity) end
    | match goal with |- _ <> _ => let H := fresh in intros H; discriminate H end
    | match goal with |- _ = _ => reflexivity end
    | match goal with |- _ <= _ => vm_compute; lia | |- _ < _ => vm_compute; lia end
    | progress unfold inside, between, where_, holds_expression
    | progress cbn [everywhere tidy complete map fold_right snd fst kind_of kids_of field fields filter has_field] ].
Theorem C66_brace_refuted : exists f s dcl j,
  function_of brace_table demo_env None brace_tree = Some (f, s) /\ everywhere (tidy brace_table) brace_tree /\ everywhere complete brace_tree /\
  around brace_table 15 [] brace_tree dcl /\ declaration [] dcl "a" = Some 11 /\
  function_node_to_def f true POther "a" 15 None = Some (FLocal 0 j) /\ expr_source s j = Some 31.
Proof.
  eexists. eexists. exists [[("a", 11)]]. eexists. split; [vm_compute; reflexivity|]. split; [unfold brace_tree, assigns, declares_a, leaf, on, off; tid|].
  split; [unfold brace_tree, assigns, declares_a, leaf, on, off; tid|]. split.
  - eapply around_part; [cbn; right; right; left; reflexivity|]. change [[("a", 11)]] with (enters (assigns 40 "a" (leaf int_literal 50 "1000000")) [[("a", 11)]]).
    apply around_own; [vm_compute; lia|discriminate|constructor].
  - split; [reflexivity|]. split; vm_compute; reflexivity.
Qed.
Print Assumptions C66_brace_refuted.

(** * A concrete case *)
(** [(int p){int a;if(a){int a;a=p;}a=p;}]: the condition is the first [a], the assignment in the block
    goes to the second one, the last one to the first, and [p] is the parameter. *)
Definition demo_params : ts := T parameter_declarations 100 "" [off (T parameter_declaration 101 "" [on "name" (leaf identifier 102 "p")])].
Definition demo_tree : ts := T block 0 "" [off (leaf anon_LBRACE 1 "{"); off (declares_a 10 "a");
  off (T condition_statement 20 "" [on "condition" (leaf identifier 21 "a");
    on "truePath" (T block 22 "" [off (leaf anon_LBRACE 23 "{"); off (declares_a 30 "a"); off (assigns 40 "a" (leaf identifier 45 "p")); off (leaf anon_RBRACE 24 "}")])]);
  off (assigns 50 "a" (leaf identifier 55 "p")); off (leaf anon_RBRACE 2 "}")].
Definition demo_table : nat -> span := table [(0, (10, 40)); (1, (10, 11)); (2, (39, 40)); (10, (11, 17)); (11, (15, 16)); (12, (15, 16)); (20, (17, 35)); (21, (20, 21));
  (22, (22, 35)); (23, (22, 23)); (24, (34, 35)); (30, (23, 29)); (31, (27, 28)); (32, (27, 28)); (40, (29, 33)); (41, (29, 32)); (42, (29, 30)); (45, (31, 32));
  (50, (36, 39)); (51, (36, 39)); (52, (36, 37)); (55, (38, 39))].
Example C66_nontrivial : exists f s,
  function_of demo_table demo_env (Some demo_params) demo_tree = Some (f, s) /\ everywhere (tidy demo_table) demo_tree /\ everywhere complete demo_tree /\
  (forall n, Some demo_params = Some n -> everywhere holds_expression n) /\
  (exists d, around demo_table 20 [] demo_tree d /\ declaration (flat_map declared_name (parameters (Some demo_params))) d "a" = Some 11) /\
  (exists d, around demo_table 29 [] demo_tree d /\ declaration (flat_map declared_name (parameters (Some demo_params))) d "a" = Some 31) /\
  (exists d, around demo_table 36 [] demo_tree d /\ declaration (flat_map declared_name (parameters (Some demo_params))) d "a" = Some 11 /\
             declaration (flat_map declared_name (parameters (Some demo_params))) d "p" = Some 101) /\
  map (fun x => match function_node_to_def f true POther (fst x) (snd x) None with Some (FLocal _ j) => expr_source s j | _ => None end)
    [("a", 20); ("a", 29); ("p", 31); ("a", 36); ("p", 38); ("q", 38)] = [Some 11; Some 31; Some 101; Some 11; Some 101; None].
Proof.
  assert (O : forall p d n, within p (where_ demo_table n) -> (kind_of n = block -> fst (where_ demo_table n) < p) -> Forall (fun y => outside p (where_ demo_table y)) (statements n) ->
     forall d', d' = enters n d -> around demo_table p d n d') by (intros p d n W B F d' ->; exact (around_own _ _ _ _ W B F)).
  eexists. eexists. split; [vm_compute; reflexivity|]. split; [unfold demo_tree, assigns, declares_a, leaf, on, off; tid|].
  split; [unfold demo_tree, assigns, declares_a, leaf, on, off; tid|]. split; [intros n H; injection H as <-; unfold demo_params, leaf, on, off; tid; destruct H; discriminate|].
  split; [|split; [|split]].
  - eexists. split; [eapply around_part; [cbn; right; left; reflexivity|]; apply O; [vm_compute; lia|discriminate|constructor; [vm_compute; lia|constructor]|reflexivity]|vm_compute; reflexivity].
  - eexists. split; [eapply around_part; [cbn; right; left; reflexivity|]; eapply around_part; [cbn; left; reflexivity|]; eapply around_part; [cbn; right; left; reflexivity|];
      apply O; [vm_compute; lia|discriminate|constructor|reflexivity]|vm_compute; reflexivity].
  - eexists. split; [eapply around_part; [cbn; right; right; left; reflexivity|]; apply O; [vm_compute; lia|discriminate|constructor|reflexivity]|split; vm_compute; reflexivity].
  - vm_compute. reflexivity.
Qed.
