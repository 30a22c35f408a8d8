(** C29 and C30: what names mean in a body, and scopes that are entered and left. *)
From Coq Require Import List String Bool Arith Lia.
From Verif Require Import TypeRefModel HirModel HirSpec HirScopes HirNames.
Import ListNotations.

(** * C29: the code *)

(** The inference and the lookup of a definition both find the last declaration of the innermost
    block around the use that declares the name, wherever it stands in it, then a parameter, then
    what the file says. *)
Theorem C29_infer : forall b owner maps this u n, NoDup (body_ids b) -> In u (body_uses b) ->
  resolve_ident (entered owner (new_scopes b) (owner_resolver maps this) (u_blocks u)) n =
  meaning owner (root_decls b) (resolve_ident (owner_resolver maps this)) (u_declared u) n.
Proof.
  intros b owner maps this u n N U. destruct (use_here b u N U) as (K & j & H).
  rewrite (entered_here owner _ maps this _ _ _ _ H). unfold resolve_ident at 1, meaning.
  destruct (u_blocks u) as [|x bl], (u_declared u) as [|d0 ds0]; try (inversion H; fail).
  - rewrite app_nil_r. reflexivity.
  - rewrite rev_app_distr, rev_involutive. rewrite (resolve_locals owner _ _ K _ _ _ H). reflexivity.
Qed.
Print Assumptions C29_infer.

Lemma resolve_twice maps this n : n <> "this"%string ->
  resolve_in (SGlobal maps :: rev (owner_resolver maps this)) n = resolve_ident (owner_resolver maps this) n.
Proof.
  intros N. unfold resolve_ident, owner_resolver. destruct this as [[mm i]|]; cbn [rev app resolve_in].
  - destruct (String.eqb_spec n "this"); [contradiction|]. destruct (resolve_global maps n); reflexivity.
  - destruct (resolve_global maps n); reflexivity.
Qed.
Theorem C29_definition : forall b owner maps this u n, NoDup (body_ids b) -> In u (body_uses b) -> n <> "this"%string ->
  resolve_ident (resolver_for_scope owner (new_scopes b) maps (owner_resolver maps this) (node_scope (new_scopes b) (u_blocks u))) n =
  meaning owner (root_decls b) (resolve_ident (owner_resolver maps this)) (u_declared u) n.
Proof.
  intros b owner maps this u n N U T. destruct (use_here b u N U) as (K & j & H).
  rewrite (node_scope_here _ _ _ _ _ H). unfold resolver_for_scope, meaning.
  destruct (u_blocks u) as [|x bl], (u_declared u) as [|d0 ds0]; try (inversion H; fail).
  - simpl rev. simpl map. rewrite app_nil_r. reflexivity.
  - unfold resolve_ident at 1. rewrite rev_app_distr, <- map_rev, rev_involutive.
    pose proof (resolve_blocks owner (new_scopes b) _ (SGlobal maps :: rev (owner_resolver maps this)) K _ _ _ H ltac:(discriminate) n) as R.
    cbn [hd tl] in R. fold (links (new_scopes b) j). rewrite R. rewrite resolve_twice by exact T. reflexivity.
Qed.
Print Assumptions C29_definition.

(** * C29: the language *)

(** Visible declarations belong to the blocks around. *)
Definition visible_ok (last : list (list decl)) (v : list (list (list decl))) (dcl : list (list decl)) : Prop :=
  exists g, v = g ++ [last] /\ Forall2 (fun f d => f <> [] /\ incl (List.concat f) d) g dcl.

Lemma visible_open last v dcl : dcl <> [] -> visible_ok last v dcl -> visible_ok last (open_scope v) dcl.
Proof.
  intros N (g & -> & H). destruct H as [|f d g ds [A B] H]; [contradiction|]. exists (([] :: f) :: g). split; [reflexivity|].
  constructor; [split; [discriminate|exact B]|exact H].
Qed.
Lemma visible_declare last v d ds x : In x d -> visible_ok last v (d :: ds) -> visible_ok last (declare x v) (d :: ds).
Proof.
  intros I (g & -> & H). inversion H as [|f d' g' ds' [A B] H']; subst. destruct f as [|f fs]; [contradiction|].
  exists (((x :: f) :: fs) :: g'). split; [reflexivity|]. constructor; [split; [discriminate|]|exact H'].
  intros y [<-|Y]; [exact I|]. now apply B.
Qed.
Lemma visible_bindings last bl d ds : forall l v, incl (map (fun b => (b_name b, b_id b)) l) d -> visible_ok last v (d :: ds) ->
  visible_ok last (snd (uses_bindings bl (d :: ds) v l)) (d :: ds) /\
  forall u, In u (fst (uses_bindings bl (d :: ds) v l)) -> visible_ok last (u_visible u) (u_declared u).
Proof.
  induction l as [|b l IH]; intros v I V; simpl; [split; [exact V|contradiction]|].
  destruct (IH (declare (b_name b, b_id b) v)) as [A B].
  - intros y Y. apply I. now right.
  - apply visible_declare; [apply I; now left|exact V].
  - destruct (uses_bindings bl (d :: ds) _ l) as [us w]. simpl in *. split; [exact A|]. intros u U.
    apply in_app_or in U. destruct U as [U|U]; [|now apply B]. apply in_uses_opt in U. destruct U as (_ & -> & ->). exact V.
Qed.
Lemma visible_seq last (one : list (list (list decl)) -> stmt -> list use * list (list (list decl))) dcl : forall l,
  (forall x v, In x l -> visible_ok last v dcl -> visible_ok last (snd (one v x)) dcl /\
     forall u, In u (fst (one v x)) -> visible_ok last (u_visible u) (u_declared u)) ->
  forall v, visible_ok last v dcl -> visible_ok last (snd (uses_seq one v l)) dcl /\
     forall u, In u (fst (uses_seq one v l)) -> visible_ok last (u_visible u) (u_declared u).
Proof.
  induction l as [|x l IH]; intros H v V; simpl; [split; [exact V|contradiction]|].
  destruct (H x v (or_introl eq_refl) V) as [A B]. destruct (one v x) as [a w]. simpl in *.
  destruct (IH (fun y v Y => H y v (or_intror Y)) w A) as [C D]. destruct (uses_seq one w l) as [b w2]. simpl in *.
  split; [exact C|]. intros u U. apply in_app_or in U. destruct U; auto.
Qed.

Lemma level_in d x y : In y (kids x) -> match x with SBlock _ _ => False | _ => True end -> incl (level x) d -> incl (level y) d.
Proof.
  intros Y K I z Z. apply I. destruct x as [e|i l|i l|i l c it b|i c t e|i c cs]; try contradiction;
    rewrite level_kids by exact Logic.I; apply in_flat_map; eauto.
Qed.

Lemma visible_uses last : forall x bl d ds v, incl (level x) d -> visible_ok last v (d :: ds) ->
  visible_ok last (snd (uses bl (d :: ds) v x)) (d :: ds) /\
  forall u, In u (fst (uses bl (d :: ds) v x)) -> visible_ok last (u_visible u) (u_declared u).
Proof.
  assert (E : forall u bl dcl v e, visible_ok last v dcl -> In u (uses_expr bl dcl v e) -> visible_ok last (u_visible u) (u_declared u)).
  { intros u bl dcl v e V U. apply in_uses_expr in U. destruct U as (_ & -> & ->). exact V. }
  induction x as [x IH] using stmt_induct. rewrite Forall_forall in IH. intros bl d ds v I V.
  destruct x as [e|i l|i l|i l c it b|i c t e|i c cs].
  - simpl. split; [exact V|]. intros u U. exact (E _ _ _ _ _ V U).
  - simpl. apply visible_bindings; assumption.
  - simpl. split; [exact V|].
    apply (visible_seq last (uses (i :: bl) (flat_map level l :: d :: ds)) (flat_map level l :: d :: ds) l).
    + intros y w Y W. apply (IH y Y); [|exact W]. intros z Z. apply in_flat_map. eauto.
    + destruct V as (g & -> & H). exists ([[]] :: g). split; [reflexivity|]. constructor; [split; [discriminate|intros ? []]|exact H].
  - simpl uses. destruct (visible_seq last (uses bl (d :: ds)) (d :: ds) l) with (v := open_scope v) as [A B].
    + intros y w Y W. assert (Y' : In y (kids (SLoop i l c it b))) by (apply in_or_app; now left).
      apply (IH y Y'); [exact (level_in _ _ _ Y' Logic.I I)|exact W].
    + apply visible_open; [discriminate|exact V].
    + destruct (uses_seq (uses bl (d :: ds)) (open_scope v) l) as [a w]. simpl in A, B. simpl. split; [exact V|].
      intros u U. repeat (apply in_app_or in U; destruct U as [U|U]).
      * auto.
      * exact (E _ _ _ _ _ A U).
      * destruct it; [exact (E _ _ _ _ _ A U)|contradiction].
      * assert (Y' : In b (kids (SLoop i l c it b))) by (apply in_or_app; right; now left).
        apply (IH b Y' bl d ds w); [exact (level_in _ _ _ Y' Logic.I I)|exact A|exact U].
  - simpl. split; [exact V|]. intros u U.
    assert (W : visible_ok last (open_scope v) (d :: ds)) by (apply visible_open; [discriminate|exact V]).
    repeat (apply in_app_or in U; destruct U as [U|U]).
    + exact (E _ _ _ _ _ V U).
    + assert (Y' : In t (kids (SCondition i c t e))) by now left.
      apply (IH t Y' bl d ds (open_scope v)); [exact (level_in _ _ _ Y' Logic.I I)|exact W|exact U].
    + destruct e as [y|]; [|contradiction]. assert (Y' : In y (kids (SCondition i c t (Some y)))) by (right; now left).
      apply (IH y Y' bl d ds (open_scope v)); [exact (level_in _ _ _ Y' Logic.I I)|exact W|exact U].
  - simpl. split; [exact V|]. intros u U.
    assert (W : visible_ok last (open_scope v) (d :: ds)) by (apply visible_open; [discriminate|exact V]).
    apply in_app_or in U. destruct U as [U|U]; [exact (E _ _ _ _ _ V U)|].
    apply in_flat_map in U. destruct U as ([vs y] & Y & U). apply in_app_or in U. destruct U as [U|U].
    + apply in_flat_map in U. destruct U as (e & _ & U). exact (E _ _ _ _ _ V U).
    + assert (Y' : In y (kids (SSwitch i c cs))) by (apply in_map_iff; exists (vs, y); auto).
      apply (IH y Y' bl d ds (open_scope v)); [exact (level_in _ _ _ Y' Logic.I I)|exact W|exact U].
Qed.

Lemma assoc_filter n : forall l : list decl, assoc n l = match filter (fun x => String.eqb (fst x) n) l with x :: _ => Some (snd x) | [] => None end.
Proof. induction l as [|[m x] l IH]; simpl; [reflexivity|]. destruct (String.eqb m n); [reflexivity|exact IH]. Qed.
Lemma filter_rev {A} (p : A -> bool) : forall l, filter p (rev l) = rev (filter p l).
Proof. induction l as [|x l IH]; simpl; [reflexivity|]. rewrite filter_app, IH. simpl. destruct (p x); simpl; [reflexivity|apply app_nil_r]. Qed.

Lemma plain_agrees n : forall g dcl, Forall2 (fun f d => f <> [] /\ incl (List.concat f) d) g dcl ->
  Forall2 (fun g d => match filter (fun x => String.eqb (fst x) n) d with [] => True | [x] => In x (List.concat g) | _ => False end) g dcl ->
  forall rest, assoc n (List.concat (List.concat g) ++ rest) = assoc n (List.concat (map (@rev decl) dcl) ++ rest).
Proof.
  induction 1 as [|f d g dcl [A B] H IH]; intros P rest; [reflexivity|]. inversion P; subst. simpl.
  rewrite concat_app, <- !app_assoc. rewrite (assoc_app n (List.concat f)), (assoc_app n (rev d)), IH by assumption.
  replace (assoc n (rev d)) with (assoc n (List.concat f)); [reflexivity|].
  rewrite !assoc_filter, filter_rev. destruct (filter (fun x => String.eqb (fst x) n) d) as [|x [|y l]] eqn:F; [| |contradiction].
  - destruct (filter (fun x => String.eqb (fst x) n) (List.concat f)) as [|x l] eqn:G; [reflexivity|].
    assert (X : In x (filter (fun x => String.eqb (fst x) n) d)).
    { assert (Y : In x (filter (fun x => String.eqb (fst x) n) (List.concat f))) by (rewrite G; now left).
      apply filter_In in Y. destruct Y. apply filter_In. auto. }
    rewrite F in X. contradiction.
  - destruct (filter (fun x => String.eqb (fst x) n) (List.concat f)) as [|z l] eqn:G.
    + assert (X : In x (filter (fun x => String.eqb (fst x) n) (List.concat f))).
      { apply filter_In. split; [assumption|]. assert (Y : In x (filter (fun x => String.eqb (fst x) n) d)) by (rewrite F; now left).
        apply filter_In in Y. tauto. }
      rewrite G in X. contradiction.
    + assert (X : In z (filter (fun x => String.eqb (fst x) n) d)).
      { assert (Y : In z (filter (fun x => String.eqb (fst x) n) (List.concat f))) by (rewrite G; now left).
        apply filter_In in Y. destruct Y. apply filter_In. auto. }
      rewrite F in X. destruct X as [->|[]]. reflexivity.
Qed.

(** Where the declarations of the name in the blocks around are no more than one in each block, and
    in scope at the use, the code says what the language says. *)
Theorem C29_scoping_partial : forall b owner base id l u, body_stmt b = Some (SBlock id l) ->
  In u (body_uses b) -> plain_use u ->
  meaning owner (root_decls b) base (u_declared u) (u_name u) =
  match in_scope u with Some e => Some (VLocal owner e) | None => base (u_name u) end.
Proof.
  intros b owner base id l u E U P. unfold body_uses in U. rewrite E in U. simpl in U.
  assert (V : visible_ok [rev (params b)] (u_visible u) (u_declared u) /\ u_declared u <> []).
  { split.
    - destruct (visible_seq [rev (params b)] (uses [id] [flat_map level l]) [flat_map level l] l) with (v := [[[]]; [rev (params b)]]) as [_ B].
      + intros y w Y W. apply visible_uses; [|exact W]. intros z Z. apply in_flat_map. eauto.
      + exists [[[]]]. split; [reflexivity|]. constructor; [split; [discriminate|intros ? []]|constructor].
      + now apply B.
    - apply in_uses_seq in U. destruct U as (y & w & Y & U).
      assert (N : forall x bl d ds v u, In u (fst (uses bl (d :: ds) v x)) -> u_declared u <> []).
      { clear. induction x as [x IH] using stmt_induct. rewrite Forall_forall in IH. intros bl d ds v u U.
        destruct x as [e|i l|i l|i l c it b|i c t e|i c cs]; simpl in U.
        - apply in_uses_expr in U. destruct U as (_ & -> & _). discriminate.
        - apply in_uses_bindings in U. destruct U as (_ & ->). discriminate.
        - apply in_uses_seq in U. destruct U as (y & w & Y & U). eapply IH; eauto.
        - destruct (uses_seq (uses bl (d :: ds)) (open_scope v) l) as [a w] eqn:F. simpl in U.
          repeat (apply in_app_or in U; destruct U as [U|U]).
          + assert (U' : In u (fst (uses_seq (uses bl (d :: ds)) (open_scope v) l))) by now rewrite F.
            apply in_uses_seq in U'. destruct U' as (y & w' & Y & U'). eapply IH; [|exact U']. simpl. apply in_or_app. now left.
          + apply in_uses_expr in U. destruct U as (_ & -> & _). discriminate.
          + apply in_uses_opt in U. destruct U as (_ & -> & _). discriminate.
          + eapply IH; [|exact U]. simpl. apply in_or_app. right. now left.
        - repeat (apply in_app_or in U; destruct U as [U|U]).
          + apply in_uses_expr in U. destruct U as (_ & -> & _). discriminate.
          + eapply IH; [|exact U]. now left.
          + destruct e as [y|]; [|contradiction]. eapply IH; [|exact U]. right. now left.
        - apply in_app_or in U. destruct U as [U|U].
          + apply in_uses_expr in U. destruct U as (_ & -> & _). discriminate.
          + apply in_flat_map in U. destruct U as ([vs y] & Y & U). apply in_app_or in U. destruct U as [U|U].
            * apply in_flat_map in U. destruct U as (e & _ & U). apply in_uses_expr in U. destruct U as (_ & -> & _). discriminate.
            * eapply IH; [|exact U]. simpl. apply in_map_iff. exists (vs, y). auto. }
      eapply N; eauto. }
  destruct V as [(g & V & F) N]. unfold plain_use in P. rewrite V, removelast_last in P.
  unfold meaning, in_scope, root_decls. rewrite V, E. cbn [level]. rewrite app_nil_r, concat_app, concat_app. cbn [List.concat app]. rewrite app_nil_r.
  rewrite (plain_agrees (u_name u) g (u_declared u) F P). simpl. rewrite ?app_nil_r.
  destruct (u_declared u); [contradiction|reflexivity].
Qed.
Print Assumptions C29_scoping_partial.

(** * C29: where code and language differ *)

Local Open Scope string_scope.
Definition call (i : nat) (f : string) (x : nat) (n : string) : stmt := SExpr (Call i (Ident (S i) f) [Ident x n]).
Definition var (i : nat) (n : string) : stmt := SDecl i [Bind (S i) n (Some TInt) None].
(** { for (int i;;) { f(i); } for (int i;;) { f(i); } } *)
Definition two_loops : body := Body [] (Some (SBlock 0 [
  SLoop 1 [var 2 "i"] (Missing 4) None (SBlock 5 [call 6 "f" 8 "i"]);
  SLoop 11 [var 12 "i"] (Missing 14) None (SBlock 15 [call 16 "f" 18 "i"])])).
(** { int x; { f(x); int x; } } *)
Definition early_use : body := Body [] (Some (SBlock 0 [var 1 "x"; SBlock 3 [call 4 "f" 6 "x"; var 7 "x"]])).
(** { for (int i;;) { } f(i); } *)
Definition late_use : body := Body [] (Some (SBlock 0 [SLoop 1 [var 2 "i"] (Missing 4) None (SBlock 5 []); call 6 "f" 8 "i"])).

Definition says_otherwise (b : body) (node : nat) (code language : option nat) : Prop :=
  NoDup (body_ids b) /\ exists u, In u (body_uses b) /\ u_node u = node /\ in_scope u = language /\
  forall owner maps this,
    resolve_ident (entered owner (new_scopes b) (owner_resolver maps this) (u_blocks u)) (u_name u) =
    match code with Some e => Some (VLocal owner e) | None => resolve_ident (owner_resolver maps this) (u_name u) end.
Ltac nodup := repeat (constructor; [simpl; intuition discriminate|]); constructor.
(** The variable of the second loop is taken for that of the first. *)
Theorem C29_two_loops_refuted : says_otherwise two_loops 8 (Some 13) (Some 3).
Proof.
  split; [nodup|]. assert (N : NoDup (body_ids two_loops)) by nodup.
  exists (Use "i" 8 [5; 0] [[]; [("i", 3); ("i", 13)]] [[[]]; [[("i", 3)]; []]; [[]]]).
  assert (U : In (Use "i" 8 [5; 0] [[]; [("i", 3); ("i", 13)]] [[[]]; [[("i", 3)]; []]; [[]]]) (body_uses two_loops)) by (right; left; reflexivity).
  split; [exact U|split; [reflexivity|split; [reflexivity|]]]. intros. rewrite C29_infer by assumption. reflexivity.
Qed.
(** A name used before the block declares it again is taken for the later variable. *)
Theorem C29_early_use_refuted : says_otherwise early_use 6 (Some 8) (Some 2).
Proof.
  split; [nodup|]. assert (N : NoDup (body_ids early_use)) by nodup.
  exists (Use "x" 6 [3; 0] [[("x", 8)]; [("x", 2)]] [[[]]; [[("x", 2)]]; [[]]]).
  assert (U : In (Use "x" 6 [3; 0] [[("x", 8)]; [("x", 2)]] [[[]]; [[("x", 2)]]; [[]]]) (body_uses early_use)) by (right; left; reflexivity).
  split; [exact U|split; [reflexivity|split; [reflexivity|]]]. intros. rewrite C29_infer by assumption. reflexivity.
Qed.
(** The variable of a loop is still found behind the loop. *)
Theorem C29_late_use_refuted : says_otherwise late_use 8 (Some 3) None.
Proof.
  split; [nodup|]. assert (N : NoDup (body_ids late_use)) by nodup.
  exists (Use "i" 8 [0] [[("i", 3)]] [[[]]; [[]]]).
  assert (U : In (Use "i" 8 [0] [[("i", 3)]] [[[]]; [[]]]) (body_uses late_use)) by (right; left; reflexivity).
  split; [exact U|split; [reflexivity|split; [reflexivity|]]]. intros. rewrite C29_infer by assumption. reflexivity.
Qed.
Print Assumptions C29_two_loops_refuted.

(** A body with a parameter, shadowing and a loop, where both agree. *)
Definition shadowing : body := Body [("x", 100); ("y", 101)] (Some (SBlock 0 [
  call 1 "f" 3 "y"; var 4 "x";
  SLoop 6 [var 7 "i"] (Missing 9) None (SBlock 10 [var 11 "i"; call 13 "f" 15 "i"; call 16 "f" 18 "x"])])).
Example C29_nontrivial :
  map (fun u => (u_node u, in_scope u)) (body_uses shadowing) =
    [(2, None); (3, Some 101); (14, None); (15, Some 12); (17, None); (18, Some 5)] /\
  Forall plain_use (body_uses shadowing) /\
  map (fun u => resolve_ident (entered 7 (new_scopes shadowing) (owner_resolver [] None) (u_blocks u)) (u_name u)) (body_uses shadowing) =
    [None; Some (VLocal 7 101); None; Some (VLocal 7 12); None; Some (VLocal 7 5)].
Proof. split; [reflexivity|split; [|reflexivity]]. repeat (apply Forall_cons; [repeat (constructor; [simpl; tauto|]); constructor|]); constructor. Qed.

(** * C29: names of files *)

Definition same_entries (e : file_def * nat) (l : list (file_def * nat)) : Prop := l <> [] /\ Forall (eq e) l.
Lemma entry_eqb_refl e : entry_eqb e e = true.
Proof. destruct e as [[k i] f]. unfold entry_eqb, def_eqb. simpl. rewrite !Nat.eqb_refl. now destruct k. Qed.
Lemma dedup_same e : forall l, same_entries e l -> dedup l = [e].
Proof.
  induction l as [|x l IH]; intros [N F]; [contradiction|]. inversion F; subst x. subst. destruct l as [|y l]; [reflexivity|].
  inversion H2; subst y. simpl. rewrite entry_eqb_refl. apply IH. split; [discriminate|exact H2].
Qed.
(** A name that only one item of the project has means that item, however often its file is met. *)
Theorem C29_global : forall maps n d f, same_entries (d, f) (global_entries maps n) ->
  resolve_global maps n = Some (match d with (DFunction, i) => VFunctions [i] | _ => VDef d end).
Proof.
  intros maps n [k i] f H. unfold resolve_global. rewrite (dedup_same _ _ H). now destruct k.
Qed.
Print Assumptions C29_global.
Lemma dedup_keeps : forall l e, In e (dedup l) <-> In e l.
Proof.
  induction l as [|x l IH]; intros e; [reflexivity|]. destruct l as [|y l]; [reflexivity|].
  change (dedup (x :: y :: l)) with (if entry_eqb x y then dedup (y :: l) else x :: dedup (y :: l)).
  destruct (entry_eqb x y) eqn:E.
  - rewrite IH. assert (x = y).
    { destruct x as [[k i] f], y as [[k' i'] f']. unfold entry_eqb, def_eqb in E. simpl in E.
      apply andb_prop in E. destruct E as [E E3]. apply andb_prop in E. destruct E as [E1 E2].
      apply Nat.eqb_eq in E2, E3. subst. destruct k, k'; simpl in E1; congruence. }
    subst y. simpl. tauto.
  - change (In e (x :: dedup (y :: l))) with (x = e \/ In e (dedup (y :: l))). rewrite IH. reflexivity.
Qed.
(** A name that no item has means nothing, and only then. *)
Theorem C29_global_none : forall maps n, resolve_global maps n = None <-> global_entries maps n = [].
Proof.
  intros maps n. unfold resolve_global. split.
  - destruct (dedup (global_entries maps n)) as [|[[k i] f] l] eqn:E.
    + intros _. destruct (global_entries maps n) as [|x l]; [reflexivity|]. assert (X : In x (dedup (x :: l))) by (apply dedup_keeps; now left).
      rewrite E in X. contradiction.
    + destruct l as [|e l]; [now destruct k|]. destruct (find _ _) as [[d g]|]; destruct k; discriminate.
  - intros ->. reflexivity.
Qed.
Print Assumptions C29_global_none.
(** The items of the files that have the name [n]. *)
Definition has_name (maps : list def_map) (n : name) (e : file_def * nat) : Prop :=
  exists m l, In m maps /\ assoc n (dm_values m) = Some l /\ In (fst e) l /\ snd e = dm_file m.
Lemma entries_named maps n e : In e (global_entries maps n) <-> has_name maps n e.
Proof.
  unfold global_entries, has_name. rewrite in_flat_map. split.
  - intros (m & I & H). destruct (assoc n (dm_values m)) as [l|] eqn:A; [|destruct H]. apply in_map_iff in H as (d & <- & D). exists m, l. auto.
  - intros (m & l & I & A & D & F). exists m. split; [exact I|]. rewrite A. apply in_map_iff. exists (fst e). split; [|exact D]. rewrite <- F. now destruct e.
Qed.
(** What a name of the files is taken for, from the items that have it: nothing if there are none; one item, which is the
    only one or a methodmap; else all functions of that name and no other function. *)
Theorem C29_global_meaning : forall maps n,
  match resolve_global maps n with
  | None => forall e, ~ has_name maps n e
  | Some (VLocal _ _) => False
  | Some (VDef d) => fst d <> DFunction /\ exists f, has_name maps n (d, f) /\ (fst d = DMethodmap \/ forall e, has_name maps n e -> e = (d, f))
  | Some (VFunctions ids) => (exists e, has_name maps n e) /\ (forall i f, ~ has_name maps n (DMethodmap, i, f)) /\
      forall i, In i ids <-> exists f, has_name maps n (DFunction, i, f)
  end.
Proof.
  intros maps n. unfold resolve_global.
  assert (K : forall e, In e (dedup (global_entries maps n)) <-> has_name maps n e) by (intros; rewrite dedup_keeps; apply entries_named).
  destruct (dedup (global_entries maps n)) as [|e0 l]; [intros e H; apply K in H; exact H|].
  assert (One : forall k i f, l = [] -> e0 = (k, i, f) -> forall e, has_name maps n e -> e = (k, i, f)) by (intros k i f -> -> e H; apply K in H as [<-|[]]; reflexivity).
  assert (Many : forall (d : file_def) g, find (fun e => match e with (DMethodmap, _, _) => true | _ => false end) (e0 :: l) = Some (d, g) ->
    fst d <> DFunction /\ exists f, has_name maps n (d, f) /\ (fst d = DMethodmap \/ forall e, has_name maps n e -> e = (d, f))).
  { intros [k i] g H. apply find_some in H as (I & H). destruct k; try discriminate H. split; [discriminate|]. exists g. split; [now apply K|now left]. }
  assert (None_ : find (fun e => match e with (DMethodmap, _, _) => true | _ => false end) (e0 :: l) = None ->
    (exists e, has_name maps n e) /\ (forall i f, ~ has_name maps n (DMethodmap, i, f)) /\
    forall i, In i (flat_map (fun e => match e with (DFunction, i, _) => [i] | _ => [] end) (e0 :: l)) <-> exists f, has_name maps n (DFunction, i, f)).
  { intros H. split; [exists e0; apply K; now left|]. split.
    - intros i f Hn. apply K in Hn. pose proof (find_none _ _ H _ Hn). discriminate.
    - intros i. rewrite in_flat_map. split.
      + intros ([[k j] f] & I & J). destruct k; try destruct J as [J|[]]; try contradiction. subst j. exists f. now apply K.
      + intros (f & Hn). exists (DFunction, i, f). split; [now apply K|now left]. }
  destruct e0 as [[k i] f]. destruct l as [|e1 l].
  - assert (Hn : has_name maps n (k, i, f)) by (apply K; now left).
    destruct k; try (split; [discriminate|]; exists f; split; [exact Hn|right; exact (One _ _ _ eq_refl eq_refl)]).
    split; [exists (DFunction, i, f); exact Hn|]. split; [intros j g H; pose proof (One _ _ _ eq_refl eq_refl _ H); discriminate|].
    intros j. split; [intros [<-|[]]; exists f; exact Hn|]. intros (g & H). pose proof (One _ _ _ eq_refl eq_refl _ H) as E. injection E as -> ->. now left.
  - destruct k; (destruct (find _ _) as [[d g]|] eqn:E; [exact (Many _ _ eq_refl)|exact (None_ eq_refl)]).
Qed.
Print Assumptions C29_global_meaning.
(** Two functions of one name in one file. *)
Example C29_global_meaning_nontrivial : resolve_global [DefMap 3 [("f", [(DFunction, 1); (DFunction, 2)])]] "f" = Some (VFunctions [1; 2]).
Proof. reflexivity. Qed.

(** In a method, [this] is the object around it; every other name is what the files say. *)
Theorem C29_this : forall maps i n,
  resolve_ident (owner_resolver maps (Some (true, i))) "this" = Some (VDef (DMethodmap, i)) /\
  resolve_ident (owner_resolver maps (Some (false, i))) "this" = Some (VDef (DEnumStruct, i)) /\
  resolve_ident (owner_resolver maps None) n = resolve_global maps n /\
  (n <> "this"%string -> forall mm, resolve_ident (owner_resolver maps (Some (mm, i))) n = resolve_global maps n).
Proof.
  intros maps i n. repeat split; unfold resolve_ident, owner_resolver; cbn [rev app resolve_in].
  - destruct (resolve_global maps n); reflexivity.
  - intros N mm. destruct (String.eqb_spec n "this"); [contradiction|]. destruct (resolve_global maps n); reflexivity.
Qed.
Print Assumptions C29_this.

(** Two variables of the same name are an empty list of functions. *)
Theorem C29_two_globals_refuted : exists maps n i j, i <> j /\ global_entries maps n = [(DGlobal, i, 0); (DGlobal, j, 1)] /\
  resolve_global maps n = Some (VFunctions []).
Proof. exists [DefMap 0 [("g", [(DGlobal, 1)])]; DefMap 1 [("g", [(DGlobal, 2)])]], "g", 1, 2. repeat split; lia. Qed.
Print Assumptions C29_two_globals_refuted.

(** * C30 *)

(** Scopes entered and left, with others in between. *)
Inductive visit := Visit (owner e : nat) (s : expr_scopes) (inner : list visit).
Fixpoint run (v : visit) (r : list scope) : list scope :=
  match v with
  | Visit owner e s inner =>
      let '(r1, g) := update_to_inner_scope owner s e r in
      reset_to_guard (fold_left (fun r x => run x r) inner r1) g
  end.
Lemma reset_update owner s e r : reset_to_guard (fst (update_to_inner_scope owner s e r)) (snd (update_to_inner_scope owner s e r)) = r.
Proof. unfold update_to_inner_scope, reset_to_guard. cbn [fst snd]. rewrite firstn_app, firstn_all, Nat.sub_diag. simpl. apply app_nil_r. Qed.
Theorem C30_nesting : forall v r, run v r = r.
Proof.
  fix IH 1. intros [owner e s inner] r. cbn [run].
  assert (L : forall r, fold_left (fun r x => run x r) inner r = r).
  { induction inner as [|x inner IHi]; intros r'; simpl; [reflexivity|]. rewrite IH. apply IHi. }
  destruct (update_to_inner_scope owner s e r) as [r1 g] eqn:E. rewrite L.
  pose proof (reset_update owner s e r) as R. rewrite E in R. exact R.
Qed.
Print Assumptions C30_nesting.

(** The inference of any statement leaves the resolver as it was. *)
Theorem C30_restored : forall db owner es x r c, fst (infer_stmt db owner es x (r, c)) = r.
Proof.
  intros db owner es. induction x as [x IH] using stmt_induct. rewrite Forall_forall in IH.
  assert (S : forall l, (forall y, In y l -> In y (kids x)) -> forall r c, fst (fold_left (fun st x => infer_stmt db owner es x st) l (r, c)) = r).
  { induction l as [|y l IHl]; intros Y r c; simpl; [reflexivity|].
    destruct (infer_stmt db owner es y (r, c)) as [r1 c1] eqn:E. rewrite IHl by (intros; apply Y; now right).
    pose proof (IH y (Y y (or_introl eq_refl)) r c) as Q. rewrite E in Q. exact Q. }
  intros r c. destruct x as [e|i l|i l|i l cd it b|i cd t e|i cd cs]; cbn [infer_stmt].
  - reflexivity.
  - reflexivity.
  - destruct (update_to_inner_scope owner es i r) as [r1 g] eqn:E.
    destruct (fold_left (fun st x => infer_stmt db owner es x st) l (r1, c)) as [r2 c2] eqn:F.
    pose proof (S l (fun y Y => Y) r1 c) as Q. rewrite F in Q. simpl in Q. subst r2. simpl.
    pose proof (reset_update owner es i r) as R. rewrite E in R. exact R.
  - destruct (fold_left (fun st x => infer_stmt db owner es x st) l (r, c)) as [r2 c2] eqn:F.
    pose proof (S l (fun y Y => in_or_app _ _ _ (or_introl Y)) r c) as Q. rewrite F in Q. simpl in Q. subst r2.
    apply IH. simpl. apply in_or_app. right. now left.
  - destruct e as [y|].
    + destruct (infer_stmt db owner es t (r, snd (infer db r cd c))) as [r1 c1] eqn:E.
      pose proof (IH t (or_introl eq_refl) r (snd (infer db r cd c))) as Q. rewrite E in Q. simpl in Q. subst r1.
      apply IH. right. now left.
    + apply IH. now left.
  - assert (Q : forall cs', (forall k, In k cs' -> In k cs) -> forall r c,
      fst (fold_left (fun st k => match k with (values, b) =>
             let '(r, c) := st in infer_stmt db owner es b (r, fold_left (fun c v => snd (infer db r v c)) values c) end) cs' (r, c)) = r).
    { induction cs' as [|[vs y] cs' IHc]; intros Y r' c'; simpl; [reflexivity|].
      destruct (infer_stmt db owner es y (r', fold_left (fun c v => snd (infer db r' v c)) vs c')) as [r1 c1] eqn:E.
      rewrite IHc by (intros; apply Y; now right).
      assert (Y' : In y (kids (SSwitch i cd cs))) by (simpl; apply in_map_iff; exists (vs, y); split; [reflexivity|apply Y; now left]).
      pose proof (IH y Y' r' (fold_left (fun c v => snd (infer db r' v c)) vs c')) as Q. rewrite E in Q. exact Q. }
    apply Q. auto.
Qed.
Print Assumptions C30_restored.
Corollary C30_resolution : forall db owner es x r c n, resolve_ident (fst (infer_stmt db owner es x (r, c))) n = resolve_ident r n.
Proof. intros. now rewrite C30_restored. Qed.
Print Assumptions C30_resolution.

(** Entering an inner block changes what "x" means; the inference of the block gives it back. *)
Example C30_nontrivial :
  let s := new_scopes shadowing in
  let r := entered 7 s (owner_resolver [] None) [0] in
  resolve_ident r "i" = Some (VLocal 7 8) /\
  resolve_ident (fst (update_to_inner_scope 7 s 10 r)) "i" = Some (VLocal 7 12) /\
  List.length (fst (update_to_inner_scope 7 s 10 r)) = 4 /\
  run (Visit 7 10 s [Visit 7 0 s []; Visit 7 10 s [Visit 7 10 s []]]) r = r.
Proof. repeat split. Qed.
