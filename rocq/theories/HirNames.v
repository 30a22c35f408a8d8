(** Looking names up in the scopes of a body. *)
From Coq Require Import List String Bool Arith Lia.
From Verif Require Import TypeRefModel HirModel HirSpec HirScopes.
Import ListNotations.

(** * Chains of scopes *)

(** The scope [j] belongs to the innermost of the blocks, which declare [d] each; [root] is what the
    outermost scope holds. *)
Inductive here (s : expr_scopes) (root : list decl) : list nat -> list (list decl) -> nat -> Prop :=
| here_root : view s 0 None root -> here s root [] [] 0
| here_block b bl d dcl p j :
    by_id b (by_expr s) = Some j -> view s j (Some p) (rev d) -> p < j -> here s root bl dcl p ->
    here s root (b :: bl) (d :: dcl) j.

Lemma view_lt s i p l : view s i p l -> i < List.length (scopes s).
Proof. intros (d & H & _). apply nth_error_Some. congruence. Qed.
Lemma here_lt s root bl dcl j : here s root bl dcl j -> j < List.length (scopes s).
Proof. intros H. inversion H; subst; eapply view_lt; eauto. Qed.

Lemma chain_fuel s root bl dcl j : here s root bl dcl j -> forall f g, j < f -> j < g -> chain f s j = chain g s j.
Proof.
  induction 1 as [(d & H & E & _)|b bl d dcl p j A (sd & H & E & _) L P IH]; intros [|f] [|g] F G; try lia; cbn [chain]; f_equal; rewrite H, E.
  - reflexivity.
  - apply IH; lia.
Qed.
Definition links (s : expr_scopes) (j : nat) : list nat := scope_chain s (Some j).
Lemma links_root s root : view s 0 None root -> links s 0 = [0].
Proof.
  intros V. unfold links, scope_chain. pose proof (view_lt _ _ _ _ V). destruct (List.length (scopes s)); [lia|].
  destruct V as (d & H1 & E & _). cbn [chain]. now rewrite H1, E.
Qed.
Lemma links_block s root bl dcl p j l : here s root bl dcl p -> view s j (Some p) l -> p < j -> links s j = j :: links s p.
Proof.
  intros H V L. unfold links, scope_chain. pose proof (view_lt _ _ _ _ V) as B.
  destruct (List.length (scopes s)) as [|n]; [lia|]. destruct V as (d & H1 & E & _). 
  change (chain (S n) s j) with (j :: match nth_error (scopes s) j with Some d => match sd_parent d with Some p => chain n s p | None => [] end | None => [] end).
  rewrite H1, E. f_equal. eapply chain_fuel; eauto; lia.
Qed.
Lemma links_le s root bl dcl j : here s root bl dcl j -> forall k, In k (links s j) -> k <= j.
Proof.
  induction 1 as [V|b bl d dcl p j A V L P IH]; intros k H.
  - rewrite (links_root _ _ V) in H. destruct H as [<-|[]]. lia.
  - rewrite (links_block _ _ _ _ _ _ _ P V L) in H. destruct H as [<-|H]; [lia|]. specialize (IH k H). lia.
Qed.

Lemma assoc_app n : forall a b : list decl, assoc n (a ++ b) = match assoc n a with Some x => Some x | None => assoc n b end.
Proof. induction a as [|[m x] a IH]; intros b; simpl; [reflexivity|]. destruct (String.eqb m n); auto. Qed.

Definition entry_of (s : expr_scopes) (o : option nat) : option nat :=
  match o with Some k => nth_error (scope_entries s) k | None => None end.
Lemma find_in_cons s n i tl d l : sound s -> nth_error (scopes s) i = Some d -> content s d = l ->
  entry_of s (find_in s n (i :: tl)) = match assoc n l with Some e => Some e | None => entry_of s (find_in s n tl) end.
Proof.
  intros K H E. simpl. rewrite H.
  assert (F : Forall (fun x => snd x < List.length (scope_entries s)) (sd_entries d)).
  { unfold sound in K. rewrite Forall_forall in K. apply K. eapply nth_error_In; eauto. }
  pose proof (assoc_content s n _ F) as C. pose proof (assoc_none s n (sd_entries d)) as N. subst l. unfold content.
  destruct (assoc n (sd_entries d)) as [k|].
  - simpl. rewrite <- C. destruct (nth_error (scope_entries s) k); [reflexivity|].
    assert (X : Some k = None) by (apply N; auto). discriminate.
  - simpl in C. now rewrite <- C.
Qed.

(** A scope finds what its blocks declare, the innermost and last first, then the outermost names. *)
Lemma resolve_here s root : sound s -> forall bl dcl j, here s root bl dcl j -> forall n,
  resolve_name_in_scope s j n = assoc n (List.concat (map (@rev _) dcl) ++ root).
Proof.
  intros K bl dcl j H n. unfold resolve_name_in_scope. fold (links s j).
  change (match find_in s n (links s j) with Some k => nth_error (scope_entries s) k | None => None end)
    with (entry_of s (find_in s n (links s j))).
  induction H as [V|b bl d dcl p j A V L P IH].
  - rewrite (links_root _ _ V). destruct V as (x & H & _ & C). rewrite (find_in_cons s n 0 [] x root K H C). simpl.
    destruct (assoc n root); reflexivity.
  - rewrite (links_block _ _ _ _ _ _ _ P V L). destruct V as (x & H & _ & C). rewrite (find_in_cons s n j _ x (rev d) K H C).
    cbn [map List.concat]. rewrite <- app_assoc, assoc_app. destruct (assoc n (rev d)); [reflexivity|exact IH].
Qed.

(** * Resolvers *)

Definition locals owner s (l : list nat) : list scope := map (fun i => SLocal owner s i) l.
(** A chain of local scopes in front of others: the innermost already says all. *)
Lemma resolve_locals owner s root : sound s -> forall bl dcl j, here s root bl dcl j -> forall n rest,
  resolve_in (locals owner s (links s j) ++ rest) n =
  match assoc n (List.concat (map (@rev _) dcl) ++ root) with Some e => Some (VLocal owner e) | None => resolve_in rest n end.
Proof.
  intros K bl dcl j H. induction H as [V|b bl d dcl p j A V L P IH]; intros n rest.
  - rewrite (links_root _ _ V). simpl locals. cbn [app resolve_in].
    rewrite (resolve_here s root K [] [] 0 (here_root _ _ V)). destruct (assoc n _); reflexivity.
  - rewrite (links_block _ _ _ _ _ _ _ P V L). unfold locals. cbn [map app resolve_in]. fold (locals owner s (links s p)).
    change (rev d :: map (@rev _) dcl) with (map (@rev _) (d :: dcl)).
    rewrite (resolve_here s root K _ _ _ (here_block s root b bl d dcl p j A V L P)).
    destruct (assoc n (List.concat (map (@rev _) (d :: dcl)) ++ root)) as [e|] eqn:E; [reflexivity|].
    rewrite IH. cbn [map List.concat] in E. rewrite <- app_assoc, assoc_app in E. destruct (assoc n (rev d)); [discriminate|]. now rewrite E.
Qed.
(** The same without the outermost, as long as there is a block. *)
Lemma resolve_blocks owner s root (out : list scope) : sound s -> forall bl dcl j, here s root bl dcl j -> bl <> [] -> forall n,
  resolve_in (map (fun i => match nth_error (scopes s) i with
                            | Some d => match sd_parent d with Some _ => SLocal owner s i | None => hd (SLocal owner s i) out end
                            | None => SLocal owner s i
                            end) (links s j) ++ tl out) n =
  match assoc n (List.concat (map (@rev _) dcl) ++ root) with
  | Some e => Some (VLocal owner e)
  | None => resolve_in (hd (SLocal owner s 0) out :: tl out) n
  end.
Proof.
  intros K bl dcl j H. induction H as [V|b bl d dcl p j A V L P IH]; intros N n; [contradiction|].
  rewrite (links_block _ _ _ _ _ _ _ P V L). cbn [map]. pose proof V as (x & H & E & _). rewrite H, E. cbn [app resolve_in]. change (rev d :: map (@rev _) dcl) with (map (@rev _) (d :: dcl)).
  rewrite (resolve_here s root K _ _ _ (here_block s root b bl d dcl p j A V L P)).
  destruct (assoc n (List.concat (map (@rev _) (d :: dcl)) ++ root)) as [e|] eqn:F; [reflexivity|].
  destruct bl as [|b' bl].
  - inversion P; subst. rewrite (links_root _ _ H0). destruct H0 as (y & H0 & E0 & _). cbn [map]. rewrite H0, E0. reflexivity.
  - rewrite IH by discriminate. cbn [map List.concat] in F. rewrite <- app_assoc, assoc_app in F. destruct (assoc n (rev d)); [discriminate|].
    now rewrite F.
Qed.

(** resolver.rs:282-361: the resolver of a function of a file, an enum struct or a methodmap. *)
Definition owner_resolver (maps : list def_map) (this : option (bool * nat)) : list scope :=
  SGlobal maps :: match this with Some (mm, i) => [SThis mm i] | None => [] end.

(** The resolver the inference has inside of the blocks. *)
Fixpoint entered (owner : nat) (s : expr_scopes) (base : list scope) (blocks : list nat) : list scope :=
  match blocks with
  | [] => base
  | b :: outer => fst (update_to_inner_scope owner s b (entered owner s base outer))
  end.

Lemma take_links s root bl dcl p : here s root bl dcl p -> forall j, p < j ->
  take_while (fun k => negb (Nat.eqb k p)) (j :: links s p) = [j].
Proof.
  intros H j L. cbn [take_while]. destruct (Nat.eqb_spec j p); [lia|]. simpl. f_equal.
  destruct H as [V|b bl d dcl q p A V L' P].
  - rewrite (links_root _ _ V). reflexivity.
  - rewrite (links_block _ _ _ _ _ _ _ P V L'). cbn [take_while]. now rewrite Nat.eqb_refl.
Qed.

Lemma update_first owner s maps this root b d j p bl dcl : by_id b (by_expr s) = Some j -> view s j (Some p) (rev d) -> p < j ->
  here s root bl dcl p ->
  update_to_inner_scope owner s b (owner_resolver maps this) =
  (owner_resolver maps this ++ rev (locals owner s (links s j)), List.length (owner_resolver maps this)).
Proof.
  intros A V L P. unfold update_to_inner_scope. f_equal. f_equal. f_equal. unfold scope_for. rewrite A.
  destruct this as [[mm i]|]; reflexivity.
Qed.
Lemma update_next owner s base root b d j p bl dcl : by_id b (by_expr s) = Some j -> view s j (Some p) (rev d) -> p < j ->
  here s root bl dcl p ->
  update_to_inner_scope owner s b (base ++ rev (locals owner s (links s p))) =
  (base ++ rev (locals owner s (links s j)), List.length (base ++ rev (locals owner s (links s p)))).
Proof.
  intros A V L P. unfold update_to_inner_scope. f_equal. rewrite rev_app_distr, rev_involutive.
  assert (E : exists tl, links s p = p :: tl).
  { inversion P; subst; [exists []; eapply links_root; eauto|eexists; eapply links_block; eauto]. }
  destruct E as [tl E].
  assert (M : match locals owner s (links s p) ++ rev base with
    | SLocal owner' s' i :: _ => map (fun j => SLocal owner' s' j) (take_while (fun j => negb (Nat.eqb j i)) (scope_chain s' (scope_for s' b)))
    | _ => map (fun j => SLocal owner s j) (scope_chain s (scope_for s b))
    end = [SLocal owner s j]).
  { rewrite E at 1. unfold locals. cbn [map app]. unfold scope_for. rewrite A. fold (links s j).
    now rewrite (links_block _ _ _ _ _ _ _ P V L), (take_links _ _ _ _ _ P j L). }
  etransitivity; [apply f_equal; apply (f_equal (@rev scope)); exact M|].
  rewrite (links_block _ _ _ _ _ _ _ P V L). unfold locals. cbn [map rev app]. now rewrite <- app_assoc.
Qed.

Lemma entered_here owner s maps this root bl dcl j : here s root bl dcl j ->
  entered owner s (owner_resolver maps this) bl =
  owner_resolver maps this ++ match bl with [] => [] | _ => rev (locals owner s (links s j)) end.
Proof.
  induction 1 as [V|b bl d dcl p j A V L P IH]; [simpl; now rewrite app_nil_r|]. cbn [entered]. rewrite IH.
  destruct bl as [|b' bl].
  - rewrite app_nil_r. rewrite (update_first owner s maps this root b d j p [] dcl A V L P). reflexivity.
  - rewrite (update_next owner s (owner_resolver maps this) root b d j p (b' :: bl) dcl A V L P). reflexivity.
Qed.

(** * Where the uses are *)

Lemma in_uses_seq (one : list (list (list decl)) -> stmt -> list use * list (list (list decl))) u : forall l v, In u (fst (uses_seq one v l)) ->
  exists x w, In x l /\ In u (fst (one w x)).
Proof.
  induction l as [|x l IH]; intros v; simpl; [easy|]. destruct (one v x) as [a w] eqn:E.
  destruct (uses_seq one w l) as [b w2] eqn:F. simpl. intros H. apply in_app_or in H. destruct H as [H|H].
  - exists x, v. split; [now left|]. now rewrite E.
  - specialize (IH w). rewrite F in IH. destruct (IH H) as (y & w' & A & B). exists y, w'. auto.
Qed.
Lemma in_uses_expr u bl dcl v e : In u (uses_expr bl dcl v e) -> u_blocks u = bl /\ u_declared u = dcl /\ u_visible u = v.
Proof. unfold uses_expr. intros H. apply in_map_iff in H. destruct H as (d & <- & _). auto. Qed.
Lemma in_uses_opt u bl dcl v e : In u (uses_opt bl dcl v e) -> u_blocks u = bl /\ u_declared u = dcl /\ u_visible u = v.
Proof. destruct e; [apply in_uses_expr|contradiction]. Qed.
Lemma in_uses_bindings u bl dcl : forall l v, In u (fst (uses_bindings bl dcl v l)) -> u_blocks u = bl /\ u_declared u = dcl.
Proof.
  induction l as [|b l IH]; intros v; simpl; [easy|]. destruct (uses_bindings bl dcl _ l) as [us w] eqn:E. simpl. intros H.
  apply in_app_or in H. destruct H as [H|H].
  - apply in_uses_opt in H. tauto.
  - eapply IH. rewrite E. exact H.
Qed.

Lemma uses_here s root : forall x bl dcl v lo sc u, here s root bl dcl sc -> placed s lo sc x -> In u (fst (uses bl dcl v x)) ->
  exists j, here s root (u_blocks u) (u_declared u) j.
Proof.
  assert (Q : forall bl dcl sc u, here s root bl dcl sc -> u_blocks u = bl /\ u_declared u = dcl -> exists j, here s root (u_blocks u) (u_declared u) j).
  { intros bl dcl sc u H [-> ->]. eauto. }
  induction x as [x IH] using stmt_induct. intros bl dcl v lo sc u H P U. rewrite Forall_forall in IH.
  destruct x as [e|i l|i l|i l c it b|i c t e|i c cs].
  - simpl in U. apply in_uses_expr in U. eapply Q; eauto. tauto.
  - simpl in U. apply in_uses_bindings in U. eapply Q; eauto.
  - simpl in U. apply in_uses_seq in U. destruct U as (y & w & Y & U). apply placed_block in P.
    destruct P as (j & A & B & C & D & E). eapply (IH y); [exact Y| | |exact U].
    + econstructor; eauto.
    + eapply placed_all_in; eauto.
  - simpl in U. apply placed_kids in P; [|exact I]. simpl in P. apply placed_all_app in P. destruct P as [P1 [P2 _]].
    destruct (uses_seq (uses bl dcl) (open_scope v) l) as [a w] eqn:E. simpl in U.
    repeat (apply in_app_or in U; destruct U as [U|U]).
    + assert (U' : In u (fst (uses_seq (uses bl dcl) (open_scope v) l))) by now rewrite E. apply in_uses_seq in U'.
      destruct U' as (y & w' & Y & U'). eapply (IH y); [apply in_or_app; now left|exact H|eapply placed_all_in; eauto|exact U'].
    + apply in_uses_expr in U. eapply Q; eauto. tauto.
    + apply in_uses_opt in U. eapply Q; eauto. tauto.
    + eapply (IH b); [apply in_or_app; right; now left|exact H|exact P2|exact U].
  - simpl in U. destruct P as [P1 P2]. repeat (apply in_app_or in U; destruct U as [U|U]).
    + apply in_uses_expr in U. eapply Q; eauto. tauto.
    + eapply (IH t); [now left|exact H|exact P1|exact U].
    + destruct e as [y|]; [|contradiction]. eapply (IH y); [right; now left|exact H|exact P2|exact U].
  - apply placed_kids in P; [|exact I]. simpl in P, U. apply in_app_or in U. destruct U as [U|U].
    + apply in_uses_expr in U. eapply Q; eauto. tauto.
    + apply in_flat_map in U. destruct U as ([vs y] & Y & U). apply in_app_or in U. destruct U as [U|U].
      * apply in_flat_map in U. destruct U as (e & _ & U). apply in_uses_expr in U. eapply Q; eauto. tauto.
      * assert (Y' : In y (map snd cs)) by (apply in_map_iff; exists (vs, y); auto).
        eapply (IH y); [exact Y'|exact H|eapply placed_all_in; eauto|exact U].
Qed.

(** * The whole body *)

Definition root_decls (b : body) : list decl :=
  params b ++ match body_stmt b with Some s => level s | None => [] end.

Lemma sound_root : sound root_scopes.
Proof. repeat constructor. Qed.
Lemma params_grow : forall ps s, grows s (fold_left (fun s p => add_entry (fst p) (snd p) 0 s) ps s) 0 ps [].
Proof.
  induction ps as [|[n e] ps IH]; intros s; simpl; [apply grows_refl|].
  change ((n, e) :: ps) with ([(n, e)] ++ ps). change (@nil nat) with (@nil nat ++ []). eapply grows_trans; [apply grows_add|apply IH].
Qed.
Lemma new_scopes_ok b s : body_stmt b = Some s -> NoDup (stmt_ids s) ->
  sound (new_scopes b) /\ here (new_scopes b) (rev (root_decls b)) [] [] 0 /\ exists lo, placed (new_scopes b) lo 0 s.
Proof.
  intros E N. unfold new_scopes, root_decls. rewrite E.
  pose proof (params_grow (params b) root_scopes) as G.
  set (s0 := fold_left (fun s p => add_entry (fst p) (snd p) 0 s) (params b) root_scopes) in *.
  assert (L : 0 < List.length (scopes s0)) by (pose proof (g_len _ _ _ _ _ G); simpl in *; lia).
  pose proof (g_sound _ _ _ _ _ G sound_root) as K.
  pose proof (compute_grows s 0 s0 L) as G2.
  split; [exact (g_sound _ _ _ _ _ G2 K)|split].
  - constructor.
    assert (V : view root_scopes 0 None []) by (exists (ScopeData None []); repeat split).
    pose proof (g_view _ _ _ _ _ G sound_root _ _ _ V) as V1. simpl in V1. rewrite app_nil_r in V1.
    pose proof (g_view _ _ _ _ _ G2 K _ _ _ V1) as V2. simpl in V2. now rewrite rev_app_distr.
  - exists (List.length (scopes s0)). now apply compute_placed.
Qed.

Lemma use_here b u : NoDup (body_ids b) -> In u (body_uses b) ->
  sound (new_scopes b) /\ exists j, here (new_scopes b) (rev (root_decls b)) (u_blocks u) (u_declared u) j.
Proof.
  unfold body_ids, body_uses. destruct (body_stmt b) as [s|] eqn:E; [|contradiction]. intros N U.
  destruct (new_scopes_ok b s E N) as (K & H & lo & P). split; [exact K|]. eapply uses_here; eauto.
Qed.

Lemma node_scope_here s root bl dcl j : here s root bl dcl j -> node_scope s bl = match bl with [] => None | _ => Some j end.
Proof. destruct 1; [reflexivity|]. simpl. unfold scope_for. now rewrite H. Qed.
