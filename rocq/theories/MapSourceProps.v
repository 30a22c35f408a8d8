(** C47: the declaration of a methodmap's member leads to the member. *)
From Coq Require Import List String Bool Arith Lia Permutation.
From Verif Require Import MethodmapModel MethodmapSpec MethodmapProps MapSourceModel MapSourceSpec.
Import ListNotations.

Section puts.
Variables (s : sources) (file : nat).

Lemma put_none l : fold_left (put s file) l None = None.
Proof. induction l; simpl; auto. Qed.
Lemma puts_some l : forall m, fold_left (put s file) l (Some m) <> None <-> forall e, In e l -> nth_error (nodes s file) (ast_of s e) <> None.
Proof.
  induction l as [|e l IH]; intros m; simpl; [split; [intros _ ? []|discriminate]|].
  destruct (nth_error (nodes s file) (ast_of s e)) as [p|] eqn:N.
  - rewrite IH. split; [intros H e' [<-|I]; [congruence|auto]|auto].
  - rewrite put_none. split; [intros H; contradiction H; reflexivity|intros H; exfalso; apply (H e); auto].
Qed.
(** The last insertion at a node decides. *)
Definition part (b : bool) (m : dyn_map) := if b then m_fns m else m_props m.
Lemma put_other l : forall m m' b p,
  fold_left (put s file) l (Some m) = Some m' ->
  (forall i, In (b, i) l -> nth_error (nodes s file) (ast_of s (b, i)) <> Some p) ->
  find p (part b m') = find p (part b m).
Proof.
  induction l as [|e l IH]; intros m m' b p E H; simpl in E; [inversion E; reflexivity|].
  destruct (nth_error (nodes s file) (ast_of s e)) as [q|] eqn:N; [|rewrite put_none in E; discriminate].
  rewrite (IH _ _ b p E) by (intros; apply H; right; assumption).
  destruct e as [c i]. destruct c, b; simpl; try reflexivity;
    (destruct (Nat.eqb_spec q p) as [->|]; [exfalso; exact (H i (or_introl eq_refl) N)|reflexivity]).
Qed.
Lemma put_last l b i p : forall m m',
  fold_left (put s file) l (Some m) = Some m' -> In (b, i) l ->
  nth_error (nodes s file) (ast_of s (b, i)) = Some p ->
  (forall j, In (b, j) l -> nth_error (nodes s file) (ast_of s (b, j)) = Some p -> j = i) ->
  find p (part b m') = Some i.
Proof.
  induction l as [|e l IH]; intros m m' E I N U; [destruct I|]. simpl in E.
  destruct (nth_error (nodes s file) (ast_of s e)) as [q|] eqn:Q; [|rewrite put_none in E; discriminate].
  destruct (in_dec (fun x y : bool * nat => ltac:(decide equality; [apply Nat.eq_dec|apply bool_dec])) (b, i) l) as [J|J].
  - apply (IH _ _ E J N). intros j K. apply U. right. exact K.
  - destruct I as [->|I]; [|contradiction]. rewrite N in Q. inversion Q; subst q.
    rewrite (put_other _ _ _ b p E).
    + destruct b; simpl; rewrite Nat.eqb_refl; reflexivity.
    + intros j K F. apply J. rewrite <- (U j (or_intror K) F). exact K.
Qed.
End puts.

Lemma inserted_fn x f : In (true, f) (inserted x) <-> fn_in x f.
Proof.
  destruct x as [id acc|g|g|g]; simpl.
  - rewrite in_app_iff, in_map_iff. split.
    + intros [(a & E & I)|[E|[]]]; [|discriminate]. inversion E; subst. destruct a; simpl; auto.
    + intros [I|I]; left; eexists; (split; [|exact I]); reflexivity.
  - split; [intros [E|[]]; inversion E; reflexivity|intros ->; left; reflexivity].
  - split; [intros [E|[]]; inversion E; reflexivity|intros ->; left; reflexivity].
  - split; [intros [E|[]]; inversion E; reflexivity|intros ->; left; reflexivity].
Qed.
Lemma inserted_prop x p : In (false, p) (inserted x) <-> prop_in x p.
Proof.
  destruct x as [id acc|g|g|g]; simpl.
  - rewrite in_app_iff, in_map_iff. split.
    + intros [(a & E & I)|[E|[]]]; [discriminate|]. inversion E; reflexivity.
    + intros ->. right. left. reflexivity.
  - split; [intros [E|[]]; discriminate|intros []].
  - split; [intros [E|[]]; discriminate|intros []].
  - split; [intros [E|[]]; discriminate|intros []].
Qed.

Section main.
Variables (w : world) (order : list (name * nat) -> list (name * nat)) (s : sources).
Hypothesis order_perm : forall l, Permutation l (order l).

(** The members listed are the inherited ones, then the own ones. *)
Lemma items_split fuel stack id d diags :
  query w order fuel stack id = Data d diags ->
  exists inh, m_items d = inh ++ map snd (d_items (decl_of w id)) /\
    forall x, In x inh <-> exists p n, parent w id p /\ member_of w p n x.
Proof.
  intros Q. destruct (query_data w order order_perm _ _ _ _ _ Q) as (_ & _ & R).
  assert (none : (forall p, ~ parent w id p) -> m_items d = map snd (d_items (decl_of w id)) ->
    exists inh, m_items d = inh ++ map snd (d_items (decl_of w id)) /\ forall x, In x inh <-> exists p n, parent w id p /\ member_of w p n x).
  { intros NP E. exists []. split; [exact E|]. intros x. split; [intros []|intros (p & n & P & _); exact (NP p P)]. }
  destruct (d_inherits (decl_of w id)) as [i|] eqn:Ei.
  - destruct (resolves w (d_file (decl_of w id)) i) as [[p|]|] eqn:Er.
    + destruct R as (_ & fuel' & pd & pdg & es & Qp & Pm & E). exists (map snd es). split; [exact E|].
      destruct (query_data w order order_perm _ _ _ _ _ Qp) as ((Gd & Gb) & L & _). cbn [fst snd] in Gd, Gb.
      assert (Hp : parent w id p) by (exists i; tauto).
      assert (Hu : forall q, parent w id q -> q = p) by (intros q (k & A & B); congruence).
      assert (key : forall n x, lookup pd n = Some x -> In n (map fst (m_map pd))).
      { intros n x. unfold lookup. destruct (get n (m_map pd)) as [j|] eqn:G; [|discriminate]. intros _.
        apply get_in in G; [|exact Gd]. apply in_map_iff. exists (n, j). tauto. }
      intros x. split.
      * intros I. apply in_map_iff in I. destruct I as ((n & y) & Ey & I). simpl in Ey. subst y.
        apply (Permutation_in _ Pm) in I. apply in_map_iff in I. destruct I as (k & Ek & I).
        exists p, n. split; [exact Hp|]. apply L. destruct (lookup pd k) as [y|] eqn:Lk.
        -- inversion Ek; subst. exact Lk.
        -- exfalso. apply in_map_iff in I. destruct I as ((k' & j) & E1 & I). simpl in E1. subst k'.
           apply get_in in I; [|exact Gd]. specialize (Gb k j I). unfold lookup in Lk. rewrite I in Lk.
           apply nth_error_None in Lk. lia.
      * intros (q & n & P & M). rewrite (Hu q P) in M. apply L in M.
        apply in_map_iff. exists (n, x). split; [reflexivity|]. apply (Permutation_in _ (Permutation_sym Pm)).
        apply in_map_iff. exists n. split; [rewrite M; reflexivity|exact (key _ _ M)].
    + apply none; [intros p (k & A & B); congruence|apply R].
    + apply none; [intros p (k & A & B); congruence|apply R].
  - apply none; [intros p (k & A & B); congruence|apply R].
Qed.

Lemma in_items d inh id e :
  m_items d = inh ++ map snd (d_items (decl_of w id)) ->
  In e (flat_map inserted (m_items d)) <->
    (exists x, In x inh /\ In e (inserted x)) \/ (exists n x, In (n, x) (d_items (decl_of w id)) /\ In e (inserted x)).
Proof.
  intros ->. rewrite in_flat_map. split.
  - intros (x & I & J). apply in_app_or in I. destruct I as [I|I]; [left; exists x; tauto|right].
    apply in_map_iff in I. destruct I as ((n & y) & E & I). simpl in E. subst y. exists n, x. tauto.
  - intros [(x & I & J)|(n & x & I & J)]; exists x; (split; [|exact J]); apply in_or_app; [left; exact I|right].
    apply in_map_iff. exists (n, x). tauto.
Qed.

(** The members are listed at all exactly if no inherited member is numbered too high for the file. *)
Lemma crash_iff fuel stack id d diags :
  query w order fuel stack id = Data d diags -> well_placed w s id ->
  (child_by_source s (d_file (decl_of w id)) d = None <-> number_too_big w s id).
Proof.
  intros Q (Wf & Wp & _). destruct (items_split _ _ _ _ _ Q) as (inh & E & H). unfold child_by_source.
  set (file := d_file (decl_of w id)).
  assert (D : forall e, In e (flat_map inserted (m_items d)) -> {nth_error (nodes s file) (ast_of s e) = None} + {nth_error (nodes s file) (ast_of s e) <> None}).
  { intros e _. destruct (nth_error (nodes s file) (ast_of s e)); [right; discriminate|left; reflexivity]. }
  split.
  - intros N. assert (X : exists e, In e (flat_map inserted (m_items d)) /\ nth_error (nodes s file) (ast_of s e) = None).
    { assert (Y : ~ forall e, In e (flat_map inserted (m_items d)) -> nth_error (nodes s file) (ast_of s e) <> None).
      { intros F. apply (proj2 (puts_some s file _ (DynMap [] [])) F). exact N. }
      clear - D Y. revert D Y. generalize (flat_map inserted (m_items d)). intros l. induction l as [|e l IH]; intros D Y.
      - exfalso. apply Y. intros ? [].
      - destruct (D e (or_introl eq_refl)) as [A|A]; [exists e; split; [left; reflexivity|exact A]|].
        destruct IH as (e' & I & A').
        + intros e' I. apply D. right. exact I.
        + intros F. apply Y. intros e' [<-|I]; auto.
        + exists e'. split; [right; exact I|exact A']. }
    destruct X as ((b & i) & I & A). apply (in_items _ _ _ _ E) in I. destruct I as [(x & I & J)|(n & x & I & J)].
    + apply H in I. destruct I as (p & n & P & M). exists p, n, x. split; [exact P|]. split; [exact M|].
      apply nth_error_None in A. destruct b; [left; exists i; split; [apply inserted_fn; exact J|exact A]|right; exists i; split; [apply inserted_prop; exact J|exact A]].
    + exfalso. destruct b.
      * destruct (Wf i) as (q & B); [exists n, x; split; [exact I|apply inserted_fn; exact J]|]. unfold fn_node in B. fold file in B. unfold ast_of in A. simpl in A. congruence.
      * destruct (Wp i) as (q & B); [exists n, x; split; [exact I|apply inserted_prop; exact J]|]. unfold prop_node in B. fold file in B. unfold ast_of in A. simpl in A. congruence.
  - intros (p & n & x & P & M & Z).
    assert (I : In x inh) by (apply H; exists p, n; tauto).
    assert (K : exists e, In e (flat_map inserted (m_items d)) /\ nth_error (nodes s file) (ast_of s e) = None).
    { destruct Z as [(f & F & L)|(q & F & L)].
      - exists (true, f). split; [apply (in_items _ _ _ _ E); left; exists x; split; [exact I|apply inserted_fn; exact F]|apply nth_error_None; exact L].
      - exists (false, q). split; [apply (in_items _ _ _ _ E); left; exists x; split; [exact I|apply inserted_prop; exact F]|apply nth_error_None; exact L]. }
    destruct K as (e & I' & A).
    destruct (fold_left (put s file) (flat_map inserted (m_items d)) (Some (DynMap [] []))) as [m|] eqn:F; [|reflexivity].
    exfalso. assert (G : fold_left (put s file) (flat_map inserted (m_items d)) (Some (DynMap [] [])) <> None) by (rewrite F; discriminate).
    apply puts_some with (e := e) in G; [|exact I']. contradiction.
Qed.

Lemma own_found fuel stack id d diags m b i p :
  query w order fuel stack id = Data d diags ->
  child_by_source s (d_file (decl_of w id)) d = Some m ->
  (exists n x, In (n, x) (d_items (decl_of w id)) /\ In (b, i) (inserted x)) ->
  nth_error (nodes s (d_file (decl_of w id))) (ast_of s (b, i)) = Some p ->
  (forall j n x, In (n, x) (d_items (decl_of w id)) -> In (b, j) (inserted x) ->
     nth_error (nodes s (d_file (decl_of w id))) (ast_of s (b, j)) = Some p -> j = i) ->
  find p (part b m) = Some i.
Proof.
  intros Q C (n & x & I & J) N U. destruct (items_split _ _ _ _ _ Q) as (inh & E & _).
  unfold child_by_source in C. rewrite E, flat_map_app, fold_left_app in C.
  destruct (fold_left (put s (d_file (decl_of w id))) (flat_map inserted inh) (Some (DynMap [] []))) as [m0|] eqn:F; [|rewrite put_none in C; discriminate].
  apply (put_last s _ _ b i p _ _ C).
  - apply in_flat_map. exists x. split; [|exact J]. apply in_map_iff. exists (n, x). tauto.
  - exact N.
  - intros j K L. apply in_flat_map in K. destruct K as (y & Y & K). apply in_map_iff in Y. destruct Y as ((k & z) & Ez & Y).
    simpl in Ez. subst z. exact (U j k y Y K L).
Qed.
End main.

Definition any_order (order : list (name * nat) -> list (name * nat)) : Prop := forall l, Permutation l (order l).

(** Asking what a node inside a methodmap declares crashes exactly if some inherited member
    is numbered, in its own file, beyond the nodes of this file; for every order in which hash maps are read. *)
Theorem C47_crash_iff : forall w s order, any_order order ->
  forall fuel id d diags node, query w order fuel [] id = Data d diags -> well_placed w s id ->
  (fn_to_def s (d_file (decl_of w id)) d node = None <-> number_too_big w s id) /\
  (property_to_def s (d_file (decl_of w id)) d node = None <-> number_too_big w s id).
Proof.
  intros w s order O fuel id d diags node Q W. rewrite <- (crash_iff w order s O _ _ _ _ _ Q W).
  unfold fn_to_def, property_to_def. destruct (child_by_source s (d_file (decl_of w id)) d); simpl; split; split; congruence.
Qed.
Print Assumptions C47_crash_iff.

(** Otherwise the node of each function and property a methodmap declares leads to it. Missing: the
    case of the crash above, and nodes of the file at which an inherited member is entered by mistake. *)
Theorem C47_declaration_partial : forall w s order, any_order order ->
  forall fuel id d diags node, query w order fuel [] id = Data d diags -> well_placed w s id -> ~ number_too_big w s id ->
  (forall f, declares_fn w id f -> fn_node w s id f node -> fn_to_def s (d_file (decl_of w id)) d node = Some (Some f)) /\
  (forall p, declares_prop w id p -> prop_node w s id p node -> property_to_def s (d_file (decl_of w id)) d node = Some (Some p)).
Proof.
  intros w s order O fuel id d diags node Q W B. pose proof (crash_iff w order s O _ _ _ _ _ Q W) as X.
  destruct W as (_ & _ & Uf & Up). unfold fn_to_def, property_to_def.
  destruct (child_by_source s (d_file (decl_of w id)) d) as [m|] eqn:C; [|exfalso; apply B, X; reflexivity].
  split.
  - intros f (n & x & I & F) N. simpl. f_equal.
    apply (own_found w order s O _ _ _ _ _ m true f node Q C).
    + exists n, x. split; [exact I|apply inserted_fn; exact F].
    + exact N.
    + intros j k y Y K L. apply (Uf j f node); [exists k, y; split; [exact Y|apply inserted_fn; exact K]|exists n, x; tauto|exact L|exact N].
  - intros p (n & x & I & F) N. simpl. f_equal.
    apply (own_found w order s O _ _ _ _ _ m false p node Q C).
    + exists n, x. split; [exact I|apply inserted_prop; exact F].
    + exact N.
    + intros j k y Y K L. apply (Up j p node); [exists k, y; split; [exact Y|apply inserted_prop; exact K]|exists n, x; tauto|exact L|exact N].
Qed.
Print Assumptions C47_declaration_partial.

(** In particular it holds whenever all inherited members are in the same file. *)
Corollary C47_same_file : forall w s order, any_order order ->
  forall fuel id d diags node, query w order fuel [] id = Data d diags -> well_placed w s id ->
  (forall a, ancestor w id a -> d_file (decl_of w a) = d_file (decl_of w id) /\ well_placed w s a) ->
  (forall f, declares_fn w id f -> fn_node w s id f node -> fn_to_def s (d_file (decl_of w id)) d node = Some (Some f)) /\
  (forall p, declares_prop w id p -> prop_node w s id p node -> property_to_def s (d_file (decl_of w id)) d node = Some (Some p)).
Proof.
  intros w s order O fuel id d diags node Q W A. apply (C47_declaration_partial w s order O fuel id d diags node Q W).
  assert (G : forall a n x, member_of w a n x -> ancestor w id a -> exists b, ancestor w id b /\ In (n, x) (d_items (decl_of w b))).
  { intros a n x M. induction M as [a n x (u & v & E & _)|a p n x _ P M IH]; intros An.
    - exists a. split; [exact An|]. rewrite E. apply in_or_app. right. left. reflexivity.
    - apply IH. clear - An P. induction An as [i a P0|i q a P0 An IH]; [eapply an_more; [exact P0|apply an_one; exact P]|eapply an_more; [exact P0|apply IH; exact P]]. }
  intros (p & n & x & P & M & Z). destruct (G p n x M (an_one _ _ _ P)) as (b & Ab & I). destruct (A b Ab) as (Fb & (Wf & Wp & _)).
  destruct Z as [(f & F & L)|(q & F & L)].
  - destruct (Wf f) as (u & N); [exists n, x; tauto|]. unfold fn_node in N. rewrite Fb in N. apply nth_error_None in L. congruence.
  - destruct (Wp q) as (u & N); [exists n, x; tauto|]. unfold prop_node in N. rewrite Fb in N. apply nth_error_None in L. congruence.
Qed.
Print Assumptions C47_same_file.

(** ** A base methodmap in a long include file, a derived one in a short plugin *)

Definition two : world :=
  World (fun id => match id with
                   | 0 => Decl "Base"%string None 0 [("Count"%string, Property 0 [Getter 0; Setter 1]); ("Reset"%string, Method 2)]
                   | _ => Decl "Derived"%string (Some "Base"%string) 1 [("Run"%string, Method 3); ("Size"%string, Property 1 [Getter 4])]
                   end)
        (fun _ n => if String.eqb n "Base" then Some (AMethodmap 0) else None).
(** The members of [Base] are the nodes 4 to 7 of their file. *)
Definition places (plugin : list nat) : sources :=
  Sources (fun f => nth f [4; 5; 7; 1; 3] 0) (fun p => nth p [6; 2] 0)
          (fun file => match file with 0 => [10; 11; 12; 13; 14; 15; 16; 17] | _ => plugin end).
Definition same (l : list (name * nat)) := l.

Lemma two_placed plugin : List.length plugin >= 4 -> NoDup plugin -> well_placed two (places plugin) 1.
Proof.
  intros L U. unfold well_placed, declares_fn, declares_prop, fn_node, prop_node.
  assert (F : forall f, (exists n x, In (n, x) (d_items (decl_of two 1)) /\ fn_in x f) -> f = 3 \/ f = 4).
  { intros f (n & x & [E|[E|[]]] & H); inversion E; subst; simpl in H; [left; exact H|].
    destruct H as [[H|[]]|[H|[]]]; inversion H; right; reflexivity. }
  assert (P : forall f, (exists n x, In (n, x) (d_items (decl_of two 1)) /\ prop_in x f) -> f = 1).
  { intros f (n & x & [E|[E|[]]] & H); inversion E; subst; simpl in H; [contradiction|exact H]. }
  assert (X : forall k, k < 4 -> exists p, nth_error plugin k = Some p).
  { intros k K. destruct (nth_error plugin k) as [p|] eqn:N; [eexists; reflexivity|]. apply nth_error_None in N. lia. }
  split; [|split; [|split]].
  - intros f H. apply F in H. destruct H as [-> | ->]; [apply (X 1)|apply (X 3)]; lia.
  - intros f H. apply P in H. subst. apply (X 2). lia.
  - intros f g node H H' N N'. apply F in H, H'.
    assert (I : forall a b, nth_error plugin a = Some node -> nth_error plugin b = Some node -> a = b).
    { intros a b A B. apply (proj1 (NoDup_nth_error plugin) U); [apply nth_error_Some; rewrite A; discriminate|congruence]. }
    destruct H as [-> | ->], H' as [-> | ->]; try reflexivity; exfalso; [specialize (I 1 3 N N')|specialize (I 3 1 N N')]; discriminate.
  - intros p q node H H' _ _. apply P in H, H'. congruence.
Qed.

(** The plugin has four syntax items, the methodmap's members among them, and the include file eight:
    any question about a declaration inside the methodmap crashes. *)
Theorem C47_declaration_refuted :
  exists w s id d f node,
    query w same 3 [] id = Data d [] /\ well_placed w s id /\
    declares_fn w id f /\ fn_node w s id f node /\
    fn_to_def s (d_file (decl_of w id)) d node = None.
Proof.
  destruct (query two same 3 [] 1) as [d dg| | |] eqn:Q; try discriminate Q.
  exists two, (places [20; 21; 22; 23]), 1, d, 3, 21.
  assert (dg = []) by (vm_compute in Q; inversion Q; reflexivity). subst dg.
  split; [exact Q|]. split; [apply two_placed; [simpl; lia|repeat constructor; simpl; intuition discriminate]|].
  split; [exists "Run"%string, (Method 3); split; [left; reflexivity|reflexivity]|]. split; [reflexivity|].
  vm_compute in Q. inversion Q; subst. vm_compute. reflexivity.
Qed.
Print Assumptions C47_declaration_refuted.

(** With eight items or more in the plugin every declaration is found. *)
Example C47_nontrivial :
  let s := places [20; 21; 22; 23; 24; 25; 26; 27] in
  exists d, query two same 3 [] 1 = Data d [] /\ well_placed two s 1 /\ ~ number_too_big two s 1 /\
    List.length (m_items d) = 4 /\
    fn_to_def s 1 d 21 = Some (Some 3) /\ fn_to_def s 1 d 23 = Some (Some 4) /\ property_to_def s 1 d 22 = Some (Some 1) /\
    (* an inherited method is entered at a node of the plugin it has nothing to do with *)
    fn_to_def s 1 d 27 = Some (Some 2).
Proof.
  destruct (query two same 3 [] 1) as [d dg| | |] eqn:Q; try discriminate Q. exists d.
  assert (W : well_placed two (places [20; 21; 22; 23; 24; 25; 26; 27]) 1).
  { apply two_placed; [simpl; lia|repeat constructor; simpl; intuition discriminate]. }
  pose proof Q as Q'. vm_compute in Q'. inversion Q'; subst.
  split; [reflexivity|]. split; [exact W|]. split.
  { rewrite <- (crash_iff two same _ (fun l => Permutation_refl l) 3 [] 1 _ _ Q W). vm_compute. discriminate. }
  vm_compute. repeat split; reflexivity.
Qed.
