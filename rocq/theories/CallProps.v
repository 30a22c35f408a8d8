(** C32: which calls are reported to have a wrong number of arguments. *)
From Coq Require Import List String Bool Arith Lia.
From Verif Require Import TypeRefModel HirModel HirSpec HirScopes HirNames NameProps.
Import ListNotations.

Definition arity (c : ctx) : list diagnostic := filter is_arity (diagnostics (res c)).

Section one.
Variable db : database.
Variable r : list scope.
Variable look : name -> option value_ns.
Hypothesis look_ok : forall n, resolve_ident r n = look n.

(** What may have become of the stack of calls: the innermost may have been given its function. *)
Definition stack_ok (named : bool) (c c' : ctx) : Prop :=
  match calls c with
  | [] => calls c' = []
  | (i, Some v) :: tl => calls c' = (i, Some v) :: tl
  | (i, None) :: tl => (named = false -> calls c' = (i, None) :: tl) /\ exists o, calls c' = (i, o) :: tl
  end.
Lemma stack_refl b c : stack_ok b c c.
Proof. unfold stack_ok. destruct (calls c) as [|[i [v|]] tl]; auto. split; [reflexivity|eauto]. Qed.
Lemma stack_eq b c c' : calls c' = calls c -> stack_ok b c c'.
Proof. intros E. unfold stack_ok. rewrite E. exact (stack_refl b c). Qed.
Lemma stack_trans a b c1 c2 c3 : stack_ok a c1 c2 -> stack_ok b c2 c3 -> stack_ok (a || b) c1 c3.
Proof.
  unfold stack_ok. destruct (calls c1) as [|[i [v|]] tl].
  - intros ->. auto.
  - intros ->. auto.
  - intros [A [o E]] H. rewrite E in H. split.
    + intros N. apply orb_false_elim in N. destruct N as [-> ->]. rewrite A in E by reflexivity. inversion E; subst. now apply H.
    + destruct o; [eauto|]. destruct H as [_ H]. exact H.
Qed.
Lemma stack_some b c c' : stack_ok b c c' -> current_call_function c <> None -> calls c' = calls c.
Proof.
  unfold stack_ok, current_call_function. destruct (calls c) as [|[i [v|]] tl]; auto. intros _ H. contradiction H; reflexivity.
Qed.
Lemma stack_weaken b c c' : stack_ok false c c' -> stack_ok b c c'.
Proof. unfold stack_ok. destruct (calls c) as [|[i [v|]] tl]; auto. intros [A B]. split; auto. Qed.

Lemma arity_push d c : is_arity d = false -> arity (push_diag d c) = arity c.
Proof. intros H. unfold arity, push_diag. cbn [res diagnostics]. rewrite filter_app. simpl. rewrite H. apply app_nil_r. Qed.

Definition fine (named : bool) (e : expr) (c : ctx) : Prop :=
  tame look named e = true -> (named = true -> current_call_function c <> None) ->
  arity (snd (infer db r e c)) = arity c ++ wrong_calls db look e /\ stack_ok (names_function look e) c (snd (infer db r e c)).

Lemma set_call_arity v c : arity (set_call v c) = arity c.
Proof. unfold set_call. destruct (calls c) as [|[i [w|]] tl]; reflexivity. Qed.
Lemma set_call_stack v c : stack_ok true c (set_call v c).
Proof. unfold set_call, stack_ok. destruct (calls c) as [|[i [w|]] tl] eqn:E; simpl; rewrite ?E; auto. split; [discriminate|eauto]. Qed.

Lemma ident_fine n c : arity (snd (infer_ident db r n c)) = arity c /\
  stack_ok (match look n with Some (VFunctions _) => true | _ => false end) c (snd (infer_ident db r n c)).
Proof.
  unfold infer_ident. rewrite look_ok. destruct (look n) as [[o e|l|[k i]]|]; cbn [snd].
  - split; [reflexivity|apply stack_refl].
  - split; [apply set_call_arity|apply set_call_stack].
  - destruct k; (split; [reflexivity|apply stack_refl]).
  - split; [reflexivity|apply stack_refl].
Qed.
Lemma constructor_fine e n c : arity (snd (infer_constructor db r e n c)) = arity c /\ calls (snd (infer_constructor db r e n c)) = calls c.
Proof.
  unfold infer_constructor. destruct (resolve_ident r n) as [[o x|l|[[] i]]|]; try (split; [now apply arity_push|reflexivity]).
  destruct (map_constructor db i); (split; [try reflexivity; now apply arity_push|reflexivity]).
Qed.
Lemma field_fine e ty n c : arity (snd (field_access db r e ty n c)) = arity c /\ calls (snd (field_access db r e ty n c)) = calls c.
Proof.
  unfold field_access. destruct ty as [[]|]; try (split; reflexivity).
  destruct (resolve_ident r n0) as [[o x|l|[[] i]]|]; try (split; [now apply arity_push|reflexivity]); try (split; reflexivity).
  - destruct (struct_item_of db i n) as [[]|]; (split; [try reflexivity; now apply arity_push|reflexivity]).
  - destruct (map_item_of db i n) as [[]|]; (split; [try reflexivity; now apply arity_push|reflexivity]).
Qed.
Lemma method_fine e ty n c : arity (snd (method_call db r e ty n c)) = arity c /\ stack_ok true c (snd (method_call db r e ty n c)).
Proof.
  unfold method_call. destruct ty as [[]|]; try (split; [reflexivity|apply stack_refl]).
  destruct (resolve_ident r n0) as [[o x|l|[[] i]]|];
    try (split; [now apply arity_push|now apply stack_eq]); try (split; [reflexivity|apply stack_refl]).
  - destruct (struct_item_of db i n) as [[]|]; try (split; [now apply arity_push|now apply stack_eq]).
    cbn [snd]. split; [rewrite set_call_arity; reflexivity|].
    pose proof (set_call_stack (VFunctions [f]) (add_method e f c)) as S. exact S.
  - destruct (map_item_of db i n) as [[]|]; try (split; [now apply arity_push|now apply stack_eq]).
    split; [reflexivity|now apply stack_eq].
Qed.

Lemma list_fine named l : Forall (fun e => forall c, fine named e c) l -> forallb (tame look named) l = true ->
  forall c, (named = true -> current_call_function c <> None) ->
  arity (fold_left (fun c x => snd (infer db r x c)) l c) = arity c ++ flat_map (wrong_calls db look) l /\
  stack_ok (existsb (names_function look) l) c (fold_left (fun c x => snd (infer db r x c)) l c).
Proof.
  induction 1 as [|e l F FS IH]; intros T c N; simpl; [split; [now rewrite app_nil_r|apply stack_refl]|].
  simpl in T. apply andb_prop in T. destruct T as [T1 T2]. destruct (F c T1 N) as [A B].
  destruct (IH T2 (snd (infer db r e c))) as [C D].
  - intros Q. specialize (N Q). unfold current_call_function in *. now rewrite (stack_some _ _ _ B N).
  - split; [rewrite C, A; now rewrite app_assoc|]. eapply stack_trans; eauto.
Qed.
(** A comma expression or an array: the type is that of the last. *)
Lemma typed_fold : forall l t c, snd (fold_left (fun s x => infer db r x (snd s)) l (t, c)) = fold_left (fun c x => snd (infer db r x c)) l c.
Proof. induction l as [|x l IH]; intros t c; simpl; [reflexivity|]. destruct (infer db r x c) as [t' c'] eqn:E. rewrite IH. simpl. reflexivity. Qed.

(** The check itself. *)
Lemma number_ok d n : accepts d n <->
  (n <? number_of_mandatory_parameters d) || match number_of_parameters d with Some m => m <? n | None => false end = false.
Proof.
  unfold accepts, number_of_mandatory_parameters, number_of_parameters.
  assert (E : filter (fun p => negb (has_default p || is_rest p)) (fd_params d) = filter (fun p => negb (has_default p) && negb (is_rest p)) (fd_params d)).
  { apply filter_ext. intros p. apply negb_orb. }
  rewrite E. set (m := List.length (filter _ _)). rewrite orb_false_iff, Nat.ltb_ge. split.
  - intros [A B]. split; [now apply A|]. destruct (existsb is_rest (fd_params d)) eqn:X; [reflexivity|].
    destruct B as [B|B]; [now apply Nat.ltb_ge|]. apply existsb_exists in B. congruence.
  - intros [A B]. split; [intros x ->; exact A|]. destruct (existsb is_rest (fd_params d)) eqn:X.
    + right. now apply existsb_exists.
    + left. now apply Nat.ltb_ge.
Qed.
Lemma check_report i k n args c g : look n = Some (VFunctions g) -> current_call_function c = hd_error g ->
  arity (check_arity db i args c) = arity c ++ report db look i (Ident k n) args.
Proof.
  intros L H. unfold check_arity, report, called. rewrite L, H. destruct g as [|f g]; simpl; [now rewrite app_nil_r|].
  set (d := function_of db f). destruct (accepts_dec d (List.length args)) as [A|A].
  - apply number_ok in A. rewrite A. now rewrite app_nil_r.
  - pose proof (number_ok d (List.length args)) as N.
    destruct ((List.length args <? number_of_mandatory_parameters d) || match number_of_parameters d with Some m => m <? List.length args | None => false end) eqn:Q; [|tauto].
    unfold arity, push_diag. cbn [res diagnostics]. rewrite filter_app. simpl. f_equal. f_equal. f_equal.
    destruct (List.length args <? number_of_mandatory_parameters d); [reflexivity|]. simpl in Q.
    unfold number_of_parameters in *. destruct (existsb is_rest (fd_params d)); [discriminate|reflexivity].
Qed.

Lemma named_call c n k : look n <> None -> forall f, called look (Ident k n) = Some f ->
  exists g, look n = Some (VFunctions (f :: g)) /\
  snd (infer db r (Ident k n) (push_call k c)) = Ctx ((k, Some (VFunctions (f :: g))) :: calls c) (res c).
Proof.
  intros _ f H. simpl in H. destruct (look n) as [[|[|x g]|]|] eqn:E; try discriminate. inversion H; subst. exists g. split; [reflexivity|].
  simpl. unfold infer_ident. rewrite look_ok, E. reflexivity.
Qed.

Theorem infer_fine : forall e named c, fine named e c.
Proof.
  induction e as [e IH] using expr_induct. intros named c T N.
  assert (L : forall l, subs e = l -> Forall (fun e => forall c, fine false e c) l /\ Forall (fun e => forall c, fine true e c) l).
  { intros l <-. split; (eapply Forall_impl; [|exact IH]; simpl; auto). }
  assert (F0 : false = true -> current_call_function c <> None) by discriminate.
  destruct e as [i|i n|i l|i x v|i n l|i x ty|i x n|i x n|i a b|i x|i a b|i a b d|i x|i f l|i t n l|i ty|i l];
    cbn [tame names_function wrong_calls] in *; cbn [subs] in *.
  - simpl. rewrite app_nil_r. split; [reflexivity|apply stack_refl].
  - simpl. rewrite app_nil_r. apply ident_fine.
  - cbn [infer]. rewrite typed_fold. apply (list_fine false); [exact (proj1 (L l eq_refl))|exact T|exact F0].
  - apply andb_prop in T. destruct T as [T T2]. apply andb_prop in T. destruct T as [-> T1].
    destruct x as [i0|i0 n0|i0 l|i0 x w|i0 n0 l|i0 x ty|i0 x n0|i0 x n0|i0 a b|i0 x|i0 a b|i0 a b d|i0 x|i0 f l|i0 t n0 l|i0 ty|i0 l]; try discriminate T1.
    cbn [infer]. specialize (N eq_refl). destruct (current_call_function c) as [f|] eqn:E; [|contradiction].
    set (c' := match resolve_ident _ n0 with Some (VLocal o x) => _ | _ => _ end).
    assert (A : arity c' = arity c /\ calls c' = calls c).
    { unfold c'. destruct (resolve_ident _ n0) as [[]|]; (split; [try reflexivity; now apply arity_push|reflexivity]). }
    destruct A as [A B]. inversion IH; subst. inversion H2; subst. destruct (H3 false c' T2) as [C D]; [discriminate|].
    split; [rewrite C, A; reflexivity|]. change (stack_ok (false || names_function look v) c (snd (infer db r v c'))).
    eapply stack_trans; [apply stack_eq; exact B|exact D].
  - cbn [infer]. destruct (list_fine false l (proj1 (L l eq_refl)) T c F0) as [A B].
    destruct (constructor_fine i n (fold_left (fun c x => snd (infer db r x c)) l c)) as [C D].
    split; [rewrite C; exact A|]. rewrite <- (orb_false_r (existsb _ _)). eapply stack_trans; [exact B|]. now apply stack_eq.
  - cbn [infer]. inversion IH; subst. exact (H1 false c T F0).
  - cbn [infer]. inversion IH; subst. destruct (H1 false c T F0) as [A B]. destruct (infer db r x c) as [ty c1]. simpl in A, B.
    destruct (field_fine i ty n c1) as [C D]. split; [rewrite C; exact A|].
    rewrite <- (orb_false_r (names_function look x)). eapply stack_trans; [exact B|]. now apply stack_eq.
  - cbn [infer]. inversion IH; subst. destruct (H1 false c T F0) as [A B]. destruct (infer db r x c) as [ty c1]. simpl in A, B.
    destruct (field_fine i ty n c1) as [C D]. split; [rewrite C; exact A|].
    rewrite <- (orb_false_r (names_function look x)). eapply stack_trans; [exact B|]. now apply stack_eq.
  - cbn [infer]. apply andb_prop in T. destruct T as [T1 T2]. inversion IH; subst. inversion H2; subst.
    destruct (H3 false c T2 F0) as [A B]. destruct (H1 false (snd (infer db r b c)) T1) as [C D]; [discriminate|].
    destruct (infer db r a (snd (infer db r b c))) as [ty c2]. simpl in *.
    split; [rewrite C, A; now rewrite app_assoc|]. rewrite orb_comm. eapply stack_trans; eauto.
  - cbn [infer]. inversion IH; subst. exact (H1 false c T F0).
  - cbn [infer]. apply andb_prop in T. destruct T as [T1 T2]. inversion IH; subst. inversion H2; subst.
    destruct (H1 false c T1 F0) as [A B]. destruct (H3 false (snd (infer db r a c)) T2) as [C D]; [discriminate|].
    split; [rewrite C, A; now rewrite app_assoc|]. eapply stack_trans; eauto.
  - cbn [infer]. apply andb_prop in T. destruct T as [T T3]. apply andb_prop in T. destruct T as [T1 T2].
    inversion IH; subst. inversion H2; subst. inversion H4; subst.
    destruct (H1 false c T1 F0) as [A B]. destruct (H3 false (snd (infer db r a c)) T2) as [C D]; [discriminate|].
    destruct (H5 false (snd (infer db r b (snd (infer db r a c)))) T3) as [E F]; [discriminate|].
    split; [rewrite E, C, A; now rewrite !app_assoc|]. eapply stack_trans; [|exact F]. eapply stack_trans; eauto.
  - destruct x as [y|]; simpl.
    + inversion IH; subst. exact (H1 false c T F0).
    + rewrite app_nil_r. split; [reflexivity|apply stack_refl].
  - (* a call *)
    cbn [infer]. apply andb_prop in T. destruct T as [T1 T2]. inversion IH as [|? ? IHf IHl]; subst.
    assert (Lf : Forall (fun e => forall c, fine false e c) l) by (eapply Forall_impl; [|exact IHl]; simpl; auto).
    assert (Lt : Forall (fun e => forall c, fine true e c) l) by (eapply Forall_impl; [|exact IHl]; simpl; auto).
    destruct (IHf false (push_call (expr_id f) c) T1) as [A B]; [discriminate|].
    assert (POP : forall c2, (exists o, calls c2 = (expr_id f, o) :: calls c) -> stack_ok false c (pop_call c2)).
    { intros c2 [o E]. apply stack_eq. unfold pop_call. simpl. now rewrite E. }
    assert (CK : forall args c2, calls (check_arity db i args c2) = calls c2).
    { intros. unfold check_arity. destruct (current_call_function c2); [|reflexivity]. destruct (_ || _); reflexivity. }
    destruct (called look f) as [g|] eqn:G.
    + destruct f as [| k n| | | | | | | | | | | | | | |]; try discriminate G.
      assert (LN : look n <> None) by (simpl in G; destruct (look n); [discriminate|discriminate G]).
      destruct (named_call c n k LN g G) as (gs & E1 & E2).
      cbn [expr_id] in *. destruct (infer db r (Ident k n) (push_call k c)) as [ty c1]. cbn [snd] in *. subst c1.
      destruct (list_fine true l Lt T2 (Ctx ((k, Some (VFunctions (g :: gs))) :: calls c) (res c))) as [C D]; [discriminate|].
      assert (E3 := stack_some _ _ _ D ltac:(discriminate)). cbn [calls] in E3.
      set (c2 := fold_left (fun c x => snd (infer db r x c)) l (Ctx ((k, Some (VFunctions (g :: gs))) :: calls c) (res c))) in *.
      split.
      * change (arity (pop_call (check_arity db i l c2))) with (arity (check_arity db i l c2)).
        rewrite (check_report i k n l c2 (g :: gs) E1).
        -- rewrite C. rewrite <- !app_assoc. reflexivity.
        -- unfold current_call_function. rewrite E3. reflexivity.
      * apply POP. exists (Some (VFunctions (g :: gs))). rewrite CK. exact E3.
    + apply andb_prop in T2. destruct T2 as [T2 T4]. apply andb_prop in T2. destruct T2 as [T2 T3].
      apply negb_true_iff in T2, T3. rewrite T2 in B. destruct B as [B _]. specialize (B eq_refl).
      destruct (infer db r f (push_call (expr_id f) c)) as [ty c1]. cbn [snd] in *.
      destruct (list_fine false l Lf T4 c1) as [C D]; [discriminate|]. rewrite T3 in D. unfold stack_ok in D. rewrite B in D.
      destruct D as [D _]. specialize (D eq_refl).
      set (c2 := fold_left (fun c x => snd (infer db r x c)) l c1) in *.
      assert (Q : check_arity db i l c2 = c2) by (unfold check_arity, current_call_function; now rewrite D).
      rewrite Q. split.
      * change (arity (pop_call c2)) with (arity c2). rewrite C, A. change (arity (push_call (expr_id f) c)) with (arity c).
        unfold report. rewrite G, app_nil_r. now rewrite app_assoc.
      * apply POP. eauto.
  - (* a method call *)
    cbn [infer]. apply andb_prop in T. destruct T as [T1 T2]. inversion IH as [|? ? IHf IHl]; subst.
    assert (Lf : Forall (fun e => forall c, fine false e c) l) by (eapply Forall_impl; [|exact IHl]; simpl; auto).
    destruct (IHf false (push_call (expr_id t) c) T1) as [A B]; [discriminate|].
    destruct (infer db r t (push_call (expr_id t) c)) as [ty0 c1]. cbn [snd] in *.
    destruct (method_fine i ty0 n c1) as [M1 M2]. destruct (method_call db r i ty0 n c1) as [ty c2]. cbn [snd] in *.
    destruct (list_fine false l Lf T2 c2) as [C D]; [discriminate|].
    pose proof (stack_trans _ _ _ _ _ B (stack_trans _ _ _ _ _ M2 D)) as S.
    unfold stack_ok in S. cbn [push_call calls] in S. destruct S as [_ [o S]]. split.
    + change (arity (pop_call (fold_left (fun c x => snd (infer db r x c)) l c2))) with (arity (fold_left (fun c x => snd (infer db r x c)) l c2)).
      rewrite C, M1, A. change (arity (push_call (expr_id t) c)) with (arity c). now rewrite app_assoc.
    + apply stack_eq. unfold pop_call. cbn [calls]. now rewrite S.
  - simpl. rewrite app_nil_r. split; [reflexivity|apply stack_refl].
  - cbn [infer]. rewrite typed_fold. apply (list_fine false); [exact (proj1 (L l eq_refl))|exact T|exact F0].
Qed.

(** Whatever happens in an expression, the calls around it keep their state. *)
Lemma check_calls i args c : calls (check_arity db i args c) = calls c.
Proof. unfold check_arity. destruct (current_call_function c); [|reflexivity]. destruct (_ || _); reflexivity. Qed.
Lemma infer_tail : forall e c x tl, calls c = x :: tl -> exists y, calls (snd (infer db r e c)) = y :: tl.
Proof.
  induction e as [e IH] using expr_induct.
      assert (TL : forall l c x tl, Forall (fun e => forall c x tl, calls c = x :: tl -> exists y, calls (snd (infer db r e c)) = y :: tl) l ->
         calls c = x :: tl -> exists y, calls (fold_left (fun c x => snd (infer db r x c)) l c) = y :: tl).
      { intros l c x tl H. revert c x. induction H; intros c y E; simpl; eauto. destruct (H c y tl E) as [z Z]. eauto. }
      assert (SO : forall b c c' x tl, stack_ok b c c' -> calls c = x :: tl -> exists y, calls c' = y :: tl).
      { intros b c c' [j [w|]] tl H E; unfold stack_ok in H; rewrite E in H; [eauto|]. destruct H as [_ [o O]]. eauto. }
      assert (ID : forall n c, stack_ok true c (snd (infer_ident db r n c))).
      { intros n c. unfold infer_ident. destruct (resolve_ident r n) as [[o e0|l|[k0 j]]|]; cbn [snd]; try apply stack_refl; [apply set_call_stack|].
        destruct k0; apply stack_refl. }
      intros c x tl E.
      destruct e as [i|i n|i l|i nm v|i n l|i y ty|i y n|i y n|i a b|i y|i a b|i a b d|i y|i f l|i t n l|i ty|i l];
        cbn [infer subs] in *.
      - eauto.
      - eapply SO; [apply ID|exact E].
      - rewrite typed_fold. eapply TL; eauto.
      - destruct (current_call_function c); [|eauto]. destruct nm; try (simpl; eauto; fail).
        inversion IH; subst. inversion H2; subst. eapply H3. instantiate (1 := x).
        destruct (resolve_ident _ n0) as [[]|]; exact E.
      - destruct (TL l c x tl IH E) as [z Z]. destruct (constructor_fine i n (fold_left (fun c x => snd (infer db r x c)) l c)) as [_ D].
        exists z. now rewrite D.
      - inversion IH; subst. simpl. eauto.
      - inversion IH; subst. destruct (H1 c x tl E) as [z Z]. destruct (infer db r y c) as [ty c1].
        destruct (field_fine i ty n c1) as [_ D]. exists z. now rewrite D.
      - inversion IH; subst. destruct (H1 c x tl E) as [z Z]. destruct (infer db r y c) as [ty c1].
        destruct (field_fine i ty n c1) as [_ D]. exists z. now rewrite D.
      - inversion IH; subst. inversion H2; subst. destruct (H3 c x tl E) as [z Z].
        destruct (H1 (snd (infer db r b c)) z tl Z) as [w W]. destruct (infer db r a (snd (infer db r b c))). simpl in *. eauto.
      - inversion IH; subst. eauto.
      - inversion IH; subst. inversion H2; subst. destruct (H1 c x tl E) as [z Z]. eauto.
      - inversion IH; subst. inversion H2; subst. inversion H4; subst. destruct (H1 c x tl E) as [z Z].
        destruct (H3 _ _ _ Z) as [w W]. eauto.
      - destruct y as [y|]; simpl; eauto. inversion IH; subst. eauto.
      - inversion IH; subst. destruct (H1 (push_call (expr_id f) c) _ _ eq_refl) as [z Z].
        destruct (infer db r f (push_call (expr_id f) c)) as [ty c1]. cbn [snd] in *.
        destruct (TL l c1 z _ H2 Z) as [w W]. unfold pop_call. cbn [snd calls]. rewrite check_calls, W. simpl. eauto.
      - inversion IH; subst. destruct (H1 (push_call (expr_id t) c) _ _ eq_refl) as [z Z].
        destruct (infer db r t (push_call (expr_id t) c)) as [ty0 c1]. cbn [snd] in *.
        destruct (SO _ _ _ _ _ (proj2 (method_fine i ty0 n c1)) Z) as [u V].
        destruct (method_call db r i ty0 n c1) as [ty c2]. cbn [snd] in *.
        destruct (TL l c2 u _ H2 V) as [w W]. unfold pop_call. cbn [snd calls]. rewrite W. simpl. eauto.
      - eauto.
      - rewrite typed_fold. eapply TL; eauto. 
Qed.
Lemma infer_tail_list : forall l c x tl, calls c = x :: tl -> exists y, calls (fold_left (fun c x => snd (infer db r x c)) l c) = y :: tl.
Proof. induction l as [|y l IHl]; intros c x tl E; simpl; [eauto|]. destruct (infer_tail y c x tl E) as [z Z]. eauto. Qed.
Lemma infer_keeps : forall e c k tl v, calls c = (k, Some v) :: tl -> calls (snd (infer db r e c)) = (k, Some v) :: tl.
Proof.
    assert (PL : forall l c (k : nat) tl v, Forall (fun e => forall c (k : nat) tl v, calls c = (k, Some v) :: tl -> calls (snd (infer db r e c)) = (k, Some v) :: tl) l ->
       calls c = (k, Some v) :: tl -> calls (fold_left (fun c x => snd (infer db r x c)) l c) = (k, Some v) :: tl).
    { intros l c k0 tl v H. revert c. induction H; intros c E; simpl; auto. }
    induction e as [e IH] using expr_induct. intros c k' tl v E.
    destruct e as [i|i n|i l|i nm w|i n l|i y ty|i y n|i y n|i a b|i y|i a b|i a b d|i y|i f l|i t n l|i ty|i l];
      cbn [infer subs] in *.
    - exact E.
    - unfold infer_ident. destruct (resolve_ident r n) as [[o e0|l|[k0 j]]|]; cbn [snd]; auto.
      + unfold set_call. now rewrite E.
      + destruct k0; exact E.
    - rewrite typed_fold. now apply PL.
    - destruct (current_call_function c); [|exact E]. destruct nm; try exact E.
      inversion IH; subst. inversion H2; subst. eapply H3. destruct (resolve_ident _ n0) as [[]|]; exact E.
    - rewrite (proj2 (constructor_fine i n _)). now apply PL.
    - inversion IH; subst. simpl. auto.
    - inversion IH; subst. specialize (H1 c k' tl v E). destruct (infer db r y c) as [ty c1]. rewrite (proj2 (field_fine i ty n c1)). exact H1.
    - inversion IH; subst. specialize (H1 c k' tl v E). destruct (infer db r y c) as [ty c1]. rewrite (proj2 (field_fine i ty n c1)). exact H1.
    - inversion IH; subst. inversion H2; subst. specialize (H3 c k' tl v E). specialize (H1 _ _ _ _ H3).
      destruct (infer db r a (snd (infer db r b c))). exact H1.
    - inversion IH; subst. auto.
    - inversion IH; subst. inversion H2; subst. auto.
    - inversion IH; subst. inversion H2; subst. inversion H4; subst. auto.
    - destruct y as [y|]; simpl; auto. inversion IH; subst. auto.
    - destruct (infer_tail f (push_call (expr_id f) c) _ _ eq_refl) as [z Z]. destruct (infer db r f (push_call (expr_id f) c)) as [ty c1]. cbn [snd] in *.
      destruct (infer_tail_list l c1 z _ Z) as [w W]. unfold pop_call. cbn [snd calls]. rewrite check_calls, W. exact E.
    - destruct (infer_tail t (push_call (expr_id t) c) _ _ eq_refl) as [z Z]. destruct (infer db r t (push_call (expr_id t) c)) as [ty0 c1]. cbn [snd] in *.
      pose proof (proj2 (method_fine i ty0 n c1)) as M. destruct (method_call db r i ty0 n c1) as [ty c2]. cbn [snd] in *.
      unfold stack_ok in M. rewrite Z in M. destruct z as [zi zo].
      assert (V : exists u, calls c2 = u :: calls c) by (destruct zo; [eauto|destruct M as [_ [o M]]; eauto]). destruct V as [u V].
      destruct (infer_tail_list l c2 u _ V) as [w W]. unfold pop_call. cbn [snd calls]. rewrite W. exact E.
    - exact E.
    - rewrite typed_fold. now apply PL. 
Qed.

(** A call by the name of functions, whatever its arguments are: the number of arguments is checked
    against the first of the functions. *)
Theorem C32_call : forall i k n f g args c, look n = Some (VFunctions (f :: g)) ->
  arity (snd (infer db r (Call i (Ident k n) args) c)) =
  arity (fold_left (fun c x => snd (infer db r x c)) args (Ctx ((k, Some (VFunctions (f :: g))) :: calls c) (res c))) ++
  report db look i (Ident k n) args.
Proof.
  intros i k n f g args c L. cbn [infer expr_id].
  assert (E : infer_ident db r n (push_call k c) =
    (fold_left (fun _ f => fd_type (function_of db f)) (f :: g) None, Ctx ((k, Some (VFunctions (f :: g))) :: calls c) (res c))).
  { unfold infer_ident. now rewrite look_ok, L. }
  rewrite E. cbn [snd].
  set (c1 := Ctx ((k, Some (VFunctions (f :: g))) :: calls c) (res c)).
  assert (S2 : calls (fold_left (fun c x => snd (infer db r x c)) args c1) = (k, Some (VFunctions (f :: g))) :: calls c).
  { assert (forall l c0, calls c0 = (k, Some (VFunctions (f :: g))) :: calls c -> calls (fold_left (fun c x => snd (infer db r x c)) l c0) = (k, Some (VFunctions (f :: g))) :: calls c).
    { induction l as [|y l IHl]; intros c0 E0; simpl; [exact E0|]. apply IHl. now apply infer_keeps. }
    now apply H. }
  change (arity (pop_call (check_arity db i args (fold_left (fun c x => snd (infer db r x c)) args c1))))
    with (arity (check_arity db i args (fold_left (fun c x => snd (infer db r x c)) args c1))).
  apply (check_report i k n args _ (f :: g) L). unfold current_call_function. now rewrite S2.
Qed.
End one.
Print Assumptions C32_call.

(** * Bodies *)

Lemma entered_means owner s maps this ps bl dcl j : sound s -> here s (rev ps) bl dcl j -> forall n,
  resolve_ident (entered owner s (owner_resolver maps this) bl) n = meaning owner ps (resolve_ident (owner_resolver maps this)) dcl n.
Proof.
  intros K H n. rewrite (entered_here owner _ maps this _ _ _ _ H). unfold resolve_ident at 1, meaning.
  destruct bl as [|x bl], dcl as [|d0 ds0]; try (inversion H; fail).
  - rewrite app_nil_r. reflexivity.
  - rewrite rev_app_distr, rev_involutive. rewrite (resolve_locals owner _ _ K _ _ _ H). reflexivity.
Qed.

Section body.
Variable db : database.
Variable owner : nat.
Variable maps : list def_map.
Variable this : option (bool * nat).
Variable es : expr_scopes.
Variable ps : list decl.
Hypothesis es_sound : sound es.
Let base := owner_resolver maps this.
Let look := meaning owner ps (resolve_ident base).

Definition good (bl : list nat) (dcl : list (list decl)) (x : stmt) : Prop :=
  forall c, calls c = [] -> let st := infer_stmt db owner es x (entered owner es base bl, c) in
  arity (snd st) = arity c ++ wrong_stmt db look dcl x /\ calls (snd st) = [].

Lemma good_list bl dcl : forall l, (forall x, In x l -> good bl dcl x) -> forall c, calls c = [] ->
  let st := fold_left (fun st x => infer_stmt db owner es x st) l (entered owner es base bl, c) in
  fst st = entered owner es base bl /\ arity (snd st) = arity c ++ flat_map (wrong_stmt db look dcl) l /\ calls (snd st) = [].
Proof.
  induction l as [|x l IH]; intros G c N; cbn zeta; simpl; [rewrite app_nil_r; auto|].
  destruct (G x (or_introl eq_refl) c N) as [A B].
  pose proof (C30_restored db owner es x (entered owner es base bl) c) as R.
  destruct (infer_stmt db owner es x (entered owner es base bl, c)) as [r1 c1]. simpl in *. subst r1.
  destruct (IH (fun y Y => G y (or_intror Y)) c1 B) as (C & D & E). split; [exact C|split; [|exact E]].
  rewrite D, A. now rewrite app_assoc.
Qed.

Lemma expr_good bl dcl j : here es (rev ps) bl dcl j -> forall e c, tame (look dcl) false e = true -> calls c = [] ->
  arity (snd (infer db (entered owner es base bl) e c)) = arity c ++ wrong_calls db (look dcl) e /\
  calls (snd (infer db (entered owner es base bl) e c)) = [].
Proof.
  intros H e c T N.
  destruct (infer_fine db (entered owner es base bl) (look dcl) (entered_means owner es maps this ps bl dcl j es_sound H) e false c T) as [A B]; [discriminate|].
  split; [exact A|]. unfold stack_ok in B. now rewrite N in B.
Qed.
Lemma exprs_good bl dcl j : here es (rev ps) bl dcl j -> forall l c, forallb (tame (look dcl) false) l = true -> calls c = [] ->
  arity (fold_left (fun c v => snd (infer db (entered owner es base bl) v c)) l c) = arity c ++ flat_map (wrong_calls db (look dcl)) l /\
  calls (fold_left (fun c v => snd (infer db (entered owner es base bl) v c)) l c) = [].
Proof.
  intros H. induction l as [|e l IH]; intros c T N; simpl; [rewrite app_nil_r; auto|]. simpl in T. apply andb_prop in T. destruct T as [T1 T2].
  destruct (expr_good bl dcl j H e c T1 N) as [A B]. destruct (IH _ T2 B) as [C D]. split; [|exact D]. rewrite C, A. now rewrite app_assoc.
Qed.

Lemma stmt_good : forall x bl dcl lo sc, here es (rev ps) bl dcl sc -> placed es lo sc x -> tame_stmt look dcl x = true -> good bl dcl x.
Proof.
  induction x as [x IH] using stmt_induct. rewrite Forall_forall in IH. intros bl dcl lo sc H P T c N.
  assert (O : forall e c, opt_tame look dcl e = true -> calls c = [] ->
     arity (infer_opt db (entered owner es base bl) e c) = arity c ++ opt_wrong db look dcl e /\
     calls (infer_opt db (entered owner es base bl) e c) = []).
  { intros [e|] c0 T0 N0; [exact (expr_good bl dcl sc H e c0 T0 N0)|]. simpl. rewrite app_nil_r. auto. }
  destruct x as [e|i l|i l|i l cd it b|i cd t e|i cd cs]; cbn [infer_stmt tame_stmt wrong_stmt] in *; cbn zeta.
  - exact (expr_good bl dcl sc H e c T N).
  - cbn [snd]. clear IH P. revert c N. induction l as [|b l IHl]; intros c N; simpl; [rewrite app_nil_r; auto|].
    simpl in T. apply andb_prop in T. destruct T as [T1 T2]. destruct (O (b_init b) c T1 N) as [A B].
    destruct (IHl T2 _ B) as [C D]. split; [|exact D]. rewrite C, A. now rewrite app_assoc.
  - apply placed_block in P. destruct P as (j & A & B & C & D & E).
    assert (H' : here es (rev ps) (i :: bl) (flat_map level l :: dcl) j) by (econstructor; eauto).
    assert (U : fst (update_to_inner_scope owner es i (entered owner es base bl)) = entered owner es base (i :: bl)) by reflexivity.
    destruct (update_to_inner_scope owner es i (entered owner es base bl)) as [r1 g]. cbn [fst] in U. subst r1.
    destruct (good_list (i :: bl) (flat_map level l :: dcl) l) with (c := c) as (F & G & K); [|exact N|].
    + intros y Y. apply (IH y Y (i :: bl) (flat_map level l :: dcl) (S j) j H'); [eapply placed_all_in; eauto|].
      rewrite forallb_forall in T. now apply T.
    + destruct (fold_left (fun st x => infer_stmt db owner es x st) l (entered owner es base (i :: bl), c)) as [r2 c2]. auto.
  - apply placed_kids in P; [|exact I]. simpl in P. apply placed_all_app in P. destruct P as [P1 [P2 _]].
    apply andb_prop in T. destruct T as [T T4]. apply andb_prop in T. destruct T as [T T3]. apply andb_prop in T. destruct T as [T1 T2].
    destruct (good_list bl dcl l) with (c := c) as (F & G & K); [|exact N|].
    + intros y Y. apply (IH y (in_or_app _ _ _ (or_introl Y)) bl dcl lo sc H); [eapply placed_all_in; eauto|].
      rewrite forallb_forall in T1. now apply T1.
    + destruct (fold_left (fun st x => infer_stmt db owner es x st) l (entered owner es base bl, c)) as [r2 c2]. cbn [fst snd] in *. subst r2.
      destruct (expr_good bl dcl sc H cd c2 T2 K) as [A B]. destruct (O it _ T3 B) as [A2 B2].
      assert (Yb : In b (kids (SLoop i l cd it b))) by (apply in_or_app; right; now left).
      destruct (IH b Yb bl dcl lo sc H P2 T4 _ B2) as [A3 B3]. split; [|exact B3]. rewrite A3, A2, A, G. now rewrite <- !app_assoc.
  - destruct P as [P1 P2]. apply andb_prop in T. destruct T as [T T3]. apply andb_prop in T. destruct T as [T1 T2].
    destruct (expr_good bl dcl sc H cd c T1 N) as [A B].
    destruct (IH t (or_introl eq_refl) bl dcl lo sc H P1 T2 _ B) as [A2 B2].
    pose proof (C30_restored db owner es t (entered owner es base bl) (snd (infer db (entered owner es base bl) cd c))) as R.
    destruct (infer_stmt db owner es t (entered owner es base bl, snd (infer db (entered owner es base bl) cd c))) as [r1 c1]. cbn [fst snd] in *. subst r1.
    destruct e as [y|].
    + assert (Y : In y (kids (SCondition i cd t (Some y)))) by (right; now left).
      destruct (IH y Y bl dcl lo sc H P2 T3 _ B2) as [A3 B3]. split; [|exact B3]. rewrite A3, A2, A. now rewrite <- !app_assoc.
    + split; [|exact B2]. rewrite app_nil_r. cbn [snd]. rewrite A2, A. now rewrite <- app_assoc.
  - apply placed_kids in P; [|exact I]. simpl in P. apply andb_prop in T. destruct T as [T1 T2].
    destruct (expr_good bl dcl sc H cd c T1 N) as [A B].
    assert (Q : forall cs', (forall k, In k cs' -> In k cs) -> forall c, calls c = [] ->
      let st := fold_left (fun st k => match k with (values, b) =>
             let '(r, c) := st in infer_stmt db owner es b (r, fold_left (fun c v => snd (infer db r v c)) values c) end) cs' (entered owner es base bl, c) in
      arity (snd st) = arity c ++ flat_map (fun k => match k with (vs, x) => flat_map (wrong_calls db (look dcl)) vs ++ wrong_stmt db look dcl x end) cs' /\
      calls (snd st) = []).
    { induction cs' as [|[vs y] cs' IHc]; intros Y c' N'; cbn zeta; simpl; [rewrite app_nil_r; auto|].
      rewrite forallb_forall in T2. pose proof (T2 _ (Y _ (or_introl eq_refl))) as T3. simpl in T3. apply andb_prop in T3. destruct T3 as [T3 T4].
      destruct (exprs_good bl dcl sc H vs c' T3 N') as [A1 B1].
      assert (Y' : In y (map snd cs)) by (apply in_map_iff; exists (vs, y); split; [reflexivity|apply Y; now left]).
      destruct (IH y Y' bl dcl lo sc H (placed_all_in _ _ _ _ _ P Y') T4 _ B1) as [A2 B2].
      pose proof (C30_restored db owner es y (entered owner es base bl) (fold_left (fun c v => snd (infer db (entered owner es base bl) v c)) vs c')) as R.
      destruct (infer_stmt db owner es y _) as [r1 c1]. cbn [fst snd] in *. subst r1.
      destruct (IHc (fun k K => Y k (or_intror K)) c1 B2) as [A3 B3]. split; [|exact B3]. rewrite A3, A2, A1. now rewrite <- !app_assoc. }
    destruct (Q cs (fun k K => K) _ B) as [A2 B2]. split; [|exact B2]. rewrite A2, A. now rewrite <- app_assoc.
Qed.
End body.

(** In a body that keeps to [tame_stmt], exactly the wrong calls of functions are reported, with the
    name of the function, in the order of the walk. *)
Theorem C32_exact_partial : forall db owner maps this b s, body_stmt b = Some s -> NoDup (stmt_ids s) ->
  let look := meaning owner (root_decls b) (resolve_ident (owner_resolver maps this)) in
  tame_stmt look [] s = true ->
  filter is_arity (diagnostics (infer_query db owner (owner_resolver maps this) b)) = wrong_stmt db look [] s.
Proof.
  intros db owner maps this b s E N look T. unfold infer_query. rewrite E.
  destruct (new_scopes_ok b s E N) as (K & H & lo & P).
  destruct (stmt_good db owner maps this (new_scopes b) (root_decls b) K s [] [] lo 0 H P T (Ctx [] (Result [] [] [] [])) eq_refl) as [A _].
  exact A.
Qed.
Print Assumptions C32_exact_partial.

(** A report is made for no more and no less than the numbers the signature allows. *)
Theorem C32_report : forall db look i f args g, called look f = Some g ->
  report db look i f args = [] <-> accepts (function_of db g) (List.length args).
Proof.
  intros db look i f args g H. unfold report. rewrite H. destruct (accepts_dec _ _); split; auto; [discriminate|contradiction].
Qed.
Print Assumptions C32_report.
Theorem C32_names : forall db look i f args d, In d (report db look i f args) ->
  exists g e x, called look f = Some g /\ d = IncorrectNumberOfArguments e (fd_name (function_of db g)) x (List.length args).
Proof.
  intros db look i f args d. unfold report. destruct (called look f) as [g|]; [|contradiction].
  destruct (accepts_dec _ _); [contradiction|]. intros [<-|[]]. eauto.
Qed.
Print Assumptions C32_names.

(** * What is missed *)

Local Open Scope string_scope.
(** f takes two arguments, m() of the methodmap M none; t is a variable of type M. *)
Definition demo_db : database := Database
  (fun f => match f with 0 => FunctionData "f" None [Param false false; Param false false]
                       | 1 => FunctionData "m" None []
                       | _ => FunctionData "v" None [Param false false; Param true false; Param false true] end)
  (fun _ => Some (TName "M")) (fun _ => Some "M") (fun _ _ => None)
  (fun _ n => if String.eqb n "m" then Some (IMapMethod 1) else None) (fun _ => None)
  (fun _ => owner_resolver [] None) (fun _ => root_scopes) (fun _ => None).
Definition demo_maps : list def_map := [DefMap 0 [("f", [(DFunction, 0)]); ("v", [(DFunction, 2)]); ("t", [(DGlobal, 0)]); ("M", [(DMethodmap, 0)])]].
Definition demo (l : list stmt) : list diagnostic :=
  diagnostics (infer_query demo_db 9 (owner_resolver demo_maps None) (Body [] (Some (SBlock 0 l)))).

(** unknown(f): the function that is an argument is taken for the called one. *)
Theorem C32_argument_refuted :
  demo [SExpr (Call 1 (Ident 2 "unknown") [Ident 3 "f"])] = [IncorrectNumberOfArguments 3 "f" (Some 2) 1].
Proof. reflexivity. Qed.
Print Assumptions C32_argument_refuted.
(** t.m(1): the method is found, and its arguments are not counted. *)
Theorem C32_method_refuted :
  let b := Body [] (Some (SBlock 0 [SExpr (MethodCall 1 (Ident 2 "t") "m" [Literal 3 TInt])])) in
  let res := infer_query demo_db 9 (owner_resolver demo_maps None) b in
  by_id 1 (methods res) = Some 1 /\ ~ accepts (function_of demo_db 1) 1 /\ diagnostics res = [].
Proof. split; [reflexivity|split; [|reflexivity]]. intros [_ [H|[p [[] _]]]]. simpl in H. lia. Qed.
Print Assumptions C32_method_refuted.
(** t.m(.x = f()): the call in the named argument is not looked at. *)
Theorem C32_named_refuted :
  demo [SExpr (MethodCall 1 (Ident 2 "t") "m" [NamedArg 3 (Ident 4 "x") (Call 5 (Ident 6 "f") [])])] = [] /\
  demo [SExpr (Call 5 (Ident 6 "f") [])] = [IncorrectNumberOfArguments 5 "f" (Some 2) 0].
Proof. split; reflexivity. Qed.
Print Assumptions C32_named_refuted.

(** Nested calls, a variadic function and a block with a variable that hides a function. *)
Example C32_nontrivial :
  let s := SBlock 0 [SExpr (Call 1 (Ident 2 "f") [Call 3 (Ident 4 "f") [Literal 5 TInt]; Call 6 (Ident 7 "v") [Ident 8 "f"; Literal 9 TInt; Literal 10 TInt; Literal 11 TInt]; Literal 12 TInt]);
                     SBlock 13 [SExpr (Call 14 (Ident 15 "f") [Literal 16 TInt]); SDecl 17 [Bind 18 "f" (Some TInt) (Some (Call 19 (Ident 20 "v") []))]]] in
  let look := meaning 9 [] (resolve_ident (owner_resolver demo_maps None)) in
  tame_stmt look [] s = true /\
  wrong_stmt demo_db look [] s = [IncorrectNumberOfArguments 5 "f" (Some 2) 1; IncorrectNumberOfArguments 12 "f" (Some 2) 3; IncorrectNumberOfArguments 19 "v" (Some 1) 0] /\
  demo [s] = wrong_stmt demo_db look [] s.
Proof. split; [reflexivity|split; reflexivity]. Qed.
