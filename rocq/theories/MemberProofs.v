(** Lemmas for C55: the inference walk says what [found] says. *)
From Coq Require Import List String Bool Arith Lia.
From Verif Require Import TypeRefModel HirModel HirSpec HirScopes HirNames NameProps CallProps MemberSpec.
Import ListNotations.

(** ** The walk as two functions: types and events *)
Section funs.
Variable db : database.
Variable look : name -> option value_ns.

Definition ident_type (n : name) : option type_ref :=
  match look n with
  | None => None
  | Some (VLocal _ e) => binding_type db e
  | Some (VFunctions l) => fold_left (fun _ f => fd_type (function_of db f)) l None
  | Some (VDef (k, i)) =>
      match k with
      | DGlobal => global_type db i
      | DMethodmap | DEnumStruct | DTypeset | DFuncenum | DTypedef | DFunctag => option_map TName (def_name db (k, i))
      | _ => None
      end
  end.
Definition field_ev (i : nat) (ty : option type_ref) (n : name) : option type_ref * list event :=
  match ty with
  | Some (TName t) =>
      match look t with
      | None => (None, [])
      | Some (VDef (DEnumStruct, s)) =>
          match struct_item_of db s n with
          | Some (IField u) => (Some u, [Attribute i s])
          | Some (IStructMethod _) => (None, [Problem (UnresolvedField i t n true)])
          | None => (None, [Problem (UnresolvedField i t n false)])
          end
      | Some (VDef (DMethodmap, m)) =>
          match map_item_of db m n with
          | Some (IProperty p u) => (Some u, [Attribute i p])
          | Some (IMapMethod _) => (None, [Problem (UnresolvedField i t n true)])
          | None => (None, [Problem (UnresolvedField i t n false)])
          end
      | Some _ => (None, [Problem (UnresolvedField i t n false)])
      end
  | _ => (None, [])
  end.
Definition method_ev (i : nat) (ty : option type_ref) (n : name) : option type_ref * list event :=
  match ty with
  | Some (TName t) =>
      match look t with
      | None => (None, [])
      | Some (VDef (DEnumStruct, s)) =>
          match struct_item_of db s n with
          | Some (IField _) => (None, [Problem (UnresolvedMethodCall i t n true)])
          | Some (IStructMethod f) => (fd_type (function_of db f), [Method i f])
          | None => (None, [Problem (UnresolvedMethodCall i t n false)])
          end
      | Some (VDef (DMethodmap, m)) =>
          match map_item_of db m n with
          | Some (IProperty _ _) => (None, [Problem (UnresolvedMethodCall i t n true)])
          | Some (IMapMethod f) => (fd_type (function_of db f), [Method i f])
          | None => (None, [Problem (UnresolvedMethodCall i t n false)])
          end
      | Some _ => (None, [Problem (UnresolvedMethodCall i t n false)])
      end
  | _ => (None, [])
  end.
Definition new_ev (i : nat) (n : name) : option type_ref * list event :=
  match look n with
  | Some (VDef (DEnumStruct, _)) => (None, [Problem (UnresolvedConstructor i n (Some false))])
  | Some (VDef (DMethodmap, m)) =>
      match map_constructor db m with
      | Some f => (Some (TName n), [Method i f])
      | None => (None, [Problem (UnresolvedConstructor i n (Some true))])
      end
  | _ => (None, [Problem (UnresolvedConstructor i n None)])
  end.

Fixpoint tyf (e : expr) : option type_ref :=
  match e with
  | Missing _ | Control _ _ => None
  | Ident _ n => ident_type n
  | CommaExpr _ l | ArrayLiteral _ l => fold_left (fun _ x => tyf x) l None
  | NamedArg _ _ v => tyf v
  | New i n _ => fst (new_ev i n)
  | ViewAs _ _ ty | Literal _ ty => Some ty
  | FieldAccess i x n | ScopeAccess i x n => fst (field_ev i (tyf x) n)
  | ArrayIndexedAccess _ a _ => option_map to_lower_dim (tyf a)
  | UnaryOp _ x => tyf x
  | BinaryOp _ _ b => tyf b
  | TernaryOp _ _ _ d => tyf d
  | Call _ f _ => tyf f
  | MethodCall i t n _ => fst (method_ev i (tyf t) n)
  end.
Definition own (e : expr) : list event :=
  match e with
  | New i n _ => snd (new_ev i n)
  | FieldAccess i x n | ScopeAccess i x n => snd (field_ev i (tyf x) n)
  | MethodCall i t n _ => snd (method_ev i (tyf t) n)
  | _ => []
  end.
Fixpoint evf (e : expr) : list event :=
  match e with
  | Missing _ | Ident _ _ | Literal _ _ => []
  | CommaExpr _ l | ArrayLiteral _ l => flat_map evf l
  | NamedArg _ _ v => evf v
  | New i n l => flat_map evf l ++ snd (new_ev i n)
  | ViewAs _ x _ | UnaryOp _ x => evf x
  | FieldAccess i x n | ScopeAccess i x n => evf x ++ snd (field_ev i (tyf x) n)
  | ArrayIndexedAccess _ a b => evf b ++ evf a
  | BinaryOp _ a b => evf a ++ evf b
  | TernaryOp _ a b d => evf a ++ evf b ++ evf d
  | Control _ x => match x with Some y => evf y | None => [] end
  | Call _ f l => evf f ++ flat_map evf l
  | MethodCall i t n l => evf t ++ snd (method_ev i (tyf t) n) ++ flat_map evf l
  end.

(** ** What the walk has recorded *)
Definition track := (list diagnostic * list (nat * nat) * list (nat * nat))%type.
Definition of (c : ctx) : track := (filter member_problem (diagnostics (res c)), attributes (res c), methods (res c)).
Definition add1 (t : track) (ev : event) : track :=
  let '(d, a, m) := t in
  match ev with
  | Problem x => (d ++ [x], a, m)
  | Attribute e i => (d, (e, i) :: a, m)
  | Method e i => (d, a, (e, i) :: m)
  end.
Definition plus (t : track) (l : list event) : track := fold_left add1 l t.
Lemma plus_app t a b : plus t (a ++ b) = plus (plus t a) b.
Proof. apply fold_left_app. Qed.

Variable r : list scope.
Hypothesis look_ok : forall n, resolve_ident r n = look n.

Lemma of_calls c c' : res c = res c' -> of c = of c'.
Proof. intros E. unfold of. now rewrite E. Qed.
Lemma of_set_call v c : of (set_call v c) = of c.
Proof. unfold set_call. destruct (calls c) as [|[i [w|]] tl]; reflexivity. Qed.
Lemma of_push d c : of (push_diag d c) = if member_problem d then plus (of c) [Problem d] else of c.
Proof.
  unfold of, push_diag. cbn [res diagnostics attributes methods]. rewrite filter_app. cbn [filter].
  destruct (member_problem d); [reflexivity|]. now rewrite app_nil_r.
Qed.

Lemma ident_ok n c : fst (infer_ident db r n c) = ident_type n /\ of (snd (infer_ident db r n c)) = of c.
Proof.
  unfold infer_ident, ident_type. rewrite look_ok. destruct (look n) as [[o e|l|[k i]]|]; cbn [fst snd]; auto.
  - split; [reflexivity|apply of_set_call].
  - destruct k; auto.
Qed.
Lemma new_ok i n c : fst (infer_constructor db r i n c) = fst (new_ev i n) /\
  of (snd (infer_constructor db r i n c)) = plus (of c) (snd (new_ev i n)).
Proof.
  unfold infer_constructor, new_ev. rewrite look_ok.
  destruct (look n) as [[o e|l|[k d]]|]; try (split; [reflexivity|apply of_push]).
  destruct k; try (split; [reflexivity|apply of_push]).
  destruct (map_constructor db d); (split; [reflexivity|]); [reflexivity|apply of_push].
Qed.
Lemma field_ok i ty n c : fst (field_access db r i ty n c) = fst (field_ev i ty n) /\
  of (snd (field_access db r i ty n c)) = plus (of c) (snd (field_ev i ty n)).
Proof.
  unfold field_access, field_ev. destruct ty as [[]|]; try (split; reflexivity). rewrite look_ok.
  destruct (look n0) as [[o e|l|[k d]]|]; try (split; [reflexivity|apply of_push]); try (split; reflexivity).
  destruct k; try (split; [reflexivity|apply of_push]).
  - destruct (struct_item_of db d n) as [[]|]; (split; [reflexivity|]); try apply of_push; reflexivity.
  - destruct (map_item_of db d n) as [[]|]; (split; [reflexivity|]); try apply of_push; reflexivity.
Qed.
Lemma method_ok i ty n c : fst (method_call db r i ty n c) = fst (method_ev i ty n) /\
  of (snd (method_call db r i ty n c)) = plus (of c) (snd (method_ev i ty n)).
Proof.
  unfold method_call, method_ev. destruct ty as [[]|]; try (split; reflexivity). rewrite look_ok.
  destruct (look n0) as [[o e|l|[k d]]|]; try (split; [reflexivity|apply of_push]); try (split; reflexivity).
  destruct k; try (split; [reflexivity|apply of_push]).
  - destruct (struct_item_of db d n) as [[]|]; (split; [reflexivity|]); try apply of_push; cbn [snd].
    rewrite of_set_call. reflexivity.
  - destruct (map_item_of db d n) as [[]|]; (split; [reflexivity|]); try apply of_push; reflexivity.
Qed.

Definition walks (named : bool) (e : expr) : Prop :=
  named_ok look named e = true -> forall c, (named = true -> exists k v tl, calls c = (k, Some v) :: tl /\ current_call_function c <> None) ->
  fst (infer db r e c) = tyf e /\ of (snd (infer db r e c)) = plus (of c) (evf e).

Lemma list_walks named l : Forall (walks named) l -> forallb (named_ok look named) l = true ->
  forall c, (named = true -> exists k v tl, calls c = (k, Some v) :: tl /\ current_call_function c <> None) ->
  of (fold_left (fun c x => snd (infer db r x c)) l c) = plus (of c) (flat_map evf l).
Proof.
  induction 1 as [|e l F FS IH]; intros T c N; simpl; [reflexivity|].
  simpl in T. apply andb_prop in T. destruct T as [T1 T2]. destruct (F T1 c N) as [_ B].
  rewrite (IH T2), B, plus_app; [reflexivity|].
  intros Q. destruct (N Q) as (k & v & tl & E & H).
  pose proof (infer_keeps db r e c k tl v E) as K. exists k, v, tl. split; [exact K|].
  unfold current_call_function in *. rewrite K. rewrite E in H. exact H.
Qed.
Lemma typed_list l : Forall (walks false) l -> forallb (named_ok look false) l = true ->
  forall t c, fst (fold_left (fun s x => infer db r x (snd s)) l (t, c)) = fold_left (fun _ x => tyf x) l t.
Proof.
  induction 1 as [|e l F FS IH]; intros T t c; simpl; [reflexivity|].
  simpl in T. apply andb_prop in T. destruct T as [T1 T2]. destruct (F T1 c) as [A _]; [discriminate|].
  destruct (infer db r e c) as [t' c'] eqn:E. cbn [fst] in A. subst t'. apply (IH T2).
Qed.

Lemma of_check i l c : of (check_arity db i l c) = of c.
Proof.
  unfold check_arity. destruct (current_call_function c); [|reflexivity]. cbv zeta. destruct (_ || _); [|reflexivity].
  now rewrite of_push.
Qed.

Lemma infer_walks : forall e named, walks named e.
Proof.
  induction e as [e IH] using expr_induct. intros named T c N.
  assert (L : forall b l, subs e = l -> Forall (walks b) l).
  { intros b l <-. eapply Forall_impl; [|exact IH]. simpl. auto. }
  assert (F0 : forall c0 : ctx, false = true -> exists k v tl, calls c0 = (k, Some v) :: tl /\ current_call_function c0 <> None) by discriminate.
  destruct e as [i|i n|i l|i x v|i n l|i x ty|i x n|i x n|i a b|i x|i a b|i a b d|i x|i f l|i t n l|i ty|i l];
    cbn [named_ok subs] in *; cbn [infer tyf evf].
  - split; reflexivity.
  - apply ident_ok.
  - rewrite (typed_list l (L false l eq_refl) T), typed_fold. split; [reflexivity|].
    now apply (list_walks false l (L false l eq_refl) T).
  - apply andb_prop in T. destruct T as [T T2]. apply andb_prop in T. destruct T as [-> T1].
    destruct x as [i0|i0 n0|i0 l|i0 x w|i0 n0 l|i0 x ty|i0 x n0|i0 x n0|i0 a b|i0 x|i0 a b|i0 a b d|i0 x|i0 f l|i0 t n0 l|i0 ty|i0 l]; try discriminate T1.
    destruct (N eq_refl) as (k & w & tl & _ & H). destruct (current_call_function c) as [f|] eqn:E; [|contradiction].
    set (c' := match resolve_ident _ n0 with Some (VLocal o x) => _ | _ => _ end).
    assert (A : of c' = of c).
    { unfold c'. destruct (resolve_ident _ n0) as [[]|]; try reflexivity; now rewrite of_push. }
    inversion IH as [|? ? _ IH2]; subst. inversion IH2 as [|? ? IHv _]; subst.
    destruct (IHv false T2 c' (F0 c')) as [C D]. rewrite A in D. auto.
  - destruct (new_ok i n (fold_left (fun c x => snd (infer db r x c)) l c)) as [A B]. split; [exact A|].
    rewrite B, (list_walks false l (L false l eq_refl) T c (F0 c)), plus_app. reflexivity.
  - inversion IH; subst. cbn [fst snd]. split; [reflexivity|]. now apply (H1 false T c (F0 c)).
  - inversion IH; subst. destruct (H1 false T c (F0 c)) as [A B]. destruct (infer db r x c) as [ty c1]. cbn [fst snd] in *. subst ty.
    destruct (field_ok i (tyf x) n c1) as [C D]. rewrite D, B, plus_app. auto.
  - inversion IH; subst. destruct (H1 false T c (F0 c)) as [A B]. destruct (infer db r x c) as [ty c1]. cbn [fst snd] in *. subst ty.
    destruct (field_ok i (tyf x) n c1) as [C D]. rewrite D, B, plus_app. auto.
  - apply andb_prop in T. destruct T as [T1 T2]. inversion IH as [|? ? IHa IH2]; subst. inversion IH2 as [|? ? IHb _]; subst.
    destruct (IHb false T2 c (F0 c)) as [A B]. destruct (IHa false T1 (snd (infer db r b c)) (F0 _)) as [C D].
    destruct (infer db r a (snd (infer db r b c))) as [ty c2]. cbn [fst snd] in *. rewrite C, D, B, plus_app. auto.
  - inversion IH; subst. exact (H1 false T c (F0 c)).
  - apply andb_prop in T. destruct T as [T1 T2]. inversion IH as [|? ? IHa IH2]; subst. inversion IH2 as [|? ? IHb _]; subst.
    destruct (IHa false T1 c (F0 c)) as [A B]. destruct (IHb false T2 (snd (infer db r a c)) (F0 _)) as [C D].
    rewrite C, D, B, plus_app. auto.
  - apply andb_prop in T. destruct T as [T T3]. apply andb_prop in T. destruct T as [T1 T2].
    inversion IH as [|? ? IHa IH2]; subst. inversion IH2 as [|? ? IHb IH3]; subst. inversion IH3 as [|? ? IHd _]; subst.
    destruct (IHa false T1 c (F0 c)) as [A B]. destruct (IHb false T2 (snd (infer db r a c)) (F0 _)) as [C D].
    destruct (IHd false T3 (snd (infer db r b (snd (infer db r a c)))) (F0 _)) as [E F].
    rewrite E, F, D, B, !plus_app. auto.
  - cbn [fst snd]. split; [reflexivity|]. destruct x as [y|]; [|reflexivity]. inversion IH; subst. now apply (H1 false T c (F0 c)).
  - (* a call *)
    apply andb_prop in T. destruct T as [T1 T2]. inversion IH as [|? ? IHf IHl]; subst.
    destruct (IHf false T1 (push_call (expr_id f) c) (F0 _)) as [A B].
    set (nm := match f with Ident _ n => _ | _ => _ end) in T2.
    assert (Lf : Forall (walks nm) l) by (eapply Forall_impl; [|exact IHl]; simpl; auto).
    assert (NM : nm = true -> exists k v tl, calls (snd (infer db r f (push_call (expr_id f) c))) = (k, Some v) :: tl /\
                  current_call_function (snd (infer db r f (push_call (expr_id f) c))) <> None).
    { intros Q. destruct f as [i0|i0 n0|i0 l0|i0 x w|i0 n0 l0|i0 x ty|i0 x n0|i0 x n0|i0 a b|i0 x|i0 a b|i0 a b d|i0 x|i0 f l0|i0 t n0 l0|i0 ty|i0 l0];
        try discriminate Q. unfold nm in Q. destruct (look n0) as [[|[|g gs]|]|] eqn:E; try discriminate Q.
      cbn [infer expr_id]. unfold infer_ident. rewrite look_ok, E. cbn. exists i0, (VFunctions (g :: gs)), (calls c).
      split; [reflexivity|discriminate]. }
    destruct (infer db r f (push_call (expr_id f) c)) as [ty c1]. cbn [fst snd] in *. split; [exact A|].
    change (of (pop_call (check_arity db i l (fold_left (fun c x => snd (infer db r x c)) l c1))))
      with (of (check_arity db i l (fold_left (fun c x => snd (infer db r x c)) l c1))).
    rewrite of_check, (list_walks nm l Lf T2 c1 NM), B, plus_app. reflexivity.
  - (* a method call *)
    apply andb_prop in T. destruct T as [T1 T2]. inversion IH as [|? ? IHf IHl]; subst.
    destruct (IHf false T1 (push_call (expr_id t) c) (F0 _)) as [A B].
    assert (Lf : Forall (walks false) l) by (eapply Forall_impl; [|exact IHl]; simpl; auto).
    destruct (infer db r t (push_call (expr_id t) c)) as [ty0 c1]. cbn [fst snd] in *. subst ty0.
    destruct (method_ok i (tyf t) n c1) as [C D]. destruct (method_call db r i (tyf t) n c1) as [ty c2]. cbn [fst snd] in *.
    split; [exact C|].
    change (of (pop_call (fold_left (fun c x => snd (infer db r x c)) l c2))) with (of (fold_left (fun c x => snd (infer db r x c)) l c2)).
    rewrite (list_walks false l Lf T2 c2 (F0 _)), D, B, !plus_app. reflexivity.
  - split; reflexivity.
  - rewrite (typed_list l (L false l eq_refl) T), typed_fold. split; [reflexivity|].
    now apply (list_walks false l (L false l eq_refl) T).
Qed.
End funs.

(** ** The functions say what the relations say *)
Section bridge.
Variable db : database.
Variable type_named look : name -> option value_ns.
Local Notation typed := (typed db type_named look).
Local Notation found := (found db type_named look).
Local Notation types_seen := (types_seen db type_named look).
Local Notation attribute_of := (attribute_of db type_named).
Local Notation method_of := (method_of db type_named).

Lemma last_fold {A B} (f : A -> option B) l x t : fold_left (fun _ y => f y) (l ++ [x]) t = f x.
Proof. now rewrite fold_left_app. Qed.

Lemma element_lower t u : (forall e n, t = TArray e n -> 2 <= n) -> element t u <-> u = to_lower_dim t.
Proof.
  intros H1. split.
  - intros H. inversion H; subst.
    + reflexivity.
    + specialize (H1 u 1 eq_refl). lia.
    + destruct u; try reflexivity. now elim (H0 u size).
  - intros ->. destruct t as [| | | | | | | | | |t n]; try (constructor; discriminate).
    destruct n as [|[|n]]; [specialize (H1 t 0 eq_refl); lia|specialize (H1 t 1 eq_refl); lia|]. simpl. constructor.
Qed.

Ltac invs := repeat match goal with
  | H : MemberSpec.attribute_of _ _ _ _ _ _ |- _ => inversion H; clear H; subst
  | H : MemberSpec.method_of _ _ _ _ _ |- _ => inversion H; clear H; subst
  | H : exists _, _ |- _ => destruct H
  | H : _ /\ _ |- _ => destruct H
  end; try congruence.

Lemma field_spec i n t : look t = type_named t ->
  (forall u, fst (field_ev db look i (Some (TName t)) n) = Some u <-> exists a, attribute_of t n a u) /\
  (forall ev, In ev (snd (field_ev db look i (Some (TName t)) n)) <->
     (exists a ty, attribute_of t n a ty /\ ev = Attribute i a) \/
     (type_named t <> None /\ (forall a ty, ~ attribute_of t n a ty) /\
      exists m, tells m (exists f, method_of t n f) /\ ev = Problem (UnresolvedField i t n m))).
Proof.
  intros H. unfold field_ev. rewrite H.
  assert (MISS : type_named t <> None -> (forall s, type_named t <> Some (VDef (DEnumStruct, s))) -> (forall s, type_named t <> Some (VDef (DMethodmap, s))) ->
    (forall u, @None type_ref = Some u <-> exists a, attribute_of t n a u) /\
    (forall ev, In ev [Problem (UnresolvedField i t n false)] <->
     (exists a ty, attribute_of t n a ty /\ ev = Attribute i a) \/
     (type_named t <> None /\ (forall a ty, ~ attribute_of t n a ty) /\
      exists m, tells m (exists f, method_of t n f) /\ ev = Problem (UnresolvedField i t n m)))).
  { intros H1 H2 H3. split.
    - intros u. split; [discriminate|]. intros. invs.
    - intros ev. split.
      + intros [<-|[]]. right. split; [exact H1|]. split; [intros a ty K; invs|]. exists false. split; [|reflexivity].
        split; [discriminate|]. intros. invs.
      + intros [K|(_ & _ & m & M & ->)]; [invs|]. left. destruct m; [|reflexivity]. destruct (proj1 M eq_refl) as [f Hf]. invs. }
  destruct (type_named t) as [[o e|l|[k d]]|] eqn:E; try (apply MISS; congruence).
  - destruct k; try (apply MISS; congruence).
    + destruct (struct_item_of db d n) as [[u0|f0]|] eqn:S; cbn [fst snd]; (split; [intros u; split|intros ev; split]).
      * intros [= ->]. exists d. now constructor.
      * intros. invs.
      * intros [<-|[]]. left. exists d, u0. split; [now constructor|reflexivity].
      * intros [K|(_ & K & _)]; [left; invs|]. elim (K d u0). now constructor.
      * discriminate.
      * intros. invs.
      * intros [<-|[]]. right. split; [discriminate|]. split; [intros a ty K; invs|]. exists true. split; [|reflexivity].
        split; [|reflexivity]. intros _. exists f0. eapply struct_method_of; eauto.
      * intros [K|(_ & _ & m & M & ->)]; [invs|]. left. destruct m; [reflexivity|]. assert (false = true); [|discriminate]. apply M.
        exists f0. eapply struct_method_of; eauto.
      * discriminate.
      * intros. invs.
      * intros [<-|[]]. right. split; [discriminate|]. split; [intros a ty K; invs|]. exists false. split; [|reflexivity].
        split; [discriminate|]. intros. invs.
      * intros [K|(_ & _ & m & M & ->)]; [invs|]. left. destruct m; [|reflexivity]. destruct (proj1 M eq_refl) as [f Hf]. invs.
    + destruct (map_item_of db d n) as [[p u0|f0]|] eqn:S; cbn [fst snd]; (split; [intros u; split|intros ev; split]).
      * intros [= ->]. exists p. eapply property_of; eauto.
      * intros. invs.
      * intros [<-|[]]. left. exists p, u0. split; [eapply property_of; eauto|reflexivity].
      * intros [K|(_ & K & _)]; [left; invs|]. elim (K p u0). eapply property_of; eauto.
      * discriminate.
      * intros. invs.
      * intros [<-|[]]. right. split; [discriminate|]. split; [intros a ty K; invs|]. exists true. split; [|reflexivity].
        split; [|reflexivity]. intros _. exists f0. eapply map_method_of; eauto.
      * intros [K|(_ & _ & m & M & ->)]; [invs|]. left. destruct m; [reflexivity|]. assert (false = true); [|discriminate]. apply M.
        exists f0. eapply map_method_of; eauto.
      * discriminate.
      * intros. invs.
      * intros [<-|[]]. right. split; [discriminate|]. split; [intros a ty K; invs|]. exists false. split; [|reflexivity].
        split; [discriminate|]. intros. invs.
      * intros [K|(_ & _ & m & M & ->)]; [invs|]. left. destruct m; [|reflexivity]. destruct (proj1 M eq_refl) as [f Hf]. invs.
  - cbn [fst snd]. split; [intros u; split; [discriminate|]; intros; invs|]. intros ev. split; [intros []|].
    intros [K|(K & _)]; [invs|contradiction].
Qed.

Lemma method_spec i n t : look t = type_named t ->
  (forall u, fst (method_ev db look i (Some (TName t)) n) = Some u <-> exists f, method_of t n f /\ fd_type (function_of db f) = Some u) /\
  (forall ev, In ev (snd (method_ev db look i (Some (TName t)) n)) <->
     (exists f, method_of t n f /\ ev = Method i f) \/
     (type_named t <> None /\ (forall f, ~ method_of t n f) /\
      exists m, tells m (exists a ty, attribute_of t n a ty) /\ ev = Problem (UnresolvedMethodCall i t n m))).
Proof.
  intros H. unfold method_ev. rewrite H.
  assert (MISS : forall m, type_named t <> None -> (forall f, ~ method_of t n f) -> tells m (exists a ty, attribute_of t n a ty) ->
    (forall u, @None type_ref = Some u <-> exists f, method_of t n f /\ fd_type (function_of db f) = Some u) /\
    (forall ev, In ev [Problem (UnresolvedMethodCall i t n m)] <->
     (exists f, method_of t n f /\ ev = Method i f) \/
     (type_named t <> None /\ (forall f, ~ method_of t n f) /\
      exists m, tells m (exists a ty, attribute_of t n a ty) /\ ev = Problem (UnresolvedMethodCall i t n m)))).
  { intros m H1 H2 H3. split.
    - intros u. split; [discriminate|]. intros (f & K & _). now elim (H2 f).
    - intros ev. split.
      + intros [<-|[]]. right. eauto.
      + intros [(f & K & _)|(_ & _ & m' & M & ->)]; [now elim (H2 f)|]. left. f_equal. f_equal.
        unfold tells in *. destruct m, m'; try reflexivity; [symmetry; apply M, H3; reflexivity|apply H3, M; reflexivity]. }
  assert (HIT : forall f, method_of t n f -> (forall g, method_of t n g -> g = f) ->
    (forall u, fd_type (function_of db f) = Some u <-> exists f, method_of t n f /\ fd_type (function_of db f) = Some u) /\
    (forall ev, In ev [Method i f] <->
     (exists f, method_of t n f /\ ev = Method i f) \/
     (type_named t <> None /\ (forall f, ~ method_of t n f) /\
      exists m, tells m (exists a ty, attribute_of t n a ty) /\ ev = Problem (UnresolvedMethodCall i t n m)))).
  { intros f M U. split.
    - intros u. split; [eauto|]. intros (g & G & E). now rewrite <- (U g G).
    - intros ev. split; [intros [<-|[]]; eauto|]. intros [(g & G & ->)|(_ & K & _)]; [left; now rewrite (U g G)|now elim (K f)]. }
  destruct (type_named t) as [[o e|l|[k d]]|] eqn:E;
    try (apply MISS; [congruence|intros f K; invs|split; [discriminate|intros; invs]]).
  - destruct k; try (apply MISS; [congruence|intros f K; invs|split; [discriminate|intros; invs]]).
    + destruct (struct_item_of db d n) as [[u0|f0]|] eqn:S; cbn [fst snd].
      * apply MISS; [congruence|intros f K; invs|]. split; [|reflexivity]. intros _. exists d, u0. now constructor.
      * apply HIT; [eapply struct_method_of; eauto|]. intros. invs.
      * apply MISS; [congruence|intros f K; invs|split; [discriminate|intros; invs]].
    + destruct (map_item_of db d n) as [[p u0|f0]|] eqn:S; cbn [fst snd].
      * apply MISS; [congruence|intros f K; invs|]. split; [|reflexivity]. intros _. exists p, u0. eapply property_of; eauto.
      * apply HIT; [eapply map_method_of; eauto|]. intros. invs.
      * apply MISS; [congruence|intros f K; invs|split; [discriminate|intros; invs]].
  - cbn [fst snd]. split; [intros u; split; [discriminate|]; intros; invs|]. intros ev. split; [intros []|].
    intros [K|(K & _)]; [invs|contradiction].
Qed.

Lemma new_spec i n l : look n = type_named n ->
  (forall u, fst (new_ev db look i n) = Some u <-> typed (New i n l) u) /\
  (forall ev, In ev (snd (new_ev db look i n)) <-> found (New i n l) ev).
Proof.
  intros H. unfold new_ev. rewrite H.
  assert (CI : forall f, constructor_of db type_named n f -> exists m, type_named n = Some (VDef (DMethodmap, m)) /\ map_constructor db m = Some f) by (intros f K; exact K).
  assert (MISS : (forall m, type_named n <> Some (VDef (DMethodmap, m))) -> (forall s, type_named n <> Some (VDef (DEnumStruct, s))) ->
    (forall u, @None type_ref = Some u <-> typed (New i n l) u) /\
    (forall ev, In ev [Problem (UnresolvedConstructor i n None)] <-> found (New i n l) ev)).
  { intros H1 H2. split.
    - intros u. split; [discriminate|]. intros K. inversion K as [| | | | | | |i0 n0 l0 f C| | | | | | | | | |]; subst. destruct (CI f C) as (m & M & _). now elim (H1 m).
    - intros ev. split.
      + intros [<-|[]]. now constructor.
      + intros K. inversion K; subst; try (match goal with A : accesses _ _ _ _ |- _ => inversion A end).
        * match goal with C : constructor_of _ _ _ _ |- _ => destruct (CI _ C) as (m & M & _) end. now elim (H1 m).
        * now elim (H1 m).
        * now elim (H2 s).
        * now left. }
  destruct (type_named n) as [[o e|fs|[k d]]|] eqn:E; try (apply MISS; congruence).
  destruct k; try (apply MISS; congruence).
  - split.
    + intros u. split; [discriminate|]. intros K. inversion K as [| | | | | | |i0 n0 l0 f C| | | | | | | | | |]; subst.
      destruct (CI f C) as (m & M & _). congruence.
    + intros ev. split.
      * intros [<-|[]]. econstructor; eauto.
      * intros K. inversion K; subst; try (match goal with A : accesses _ _ _ _ |- _ => inversion A end).
        -- match goal with C : constructor_of _ _ _ _ |- _ => destruct (CI _ C) as (m & M & _) end. congruence.
        -- congruence.
        -- now left.
        -- match goal with A : forall s, _ <> Some (VDef (DEnumStruct, s)) |- _ => now elim (A d) end.
  - destruct (map_constructor db d) as [f|] eqn:C; cbn [fst snd]; split.
    + intros u. split.
      * intros [= <-]. econstructor. exists d. eauto.
      * intros K. inversion K; subst; reflexivity.
    + intros ev. split.
      * intros [<-|[]]. econstructor. exists d. eauto.
      * intros K. inversion K; subst; try (match goal with A : accesses _ _ _ _ |- _ => inversion A end).
        -- match goal with C : constructor_of _ _ _ _ |- _ => destruct (CI _ C) as (m & M & M2) end. left. congruence.
        -- exfalso. match goal with A : forall f, ~ constructor_of _ _ _ f |- _ => apply (A f) end. exists d. auto.
        -- congruence.
        -- match goal with A : forall m, _ <> Some (VDef (DMethodmap, m)) |- _ => now elim (A d) end.
    + intros u. split; [discriminate|]. intros K. inversion K as [| | | | | | |i0 n0 l0 f C'| | | | | | | | | |]; subst.
      destruct (CI f C') as (m & M & M2). congruence.
    + intros ev. split.
      * intros [<-|[]]. econstructor; eauto. intros f K. destruct (CI f K) as (m & M & M2). congruence.
      * intros K. inversion K; subst; try (match goal with A : accesses _ _ _ _ |- _ => inversion A end).
        -- match goal with C : constructor_of _ _ _ _ |- _ => destruct (CI _ C) as (m & M & M2) end. congruence.
        -- now left.
        -- congruence.
        -- match goal with A : forall m, _ <> Some (VDef (DMethodmap, m)) |- _ => now elim (A d) end.
Qed.

Lemma ident_spec i n t : ident_type db look n = Some t <-> typed (Ident i n) t.
Proof.
  unfold ident_type. split.
  - destruct (look n) as [[o e|l|[k d]]|] eqn:E.
    + intros H. eapply typed_local; eauto.
    + destruct l as [|f l] using rev_ind; [discriminate|]. rewrite last_fold. intros H. eapply typed_function; eauto.
    + destruct k; try discriminate; try (destruct (def_name _ _) as [m|] eqn:M; [|discriminate]; intros [= <-]; eapply typed_type; eauto; exact I).
      intros H. eapply typed_global; eauto.
    + discriminate.
  - intros H. inversion H; subst; match goal with K : look n = _ |- _ => rewrite K end; auto.
    + now rewrite last_fold.
    + destruct k; simpl in *; try contradiction; match goal with K : def_name _ _ = _ |- _ => rewrite K end; reflexivity.
Qed.

Definition seen (e : expr) : Prop := forall w, within w e -> types_seen w.
Lemma seen_part e p : seen e -> In p (parts e) -> seen p.
Proof. intros H I w W. apply H. econstructor; eauto. Qed.
Lemma seen_self e : seen e -> types_seen e.
Proof. intros H. apply H. constructor. Qed.

Lemma fold_typed l : Forall (fun e => forall t, tyf db look e = Some t <-> typed e t) l ->
  forall t, fold_left (fun _ x => tyf db look x) l None = Some t <-> exists l' e, l = l' ++ [e] /\ typed e t.
Proof.
  intros F t. destruct l as [|x l _] using rev_ind.
  - simpl. split; [discriminate|]. intros (l' & e & E & _). now destruct l'.
  - rewrite last_fold. apply Forall_app in F. destruct F as [_ F]. inversion F; subst. rewrite H1. split; [eauto|].
    intros (l' & e & E & T). apply app_inj_tail in E. destruct E as [_ ->]. exact T.
Qed.

Lemma ty_typed : forall e, seen e -> forall t, tyf db look e = Some t <-> typed e t.
Proof.
  induction e as [e IH] using expr_induct. intros S t.
  assert (L : forall p, In p (parts e) -> In p (subs e)) by (destruct e as [| | | | | | | | | | | |? []| | | |]; simpl; intuition).
  assert (IHp : forall p, In p (parts e) -> forall t, tyf db look p = Some t <-> typed p t).
  { intros p P. rewrite Forall_forall in IH. apply IH; [now apply L|]. eapply seen_part; eauto. }
  pose proof (seen_self e S) as (S1 & S2 & S3 & S4). clear IH L S.
  destruct e as [i|i n|i l|i x v|i n l|i x ty|i x n|i x n|i a b|i x|i a b|i a b d|i x|i f l|i x n l|i ty|i l];
    cbn [tyf parts] in *.
  - split; [discriminate|]. intros H; inversion H.
  - apply ident_spec.
  - rewrite fold_typed by (apply Forall_forall; exact IHp). split.
    + intros (l' & e & -> & T). now constructor.
    + intros H; inversion H; subst. eauto.
  - rewrite (IHp v (or_introl eq_refl)). split; [now constructor|]. intros H; inversion H; subst; auto.
  - apply (new_spec i n l (S3 i n l eq_refl)).
  - split; [intros [= <-]; constructor|]. intros H; inversion H; subst; reflexivity.
  - split.
    + destruct (tyf db look x) as [u|] eqn:U; [|discriminate]. destruct u as [m| | | | | | | | | |]; try discriminate.
      assert (U2 : typed x (TName m)) by (apply IHp; [now left|exact U]).
      intros H. apply (field_spec i n m (S1 i x n m (by_dot i x n) U2)) in H. destruct H as [a A]. econstructor; eauto.
    + intros H; inversion H; subst. match goal with K : typed x (TName ?m), A : attribute_of ?m n ?a t |- _ =>
        rewrite (proj2 (IHp x (or_introl eq_refl) (TName m)) K); apply (field_spec i n m (S1 i x n m (by_dot i x n) K)); eauto end.
  - split.
    + destruct (tyf db look x) as [u|] eqn:U; [|discriminate]. destruct u as [m| | | | | | | | | |]; try discriminate.
      assert (U2 : typed x (TName m)) by (apply IHp; [now left|exact U]).
      intros H. apply (field_spec i n m (S1 i x n m (by_colons i x n) U2)) in H. destruct H as [a A]. econstructor; eauto.
    + intros H; inversion H; subst. match goal with K : typed x (TName ?m), A : attribute_of ?m n ?a t |- _ =>
        rewrite (proj2 (IHp x (or_introl eq_refl) (TName m)) K); apply (field_spec i n m (S1 i x n m (by_colons i x n) K)); eauto end.
  - assert (EL : forall u w, typed a u -> element u w <-> w = to_lower_dim u).
    { intros u w U. apply element_lower. intros e n ->. exact (S4 i a b e n eq_refl U). }
    split.
    + destruct (tyf db look a) as [u|] eqn:U; [|discriminate]. intros [= <-].
      assert (U2 : typed a u) by (apply IHp; [now left|exact U]). econstructor; [exact U2|]. now apply EL.
    + intros H; inversion H; subst. match goal with K : typed a ?u, A : element ?u t |- _ =>
        rewrite (proj2 (IHp a (or_introl eq_refl) u) K); apply EL in A; [now subst|exact K] end.
  - rewrite (IHp x (or_introl eq_refl)). split; [now constructor|]. intros H; inversion H; subst; auto.
  - rewrite (IHp b (or_intror (or_introl eq_refl))). split; [now constructor|]. intros H; inversion H; subst; auto.
  - rewrite (IHp d (or_intror (or_intror (or_introl eq_refl)))). split; [now constructor|]. intros H; inversion H; subst; auto.
  - split; [discriminate|]. intros H; inversion H.
  - rewrite (IHp f (or_introl eq_refl)). split; [now constructor|]. intros H; inversion H; subst; auto.
  - split.
    + destruct (tyf db look x) as [u|] eqn:U; [|discriminate]. destruct u as [m| | | | | | | | | |]; try discriminate.
      assert (U2 : typed x (TName m)) by (apply IHp; [now left|exact U]).
      intros H. apply (method_spec i n m (S2 i x n l m eq_refl U2)) in H. destruct H as (f & A & B). econstructor; eauto.
    + intros H; inversion H; subst. match goal with K : typed x (TName ?m) |- _ =>
        rewrite (proj2 (IHp x (or_introl eq_refl) (TName m)) K); apply (method_spec i n m (S2 i x n l m eq_refl K)); eauto end.
  - split; [intros [= <-]; constructor|]. intros H; inversion H; subst; reflexivity.
  - rewrite fold_typed by (apply Forall_forall; exact IHp). split.
    + intros (l' & e & -> & T). now constructor.
    + intros H; inversion H; subst. eauto.
Qed.

Lemma acc_by_dot i x n j y k : accesses (FieldAccess i x n) j y k -> j = i /\ y = x /\ k = n.
Proof. intros A. inversion A. auto. Qed.
Lemma acc_by_colons i x n j y k : accesses (ScopeAccess i x n) j y k -> j = i /\ y = x /\ k = n.
Proof. intros A. inversion A. auto. Qed.
Lemma own_found e : seen e -> forall ev, In ev (own db look e) <-> found e ev.
Proof.
  intros S ev.
  assert (TY : forall p, In p (parts e) -> forall t, tyf db look p = Some t <-> typed p t).
  { intros p P. apply ty_typed. eapply seen_part; eauto. }
  pose proof (seen_self e S) as (S1 & S2 & S3 & S4). clear S.
  assert (NO : forall e, match e with New _ _ _ | FieldAccess _ _ _ | ScopeAccess _ _ _ | MethodCall _ _ _ _ => False | _ => True end -> ~ found e ev).
  { intros e0 E K. inversion K; subst; try (match goal with A : accesses _ _ _ _ |- _ => inversion A; subst end); exact E. }
  destruct e as [i|i n|i l|i x v|i n l|i x ty|i x n|i x n|i a b|i x|i a b|i a b d|i x|i f l|i x n l|i ty|i l];
    cbn [own parts] in *; try (split; [intros []|intros K; now apply NO in K]).
  - apply (new_spec i n l (S3 i n l eq_refl)).
  - split.
    + destruct (tyf db look x) as [u|] eqn:U; [|intros []]. destruct u as [m| | | | | | | | | |]; try (intros []; fail).
      assert (U2 : typed x (TName m)) by (apply TY; [now left|exact U]).
      intros H. apply (field_spec i n m (S1 i x n m (by_dot i x n) U2)) in H.
      destruct H as [(a & ty & A & ->)|(H1 & H2 & b & B & ->)].
      * eapply attribute_found; eauto. constructor.
      * eapply attribute_missing; eauto. constructor.
    + intros H. inversion H as [e i0 x0 n0 t a ty A K F E1 E2|e i0 x0 n0 t m A K F G M E1 E2| | | | | |]; clear H; subst ev e;
        apply acc_by_dot in A; destruct A as (-> & -> & ->);
        rewrite (proj2 (TY x (or_introl eq_refl) (TName t)) K); apply (field_spec i n t (S1 i x n t (by_dot i x n) K)).
      * left. eauto.
      * right. eauto.
  - split.
    + destruct (tyf db look x) as [u|] eqn:U; [|intros []]. destruct u as [m| | | | | | | | | |]; try (intros []; fail).
      assert (U2 : typed x (TName m)) by (apply TY; [now left|exact U]).
      intros H. apply (field_spec i n m (S1 i x n m (by_colons i x n) U2)) in H.
      destruct H as [(a & ty & A & ->)|(H1 & H2 & b & B & ->)].
      * eapply attribute_found; eauto. constructor.
      * eapply attribute_missing; eauto. constructor.
    + intros H. inversion H as [e i0 x0 n0 t a ty A K F E1 E2|e i0 x0 n0 t m A K F G M E1 E2| | | | | |]; clear H; subst ev e;
        apply acc_by_colons in A; destruct A as (-> & -> & ->);
        rewrite (proj2 (TY x (or_introl eq_refl) (TName t)) K); apply (field_spec i n t (S1 i x n t (by_colons i x n) K)).
      * left. eauto.
      * right. eauto.
  - split.
    + destruct (tyf db look x) as [u|] eqn:U; [|intros []]. destruct u as [m| | | | | | | | | |]; try (intros []; fail).
      assert (U2 : typed x (TName m)) by (apply TY; [now left|exact U]).
      intros H. apply (method_spec i n m (S2 i x n l m eq_refl U2)) in H.
      destruct H as [(f & A & ->)|(H1 & H2 & b & B & ->)]; [eapply method_found|eapply method_missing]; eauto.
    + intros H. inversion H; subst; try (match goal with A : accesses _ _ _ _ |- _ => inversion A end);
        match goal with K : typed x (TName ?m) |- _ =>
          rewrite (proj2 (TY x (or_introl eq_refl) (TName m)) K); apply (method_spec i n m (S2 i x n l m eq_refl K)) end.
      * left. eauto.
      * right. eauto.
Qed.

Lemma in_evf e ev : In ev (evf db look e) <-> In ev (own db look e) \/ exists p, In p (parts e) /\ In ev (evf db look p).
Proof.
  destruct e as [i|i n|i l|i x v|i n l|i x ty|i x n|i x n|i a b|i x|i a b|i a b d|i x|i f l|i x n l|i ty|i l];
    cbn [own parts evf]; try destruct x as [y|]; rewrite ?in_app_iff, ?in_flat_map; simpl;
    (split; [intros H; repeat destruct H as [H|H]; try contradiction; try (destruct H as (p & P & H)); eauto 7|
             intros [H|(p & P & H)]; repeat (destruct P as [<-|P]); try contradiction; eauto 7]).
Qed.

Lemma evf_found : forall e, seen e -> forall ev, In ev (evf db look e) <-> exists w, within w e /\ found w ev.
Proof.
  induction e as [e IH] using expr_induct. intros S ev. rewrite Forall_forall in IH.
  assert (L : forall p, In p (parts e) -> In p (subs e)) by (destruct e as [| | | | | | | | | | | |? []| | | |]; simpl; intuition).
  rewrite in_evf, (own_found e S). split.
  - intros [H|(p & P & H)]; [exists e; split; [constructor|exact H]|].
    apply (IH p (L p P) (seen_part e p S P)) in H. destruct H as (w & W & F). exists w. split; [econstructor; eauto|exact F].
  - intros (w & W & F). inversion W; subst; [now left|]. right. exists p. split; [assumption|].
    apply (IH p (L p H) (seen_part e p S H)). eauto.
Qed.
End bridge.
