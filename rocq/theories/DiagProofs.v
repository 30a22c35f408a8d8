From Coq Require Import List Bool String Arith Permutation Lia.
From Verif Require Import DiagModel DiagSpec.
Import ListNotations.

Lemma range_eqb_iff : forall a b, range_eqb a b = true <-> a = b.
Proof.
  intros [[[a1 a2] a3] a4] [[[b1 b2] b3] b4]. unfold range_eqb. rewrite !andb_true_iff, !Nat.eqb_eq.
  split; [intros [[[-> ->] ->] ->]; reflexivity|intros H; injection H; auto].
Qed.
Lemma option_eqb_iff : forall A (f : A -> A -> bool), (forall a b, f a b = true <-> a = b) ->
  forall a b, option_eqb f a b = true <-> a = b.
Proof.
  intros A f H [a|] [b|]; cbn; try (split; congruence). rewrite H. split; congruence.
Qed.
Lemma equal_iff : forall a b, are_diagnostics_equal a b = true <-> looks_like a b.
Proof.
  intros a b. unfold are_diagnostics_equal, looks_like.
  rewrite !andb_true_iff, range_eqb_iff, String.eqb_eq, (option_eqb_iff _ _ String.eqb_eq), (option_eqb_iff _ _ Nat.eqb_eq).
  tauto.
Qed.
Lemma looks_refl : forall a, looks_like a a.
Proof. intros a. repeat split. Qed.
Lemma looks_trans : forall a b c, looks_like a b -> looks_like b c -> looks_like a c.
Proof. unfold looks_like. intuition congruence. Qed.
Lemma looks_sym : forall a b, looks_like a b -> looks_like b a.
Proof. unfold looks_like. intuition congruence. Qed.
Lemma Forall2_refl_ll : forall l, Forall2 looks_like l l.
Proof. induction l; constructor; auto using looks_refl. Qed.
Lemma Forall2_trans_ll : forall a b c, Forall2 looks_like a b -> Forall2 looks_like b c -> Forall2 looks_like a c.
Proof.
  intros a b c H. revert c. induction H; intros c K; inversion K; subst; constructor; eauto using looks_trans.
Qed.

Lemma same_iff : forall new old, same_diagnostics new old = true -> Forall2 looks_like old new.
Proof.
  intros new old H. unfold same_diagnostics in H. apply andb_true_iff in H. destruct H as [L F].
  apply Nat.eqb_eq in L. revert old L F. induction new as [|n new IH]; intros [|o old] L F; try discriminate; constructor.
  - cbn in F. apply andb_true_iff in F. apply looks_sym, equal_iff. apply F.
  - cbn in F, L. apply andb_true_iff in F. apply IH; [congruence|apply F].
Qed.

Section Maps.
Context {A : Type}.
Lemma get_insert : forall (m : map_ A) k v j, get (insert m k v) j = if Nat.eqb k j then Some v else get m j.
Proof.
  induction m as [|[i w] m IH]; intros k v j; cbn [insert get].
  - reflexivity.
  - destruct (Nat.eqb_spec i k) as [->|N]; cbn [get].
    + destruct (Nat.eqb k j); reflexivity.
    + rewrite IH. destruct (Nat.eqb_spec i j) as [->|]; [|reflexivity].
      destruct (Nat.eqb_spec k j); [congruence|reflexivity].
Qed.
Lemma get_remove : forall (m : map_ A) k j, get (remove m k) j = if Nat.eqb k j then None else get m j.
Proof.
  induction m as [|[i w] m IH]; intros k j; cbn [remove get].
  - destruct (Nat.eqb k j); reflexivity.
  - destruct (Nat.eqb_spec i k) as [->|N]; cbn [get]; rewrite IH.
    + destruct (Nat.eqb k j); reflexivity.
    + destruct (Nat.eqb_spec i j) as [->|]; [|reflexivity]. destruct (Nat.eqb_spec k j); [congruence|reflexivity].
Qed.
Lemma get_none : forall (m : map_ A) k, ~ In k (map fst m) -> get m k = None.
Proof.
  induction m as [|[i w] m IH]; intros k H; [reflexivity|]. cbn in *.
  destruct (Nat.eqb_spec i k); [tauto|]. apply IH. tauto.
Qed.
Lemma keys_insert : forall (m : map_ A) k v, NoDup (map fst m) -> NoDup (map fst (insert m k v)).
Proof.
  assert (K : forall (m : map_ A) k v j, In j (map fst (insert m k v)) -> j = k \/ In j (map fst m)).
  { induction m as [|[i w] m IH]; intros k v j; cbn [insert map fst In]; [intros [->|[]]; auto|].
    destruct (Nat.eqb_spec i k) as [->|N]; cbn [map fst In]; [tauto|]. intros [->|H]; [tauto|].
    destruct (IH _ _ _ H); tauto. }
  induction m as [|[i w] m IH]; intros k v H; cbn [insert map fst].
  - constructor; [intros []|constructor].
  - inversion H as [|? ? H1 H2]; subst. destruct (Nat.eqb_spec i k) as [->|N]; cbn [map fst]; [exact H|].
    constructor; [|apply IH; exact H2]. intros Q. apply K in Q. destruct Q; [congruence|contradiction].
Qed.
Lemma in_get : forall (m : map_ A) k v, NoDup (map fst m) -> In (k, v) m -> get m k = Some v.
Proof.
  induction m as [|[i w] m IH]; intros k v H Q; [destruct Q|]. inversion H as [|? ? H1 H2]; subst. cbn [get].
  destruct Q as [Q|Q]; [injection Q as -> ->; rewrite Nat.eqb_refl; reflexivity|].
  destruct (Nat.eqb_spec i k) as [->|]; [|apply IH; assumption].
  exfalso. apply H1. apply in_map_iff. exists (k, v). auto.
Qed.
Lemma get_in : forall (m : map_ A) k v, get m k = Some v -> In (k, v) m.
Proof.
  induction m as [|[i w] m IH]; intros k v; cbn [get]; [discriminate|].
  destruct (Nat.eqb_spec i k) as [->|]; [intros H; injection H as ->; left; reflexivity|right; auto].
Qed.
End Maps.

(** the non-empty diagnostics of the checkers for a file *)
Definition held (m : map_ (list diagnostic)) (f : nat) : list diagnostic := or_default [] (get m f).
Definition nonempty (p : nat * list diagnostic) : bool := match snd p with [] => false | _ => true end.
Definition parts (f : nat) (m : map_ (map_ (list diagnostic))) : list (nat * list diagnostic) :=
  filter nonempty (map (fun x => (fst x, held (snd x) f)) m).

Lemma parts_cons : forall f k v m, parts f ((k, v) :: m) = (if nonempty (k, held v f) then [(k, held v f)] else []) ++ parts f m.
Proof. intros. unfold parts. cbn. destruct (nonempty (k, held v f)); reflexivity. Qed.

Lemma parts_insert_same : forall f m k v,
  held v f = held (or_default [] (get m k)) f -> parts f (insert m k v) = parts f m.
Proof.
  intros f. induction m as [|[i w] m IH]; intros k v H; cbn [insert get] in *.
  - cbn in H. rewrite parts_cons. unfold nonempty. cbn [snd]. rewrite H. reflexivity.
  - destruct (Nat.eqb_spec i k) as [->|N]; rewrite !parts_cons.
    + cbn in H. rewrite H. reflexivity.
    + rewrite IH by exact H. reflexivity.
Qed.

Lemma parts_clear : forall f (m : map_ (map_ (list diagnostic))), parts f (map (fun x => (fst x, [])) m) = [].
Proof. intros f. induction m as [|[k v] m IH]; [reflexivity|]. cbn [map fst]. rewrite parts_cons, IH. reflexivity. Qed.

Lemma parts_none : forall f m, ~ In f (flat_map (fun x : nat * map_ (list diagnostic) => map fst (snd x)) m) -> parts f m = [].
Proof.
  intros f. induction m as [|[k v] m IH]; intros H; [reflexivity|]. cbn [flat_map snd] in H. rewrite in_app_iff in H.
  rewrite parts_cons, IH by tauto. unfold held. rewrite get_none by tauto. reflexivity.
Qed.

Lemma flat_parts : forall f m, flat_map snd (parts f m) = flat_map (fun x : nat * map_ (list diagnostic) => or_default [] (get (snd x) f)) m.
Proof.
  intros f. induction m as [|[k v] m IH]; [reflexivity|]. rewrite parts_cons, flat_map_app, IH. cbn [flat_map snd].
  unfold nonempty. cbn [snd]. fold (held v f). destruct (held v f); cbn; rewrite ?app_nil_r; reflexivity.
Qed.

Lemma filter_perm : forall A (f : A -> bool) l l', Permutation l l' -> Permutation (filter f l) (filter f l').
Proof.
  intros A f l l' H. induction H; cbn [filter].
  - constructor.
  - destruct (f x); [constructor|]; assumption.
  - destruct (f x), (f y); try constructor; apply Permutation_refl.
  - eapply Permutation_trans; eassumption.
Qed.

Lemma parts_perm : forall f m m', Permutation m m' -> Permutation (parts f m) (parts f m').
Proof. intros. apply filter_perm, Permutation_map. assumption. Qed.

(** ** what the collection holds *)
Definition native_of (c : collection) (f : nat) : list diagnostic := or_default [] (get (native c) f).
Definition check_of (c : collection) (id f : nat) : list diagnostic := held (or_default [] (get (check c) id)) f.

Lemma run_snoc : forall h o, run (h ++ [o]) = step (run h) o.
Proof. intros. unfold run. rewrite fold_left_app. reflexivity. Qed.

Lemma native_step : forall s o f h,
  Forall2 looks_like (native_of (coll s) f) (latest_native h f) ->
  Forall2 looks_like (native_of (coll (step s o)) f) (latest_native (o :: h) f).
Proof.
  intros s o f h H. destruct o as [g ds|g|id g d|id| |sh]; cbn [step coll latest_native].
  - unfold set_native_diagnostics. destruct (get (native (coll s)) g) as [old|] eqn:E.
    + destruct (same_diagnostics ds old) eqn:S.
      * destruct (Nat.eqb_spec g f) as [->|]; [|exact H]. unfold native_of. rewrite E. apply same_iff. exact S.
      * unfold native_of. cbn [native]. rewrite get_insert. destruct (Nat.eqb g f); [apply Forall2_refl_ll|exact H].
    + unfold native_of. cbn [native]. rewrite get_insert. destruct (Nat.eqb g f); [apply Forall2_refl_ll|exact H].
  - unfold native_of, clear_native_for. cbn [native]. rewrite get_remove. destruct (Nat.eqb g f); [constructor|exact H].
  - unfold add_check_diagnostic. destruct (existsb _ _); exact H.
  - unfold clear_check. destruct (get (check (coll s)) id); exact H.
  - exact H.
  - unfold take_changes. destruct (changes (coll s)) eqn:E; cbn [coll]; exact H.
Qed.

Lemma native_run : forall h f, Forall2 looks_like (native_of (coll (run h)) f) (latest_native (rev h) f).
Proof.
  intros h f. induction h as [|o h IH] using rev_ind; [constructor|].
  rewrite run_snoc, rev_app_distr. apply native_step. exact IH.
Qed.

Lemma check_insert : forall m k v id f,
  held (or_default [] (get (insert m k v) id)) f = if Nat.eqb k id then held v f else held (or_default [] (get m id)) f.
Proof. intros. rewrite get_insert. destruct (Nat.eqb k id); reflexivity. Qed.

Lemma get_map_clear : forall (m : map_ (map_ (list diagnostic))) id,
  or_default [] (get (map (fun x => (fst x, [] : map_ (list diagnostic))) m) id) = [].
Proof.
  induction m as [|[k v] m IH]; intros id; [reflexivity|]. cbn. destruct (Nat.eqb k id); [reflexivity|apply IH].
Qed.

Lemma check_run : forall h id f, reported id f h (check_of (coll (run h)) id f).
Proof.
  intros h id f. induction h as [|o h IH] using rev_ind; [constructor|].
  rewrite run_snoc. destruct o as [g ds|g|id' g d|id'| |sh]; cbn [step coll].
  - assert (check (set_native_diagnostics (coll (run h)) g ds) = check (coll (run h))) as E.
    { unfold set_native_diagnostics. destruct (get _ g); [destruct (same_diagnostics _ _)|]; reflexivity. }
    unfold check_of in *. rewrite E. apply rep_other; [exact IH|exact I].
  - apply rep_other; [exact IH|exact I].
  - unfold add_check_diagnostic. set (m := or_default [] (get (check (coll (run h))) id')).
    set (ds := or_default [] (get m g)).
    destruct (existsb (fun e => are_diagnostics_equal e d) ds) eqn:X; unfold check_of; cbn [check]; rewrite check_insert.
    + destruct (Nat.eqb_spec id' id) as [->|N]; [|apply rep_other; [exact IH|left; exact N]].
      unfold held. rewrite get_insert. destruct (Nat.eqb_spec g f) as [->|N].
      * cbn [or_default]. apply existsb_exists in X. destruct X as (e & Ie & Ee). apply equal_iff in Ee.
        eapply rep_repeat; [exact IH|exact Ie|exact Ee].
      * apply rep_other; [exact IH|right; exact N].
    + destruct (Nat.eqb_spec id' id) as [->|N]; [|apply rep_other; [exact IH|left; exact N]].
      unfold held. rewrite get_insert. destruct (Nat.eqb_spec g f) as [->|N].
      * cbn [or_default]. apply rep_add; [exact IH|]. intros e Ie Le. apply equal_iff in Le.
        assert (existsb (fun e => are_diagnostics_equal e d) ds = true) by (apply existsb_exists; eauto). congruence.
      * apply rep_other; [exact IH|right; exact N].
  - unfold clear_check. destruct (get (check (coll (run h))) id') as [m|] eqn:E.
    + unfold check_of. cbn [check]. rewrite check_insert. destruct (Nat.eqb_spec id' id) as [->|N].
      * apply rep_clear.
      * apply rep_other; [exact IH|exact N].
    + destruct (Nat.eq_dec id' id) as [->|N].
      * unfold check_of. rewrite E. apply rep_clear.
      * apply rep_other; [exact IH|exact N].
  - unfold check_of, clear_check_all. cbn [check]. rewrite get_map_clear. apply rep_clears.
  - assert (check (coll match take_changes (coll (run h)) with
        | (c, Some fs) => Server c (published (run h) ++ map (fun f0 => (f0, map patch (diagnostics_for c sh f0))) fs)
        | (c, None) => Server c (published (run h)) end) = check (coll (run h))) as E.
    { unfold take_changes. destruct (changes (coll (run h))); reflexivity. }
    unfold check_of in *. rewrite E. apply rep_other; [exact IH|exact I].
Qed.

Lemma snoc_inj : forall A (a b : list A) x y, a ++ [x] = b ++ [y] -> a = b /\ x = y.
Proof. intros. apply app_inj_tail. assumption. Qed.

Lemma reported_fun : forall id f h d1, reported id f h d1 -> forall d2, reported id f h d2 -> d1 = d2.
Proof.
  intros id f h d1 H. induction H as [|h|h|h ds d H IH F|h ds d e H IH Ie Le|h ds o H IH O]; intros d2 K;
    inversion K as [E|h' E|h' E|h' ds' d' H' F' E|h' ds' d' e' H' Ie' Le' E|h' ds' o' H' O' E]; subst;
    try (symmetry in E; apply app_eq_nil in E; destruct E; discriminate);
    try (apply app_eq_nil in E; destruct E; discriminate);
    try (apply snoc_inj in E; destruct E as [-> E]; try discriminate; try (injection E; intros; subst); try subst);
    try reflexivity; try tauto.
  all: try (destruct h; discriminate).
  all: try (rewrite (IH _ H') in *; try reflexivity; try (exfalso; eapply F; eassumption); try (exfalso; eapply F'; eassumption)).
  all: try (apply IH; assumption).
Qed.

Lemma keys_run : forall h, NoDup (map fst (check (coll (run h)))).
Proof.
  intros h. induction h as [|o h IH] using rev_ind; [constructor|].
  rewrite run_snoc. destruct o as [g ds|g|id' g d|id'| |sh]; cbn [step coll].
  - unfold set_native_diagnostics. destruct (get _ g); [destruct (same_diagnostics _ _)|]; exact IH.
  - exact IH.
  - unfold add_check_diagnostic. destruct (existsb _ _); cbn [check]; apply keys_insert; exact IH.
  - unfold clear_check. destruct (get _ id'); [apply keys_insert|]; exact IH.
  - unfold clear_check_all. cbn [check]. rewrite map_map. exact IH.
  - unfold take_changes. destruct (changes (coll (run h))); exact IH.
Qed.

Lemma parts_in : forall f m, NoDup (map fst m) -> forall id ds,
  In (id, ds) (parts f m) <-> ds <> [] /\ held (or_default [] (get m id)) f = ds.
Proof.
  intros f m N id ds. unfold parts. rewrite filter_In, in_map_iff. split.
  - intros [((k & v) & E & I) P]. injection E as -> <-. rewrite (in_get _ _ _ N I). cbn [or_default].
    split; [|reflexivity]. intros Z. unfold nonempty in P. cbn [snd] in P. rewrite Z in P. discriminate.
  - intros [P E]. destruct (get m id) as [v|] eqn:G; [|cbn in E; congruence]. cbn [or_default] in E. subst ds. split.
    + exists (id, v). split; [reflexivity|apply get_in; exact G].
    + unfold nonempty. cbn [snd]. destruct (held v f); [congruence|reflexivity].
Qed.

Lemma parts_keys : forall f m, NoDup (map fst m) -> NoDup (map fst (parts f m)).
Proof.
  intros f. induction m as [|[k v] m IH]; intros N; [constructor|]. inversion N as [|? ? N1 N2]; subst.
  rewrite parts_cons. destruct (nonempty (k, held v f)); cbn [app map fst]; [|apply IH; exact N2].
  constructor; [|apply IH; exact N2]. intros H. apply N1. apply in_map_iff in H. destruct H as ((a & b) & E & I). cbn in E. subst a.
  unfold parts in I. apply filter_In in I. destruct I as [I _]. apply in_map_iff in I. destruct I as ((a & w) & E & I).
  injection E as -> _. apply in_map_iff. exists (k, w). auto.
Qed.

(** ** the editor *)
Definition in_sync (s : server) (f : nat) : Prop :=
  exists ps, Permutation ps (parts f (check (coll s))) /\
    shown (published s) f = map patch (native_of (coll s) f ++ flat_map snd ps).

Lemma find_app : forall A (p : A -> bool) a b, find p (a ++ b) = match find p a with Some x => Some x | None => find p b end.
Proof. induction a as [|x a IH]; intros b; [reflexivity|]. cbn. destruct (p x); [reflexivity|apply IH]. Qed.

Lemma shown_app : forall ps (g : nat -> list diagnostic) fs f,
  shown (ps ++ map (fun f => (f, g f)) fs) f = if in_dec Nat.eq_dec f fs then g f else shown ps f.
Proof.
  intros ps g fs f. unfold shown. rewrite rev_app_distr, find_app, <- map_rev.
  assert (K : forall l, find (fun p : nat * list diagnostic => Nat.eqb (fst p) f) (map (fun f => (f, g f)) l) =
              if in_dec Nat.eq_dec f l then Some (f, g f) else None).
  { induction l as [|x l IH]; [reflexivity|]. cbn [map find fst]. destruct (Nat.eqb_spec x f) as [->|N].
    - destruct (in_dec Nat.eq_dec f (f :: l)) as [|Q]; [reflexivity|]. destruct Q. left. reflexivity.
    - rewrite IH. destruct (in_dec Nat.eq_dec f l) as [I|I], (in_dec Nat.eq_dec f (x :: l)) as [J|J]; try reflexivity.
      + destruct J. right. exact I.
      + destruct J; [congruence|contradiction]. }
  rewrite K. destruct (in_dec Nat.eq_dec f (rev fs)) as [I|I], (in_dec Nat.eq_dec f fs) as [J|J]; try reflexivity.
  - exfalso. apply J. apply in_rev. exact I.
  - exfalso. apply I. apply in_rev in J. exact J.
Qed.

Lemma sync_step : forall s o f, orders o ->
  (~ In f (changes (coll s)) -> in_sync s f) -> ~ In f (changes (coll (step s o))) -> in_sync (step s o) f.
Proof.
  intros s o f O H N. destruct o as [g ds|g|id g d|id| |sh]; cbn [step coll] in *.
  - unfold set_native_diagnostics in *. destruct (get (native (coll s)) g) as [old|] eqn:E; [destruct (same_diagnostics ds old)|];
      cbn [changes] in N; try (destruct (H N) as (ps & P & S); exists ps; split; assumption).
    + rewrite in_app_iff in N. cbn [In] in N. destruct (H ltac:(tauto)) as (ps & P & S). exists ps. split; [exact P|].
      cbn [published coll] in *. rewrite S. unfold native_of. cbn [native]. rewrite get_insert.
      destruct (Nat.eqb_spec g f); [tauto|reflexivity].
    + rewrite in_app_iff in N. cbn [In] in N. destruct (H ltac:(tauto)) as (ps & P & S). exists ps. split; [exact P|].
      cbn [published coll] in *. rewrite S. unfold native_of. cbn [native]. rewrite get_insert.
      destruct (Nat.eqb_spec g f); [tauto|reflexivity].
  - cbn [clear_native_for changes] in N. rewrite in_app_iff in N. cbn [In] in N.
    destruct (H ltac:(tauto)) as (ps & P & S). exists ps. split; [exact P|]. cbn [published coll] in *. rewrite S.
    unfold native_of, clear_native_for. cbn [native]. rewrite get_remove. destruct (Nat.eqb_spec g f); [tauto|reflexivity].
  - unfold add_check_diagnostic in *. set (m := or_default [] (get (check (coll s)) id)) in *.
    destruct (existsb _ _); cbn [changes] in N.
    + destruct (H N) as (ps & P & S). exists ps. split; [|exact S]. cbn [coll check].
      rewrite parts_insert_same; [exact P|]. fold m. unfold held. rewrite get_insert.
      destruct (Nat.eqb_spec g f) as [->|]; reflexivity.
    + rewrite in_app_iff in N. cbn [In] in N. destruct (H ltac:(tauto)) as (ps & P & S). exists ps. split; [|exact S].
      cbn [coll check]. rewrite parts_insert_same; [exact P|]. fold m. unfold held. rewrite get_insert.
      destruct (Nat.eqb_spec g f) as [->|]; [tauto|reflexivity].
  - unfold clear_check in *. destruct (get (check (coll s)) id) as [m|] eqn:E; [|destruct (H N) as (ps & P & S); exists ps; split; assumption].
    cbn [changes] in N. rewrite in_app_iff in N. destruct (H ltac:(tauto)) as (ps & P & S). exists ps. split; [|exact S].
    cbn [coll check]. rewrite parts_insert_same; [exact P|]. rewrite E. cbn [or_default]. unfold held at 2.
    rewrite get_none by tauto. reflexivity.
  - cbn [clear_check_all changes] in N. rewrite in_app_iff in N. destruct (H ltac:(tauto)) as (ps & P & S).
    exists ps. split; [|exact S]. cbn [clear_check_all coll check]. rewrite parts_clear. rewrite parts_none in P by tauto. exact P.
  - unfold take_changes in *. destruct (changes (coll s)) as [|x l] eqn:E; cbn [coll published] in *.
    + rewrite E in N. destruct (H N) as (ps & P & S). exists ps. split; assumption.
    + unfold in_sync. cbn [coll published].
      rewrite (shown_app (published s)
        (fun f0 => map patch (diagnostics_for (Collection (native (coll s)) (check (coll s)) []) sh f0)) (x :: l) f).
      destruct (in_dec Nat.eq_dec f (x :: l)) as [I|I].
      * exists (parts f (sh (check (coll s)))). split.
        -- apply parts_perm. apply O.
        -- rewrite flat_parts. reflexivity.
      * destruct (H I) as (ps & P & S). exists ps. split; [exact P|exact S].
Qed.

Lemma sync_run : forall h f, Forall orders h -> ~ In f (changes (coll (run h))) -> in_sync (run h) f.
Proof.
  intros h f. induction h as [|o h IH] using rev_ind; intros O N.
  - exists []. split; [constructor|reflexivity].
  - apply Forall_app in O. destruct O as [O1 O2]. inversion O2; subst. rewrite run_snoc in *.
    apply sync_step; auto.
Qed.

Lemma published_no_changes : forall s sh, changes (coll (step s (Publish sh))) = [].
Proof. intros s sh. cbn [step]. unfold take_changes. destruct (changes (coll s)) eqn:E; [cbn; exact E|reflexivity]. Qed.
