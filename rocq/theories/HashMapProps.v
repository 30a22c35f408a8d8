(** C41: equal maps hash equally. *)
From Coq Require Import List Permutation Sorted Bool Arith Lia.
From Verif Require Import HashMapModel.
Import ListNotations.

Section proofs.
Variables (K V : Type).
Variable eq_key : K -> K -> bool.
Variable le_key : K -> K -> bool.
(** the laws of Eq and Ord *)
Hypothesis eq_key_spec : forall a b, eq_key a b = true <-> a = b.
Hypothesis le_trans : forall a b c, le_key a b = true -> le_key b c = true -> le_key a c = true.
Hypothesis le_antisym : forall a b, le_key a b = true -> le_key b a = true -> a = b.
Hypothesis le_total : forall a b, le_key a b = true \/ le_key b a = true.

Notation hmap := (hmap K V).
Notation get := (get K V eq_key).
Definition distinct (m : hmap) : Prop := NoDup (map fst m).

Lemma get_in m : distinct m -> forall k v, In (k, v) m <-> get m k = Some v.
Proof.
  unfold distinct. induction m as [|[k0 v0] m IH]; simpl; intros Hd k v; [split; [tauto|discriminate]|].
  inversion Hd as [|? ? Hn Hd' E]; subst. destruct (eq_key k0 k) eqn:Ek.
  - apply eq_key_spec in Ek; subst k0. split.
    + intros [H|H]; [injection H as <-; reflexivity|]. exfalso. apply Hn. apply in_map_iff.
      exists (k, v). split; [reflexivity|exact H].
    + intros H; injection H as <-. left; reflexivity.
  - rewrite <- (IH Hd'). split; [|tauto]. intros [H|H]; [|exact H].
    injection H as -> ->. exfalso. rewrite (proj2 (eq_key_spec k k) eq_refl) in Ek. discriminate Ek.
Qed.

Lemma get_none m : forall k, get m k = None <-> ~ In k (map fst m).
Proof.
  induction m as [|[k0 v0] m IH]; simpl; intros k; [tauto|].
  destruct (eq_key k0 k) eqn:Ek.
  - apply eq_key_spec in Ek. split; [discriminate|]. intros H. exfalso. apply H. left. exact Ek.
  - rewrite IH. split; [|tauto]. intros H [E|E]; [|tauto]. subst k0.
    rewrite (proj2 (eq_key_spec k k) eq_refl) in Ek. discriminate Ek.
Qed.

Lemma same_entries m m' :
  distinct m -> distinct m' -> (forall k, get m k = get m' k) -> Permutation m m'.
Proof.
  intros Hd Hd' H. apply NoDup_Permutation.
  - eapply NoDup_map_inv. exact Hd.
  - eapply NoDup_map_inv. exact Hd'.
  - intros [k v]. rewrite (get_in m Hd), (get_in m' Hd'), H. tauto.
Qed.

Lemma sorted_unique (m : hmap) : forall m',
  distinct m -> Permutation m m' ->
  StronglySorted (fun a b => le_key (fst a) (fst b) = true) m ->
  StronglySorted (fun a b => le_key (fst a) (fst b) = true) m' -> m = m'.
Proof.
  induction m as [|[k v] m IH]; intros m' Hd HP HS HS'.
  - apply Permutation_nil in HP. symmetry. exact HP.
  - destruct m' as [|[k' v'] m']; [apply Permutation_sym, Permutation_nil in HP; discriminate HP|].
    assert (E : (k, v) = (k', v')).
    { assert (I : In (k', v') ((k, v) :: m)) by (eapply Permutation_in; [apply Permutation_sym; exact HP|left; reflexivity]).
      assert (I' : In (k, v) ((k', v') :: m')) by (eapply Permutation_in; [exact HP|left; reflexivity]).
      destruct I as [I|I]; [exact I|]. destruct I' as [I'|I']; [symmetry; exact I'|].
      inversion HS as [|? ? _ F]; subst. inversion HS' as [|? ? _ F']; subst.
      rewrite Forall_forall in F, F'. specialize (F _ I). specialize (F' _ I'). cbn [fst] in F, F'.
      assert (k = k') by (apply le_antisym; assumption). subst k'. exfalso.
      inversion Hd as [|? ? Hn]; subst. apply Hn. apply in_map_iff. exists (k, v'). split; [reflexivity|exact I]. }
    injection E as <- <-. f_equal. apply IH.
    + inversion Hd; assumption.
    + eapply Permutation_cons_inv. exact HP.
    + inversion HS; assumption.
    + inversion HS'; assumption.
Qed.

Lemma distinct_perm m m' : Permutation m m' -> distinct m -> distinct m'.
Proof. intros H. apply Permutation_NoDup. apply Permutation_map. exact H. Qed.

(** ** Histories *)

Lemma insert_distinct m k v m1 : insert K V eq_key m k v m1 -> distinct m -> distinct m1.
Proof.
  unfold distinct. intros H Hd. inversion H as [pre post Hn E E1|pre k' old post Ek E E1]; subst.
  - rewrite map_app in *. cbn [map fst]. apply NoDup_Add with (l := map fst pre ++ map fst post) (a := k).
    + apply Add_app.
    + split; [exact Hd|]. rewrite <- map_app. apply get_none. exact Hn.
  - rewrite map_app in *. exact Hd.
Qed.
Lemma remove_distinct m k : distinct m -> distinct (remove K V eq_key m k).
Proof.
  unfold distinct, remove. induction m as [|[k0 v0] m IH]; simpl; intros Hd; [constructor|].
  inversion Hd as [|? ? Hn Hd']; subst. destruct (negb (eq_key k0 k)); simpl; [|apply IH; exact Hd'].
  constructor; [|apply IH; exact Hd']. intros I. apply Hn. clear - I.
  apply in_map_iff in I. destruct I as (p & Ep & I). apply filter_In in I. apply in_map_iff.
  exists p. split; [exact Ep|apply I].
Qed.
Lemma extend_distinct m other m1 : extend K V eq_key m other m1 -> distinct m -> distinct m1.
Proof.
  induction 1 as [m|m k v other m1 m2 m3 H1 H2 H3 IH]; intros Hd; [exact Hd|].
  apply IH. eapply distinct_perm; [exact H2|]. eapply insert_distinct; eassumption.
Qed.
Lemma history_distinct m ops m1 : history K V eq_key m ops m1 -> distinct m -> distinct m1.
Proof.
  induction 1 as [m|m k v m1 m2 ops m3 H1 H2 H3 IH|m k m2 ops m3 H2 H3 IH|m other m1 m2 ops m3 H1 H2 H3 IH];
    intros Hd; [exact Hd| | |]; apply IH; (eapply distinct_perm; [exact H2|]).
  - eapply insert_distinct; eassumption.
  - apply remove_distinct. exact Hd.
  - eapply extend_distinct; eassumption.
Qed.

Lemma get_perm m m' : distinct m -> Permutation m m' -> forall k, get m k = get m' k.
Proof.
  intros Hd HP k. pose proof (distinct_perm _ _ HP Hd) as Hd'.
  destruct (get m k) as [v|] eqn:E.
  - symmetry. apply (get_in m' Hd'). eapply Permutation_in; [exact HP|]. apply (get_in m Hd). exact E.
  - symmetry. apply get_none. apply get_none in E. intros I. apply E.
    eapply Permutation_in; [apply Permutation_map, Permutation_sym; exact HP|exact I].
Qed.
Variable S : Type.
Variable hash_key : K -> S -> S.
Variable hash_value : V -> S -> S.

Lemma hash_equal m m' h h1 h2 :
  distinct m -> distinct m' -> (forall k, get m k = get m' k) ->
  hashes K V S le_key hash_key hash_value m h h1 -> hashes K V S le_key hash_key hash_value m' h h2 -> h1 = h2.
Proof.
  intros Hd Hd' H (p1 & (P1 & S1) & ->) (p2 & (P2 & S2) & ->).
  assert (E : p1 = p2).
  { apply sorted_unique; try assumption.
    - eapply distinct_perm; eassumption.
    - eapply Permutation_trans; [apply Permutation_sym; exact P1|].
      eapply Permutation_trans; [apply same_entries; eassumption|exact P2]. }
  rewrite E. reflexivity.
Qed.

Lemma set_hash_equal m m' h h1 h2 :
  NoDup m -> NoDup m' -> (forall k, In k m <-> In k m') ->
  set_hashes K S le_key hash_key m h h1 -> set_hashes K S le_key hash_key m' h h2 -> h1 = h2.
Proof.
  intros Hd Hd' H (p1 & P1 & S1 & ->) (p2 & P2 & S2 & ->).
  assert (HP : Permutation p1 p2).
  { eapply Permutation_trans; [apply Permutation_sym; exact P1|].
    eapply Permutation_trans; [apply NoDup_Permutation; eassumption|exact P2]. }
  assert (Hn : NoDup p1) by (eapply Permutation_NoDup; eassumption).
  assert (E : p1 = p2); [|rewrite E; reflexivity].
  clear - HP S1 S2 Hn le_antisym. revert p2 HP S2. induction p1 as [|k p1 IH]; intros p2 HP S2.
  - apply Permutation_nil in HP. symmetry; exact HP.
  - destruct p2 as [|k' p2]; [apply Permutation_sym, Permutation_nil in HP; discriminate HP|].
    assert (E : k = k').
    { assert (I : In k' (k :: p1)) by (eapply Permutation_in; [apply Permutation_sym; exact HP|left; reflexivity]).
      assert (I' : In k (k' :: p2)) by (eapply Permutation_in; [exact HP|left; reflexivity]).
      destruct I as [I|I]; [exact I|]. destruct I' as [I'|I']; [symmetry; exact I'|].
      inversion S1 as [|? ? _ F]; subst. inversion S2 as [|? ? _ F']; subst.
      rewrite Forall_forall in F, F'. apply le_antisym; [apply F|apply F']; assumption. }
    subst k'. f_equal. apply IH.
    + inversion S1; assumption.
    + inversion Hn; assumption.
    + eapply Permutation_cons_inv. exact HP.
    + inversion S2; assumption.
Qed.
End proofs.

(** What a map holds after a history. *)
Definition update {K V} (eqb : K -> K -> bool) (f : K -> option V) (k : K) (v : option V) : K -> option V :=
  fun x => if eqb k x then v else f x.
Fixpoint after {K V} (eqb : K -> K -> bool) (f : K -> option V) (ops : list (op K V)) : K -> option V :=
  match ops with
  | [] => f
  | OInsert k v :: tl => after eqb (update eqb f k (Some v)) tl
  | ORemove k :: tl => after eqb (update eqb f k None) tl
  | OExtend other :: tl =>
      after eqb (fold_left (fun f p => update eqb f (fst p) (Some (snd p))) other f) tl
  end.

(** Lookups follow the history, whatever order the table iterates in. *)
Theorem C41_map_contents :
  forall (K V : Type) (eqb : K -> K -> bool), (forall a b, eqb a b = true <-> a = b) ->
  forall ops m, history K V eqb [] ops m -> forall k, get K V eqb m k = after eqb (fun _ => None) ops k.
Proof.
  intros K V eqb Heq.
  assert (Hrefl : forall a, eqb a a = true) by (intros a; apply Heq; reflexivity).
  assert (Ein : forall m k v m1, distinct K V m -> insert K V eqb m k v m1 ->
                forall x, get K V eqb m1 x = update eqb (get K V eqb m) k (Some v) x).
  { intros m k v m1 Hd H x. unfold update. inversion H as [pre post Hn E E1|pre k' old post Ek E E1]; subst.
    - clear H Hd. induction pre as [|[a b] pre IH]; simpl in *; [destruct (eqb k x); reflexivity|].
      destruct (eqb a k) eqn:Eak; [discriminate Hn|]. destruct (eqb a x) eqn:Eax.
      + destruct (eqb k x) eqn:Ekx; [|reflexivity]. exfalso. apply Heq in Eax, Ekx. subst.
        rewrite Hrefl in Eak. discriminate Eak.
      + apply IH. exact Hn.
    - clear H. apply Heq in Ek. subst k'. unfold distinct in Hd.
      induction pre as [|[a b] pre IH]; simpl in *.
      + destruct (eqb k x) eqn:Ekx; reflexivity.
      + inversion Hd as [|? ? Hna Hd']; subst.
        destruct (eqb a x) eqn:Eax; [|apply IH; exact Hd']. destruct (eqb k x) eqn:Ekx; [|reflexivity].
        apply Heq in Eax, Ekx. subst. exfalso. apply Hna. rewrite map_app. apply in_or_app. right. left. reflexivity. }
  assert (Erm : forall m k x, get K V eqb (remove K V eqb m k) x = update eqb (get K V eqb m) k None x).
  { intros m k x. unfold update, remove. induction m as [|[a b] m IH]; simpl; [destruct (eqb k x); reflexivity|].
    destruct (eqb a k) eqn:Eak; simpl.
    - rewrite IH. destruct (eqb k x) eqn:Ekx; [reflexivity|]. apply Heq in Eak. subst. rewrite Ekx. reflexivity.
    - destruct (eqb a x) eqn:Eax; [|exact IH]. destruct (eqb k x) eqn:Ekx; [|reflexivity].
      apply Heq in Eax, Ekx. subst. rewrite Hrefl in Eak. discriminate Eak. }
  assert (Eext : forall m other m1, extend K V eqb m other m1 -> distinct K V m -> forall f, (forall x, get K V eqb m x = f x) ->
                 forall x, get K V eqb m1 x = fold_left (fun f p => update eqb f (fst p) (Some (snd p))) other f x).
  { induction 1 as [m|m k v other m1 m2 m3 H1 H2 H3 IH]; intros Hd f Hf x; [apply Hf|].
    cbn [fold_left fst snd]. apply IH.
    - eapply distinct_perm; [exact H2|]. exact (insert_distinct K V eqb Heq _ _ _ _ H1 Hd).
    - intros y. rewrite <- (get_perm K V eqb Heq m1 m2 (insert_distinct K V eqb Heq _ _ _ _ H1 Hd) H2).
      rewrite (Ein _ _ _ _ Hd H1). unfold update. rewrite Hf. reflexivity. }
  assert (G : forall m ops m1, history K V eqb m ops m1 -> distinct K V m -> forall f, (forall x, get K V eqb m x = f x) ->
              forall x, get K V eqb m1 x = after eqb f ops x).
  { induction 1 as [m|m k v m1 m2 ops m3 H1 H2 H3 IH|m k m2 ops m3 H2 H3 IH|m other m1 m2 ops m3 H1 H2 H3 IH];
      intros Hd f Hf x; cbn [after]; [apply Hf| | |].
    - pose proof (insert_distinct K V eqb Heq _ _ _ _ H1 Hd) as Hd1. apply IH; [eapply distinct_perm; eassumption|].
      intros y. rewrite <- (get_perm K V eqb Heq _ _ Hd1 H2), (Ein _ _ _ _ Hd H1). unfold update. rewrite Hf. reflexivity.
    - pose proof (remove_distinct K V eqb _ k Hd) as Hd1. apply IH; [eapply distinct_perm; eassumption|].
      intros y. rewrite <- (get_perm K V eqb Heq _ _ Hd1 H2), Erm. unfold update. rewrite Hf. reflexivity.
    - pose proof (extend_distinct K V eqb Heq _ _ _ H1 Hd) as Hd1. apply IH; [eapply distinct_perm; eassumption|].
      intros y. rewrite <- (get_perm K V eqb Heq _ _ Hd1 H2). apply (Eext _ _ _ H1 Hd). exact Hf. }
  intros ops m H. apply (G _ _ _ H); [constructor|reflexivity].
Qed.
Print Assumptions C41_map_contents.

(** Two maps that agree on every key hash equally, from whatever state of the hasher, in whatever
    order they were filled and whichever way the sort proceeds. *)
Theorem C41_equal_maps_hash_equally :
  forall (K V S : Type) (eqb le : K -> K -> bool) (hk : K -> S -> S) (hv : V -> S -> S),
    (forall a b, eqb a b = true <-> a = b) ->
    (forall a b, le a b = true -> le b a = true -> a = b) ->
    forall ops1 ops2 m1 m2 h h1 h2,
      history K V eqb [] ops1 m1 -> history K V eqb [] ops2 m2 ->
      (forall k, get K V eqb m1 k = get K V eqb m2 k) ->
      hashes K V S le hk hv m1 h h1 -> hashes K V S le hk hv m2 h h2 -> h1 = h2.
Proof.
  intros K V S eqb le hk hv Heq Hanti ops1 ops2 m1 m2 h h1 h2 H1 H2 Hg X1 X2.
  apply (hash_equal K V eqb le Heq Hanti S hk hv m1 m2 h h1 h2); try assumption.
  - apply (history_distinct K V eqb Heq _ _ _ H1). constructor.
  - apply (history_distinct K V eqb Heq _ _ _ H2). constructor.
Qed.
Print Assumptions C41_equal_maps_hash_equally.

(** The same for sets. *)
Theorem C41_equal_sets_hash_equally :
  forall (K S : Type) (le : K -> K -> bool) (hk : K -> S -> S),
    (forall a b, le a b = true -> le b a = true -> a = b) ->
    forall m1 m2 h h1 h2, NoDup m1 -> NoDup m2 -> (forall k, In k m1 <-> In k m2) ->
      set_hashes K S le hk m1 h h1 -> set_hashes K S le hk m2 h h2 -> h1 = h2.
Proof.
  intros K S le hk Hanti m1 m2 h h1 h2. apply (set_hash_equal K le Hanti S hk m1 m2 h h1 h2).
Qed.
Print Assumptions C41_equal_sets_hash_equally.

(** Hashing always gives a result. *)
Theorem C41_hash_defined :
  forall (K V S : Type) (le : K -> K -> bool) (hk : K -> S -> S) (hv : V -> S -> S),
    (forall a b c, le a b = true -> le b c = true -> le a c = true) ->
    (forall a b, le a b = true \/ le b a = true) ->
    forall (m : hmap K V) h, exists h', hashes K V S le hk hv m h h'.
Proof.
  intros K V S le hk hv Htr Htot m h.
  assert (E : exists p, sorted_pairs K V le m p).
  { induction m as [|[k v] m (p & HP & HS)]; [exists []; split; constructor|].
    assert (I : exists q, Permutation ((k, v) :: p) q /\ StronglySorted (fun a b => le (fst a) (fst b) = true) q).
    { clear HP. induction HS as [|[a b] p HS (q & Hq & Sq) F].
      - exists [(k, v)]. split; [apply Permutation_refl|repeat constructor].
      - destruct (Htot k a) as [L|L].
        + exists ((k, v) :: (a, b) :: p). split; [apply Permutation_refl|].
          constructor; [constructor; assumption|]. constructor; [exact L|].
          eapply Forall_impl; [|exact F]. intros [c d] Hc. cbn [fst] in *. eapply Htr; eassumption.
        + exists ((a, b) :: q). split.
          * eapply Permutation_trans; [apply perm_swap|]. constructor. exact Hq.
          * constructor; [exact Sq|]. rewrite Forall_forall in *. intros x Hx.
            apply (Permutation_in x (Permutation_sym Hq)) in Hx. destruct Hx as [<-|Hx]; [exact L|apply F; exact Hx]. }
    destruct I as (q & Hq & Sq). exists q. split; [|exact Sq].
    eapply Permutation_trans; [apply perm_skip; exact HP|exact Hq]. }
  destruct E as (p & Hp). eexists. exists p. split; [exact Hp|reflexivity].
Qed.
Print Assumptions C41_hash_defined.

(** Two macros tables filled in different orders, one by way of an overwritten and a removed entry. *)
Example C41_nontrivial :
  let hk := fun (k : nat) (s : list nat) => s ++ [k] in
  exists m1 m2,
    history nat nat Nat.eqb [] [OInsert 2 20; OInsert 1 10] m1 /\
    history nat nat Nat.eqb [] [OInsert 1 99; OInsert 3 30; ORemove 3; OExtend [(2, 20); (1, 10)]] m2 /\
    m1 <> m2 /\ (forall k, get nat nat Nat.eqb m1 k = get nat nat Nat.eqb m2 k) /\
    hashes nat nat (list nat) Nat.leb hk hk m1 [7] [7; 1; 10; 2; 20] /\
    hashes nat nat (list nat) Nat.leb hk hk m2 [7] [7; 1; 10; 2; 20].
Proof.
  exists [(2, 20); (1, 10)], [(1, 10); (2, 20)]. repeat apply conj.
  - eapply h_insert; [apply ins_new with (pre := []) (post := []); reflexivity|apply Permutation_refl|].
    eapply h_insert; [apply ins_new with (pre := [(2, 20)]) (post := []); reflexivity|apply Permutation_refl|].
    constructor.
  - eapply h_insert; [apply ins_new with (pre := []) (post := []); reflexivity|apply Permutation_refl|].
    eapply h_insert; [apply ins_new with (pre := []) (post := [(1, 99)]); reflexivity|apply Permutation_refl|].
    eapply h_remove; [apply Permutation_refl|].
    eapply h_extend; [|apply Permutation_refl|constructor].
    eapply ext_cons; [apply ins_new with (pre := [(1, 99)]) (post := []); reflexivity|apply Permutation_refl|].
    eapply ext_cons; [apply ins_old with (pre := []) (k' := 1) (old := 99) (post := [(2, 20)]); reflexivity|apply Permutation_refl|].
    constructor.
  - discriminate.
  - intros k. simpl. do 3 (destruct k as [|k]; try reflexivity).
  - exists [(1, 10); (2, 20)]. split; [split; [apply perm_swap|repeat constructor]|reflexivity].
  - exists [(1, 10); (2, 20)]. split; [split; [apply Permutation_refl|repeat constructor]|reflexivity].
Qed.
