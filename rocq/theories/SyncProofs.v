(** Proofs about draining file changes. *)
From Coq Require Import List NArith Bool String Arith Lia.
From Verif Require Import VfsModel VfsSpec VfsProofs LineEndModel LineEndSpec LineEndProofs Utf8 SyncModel SyncSpec.
Import ListNotations.

(** * Merging *)
Fixpoint assoc {A} (i : nat) (l : list (nat * A)) : option A :=
  match l with
  | [] => None
  | (j, x) :: tl => if Nat.eqb j i then Some x else assoc i tl
  end.

Definition merge_next (e : option (kind * bool)) (k : kind) : option (kind * bool) :=
  Some (match e with None => first_kind k | Some e => merge_kind e k end).
Definition entry (ks : list kind) : option (kind * bool) := fold_left merge_next ks None.
Definition kinds (i : nat) (cs : list changed_file) : list kind :=
  map snd (filter (fun c => Nat.eqb (fst c) i) cs).

Lemma assoc_merge_one : forall m c i,
  assoc i (merge_one m c) = if Nat.eqb (fst c) i then merge_next (assoc i m) (snd c) else assoc i m.
Proof.
  induction m as [|[j e] tl IH]; intros [ci ck] i; simpl.
  - destruct (Nat.eqb_spec ci i); reflexivity.
  - destruct (Nat.eqb_spec j ci) as [->|Nj]; simpl.
    + destruct (Nat.eqb_spec ci i); reflexivity.
    + rewrite IH. simpl. destruct (Nat.eqb_spec j i) as [->|].
      * destruct (Nat.eqb_spec ci i); [congruence|reflexivity].
      * reflexivity.
Qed.

Lemma assoc_merge : forall cs i, assoc i (merge cs) = entry (kinds i cs).
Proof.
  intros cs i. unfold merge, entry.
  enough (G : forall m, assoc i (fold_left merge_one cs m) = fold_left merge_next (kinds i cs) (assoc i m))
    by apply (G []).
  induction cs as [|c tl IH]; intros m; [reflexivity|].
  simpl. rewrite IH, assoc_merge_one. unfold kinds. simpl.
  destruct (Nat.eqb (fst c) i); reflexivity.
Qed.

Lemma entry_app : forall ks k, entry (ks ++ [k]) = merge_next (entry ks) k.
Proof. intros. unfold entry. rewrite fold_left_app. reflexivity. Qed.

Lemma merge_one_keys : forall m c i, In i (map fst (merge_one m c)) -> In i (map fst m) \/ i = fst c.
Proof.
  induction m as [|[j e] tl IH]; intros c i H; simpl in *; [intuition|].
  destruct (Nat.eqb_spec j (fst c)); simpl in *; [tauto|]. destruct H as [H|H]; [tauto|].
  destruct (IH _ _ H); tauto.
Qed.

Lemma merge_nodup : forall cs, NoDup (map fst (merge cs)).
Proof.
  intros cs. unfold merge. enough (G : forall m, NoDup (map fst m) -> NoDup (map fst (fold_left merge_one cs m)))
    by (apply G; constructor).
  induction cs as [|c tl IH]; intros m H; simpl; [exact H|]. apply IH.
  clear IH. induction m as [|[j e] m' IHm]; simpl; [constructor; [intros []|constructor]|].
  inversion H; subst. destruct (Nat.eqb_spec j (fst c)); simpl; [constructor; auto|].
  constructor; [|apply IHm; auto]. intros Hin. apply merge_one_keys in Hin. destruct Hin; [tauto|congruence].
Qed.

Lemma assoc_in : forall A (l : list (nat * A)) i x, NoDup (map fst l) -> (In (i, x) l <-> assoc i l = Some x).
Proof.
  intros A l i x. induction l as [|[j y] tl IH]; intros ND; simpl; [split; [tauto|discriminate]|].
  inversion ND; subst. destruct (Nat.eqb_spec j i) as [->|Nj].
  - split; [intros [H|H]; [congruence|]|intros H; injection H as ->; auto].
    exfalso. apply H1. apply in_map_iff. exists (i, x). auto.
  - rewrite <- IH by auto. split; [intros [H|H]; [congruence|auto]|auto].
Qed.

Definition is_lost (e : kind * bool) : bool := match e with (Delete, true) => true | _ => false end.

Lemma effective_in : forall m i k, In (i, k) (effective m) <-> exists j, In (i, (k, j)) m /\ is_lost (k, j) = false.
Proof.
  intros m i k. unfold effective. rewrite in_map_iff. split.
  - intros ((a & b & j) & E & H). simpl in E. injection E as -> ->. apply filter_In in H. destruct H as [H1 H2].
    exists j. split; [exact H1|]. simpl in H2. destruct k, j; simpl in *; congruence.
  - intros (j & H1 & H2). exists (i, (k, j)). split; [reflexivity|]. apply filter_In. split; [exact H1|].
    simpl. destruct k, j; simpl in *; congruence.
Qed.

Lemma NoDup_map_filter : forall A (g : A -> bool) (f : A -> nat) l, NoDup (map f l) -> NoDup (map f (filter g l)).
Proof.
  intros A g f l. induction l as [|x tl IH]; intros H; simpl; [constructor|]. inversion H; subst.
  destruct (g x); simpl; auto. constructor; auto. intros Hin. apply H2.
  apply in_map_iff in Hin. destruct Hin as (y & E & Hy). apply filter_In in Hy. apply in_map_iff. exists y. tauto.
Qed.

Lemma effective_nodup : forall m, NoDup (map fst m) -> NoDup (map fst (effective m)).
Proof. intros m H. unfold effective. rewrite map_map. simpl. apply NoDup_map_filter. exact H. Qed.

(** * The kinds logged for a path *)
Definition plog (l : list (path * kind)) (p : path) : list kind :=
  map snd (filter (fun e => if path_eq_dec (fst e) p then true else false) l).

Lemma kinds_plog : forall f l v p i, inv f l v -> index_of p (interner v) = Some i ->
  kinds i (changes v) = plog l p.
Proof.
  intros f l v p i [ND L D Nn Lg] E. unfold kinds, plog.
  induction Lg as [|[j k] [q k'] cs l' [H1 H2] F IH]; [reflexivity|]. cbn [fst snd] in *. subst k'. simpl.
  destruct (Nat.eqb_spec j i) as [->|Nj].
  - apply index_of_nth in E. assert (p = q) as <- by congruence.
    destruct (path_eq_dec p p); [|congruence]. simpl. f_equal. exact IH.
  - destruct (path_eq_dec q p) as [->|]; [|exact IH].
    apply (index_of_nodup _ _ _ ND) in H1. congruence.
Qed.

Lemma plog_none : forall f l v p, inv f l v -> index_of p (interner v) = None -> plog l p = [].
Proof.
  intros f l v p [ND L D Nn Lg] E. unfold plog.
  induction Lg as [|[j k] [q k'] cs l' [H1 H2] F IH]; [reflexivity|]. cbn [fst snd] in *. simpl.
  destruct (path_eq_dec q p) as [->|]; [|exact IH].
  apply index_of_none in E. exfalso. apply E. eapply nth_error_In; eauto.
Qed.

Lemma plog_app : forall l p q k, plog (l ++ [(q, k)]) p = if path_eq_dec q p then plog l p ++ [k] else plog l p.
Proof.
  intros. unfold plog. rewrite filter_app, map_app. simpl.
  destruct (path_eq_dec q p); simpl; [reflexivity|apply app_nil_r].
Qed.

(** * The state machine of one file within a batch *)
Definition alt1 h1 b p := exists b1 b2, b = b1 ++ b2 /\ there (h1 ++ b1) p = negb (there h1 p).
Definition alt2 h1 b p := exists b1 b2 b3, b = b1 ++ b2 ++ b3 /\
  there (h1 ++ b1) p = negb (there h1 p) /\ there (h1 ++ b1 ++ b2) p = there h1 p.

Lemma alt1_more : forall h1 b b' p, alt1 h1 b p -> alt1 h1 (b ++ b') p.
Proof. intros h1 b b' p (b1 & b2 & -> & H). exists b1, (b2 ++ b'). rewrite app_assoc. auto. Qed.
Lemma alt2_more : forall h1 b b' p, alt2 h1 b p -> alt2 h1 (b ++ b') p.
Proof.
  intros h1 b b' p (b1 & b2 & b3 & -> & H). exists b1, b2, (b3 ++ b'). rewrite !app_assoc in *. auto.
Qed.
Lemma alt1_now : forall h1 b b' p, there (h1 ++ b) p = negb (there h1 p) -> alt1 h1 (b ++ b') p.
Proof. intros h1 b b' p H. exists b, b'. auto. Qed.
Lemma alt2_now : forall h1 b b' p, alt1 h1 b p -> there (h1 ++ b) p = there h1 p -> alt2 h1 (b ++ b') p.
Proof.
  intros h1 b b' p (b1 & b2 & -> & H) H2. exists b1, b2, b'. rewrite !app_assoc in *. auto.
Qed.
Lemma alt2_alt1 : forall h1 b p, alt2 h1 b p -> alt1 h1 b p.
Proof. intros h1 b p (b1 & b2 & b3 & -> & H & _). exists b1, (b2 ++ b3). auto. Qed.

Definition tracked h1 b p (e : option (kind * bool)) : Prop :=
  let s := there h1 p in
  let c := there (h1 ++ b) p in
  match e with
  | None => contents_after (h1 ++ b) p = contents_after h1 p
  | Some (Create, true) => s = false /\ c = true
  | Some (Modify, false) => s = true /\ c = true
  | Some (Delete, false) => s = true /\ c = false
  | Some (Modify, true) => c = true /\ (if s then alt1 h1 b p else alt2 h1 b p)
  | Some (Delete, true) => c = false /\ (if s then alt2 h1 b p else alt1 h1 b p)
  | Some (Create, false) => False
  end.

Lemma contents_update : forall h p c q,
  contents_after (h ++ [Update p c]) q = upd (contents_after h) p c q.
Proof. intros. unfold contents_after. rewrite map_app. simpl. apply current_set. Qed.

Lemma change_kind_none : forall a b, change_kind a b = None -> a = b.
Proof.
  intros [a|] [b|]; simpl; try discriminate; auto. destruct (list_eq_dec N.eq_dec a b); congruence.
Qed.

Lemma there_some : forall h p, there h p = match contents_after h p with Some _ => true | None => false end.
Proof. reflexivity. Qed.

Lemma upd_same : forall f p c, upd f p c p = c.
Proof. intros. unfold upd. destruct (path_eq_dec p p); congruence. Qed.
Lemma upd_other : forall f p c q, p <> q -> upd f p c q = f q.
Proof. intros. unfold upd. destruct (path_eq_dec p q); congruence. Qed.

Lemma tracked_step : forall h1 b l p c,
  (forall q, tracked h1 b q (entry (plog l q))) ->
  forall q, tracked h1 (b ++ [Update p c]) q
              (entry (plog (log_add l p (change_kind (contents_after (h1 ++ b) p) c)) q)).
Proof.
  intros h1 b l p c H q. specialize (H q). set (f := contents_after (h1 ++ b)) in *.
  assert (C : contents_after (h1 ++ b ++ [Update p c]) q = upd f p c q)
    by (rewrite app_assoc; apply contents_update).
  assert (T : there (h1 ++ b ++ [Update p c]) q = match upd f p c q with Some _ => true | None => false end)
    by (unfold there; rewrite C; reflexivity).
  assert (T0 : there (h1 ++ b) q = match f q with Some _ => true | None => false end) by reflexivity.
  destruct (path_eq_dec p q) as [->|Npq].
  2: { assert (E : plog (log_add l p (change_kind (f p) c)) q = plog l q).
       { unfold log_add. destruct (change_kind (f p) c); [|reflexivity]. rewrite plog_app.
         destruct (path_eq_dec p q); [congruence|reflexivity]. }
       rewrite E. rewrite (upd_other _ _ _ _ Npq) in C, T. rewrite <- T0 in T.
       unfold tracked in *. rewrite T, C.
       destruct (entry (plog l q)) as [[[] []]|]; auto; destruct H as [H1 H2]; split; auto;
         destruct (there h1 q); auto using alt1_more, alt2_more. }
  rewrite upd_same in C, T.
  destruct (change_kind (f q) c) as [k|] eqn:Ek; simpl.
  - rewrite plog_app. destruct (path_eq_dec q q) as [_|]; [|congruence]. rewrite entry_app.
    unfold tracked in *. rewrite T in *. rewrite T0 in *.
    unfold change_kind in Ek.
    destruct (entry (plog l q)) as [[[] []]|] eqn:Ee; cbn [merge_next first_kind merge_kind fst snd];
      destruct (f q) as [o|] eqn:Ef, c as [n|]; try discriminate Ek;
      try (destruct (list_eq_dec N.eq_dec o n); [discriminate Ek|]);
      injection Ek as <-; cbn [merge_next first_kind merge_kind fst snd];
      try (exfalso; tauto);
      try (match type of H with _ /\ _ => destruct H as [H H2]; try congruence end); auto.
    6-8: (split; [|reflexivity]; unfold there; rewrite <- H; exact T0).
    all: (split; [reflexivity|]; destruct (there h1 q) eqn:Es; try discriminate).
    all: first [ apply alt1_more; solve [auto using alt2_alt1] | apply alt2_more; exact H2
               | apply alt1_now; rewrite T0, Es; reflexivity
               | apply alt2_now; [exact H2|rewrite T0, Es; reflexivity] ].
  - apply change_kind_none in Ek. unfold tracked in *. rewrite C, T, <- Ek. rewrite <- T0.
    destruct (entry (plog l q)) as [[[] []]|]; auto; destruct H as [H1 H2]; split; auto;
      destruct (there h1 q); auto using alt1_more, alt2_more.
Qed.

(** * Writing the texts *)
Lemma set_texts_spec : forall fs d d', NoDup (map fst fs) -> set_texts fs d = Ok d' ->
  (forall i, file_text d' i = match assoc i fs with
                              | Some t => Some (match t with Some t => t | None => [] end)
                              | None => file_text d i end) /\
  file_source_root d' = file_source_root d /\ source_root d' = source_root d /\
  source_roots d' = source_roots d /\ known_files d' = known_files d /\
  (forall i t, In (i, t) fs -> file_source_root d i <> None).
Proof.
  induction fs as [|[i t] tl IH]; intros d d' ND H; simpl in H.
  - injection H as <-. repeat split; auto.
  - destruct (file_source_root d i) as [r|] eqn:Er; [|discriminate].
    destruct (source_root d r) eqn:Es; [|discriminate]. simpl in ND. inversion ND; subst.
    destruct (IH _ _ H3 H) as (T & A & B & C & D & F). simpl in *. repeat split; auto.
    + intros j. rewrite T. unfold fset. destruct (Nat.eqb_spec i j) as [->|Nij]; [|reflexivity].
      destruct (assoc j tl) as [t'|] eqn:E; [|reflexivity].
      exfalso. apply H2. apply assoc_in in E; [|exact H3]. apply in_map_iff. exists (j, t'). auto.
    + intros j t' [E|E]; [injection E as -> ->; congruence|]. eapply F; exact E.
Qed.

Lemma set_texts_ok : forall fs d,
  (forall i t, In (i, t) fs -> file_source_root d i <> None) ->
  (forall i k, file_source_root d i = Some k -> source_root d k <> None) ->
  exists d', set_texts fs d = Ok d'.
Proof.
  induction fs as [|[i t] tl IH]; intros d H1 H2; simpl; [eauto|].
  destruct (file_source_root d i) as [r|] eqn:Er; [|exfalso; eapply H1; [left; reflexivity|exact Er]].
  destruct (source_root d r) eqn:Es; [|exfalso; eapply H2; eauto].
  apply IH; simpl; [|exact H2]. intros j t' Hj. eapply H1. right. exact Hj.
Qed.

(** * Setting the roots *)
Definition in_root (i : nat) (r : root) : bool := existsb (fun f => Nat.eqb (fst f) i) (file_set r).
Fixpoint last_pos {A} (f : A -> bool) (l : list A) : option nat :=
  match l with
  | [] => None
  | x :: tl => match last_pos f tl with
               | Some j => Some (S j)
               | None => if f x then Some 0 else None
               end
  end.

Lemma fold_fset : forall (fs : list (nat * path)) (f : nat -> option nat) idx i,
  fold_left (fun f x => fset f (fst x) idx) fs f i =
  if existsb (fun x => Nat.eqb (fst x) i) fs then Some idx else f i.
Proof.
  induction fs as [|[j p] tl IH]; intros f idx i; simpl; [reflexivity|]. rewrite IH. unfold fset.
  destruct (Nat.eqb j i); simpl; destruct (existsb _ tl); reflexivity.
Qed.

Lemma set_roots_from_spec : forall rs idx d, let d' := set_roots_from idx rs d in
  file_text d' = file_text d /\ known_files d' = known_files d /\ source_roots d' = source_roots d /\
  (forall k, source_root d' k = if Nat.ltb k idx then source_root d k else
                                match nth_error rs (k - idx) with Some r => Some r | None => source_root d k end) /\
  (forall i, file_source_root d' i = match last_pos (in_root i) rs with
                                     | Some j => Some (idx + j)
                                     | None => file_source_root d i end).
Proof.
  induction rs as [|r tl IH]; intros idx d; simpl.
  - repeat split; intros; auto. destruct (k <? idx), (k - idx); reflexivity.
  - destruct (IH (S idx) (Db (file_text d)
         (fold_left (fun f x => fset f (fst x) idx) (file_set r) (file_source_root d))
         (fset (source_root d) idx r) (source_roots d) (known_files d))) as (A & B & C & D & E).
    simpl in *. repeat split; auto.
    + intros k. rewrite D. unfold fset. destruct (Nat.ltb_spec k idx), (Nat.ltb_spec k (S idx)); try lia.
      * destruct (Nat.eqb_spec idx k); [lia|reflexivity].
      * assert (k = idx) as -> by lia. rewrite Nat.eqb_refl, Nat.sub_diag. reflexivity.
      * replace (k - idx) with (S (k - S idx)) by lia. simpl.
        destruct (Nat.eqb_spec idx k); [lia|reflexivity].
    + intros i. rewrite E. rewrite fold_fset.
      destruct (last_pos (in_root i) tl) as [j|]; [f_equal; lia|].
      fold (in_root i r). destruct (in_root i r); [rewrite Nat.add_0_r|]; reflexivity.
Qed.

Lemma last_pos_map : forall A B (g : A -> B) f l, last_pos f (map g l) = last_pos (fun x => f (g x)) l.
Proof. intros A B g f. induction l as [|x tl IH]; simpl; [reflexivity|]. rewrite IH. reflexivity. Qed.

Lemma last_pos_ext : forall A (f g : A -> bool) l, (forall x, In x l -> f x = g x) -> last_pos f l = last_pos g l.
Proof.
  intros A f g. induction l as [|x tl IH]; intros H; simpl; [reflexivity|].
  rewrite IH by (intros; apply H; right; auto). rewrite (H x) by (left; auto). reflexivity.
Qed.

Lemma last_pos_none : forall A (f : A -> bool) l, last_pos f l = None -> forall x, In x l -> f x = false.
Proof.
  intros A f. induction l as [|y tl IH]; simpl; intros H x Hx; [tauto|].
  destruct (last_pos f tl); [discriminate|]. destruct (f y) eqn:E; [discriminate|].
  destruct Hx as [<-|Hx]; auto.
Qed.

Lemma last_pos_some : forall A (f : A -> bool) l k, last_pos f l = Some k ->
  exists a r b, l = a ++ r :: b /\ nth_error l k = Some r /\ f r = true /\ forall x, In x b -> f x = false.
Proof.
  intros A f. induction l as [|y tl IH]; simpl; intros k H; [discriminate|].
  destruct (last_pos f tl) as [j|] eqn:E.
  - injection H as <-. destruct (IH _ eq_refl) as (a & r & b & -> & H1 & H2 & H3).
    exists (y :: a), r, b. auto.
  - destruct (f y) eqn:Ey; [|discriminate]. injection H as <-.
    exists [], y, tl. repeat split; auto. apply last_pos_none. exact E.
Qed.

Lemma last_pos_exists : forall A (f : A -> bool) l x, In x l -> f x = true -> last_pos f l <> None.
Proof. intros A f l x H1 H2 H. rewrite (last_pos_none _ _ _ H _ H1) in H2. discriminate. Qed.

Lemma starts_with_under : forall r p, starts_with p r = true <-> under p r.
Proof.
  induction r as [|c r IH]; intros p; simpl.
  - split; [intros _; exists p; reflexivity|destruct p; reflexivity].
  - destruct p as [|d p]; simpl.
    + split; [discriminate|]. intros (rest & H). discriminate.
    + destruct (string_dec c d) as [->|N].
      * rewrite IH. split; intros (rest & H); exists rest; [subst; reflexivity|injection H as ->; reflexivity].
      * split; [discriminate|]. intros (rest & H). injection H as -> _. congruence.
Qed.

Lemma dedup_in : forall l x, In x (dedup l) <-> In x l.
Proof.
  induction l as [|p tl IH]; intros x; [reflexivity|]. destruct tl as [|q tl']; [reflexivity|].
  change (dedup (p :: q :: tl')) with (if path_eq_dec p q then dedup (q :: tl') else p :: dedup (q :: tl')).
  destruct (path_eq_dec p q) as [->|]; [rewrite IH; simpl; tauto|]. 
  change (In x (p :: dedup (q :: tl'))) with (p = x \/ In x (dedup (q :: tl'))). rewrite IH. simpl. tauto.
Qed.

Lemma dedup_last_containing : forall l p r, last_containing (dedup l) p r -> last_containing l p r.
Proof.
  induction l as [|x tl IH]; intros p r H; [exact H|]. destruct tl as [|q tl']; [exact H|].
  change (dedup (x :: q :: tl')) with (if path_eq_dec x q then dedup (q :: tl') else x :: dedup (q :: tl')) in H.
  destruct (path_eq_dec x q) as [->|].
  - destruct (IH _ _ H) as (a & b & E & U). exists (q :: a), b. rewrite E. auto.
  - destruct H as ([|y a] & b & E & U & F); injection E as -> E.
    + exists [], (q :: tl'). repeat split; auto. intros z Hz. apply F. rewrite <- E. apply (dedup_in (q :: tl')). exact Hz.
    + destruct (IH p r) as (a' & b' & E' & U'); [exists a, b; auto|]. exists (y :: a'), b'. rewrite E'. auto.
Qed.

Lemma dedup_head : forall x tl, exists tl', dedup (x :: tl) = x :: tl'.
Proof.
  intros x tl; revert x. induction tl as [|q tl IH]; intros x; [exists []; reflexivity|].
  change (dedup (x :: q :: tl)) with (if path_eq_dec x q then dedup (q :: tl) else x :: dedup (q :: tl)).
  destruct (path_eq_dec x q) as [->|]; [apply IH|eexists; reflexivity].
Qed.

Lemma dedup_idem : forall l, dedup (dedup l) = dedup l.
Proof.
  induction l as [|x tl IH]; [reflexivity|]. destruct tl as [|q tl']; [reflexivity|].
  change (dedup (x :: q :: tl')) with (if path_eq_dec x q then dedup (q :: tl') else x :: dedup (q :: tl')).
  destruct (path_eq_dec x q) as [->|]; [exact IH|].
  destruct (dedup_head q tl') as (tl2 & E). rewrite E in *.
  change (dedup (x :: q :: tl2)) with (if path_eq_dec x q then dedup (q :: tl2) else x :: dedup (q :: tl2)).
  destruct (path_eq_dec x q); [congruence|]. rewrite IH. reflexivity.
Qed.

Lemma partition_paths : forall v rs, map root_path (partition v rs) = dedup rs.
Proof.
  intros v rs. unfold partition, partition_files. destruct (dedup rs) as [|r tl]; [reflexivity|].
  simpl. f_equal. rewrite !map_map. simpl. apply map_id.
Qed.

Lemma partition_sets : forall v rs R, In R (partition v rs) ->
  file_set R = filter (fun f => starts_with (snd f) (root_path R)) (iter v).
Proof.
  intros v rs R H. unfold partition, partition_files in H. destruct (dedup rs) as [|r tl]; [destruct H|].
  simpl in H. destruct H as [<-|H]; [reflexivity|]. rewrite map_map in H. apply in_map_iff in H.
  destruct H as (x & <- & _). reflexivity.
Qed.

Lemma in_root_partition : forall f l v rs R p i, inv f l v -> index_of p (interner v) = Some i ->
  In R (partition v rs) ->
  in_root i R = match f p with Some _ => starts_with p (root_path R) | None => false end.
Proof.
  intros f l v rs R p i I E H. unfold in_root. rewrite (partition_sets _ _ _ H).
  apply eq_true_iff_eq. rewrite existsb_exists. split.
  - intros ([j q] & Hin & Ej). simpl in Ej. apply Nat.eqb_eq in Ej. subst j.
    apply filter_In in Hin. destruct Hin as [Hin Hs]. simpl in Hs. apply (inv_iter _ _ _ _ _ I) in Hin.
    destruct Hin as [Eq Fq]. apply index_of_nth in E. apply index_of_nth in Eq.
    assert (p = q) as <- by congruence. destruct (f p); [exact Hs|congruence].
  - intros H2. exists (i, p). split; [|apply Nat.eqb_refl]. apply filter_In.
    destruct (f p) eqn:Ef; [|discriminate]. split; [|exact H2]. apply (inv_iter _ _ _ _ _ I). split; [exact E|congruence].
Qed.

Lemma last_pos_partition : forall f l v rs p i, inv f l v -> index_of p (interner v) = Some i ->
  last_pos (in_root i) (partition v rs) =
  match f p with Some _ => last_pos (starts_with p) (dedup rs) | None => None end.
Proof.
  intros f l v rs p i I E.
  rewrite (last_pos_ext _ _ (fun R => match f p with Some _ => starts_with p (root_path R) | None => false end)).
  - destruct (f p).
    + rewrite <- (partition_paths v rs). rewrite last_pos_map. reflexivity.
    + induction (partition v rs) as [|R tl IH]; simpl; [reflexivity|]. rewrite IH. reflexivity.
  - intros R H. eapply in_root_partition; eauto.
Qed.

(** * Reading the changed texts *)
Lemma mapM_forall2 : forall A B (f : A -> res B) l ys, mapM f l = Ok ys -> Forall2 (fun x y => f x = Ok y) l ys.
Proof.
  intros A B f. induction l as [|x tl IH]; intros ys H; simpl in H; [injection H as <-; constructor|].
  destruct (f x) as [y|] eqn:E; [|discriminate]. simpl in H.
  destruct (mapM f tl) as [zs|]; [|discriminate]. injection H as <-. constructor; auto.
Qed.

Lemma mapM_ok : forall A B (f : A -> res B) l, (forall x, In x l -> exists y, f x = Ok y) -> exists ys, mapM f l = Ok ys.
Proof.
  intros A B f. induction l as [|x tl IH]; intros H; simpl; [eauto|].
  destruct (H x (or_introl eq_refl)) as (y & ->). simpl.
  destruct IH as (ys & ->); [intros; apply H; right; auto|]. simpl. eauto.
Qed.

Lemma changed_text_fst : forall v c y, changed_text v c = Ok y -> fst y = fst c.
Proof.
  intros v [i k] y H. unfold changed_text in H. simpl in H.
  destruct k; [destruct (file_contents v i)|destruct (file_contents v i)|]; simpl in H; try discriminate;
    injection H as <-; reflexivity.
Qed.

Lemma changed_texts : forall v fs ys, mapM (changed_text v) fs = Ok ys ->
  map fst ys = map fst fs /\
  forall i, match assoc i fs with
            | Some k => exists t, assoc i ys = Some t /\ changed_text v (i, k) = Ok (i, t)
            | None => assoc i ys = None
            end.
Proof.
  intros v fs ys H. apply mapM_forall2 in H. induction H as [|[j k] [j' t] fs ys E F [IH1 IH2]].
  - split; [reflexivity|]. intros i. reflexivity.
  - pose proof (changed_text_fst _ _ _ E) as Ej. simpl in Ej. subst j'. simpl. split; [f_equal; exact IH1|].
    intros i. destruct (Nat.eqb_spec j i) as [->|]; [|apply IH2]. exists t. auto.
Qed.
