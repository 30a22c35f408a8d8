(** One turn of the main loop: exactly when it crashes, and what it leaves. *)
From Coq Require Import List NArith ZArith Bool String Arith Lia.
From Verif Require Import VfsModel VfsSpec VfsProofs TextModel Utf8 OpenDocsModel OpenDocsProofs.
From Verif Require SyncModel SyncProofs SyncWorld RequestsModel DiagModel OpQueueModel.
From Verif Require Import LoopModel LoopSpec LoopDrain.
Import ListNotations.
Local Open Scope string_scope.
Local Open Scope nat_scope.
Local Open Scope list_scope.

Section Proofs.
Context {E : env}.
(** The projects are those of files known to the analysis. *)
Hypothesis Hroots : forall d ids, project_roots E d = Some ids -> incl ids (map fst (SyncModel.known_files d)).

Notation state := (state E).
Notation world := (world E).
Notation db_of s := (SyncModel.st_db (files s)).

(** ** The relation *)

Definition diag_below (n : nat) (c : DiagModel.collection) : Prop :=
  (forall i, In i (DiagModel.changes c) -> i < n) /\
  (forall id m i, In (id, m) (DiagModel.check c) -> In i (map fst m) -> i < n).

Definition calls_ok (answered : list Z) (c : client) : Prop :=
  (forall n, find_out (outgoing c) n <> None <-> (exists m, In (n, m) (sent c)) /\ ~ In n answered) /\
  (forall n h, find_out (outgoing c) n = Some h ->
     match h with ApplySettings => In (n, "workspace/configuration") (sent c)
                | Nothing => ~ In (n, "workspace/configuration") (sent c) end) /\
  (forall n m, In (n, m) (sent c) -> (n < next_id c)%Z) /\
  (forall n, In n answered -> (n < next_id c)%Z).

Record rel (w : world) (us : list update) (s : state) : Prop := Rel {
  r_inv : inv (written (disk w) us) (log_of (disk w) us []) (the_vfs s);
  r_open : forall p, doc_contains (docs s) p = opened w p;
  r_here : forall p, opened w p = true -> written (disk w) us p <> None;
  r_cfg : cfg s = settings w;
  r_roots : SyncModel.dedup (SyncModel.st_roots (files s)) = SyncModel.dedup (cfg_roots E (cfg s));
  r_rooted : rooted (db_of s);
  r_bounded : bounded (the_vfs s) (db_of s);
  r_placed : forall p, placed (the_vfs s) (db_of s) p <-> known w p;
  r_known : forall p, disk w p <> None -> known w p;
  r_diags : diag_below (List.length (interner (the_vfs s))) (diags s);
  r_jobs : jobs s = if OpQueueModel.op_in_progress unit (queue s) then 1 else 0;
  r_calls : calls_ok (answered w) (client_ s) }.

(** Worlds that cannot be told apart *)
Definition same (w w' : world) : Prop :=
  (forall p, disk w p = disk w' p) /\ (forall p, opened w p = opened w' p) /\ (forall p, known w p <-> known w' p) /\
  settings w = settings w' /\ answered w = answered w'.

Lemma rel_same : forall w w' s, same w w' -> rel w [] s -> rel w' [] s.
Proof.
  intros w w' s (A & B & C & D & F) [Hi Ho Hh Hc Hr Hro Hb Hp Hk Hd Hj Hca].
  unfold written in *. cbn [fold_left log_of] in *. constructor; auto.
  - eapply inv_ext; [exact A|exact Hi].
  - intros p. rewrite <- B. auto.
  - intros p. unfold written. simpl. rewrite <- B, <- A. auto.
  - congruence.
  - intros p. rewrite Hp. apply C.
  - intros p. rewrite <- A, <- C. auto.
  - rewrite <- F. exact Hca.
Qed.

(** ** Requests to the editor *)

Lemma find_out_remove : forall l i n, find_out (remove_out l i) n = if Z.eqb i n then None else find_out l n.
Proof.
  induction l as [|[j h] tl IH]; intros i n; simpl; [destruct (Z.eqb i n); reflexivity|].
  destruct (Z.eqb_spec j i) as [->|Nji]; simpl; rewrite ?IH.
  - destruct (Z.eqb_spec i n); [reflexivity|]. reflexivity.
  - destruct (Z.eqb_spec j n) as [->|Njn]; [|reflexivity]. destruct (Z.eqb_spec i n); [congruence|reflexivity].
Qed.

Lemma calls_send : forall a s m h,
  (h = ApplySettings <-> m = "workspace/configuration") -> calls_ok a (client_ s) ->
  calls_ok a (client_ (send_request s m h : state)).
Proof.
  intros a s m h Hm (A & B & C & D). unfold send_request. cbn [client_ with_client].
  set (c := client_ s) in *. unfold calls_ok. cbn [outgoing next_id sent].
  repeat apply conj.
  - intros n. cbn [find_out]. destruct (Z.eqb_spec (next_id c) n) as [<-|Nn].
    + split; [|discriminate]. intros _. split.
      * exists m. apply in_app_iff. right. left. reflexivity.
      * intros H. apply D in H. lia.
    + rewrite A. split; intros [(x & Hx) Hn]; (split; [|exact Hn]).
      * exists x. apply in_app_iff. auto.
      * apply in_app_iff in Hx. destruct Hx as [Hx|[Hx|[]]]; [eauto|congruence].
  - intros n h'. cbn [find_out]. destruct (Z.eqb_spec (next_id c) n) as [<-|Nn].
    + intros Hh. injection Hh as <-. destruct h.
      * apply in_app_iff. right. left. f_equal. apply Hm. reflexivity.
      * intros H. apply in_app_iff in H. destruct H as [H|[H|[]]]; [apply C in H; lia|].
        injection H as H. apply Hm in H. discriminate.
    + intros Hh. apply B in Hh. destruct h'; [apply in_app_iff; auto|].
      intros H. apply in_app_iff in H. destruct H as [H|[H|[]]]; [contradiction|congruence].
  - intros n x H. apply in_app_iff in H. destruct H as [H|[H|[]]]; [apply C in H; lia|]. injection H as <- _. lia.
  - intros n H. apply D in H. lia.
Qed.

Lemma rel_send : forall w us s m h, (h = ApplySettings <-> m = "workspace/configuration") ->
  rel w us s -> rel w us (send_request s m h).
Proof. intros w us s m h Hm H. destruct H. constructor; auto. apply calls_send; assumption. Qed.
Lemma rel_progress : forall w us s b, rel w us s -> rel w us (report_progress s b).
Proof. intros w us s [|] H; [|exact H]. apply rel_send; [|exact H]. split; discriminate. Qed.

(** ** Diagnostics *)

Lemma in_insert : forall A (m : list (nat * A)) k v x y, In (x, y) (DiagModel.insert m k v) ->
  (x = k /\ y = v) \/ In (x, y) m.
Proof.
  intros A. induction m as [|[k' w] tl IH]; intros k v x y H; cbn [DiagModel.insert] in H.
  - destruct H as [H|[]]. injection H as <- <-. auto.
  - destruct (Nat.eqb_spec k' k) as [->|N]; destruct H as [H|H].
    + injection H as <- <-. auto.
    + right. right. exact H.
    + injection H as <- <-. right. left. reflexivity.
    + apply IH in H. destruct H; [auto|]. right. right. assumption.
Qed.
Lemma get_in : forall A (m : list (nat * A)) k v, DiagModel.get m k = Some v -> In (k, v) m.
Proof.
  intros A. induction m as [|[k' w] tl IH]; intros k v H; cbn [DiagModel.get] in H; [discriminate|].
  destruct (Nat.eqb_spec k' k) as [->|N]; [injection H as ->; left; reflexivity|right; auto].
Qed.
Lemma below_more : forall n n' c, n <= n' -> diag_below n c -> diag_below n' c.
Proof.
  intros n n' c L [A B]. split.
  - intros i H. apply A in H. lia.
  - intros id m i H1 H2. specialize (B _ _ _ H1 H2). lia.
Qed.
Lemma below_clear_native : forall n c i, i < n -> diag_below n c -> diag_below n (DiagModel.clear_native_for c i).
Proof.
  intros n c i L [A B]. split; cbn [DiagModel.clear_native_for DiagModel.changes DiagModel.check]; [|exact B].
  intros j H. apply in_app_iff in H. destruct H as [H|[<-|[]]]; auto.
Qed.
Lemma below_add : forall n c id i d, i < n -> diag_below n c -> diag_below n (DiagModel.add_check_diagnostic c id i d).
Proof.
  intros n c id i d L [A B]. unfold DiagModel.add_check_diagnostic.
  set (m := DiagModel.or_default [] (DiagModel.get (DiagModel.check c) id)).
  assert (Hm : forall j, In j (map fst m) -> j < n).
  { unfold m. destruct (DiagModel.get (DiagModel.check c) id) as [m0|] eqn:G; [|intros j []].
    intros j Hj. eapply B; [apply get_in; exact G|exact Hj]. }
  assert (Hins : forall ds id' m' j, In (id', m') (DiagModel.insert (DiagModel.check c) id (DiagModel.insert m i ds)) ->
            In j (map fst m') -> j < n).
  { intros ds id' m' j H1 H2. apply in_insert in H1. destruct H1 as [[_ ->]|H1]; [|eapply B; eauto].
    apply in_map_iff in H2. destruct H2 as ([x y] & <- & H2). apply in_insert in H2. destruct H2 as [[-> _]|H2]; [exact L|].
    apply Hm. apply in_map_iff. exists (x, y). auto. }
  destruct (existsb _ _); (split; cbn [DiagModel.changes DiagModel.check]; [|apply Hins]); [exact A|].
  intros j H. apply in_app_iff in H. destruct H as [H|[<-|[]]]; auto.
Qed.
Lemma below_clear_check : forall n c id, diag_below n c -> diag_below n (DiagModel.clear_check c id).
Proof.
  intros n c id [A B]. unfold DiagModel.clear_check. destruct (DiagModel.get (DiagModel.check c) id) as [m|] eqn:G; [|split; auto].
  split; cbn [DiagModel.changes DiagModel.check].
  - intros i H. apply in_app_iff in H. destruct H as [H|H]; [auto|]. eapply B; [apply get_in; exact G|exact H].
  - intros id' m' i H1 H2. apply in_insert in H1. destruct H1 as [[_ ->]|H1]; [destruct H2|eapply B; eauto].
Qed.
Lemma below_native : forall n c i ds, i < n -> diag_below n c -> diag_below n (DiagModel.set_native_diagnostics c i ds).
Proof.
  intros n c i ds L [A B]. unfold DiagModel.set_native_diagnostics.
  assert (H : diag_below n (DiagModel.Collection (DiagModel.insert (DiagModel.native c) i ds) (DiagModel.check c)
                              (DiagModel.changes c ++ [i]))).
  { split; cbn [DiagModel.changes DiagModel.check]; [|exact B].
    intros j H. apply in_app_iff in H. destruct H as [H|[<-|[]]]; auto. }
  destruct (DiagModel.get (DiagModel.native c) i); [|exact H]. destruct (DiagModel.same_diagnostics ds l); [split; auto|exact H].
Qed.

Lemma rel_diags : forall w us s c, diag_below (List.length (interner (the_vfs s))) c -> rel w us s -> rel w us (with_diags s c).
Proof. intros w us s c H R. destruct R. constructor; auto. Qed.

(** ** Files *)

Lemma placed_ext : forall v v' d e p, interner v' = interner v ++ e -> bounded v d -> (placed v' d p <-> placed v d p).
Proof.
  intros v v' d e p Ee [B _]. unfold placed. rewrite Ee. split; intros (i & k & H1 & H2).
  - pose proof (B _ _ H2) as L. rewrite index_of_app in H1. destruct (index_of p (interner v)) as [j|] eqn:Ej; [eauto|].
    destruct (index_of p e); simpl in H1; [injection H1 as <-; lia|discriminate].
  - exists i, k. rewrite index_of_app, H1. auto.
Qed.
Lemma bounded_ext : forall v v' d e, interner v' = interner v ++ e -> bounded v d -> bounded v' d.
Proof. intros v v' d e Ee [A B]. unfold bounded. rewrite Ee, app_length. split; intros; [apply A in H|apply B in H]; lia. Qed.

(** The virtual file system of [s] is now [v], in which the files are also updated by [us']. *)
Lemma rel_vfs : forall w us us' s v e m b o,
  rel w us s -> interner v = interner (the_vfs s) ++ e ->
  inv (written (disk w) (us ++ us')) (log_of (disk w) (us ++ us') []) v ->
  (forall p, doc_contains m p = o p) -> (forall p, o p = true -> written (disk w) (us ++ us') p <> None) ->
  rel (World (disk w) o (known w) (settings w) (answered w)) (us ++ us')
    (with_docs (with_files s (SyncModel.State v (db_of s) (SyncModel.st_roots (files s)))) m b).
Proof.
  intros w us us' s v e m b o R Ee I M O. destruct R. constructor; auto.
  - eapply bounded_ext; eauto.
  - intros p. cbn [known]. rewrite <- r_placed0. apply (placed_ext _ _ _ e); assumption.
  - unfold the_vfs in *. cbn [files with_docs with_files SyncModel.st_vfs]. eapply below_more; [|exact r_diags0].
    rewrite Ee, app_length. lia.
Qed.

Lemma load_exact : forall m fs w us v,
  inv (written (disk w) us) (log_of (disk w) us []) v ->
  let us' := filter (fun x => negb (doc_contains m (fst x))) fs in
  exists v' e, load m v fs = Ok v' /\ interner v' = interner v ++ e /\
    inv (written (disk (w : world)) (us ++ us')) (log_of (disk w) (us ++ us') []) v'.
Proof.
  intros m. induction fs as [|[p c] tl IH]; intros w us v I; cbn [load filter fst].
  - exists v, []. rewrite !app_nil_r. auto.
  - destruct (doc_contains m p); cbn [negb]; [apply IH; exact I|].
    destruct (set_spec _ _ _ p c I) as (v1 & E1 & I1 & e1 & Ee1). rewrite E1. cbn [bind fst].
    assert (I2 : inv (written (disk w) (us ++ [(p, c)])) (log_of (disk w) (us ++ [(p, c)]) []) v1).
    { rewrite written_snoc, log_snoc. exact I1. }
    destruct (IH _ _ _ I2) as (v2 & e2 & E2 & Ee2 & I3). exists v2, (e1 ++ e2). split; [exact E2|].
    split; [rewrite Ee2, Ee1, app_assoc; reflexivity|]. rewrite <- app_assoc in I3. exact I3.
Qed.

Lemma doc_contains_insert : forall m p v q, doc_contains (doc_insert m p v) q = set_open (doc_contains m) p true q.
Proof. intros. unfold doc_contains, set_open. rewrite doc_get_insert. destruct (path_eq_dec p q); reflexivity. Qed.
Lemma doc_contains_remove : forall m p q, doc_contains (doc_remove m p) q = set_open (doc_contains m) p false q.
Proof. intros. unfold doc_contains, set_open. rewrite doc_get_remove. destruct (path_eq_dec p q); reflexivity. Qed.

(** ** Projects *)

Lemma reload_ok : forall w us s, rel w us s -> exists s', reload_flycheck s = Ok s' /\ s' = s.
Proof.
  intros w us s R. unfold reload_flycheck. destruct (has_compiler E (cfg s)); [|eauto].
  destruct (project_roots E (db_of s)) as [ids|] eqn:Er; [|eauto].
  destruct (SyncProofs.mapM_ok _ _ (file_path (the_vfs s)) ids) as (ps & ->); [|exists s; split; reflexivity].
  intros i Hi. apply (Hroots _ _ Er) in Hi. apply in_map_iff in Hi. destruct Hi as ([j x] & Ej & Hi). simpl in Ej. subst j.
  apply (proj2 (r_bounded _ _ _ R)) in Hi. unfold file_path. apply nth_error_Some in Hi.
  destruct (nth_error (interner (the_vfs s)) i); [eauto|congruence].
Qed.

(** ** The end of a turn *)

Lemma drain_rel : forall w us s, rel w us s ->
  match process_changes s with
  | Panic => homeless w us
  | Ok (s', b) => ~ homeless w us /\ rel (file_world w us) [] s'
  end.
Proof.
  intros w us s R. destruct R.
  assert (Pl : forall p, disk w p <> None -> placed (the_vfs s) (db_of s) p) by (intros p H; apply r_placed0, r_known0, H).
  rewrite r_cfg0 in r_roots0.
  pose proof (drain_exact (disk w) us (the_vfs s) (db_of s) (SyncModel.st_roots (files s)) (cfg_roots E (settings w))
                r_inv0 r_roots0 r_rooted0 r_bounded0 Pl) as D.
  replace (SyncModel.State (the_vfs s) (db_of s) (SyncModel.st_roots (files s))) with (files s) in D
    by (unfold the_vfs; destruct (files s); reflexivity).
  assert (St : stray (disk w) us (the_vfs s) (db_of s) (cfg_roots E (settings w)) <-> homeless w us).
  { unfold stray, homeless. split; intros (p & H1 & H2 & H3 & H4); exists p; (split; [exact H1|]); (split; [exact H2|]);
      (split; [|exact H4]); intros H; apply H3; apply r_placed0; exact H. }
  unfold process_changes.
  set (gone := filter _ (SyncModel.effective (SyncModel.merge (changes (the_vfs s))))).
  assert (Hg : forall c, In c gone -> fst c < List.length (interner (the_vfs s))).
  { intros [i k] H. apply filter_In in H. destruct H as [H _].
    destruct (SyncWorld.changes_interned _ _ _ _ _ r_inv0 H) as (p & Ep). apply index_of_lt in Ep. exact Ep. }
  destruct (SyncModel.process_changes (files s)) as [[fs b]|]; cbn [bind fst snd]; [|apply St; exact D].
  destruct D as (D1 & D2 & D3 & D4 & D5 & D6 & D7 & D8).
  split; [intros H; apply D1; apply St; exact H|].
  constructor; auto; unfold the_vfs; cbn [files with_diags with_files diags].
  - cbn [cfg with_diags with_files]. rewrite r_cfg0. exact D4.
  - intros p. cbn [known file_world]. rewrite D7, r_placed0. reflexivity.
  - intros p Hp. cbn [disk file_world] in Hp. apply D8 in Hp. apply D7 in Hp. cbn [known file_world].
    destruct Hp as [Hp|Hp]; [left; apply r_placed0; exact Hp|right; exact Hp].
  - rewrite D3. clear D1 D2 D3 D4 D5 D6 D7 D8.
    assert (G : forall l c, (forall x, In x l -> fst x < List.length (interner (the_vfs s))) ->
      diag_below (List.length (interner (the_vfs s))) c ->
      diag_below (List.length (interner (the_vfs s)))
        (fold_left (fun d (c : changed_file) => DiagModel.clear_native_for d (fst c)) l c)).
    { induction l as [|x tl IH]; intros c Hl Hc; [exact Hc|]. cbn [fold_left]. apply IH.
      - intros y Hy. apply Hl. right. exact Hy.
      - apply below_clear_native; [apply Hl; left; reflexivity|exact Hc]. }
    apply G; assumption.
Qed.

Lemma quiescent_rel : forall w q b d s, rel w [] s ->
  exists s', when_quiescent q b d s = Ok s' /\ rel w [] s'.
Proof.
  intros w q b d s R. unfold when_quiescent. destruct (is_quiescent s); [|eauto].
  set (s1 := if negb q && prefills E (cfg s) then _ else s).
  assert (R1 : rel w [] s1) by (unfold s1; destruct (negb q && prefills E (cfg s)); [destruct R; constructor; auto|exact R]).
  set (s2 := if (negb q || b) && refreshes E (cfg s1) then _ else s1).
  assert (R2 : rel w [] s2).
  { unfold s2. destruct ((negb q || b) && refreshes E (cfg s1)); [|exact R1]. apply rel_send; [split; discriminate|exact R1]. }
  destruct (negb q || b || d); [|eauto]. unfold update_diagnostics.
  match goal with |- context [SyncModel.mapM ?f ?l] => destruct (SyncProofs.mapM_ok _ _ f l) as (ys & ->) end; [|cbn [bind]; eauto].
  intros [p z] Hp. cbn [fst]. rewrite (inv_file_id _ _ _ p (r_inv _ _ _ R2)). cbn [bind].
  assert (Ho : opened w p = true).
  { rewrite <- (r_open _ _ _ R2). clear -Hp. revert Hp. generalize (docs s2). unfold doc_contains.
    induction m as [|[a x] tl IH]; intros H; [destruct H|]. simpl. destruct (path_eq_dec a p); [reflexivity|].
    destruct H as [H|H]; [congruence|auto]. }
  pose proof (r_here _ _ _ R2 _ Ho) as Hh. unfold written in *. cbn [fold_left] in *.
  destruct (disk w p) as [c|] eqn:Ed; [|congruence].
  destruct (index_of p (interner (the_vfs s2))) as [i|] eqn:Ei; [eauto|].
  pose proof (i_none _ _ _ (r_inv _ _ _ R2) p Ei) as H. unfold written in H. cbn [fold_left] in H. congruence.
Qed.

Lemma publish_rel : forall w s, rel w [] s -> exists s', publish s = Ok s' /\ rel w [] s'.
Proof.
  intros w s R. unfold publish, DiagModel.take_changes. pose proof (r_diags _ _ _ R) as [A B].
  destruct (DiagModel.changes (diags s)) as [|i tl] eqn:Ec.
  - exists (with_diags s (diags s)). split; [reflexivity|]. apply rel_diags; [|exact R]. apply (r_diags _ _ _ R).
  - destruct (SyncProofs.mapM_ok _ _ (file_path (the_vfs s)) (i :: tl)) as (ps & ->).
    { intros j Hj. apply A in Hj. unfold file_path. apply nth_error_Some in Hj.
      destruct (nth_error (interner (the_vfs s)) j); [eauto|congruence]. }
    cbn [bind]. eexists. split; [reflexivity|]. apply rel_diags; [|exact R].
    split; cbn [DiagModel.changes DiagModel.check]; [intros j []|exact B].
Qed.

Lemma prime_rel : forall w s, rel w [] s -> rel w [] (maybe_prime s).
Proof.
  intros w s R. unfold maybe_prime, OpQueueModel.should_start_op. pose proof (r_jobs _ _ _ R) as J.
  destruct (OpQueueModel.op_in_progress unit (queue s)) eqn:Ep.
  - destruct R. constructor; auto.
  - destruct (OpQueueModel.op_requested unit (queue s)) eqn:Er; destruct R; constructor; auto.
    cbn [jobs queue with_queue OpQueueModel.op_in_progress]. lia.
Qed.
Lemma status_rel : forall w s, rel w [] s -> rel w [] (update_status_or_notify s).
Proof. intros w s R. destruct R. constructor; auto. Qed.

(** ** What arrives *)

(** The turns that crash before the changes are processed *)
Inductive fatal_at_once (out : list (Z * string)) (w : world) : turn E -> Prop :=
| a_malformed m j : malformed m j -> fatal_at_once out w (Lsp (Notification m j))
| a_reply r : ~ awaited out w (r_id r) -> fatal_at_once out w (Lsp (Reply r))
| a_change j u v cs p : change_params E j = Some (u, v, cs) -> vfs_path E u = Some p -> opened w p = true ->
    edited w p cs = None -> fatal_at_once out w (Lsp (Notification "textDocument/didChange" j)).

(** The outcome of the first half of a turn *)
Definition arrives (w : world) (s : state) (t : turn E) (r : res state) : Prop :=
  match r with
  | Panic => fatal_at_once (sent (client_ s)) w t
  | Ok s1 => ~ fatal_at_once (sent (client_ s)) w t /\
      exists w1 us, rel w1 us s1 /\ (exists w', next (sent (client_ s)) w t w') /\
        (forall w', next (sent (client_ s)) w t w' -> same (file_world w1 us) w') /\
        ((exists us', writes w t us' /\ homeless w us') <-> homeless w1 us)
  end.

Lemma world_nil : forall w : world, same (file_world w []) w.
Proof.
  intros w. unfold same, file_world. cbn [disk opened known settings answered]. repeat split; auto.
  - intros [H|((q & Hq) & _)]; [exact H|discriminate].
Qed.
Lemma not_homeless_nil : forall w : world, ~ homeless w [].
Proof. intros w (p & H1 & H2 & _). exact (H2 H1). Qed.

(** A turn that touches nothing the world knows *)
Lemma arrives_other : forall w s t s1, rel w [] s1 -> ~ fatal_at_once (sent (client_ s)) w t ->
  (forall us, ~ writes w t us) -> (forall r, t <> Lsp (Reply r)) ->
  (forall j u p, t = Lsp (Notification "textDocument/didClose" j) -> close_params E j = Some u -> vfs_path E u = Some p -> False) ->
  arrives w s t (Ok s1).
Proof.
  intros w s t s1 R Nf Nw Nr Nc. split; [exact Nf|]. exists w, []. split; [exact R|].
  split; [exists w; apply n_other; assumption|]. split.
  - intros w' Hn. destruct Hn as [j u v t p us _ _ Hw|j us Hw|l|j u p Hj Hu|r n _|t _ _ _].
    + exfalso. exact (Nw _ Hw).
    + exfalso. exact (Nw _ Hw).
    + exfalso. apply (Nw _ (w_load _ _)).
    + exfalso. eapply Nc; eauto.
    + exfalso. eapply Nr; reflexivity.
    + apply world_nil.
  - split; [intros (us & Hw & _); exfalso; exact (Nw _ Hw)|]. intros H. exfalso. exact (not_homeless_nil _ H).
Qed.

(** A turn that writes the files [us] *)
Lemma arrives_writes : forall w s t s1 o us, ~ fatal_at_once (sent (client_ s)) w t ->
  rel (World (disk w) o (known w) (settings w) (answered w)) us s1 ->
  writes w t us -> (forall us', writes w t us' -> us' = us) ->
  (exists w', next (sent (client_ s)) w t w') ->
  (forall w', next (sent (client_ s)) w t w' -> (forall p, opened w' p = o p) /\
      exists us', writes w t us' /\ disk w' = written (disk w) us' /\ known w' = known (file_world w us') /\
                  settings w' = settings w /\ answered w' = answered w) ->
  arrives w s t (Ok s1).
Proof.
  intros w s t s1 o us Nf R Hw Uw Nx Hn. split; [exact Nf|].
  exists (World (disk w) o (known w) (settings w) (answered w)), us. split; [exact R|]. split; [exact Nx|]. split.
  - intros w' H. destruct (Hn _ H) as (Ho & us' & Hw' & Ed & Ek & Es & Ea). apply Uw in Hw'. subst us'.
    unfold same, file_world. cbn [disk opened known settings answered]. rewrite Ed, Ek, Es, Ea.
    cbn [known file_world]. repeat apply conj; auto; try reflexivity.
  - split.
    + intros (us' & Hw' & H). apply Uw in Hw'. subst us'. exact H.
    + intros H. exists us. split; [exact Hw|exact H].
Qed.

Lemma writes_open_inv : forall (w : world) j us, writes w (Lsp (Notification "textDocument/didOpen" j)) us ->
  exists u v t p, open_params E j = Some (u, v, t) /\ vfs_path E u = Some p /\ us = [(p, Some (encode t))].
Proof. intros w j us H. inversion H; subst. do 4 eexists. eauto. Qed.
Lemma writes_change_inv : forall (w : world) j us, writes w (Lsp (Notification "textDocument/didChange" j)) us ->
  exists u v cs p t, change_params E j = Some (u, v, cs) /\ vfs_path E u = Some p /\ opened w p = true /\
    edited w p cs = Some t /\ us = [(p, Some (encode t))].
Proof. intros w j us H. inversion H; subst. do 5 eexists. eauto 6. Qed.
Lemma writes_notification : forall (w : world) m j us, writes w (Lsp (Notification m j)) us ->
  m = "textDocument/didOpen" \/ m = "textDocument/didChange".
Proof. intros w m j us H. inversion H; subst; auto. Qed.
Lemma next_open_inv : forall out (w : world) j w', next out w (Lsp (Notification "textDocument/didOpen" j)) w' ->
  (exists u v t p us, open_params E j = Some (u, v, t) /\ vfs_path E u = Some p /\
     writes w (Lsp (Notification "textDocument/didOpen" j)) us /\
     w' = (let w' := file_world w us in World (disk w') (set_open (opened w) p true) (known w') (settings w) (answered w))) \/
  (forall us, ~ writes w (Lsp (Notification "textDocument/didOpen" j)) us).
Proof.
  intros out w j w' H. inversion H; subst.
  - left. do 5 eexists. eauto 6.
  - right. assumption.
Qed.
Lemma next_change_inv : forall out (w : world) j w', next out w (Lsp (Notification "textDocument/didChange" j)) w' ->
  (exists us, writes w (Lsp (Notification "textDocument/didChange" j)) us /\ w' = file_world w us) \/
  (forall us, ~ writes w (Lsp (Notification "textDocument/didChange" j)) us).
Proof.
  intros out w j w' H. inversion H; subst.
  - left. eauto.
  - right. assumption.
Qed.

Lemma open_arrives : forall w s j x, rel w [] s -> open_params E j = Some x ->
  arrives w s (Lsp (Notification "textDocument/didOpen" j)) (did_open s x).
Proof.
  intros w s j [[u v] t] R Hj.
  assert (Nf : ~ fatal_at_once (sent (client_ s)) w (Lsp (Notification "textDocument/didOpen" j))).
  { intros H. inversion H as [m0 j0 Hm| |]; subst. unfold malformed in Hm.
    repeat destruct Hm as [Hm|Hm]; destruct Hm as [Hm1 Hm2]; try discriminate Hm1; congruence. }
  cbn [did_open]. destruct (vfs_path E u) as [p|] eqn:Hu.
  - unfold document. cbn [handle sv_vfs sv_docs sv_enc].
    destruct (set_spec _ _ _ p (Some (encode t)) (r_inv _ _ _ R)) as (v1 & -> & I1 & e & Ee). cbn [bind fst sv_vfs sv_docs].
    apply arrives_writes with (o := set_open (opened w) p true) (us := [(p, Some (encode t))]).
    + exact Nf.
    + change [(p, Some (encode t))] with ([] ++ [(p, Some (encode t))]). eapply rel_vfs; eauto.
      * intros q. rewrite doc_contains_insert. unfold set_open. destruct (path_eq_dec p q); [reflexivity|]. apply (r_open _ _ _ R).
      * intros q Hq. unfold written. cbn [app fold_left]. unfold write, set_open in *. cbn [fst snd].
        destruct (path_eq_dec p q); [discriminate|]. exact (r_here _ _ _ R _ Hq).
    + eapply w_open; eauto.
    + intros us' H. apply writes_open_inv in H. destruct H as (u' & v' & t' & p' & H1 & H2 & ->). congruence.
    + eexists. eapply n_open; eauto. eapply w_open; eauto.
    + intros w' H. apply next_open_inv in H.
      destruct H as [(u' & v' & t' & p' & us' & H1 & H2 & H3 & ->)|H]; [|exfalso; eapply H; eapply w_open; eauto].
      assert (p' = p) as -> by congruence. split; [reflexivity|]. exists us'. split; [exact H3|]. repeat split.
  - apply arrives_other; auto.
    + intros us H. apply writes_open_inv in H. destruct H as (u' & v' & t' & p' & H1 & H2 & _). congruence.
    + discriminate.
    + intros j0 u0 p0 H. discriminate H.
Qed.

Lemma change_arrives : forall w s j x, rel w [] s -> change_params E j = Some x ->
  arrives w s (Lsp (Notification "textDocument/didChange" j)) (did_change s x).
Proof.
  intros w s j [[u v] cs] R Hj.
  assert (Fe : forall p, vfs_path E u = Some p -> ~ (opened w p = true /\ edited w p cs = None) ->
     ~ fatal_at_once (sent (client_ s)) w (Lsp (Notification "textDocument/didChange" j))).
  { intros p Hp N H. inversion H as [m0 j0 Hm| |j0 u0 v0 cs0 p0 H1 H2 H3 H4]; subst.
    - unfold malformed in Hm. repeat destruct Hm as [Hm|Hm]; destruct Hm as [Hm1 Hm2]; try discriminate Hm1; congruence.
    - apply N. assert (u0 = u /\ cs0 = cs) as [-> ->] by (split; congruence). assert (p0 = p) as -> by congruence. auto. }
  cbn [did_change]. destruct (vfs_path E u) as [p|] eqn:Hu.
  2: { apply arrives_other; auto.
       - intros H. inversion H as [m0 j0 Hm| |j0 u0 v0 cs0 p0 H1 H2 H3 H4]; subst.
         + unfold malformed in Hm. repeat destruct Hm as [Hm|Hm]; destruct Hm as [Hm1 Hm2]; try discriminate Hm1; congruence.
         + congruence.
       - intros us H. apply writes_change_inv in H. destruct H as (u' & v' & t' & p' & t0 & H1 & H2 & _). congruence.
       - discriminate.
       - intros j0 u0 p0 H. discriminate H. }
  specialize (Fe p eq_refl). unfold document. cbn [handle sv_vfs sv_docs sv_enc].
  destruct (doc_contains (docs s) p) eqn:Ho; rewrite (r_open _ _ _ R) in Ho.
  2: { cbn [bind sv_vfs sv_docs].
       apply arrives_other; auto.
       - destruct R. constructor; auto.
       - apply Fe. intros [H _]. congruence.
       - intros us H. apply writes_change_inv in H. destruct H as (u' & v' & t' & p' & t0 & H1 & H2 & H3 & _). congruence.
       - discriminate.
       - intros j0 u0 p0 H. discriminate H. }
  pose proof (r_inv _ _ _ R) as I. unfold written in I. cbn [fold_left log_of] in I.
  pose proof (r_here _ _ _ R _ Ho) as Hh. unfold written in Hh. cbn [fold_left] in Hh.
  rewrite (inv_file_id _ _ _ p I). cbn [bind].
  destruct (disk w p) as [bs|] eqn:Ed; [|congruence].
  destruct (index_of p (interner (the_vfs s))) as [i|] eqn:Ei; [|rewrite (i_none _ _ _ I p Ei) in Ed; discriminate].
  unfold file_contents, get. rewrite (i_data _ _ _ I _ _ Ei), Ed. cbn [bind].
  assert (Ee : edited w p cs = match decode bs with Some t => apply_document_changes (enc E) t cs | None => None end)
    by (unfold edited; rewrite Ed; reflexivity).
  destruct (decode bs) as [t|].
  2: { cbn [bind arrives]. eapply a_change; eauto. }
  destruct (apply_document_changes (enc E) t cs) as [t'|].
  2: { cbn [bind arrives]. eapply a_change; eauto. }
  destruct (set_spec _ _ _ p (Some (encode t')) I) as (v1 & -> & I1 & e & Ee1). cbn [bind fst sv_vfs sv_docs].
  apply arrives_writes with (o := opened w) (us := [(p, Some (encode t'))]).
  - apply Fe. intros [_ H]. congruence.
  - change [(p, Some (encode t'))] with ([] ++ [(p, Some (encode t'))]). eapply rel_vfs; eauto.
    + intros q. rewrite doc_contains_insert. unfold set_open. destruct (path_eq_dec p q) as [->|]; [congruence|]. apply (r_open _ _ _ R).
    + intros q Hq. unfold written. cbn [app fold_left]. unfold write. cbn [fst snd].
      destruct (path_eq_dec p q); [discriminate|]. exact (r_here _ _ _ R _ Hq).
  - eapply w_change; eauto.
  - intros us' H. apply writes_change_inv in H. destruct H as (u' & v' & cs' & p' & t0 & H1 & H2 & _ & H4 & ->).
    assert (cs' = cs) as -> by congruence. assert (p' = p) as -> by congruence. congruence.
  - eexists. apply n_change. eapply w_change; eauto.
  - intros w' H. apply next_change_inv in H.
    destruct H as [(us' & H3 & ->)|H]; [|exfalso; eapply H; eapply w_change; eauto].
    split; [reflexivity|]. exists us'. split; [exact H3|]. repeat split.
Qed.

Lemma close_arrives : forall w s j u, rel w [] s -> close_params E j = Some u ->
  arrives w s (Lsp (Notification "textDocument/didClose" j)) (did_close s u).
Proof.
  intros w s j u R Hj.
  assert (Nf : ~ fatal_at_once (sent (client_ s)) w (Lsp (Notification "textDocument/didClose" j))).
  { intros H. inversion H as [m0 j0 Hm| |]; subst. unfold malformed in Hm.
    repeat destruct Hm as [Hm|Hm]; destruct Hm as [Hm1 Hm2]; try discriminate Hm1; congruence. }
  assert (Nw : forall us, ~ writes w (Lsp (Notification "textDocument/didClose" j)) us).
  { intros us H. apply writes_notification in H. destruct H; discriminate. }
  unfold did_close. destruct (vfs_path E u) as [p|] eqn:Hu.
  2: { apply arrives_other; auto; [discriminate|]. intros j0 u0 p0 H H1 H2. injection H as <-. congruence. }
  unfold document. cbn [handle sv_vfs sv_docs bind].
  set (w1 := World (disk w) (set_open (opened w) p false) (known w) (settings w) (answered w)).
  set (s1 := with_docs _ (doc_remove (docs s) p) true).
  assert (R1 : rel w1 [] s1).
  { unfold s1, w1. change (@nil update) with (@nil update ++ []). eapply rel_vfs with (e := []); eauto.
    - rewrite app_nil_r. reflexivity.
    - exact (r_inv _ _ _ R).
    - intros q. rewrite doc_contains_remove. unfold set_open. destruct (path_eq_dec p q); [reflexivity|]. apply (r_open _ _ _ R).
    - intros q Hq. unfold set_open in Hq. destruct (path_eq_dec p q); [discriminate|]. exact (r_here _ _ _ R _ Hq). }
  rewrite (inv_file_id _ _ _ p (r_inv _ _ _ R1)). cbn [bind].
  set (s2 := match _ with Some i => _ | None => s1 end).
  assert (R2 : rel w1 [] s2).
  { unfold s2. destruct (written (disk w1) [] p); [|exact R1].
    destruct (index_of p (interner (the_vfs s1))) as [i|] eqn:Ei; [|exact R1].
    apply rel_diags; [|exact R1]. apply below_clear_native; [apply index_of_lt in Ei; exact Ei|exact (r_diags _ _ _ R1)]. }
  split; [exact Nf|]. exists w1, []. split; [exact R2|].
  split; [eexists; eapply n_close; eauto|]. split.
  - intros w' H. assert (w' = w1) as ->; [|apply world_nil].
    inversion H as [| | |j0 u0 p0 H1 H2| |t0 H1 H2 H3]; subst.
    + unfold w1. congruence.
    + exfalso. eapply H3; eauto.
  - split; [intros (us & H & _); exfalso; exact (Nw _ H)|]. intros H. exfalso. exact (not_homeless_nil _ H).
Qed.

(** *** Answers *)

Lemma settings_rel : forall w s e c, rel w [] s ->
  exists s', update_configuration (with_errors s e) c = Ok s' /\
             rel (World (disk w) (opened w) (known w) c (answered w)) [] s'.
Proof.
  intros w s e c R. unfold update_configuration. cbn [cfg with_errors].
  set (s1 := if paths_eq_dec (cfg_roots E c) (cfg_roots E (cfg s)) then _ else _).
  assert (R1 : rel (World (disk w) (opened w) (known w) c (answered w)) [] s1).
  { unfold s1. destruct (paths_eq_dec (cfg_roots E c) (cfg_roots E (cfg s))) as [Ec|Nc]; destruct R; constructor; auto.
    cbn [files cfg with_cfg with_errors]. rewrite Ec. assumption. }
  destruct (compiler_differs E c (cfg s)); [|eauto]. destruct (reload_ok _ _ _ R1) as (s' & -> & ->). eauto.
Qed.

Lemma reply_arrives : forall w s r, rel w [] s -> arrives w s (Lsp (Reply r)) (complete_request s r).
Proof.
  intros w s r R. destruct (r_calls _ _ _ R) as (A & B & C & D). unfold complete_request.
  assert (Aw : forall n, r_id r = RequestsModel.IdNum n ->
            (awaited (sent (client_ s)) w (r_id r) <-> find_out (outgoing (client_ s)) n <> None)).
  { intros n Hn. rewrite A, Hn. unfold awaited. split.
    - intros (n' & m & H1 & H2 & H3). injection H1 as <-. eauto.
    - intros ((m & Hm) & Hk). exists n, m. auto. }
  assert (Nw : forall us, ~ writes w (Lsp (Reply r)) us) by (intros us H; inversion H).
  destruct (complete (client_ s) (r_id r)) as [[h c]|] eqn:Ec.
  2: { cbn [arrives]. apply a_reply. unfold complete in Ec. destruct (r_id r) as [n|z] eqn:Er.
       - destruct (find_out (outgoing (client_ s)) n) eqn:Ef; [discriminate|]. intros H.
         apply (Aw n eq_refl) in H. congruence.
       - intros (n & m & H & _). discriminate. }
  unfold complete in Ec. destruct (r_id r) as [n|z] eqn:Er; [|discriminate].
  destruct (find_out (outgoing (client_ s)) n) as [h'|] eqn:Ef; [|discriminate]. injection Ec as -> <-.
  assert (Nf : ~ fatal_at_once (sent (client_ s)) w (Lsp (Reply r))).
  { intros H. inversion H as [|r0 Hr|]; subst. apply Hr. rewrite Er. apply (Aw n eq_refl). congruence. }
  set (c1 := Client _ _ _).
  set (w0 := World (disk w) (opened w) (known w) (settings w) (n :: answered w)).
  assert (Sent : sent c1 = sent (client_ s)) by reflexivity.
  assert (R0 : rel w0 [] (with_client s c1)).
  { destruct R. constructor; auto. unfold calls_ok, c1. cbn [client_ with_client outgoing next_id sent answered w0].
    repeat apply conj.
    - intros k. rewrite find_out_remove. destruct (Z.eqb_spec n k) as [<-|Nk].
      + split; [congruence|]. intros [_ H]. exfalso. apply H. left. reflexivity.
      + rewrite A. split; intros [H1 H2]; (split; [exact H1|]); intros H3.
        * destruct H3 as [H3|H3]; [contradiction|]. exact (H2 H3).
        * apply H2. right. exact H3.
    - intros k h0. rewrite find_out_remove. destruct (Z.eqb n k); [discriminate|]. apply B.
    - exact C.
    - intros k [<-|H]; [|apply D; exact H].
      assert (Hn : find_out (outgoing (client_ s)) n <> None) by congruence. apply A in Hn. destruct Hn as [(m & Hm) _].
      apply C in Hm. exact Hm. }
  assert (Cfg : existsb (fun x => Z.eqb (fst x) n && String.eqb (snd x) "workspace/configuration") (sent (client_ s)) =
                match h with ApplySettings => true | Nothing => false end).
  { pose proof (B _ _ Ef) as Bh. destruct h.
    - apply existsb_exists. exists (n, "workspace/configuration"). split; [exact Bh|]. cbn [fst snd]. rewrite Z.eqb_refl. reflexivity.
    - apply not_true_iff_false. intros H. apply existsb_exists in H. destruct H as ([k m] & H1 & H2).
      apply andb_prop in H2. destruct H2 as [H2 H3]. cbn [fst snd] in *. apply Z.eqb_eq in H2. apply String.eqb_eq in H3.
      subst. contradiction. }
  assert (Fin : forall s', rel (World (disk w) (opened w) (known w) (new_settings (sent (client_ s)) w r) (n :: answered w)) [] s' ->
            arrives w s (Lsp (Reply r)) (Ok s')).
  { intros s' R'. split; [exact Nf|]. eexists. exists []. split; [exact R'|]. split; [eexists; apply n_reply; eauto|]. split.
    - intros w' H. inversion H as [| | | |r0 n0 H1|t0 H1 H2 H3]; subst.
      + rewrite Er in H1. injection H1 as <-. apply world_nil.
      + exfalso. eapply H2; reflexivity.
    - split; [intros (us & H & _); exfalso; exact (Nw _ H)|]. intros H. exfalso. exact (not_homeless_nil _ H). }
  unfold new_settings in Fin. rewrite Er, Cfg in Fin. destruct h.
  - destruct (r_error r); [apply Fin; exact R0|]. destruct (r_result r) as [v|]; [|apply Fin; exact R0].
    cbn [cfg with_client]. rewrite (r_cfg _ _ _ R).
    destruct (first_setting E v) as [j|]; [|apply Fin; exact R0].
    destruct (update_config E (settings w) j) as [c' e] eqn:Eu. cbn [fst] in Fin.
    destruct (settings_rel _ _ e c' R0) as (s' & -> & R'). apply Fin. exact R'.
  - destruct (r_error r), (r_result r); apply Fin; exact R0.
Qed.

(** *** Notifications *)

Lemma bind_ok : forall A (x : res A), bind x (fun s => Ok s) = x.
Proof. intros A [x|]; reflexivity. Qed.

Lemma sync_other : forall P m parse (f : state -> P -> res state) m' j s, m' <> m ->
  on_sync_mut m parse f (Some (m', j), s) = Ok (Some (m', j), s).
Proof. intros P m parse f m' j s N. unfold on_sync_mut. cbn [fst]. destruct (String.eqb_spec m' m); [contradiction|reflexivity]. Qed.
Lemma sync_none : forall P m parse (f : state -> P -> res state) s, on_sync_mut m parse f (None, s) = Ok (None, s).
Proof. reflexivity. Qed.
Lemma sync_same : forall P m parse (f : state -> P -> res state) j s,
  on_sync_mut m parse f (Some (m, j), s) =
  match parse j with None => Panic | Some x => bind (f s x) (fun s => Ok (None, s)) end.
Proof. intros. unfold on_sync_mut. cbn [fst snd]. rewrite String.eqb_refl. reflexivity. Qed.

Ltac pass := repeat first [rewrite sync_other by discriminate | rewrite sync_none | progress cbn [bind snd]].

(** The handler of a method gets the notification, and nothing comes after it. *)
Lemma to_open : forall s j, on_notification s "textDocument/didOpen" j =
  match open_params E j with None => Panic | Some x => did_open s x end.
Proof.
  intros s j. unfold on_notification. rewrite sync_same. destruct (open_params E j); [|reflexivity].
  destruct (did_open s p); cbn [bind]; [|reflexivity]. pass. reflexivity.
Qed.
Lemma to_change : forall s j, on_notification s "textDocument/didChange" j =
  match change_params E j with None => Panic | Some x => did_change s x end.
Proof.
  intros s j. unfold on_notification. pass. rewrite sync_same. destruct (change_params E j); [|reflexivity].
  destruct (did_change s p); cbn [bind]; [|reflexivity]. pass. reflexivity.
Qed.
Lemma to_close : forall s j, on_notification s "textDocument/didClose" j =
  match close_params E j with None => Panic | Some x => did_close s x end.
Proof.
  intros s j. unfold on_notification. pass. rewrite sync_same. destruct (close_params E j); [|reflexivity].
  destruct (did_close s u); cbn [bind]; [|reflexivity]. pass. reflexivity.
Qed.
Lemma to_save : forall s j, on_notification s "textDocument/didSave" j =
  match save_params E j with None => Panic | Some x => did_save s x end.
Proof.
  intros s j. unfold on_notification. pass. rewrite sync_same. destruct (save_params E j); [|reflexivity].
  destruct (did_save s u); cbn [bind]; [|reflexivity]. pass. reflexivity.
Qed.
Lemma to_config : forall s j, on_notification s "workspace/didChangeConfiguration" j =
  match config_params E j with None => Panic | Some x => did_change_configuration s x end.
Proof.
  intros s j. unfold on_notification. pass. rewrite sync_same. destruct (config_params E j); [|reflexivity].
  destruct (did_change_configuration s u); cbn [bind]; [|reflexivity]. pass. reflexivity.
Qed.
Lemma to_watched : forall s j, on_notification s "workspace/didChangeWatchedFiles" j =
  match watched_params E j with None => Panic | Some x => Ok s end.
Proof.
  intros s j. unfold on_notification. pass. rewrite sync_same. destruct (watched_params E j); [|reflexivity].
  cbn [did_change_watched_files bind]. pass. reflexivity.
Qed.
Lemma to_cancel : forall s j, on_notification s "window/workDoneProgress/cancel" j =
  match cancel_params E j with None => Panic | Some x => Ok s end.
Proof.
  intros s j. unfold on_notification. pass. rewrite sync_same. destruct (cancel_params E j); [|reflexivity].
  cbn [work_done_progress_cancel bind]. pass. reflexivity.
Qed.

(** A notification about nothing the world knows *)
Lemma quiet_arrives : forall w s m j s', rel w [] s' -> ~ malformed m j ->
  m <> "textDocument/didOpen" -> m <> "textDocument/didChange" -> m <> "textDocument/didClose" ->
  arrives w s (Lsp (Notification m j)) (Ok s').
Proof.
  intros w s m j s' R Nm N1 N2 N3. apply arrives_other; auto.
  - intros H. inversion H; subst; [contradiction|]. congruence.
  - intros us H. apply writes_notification in H. destruct H; contradiction.
  - discriminate.
  - intros j0 u p H. injection H as -> _. congruence.
Qed.

Ltac by_malformed := cbn [arrives]; apply a_malformed; unfold malformed; intuition.
Ltac well_formed := intros Hm; unfold malformed in Hm;
  repeat destruct Hm as [Hm|Hm]; destruct Hm as [Hm1 Hm2]; try discriminate Hm1; congruence.

Lemma notification_arrives : forall w s m j, rel w [] s -> arrives w s (Lsp (Notification m j)) (on_notification s m j).
Proof.
  intros w s m j R.
  destruct (string_dec m "textDocument/didOpen") as [->|N1].
  { rewrite to_open. destruct (open_params E j) eqn:P; [apply open_arrives; assumption|by_malformed]. }
  destruct (string_dec m "textDocument/didChange") as [->|N2].
  { rewrite to_change. destruct (change_params E j) eqn:P; [apply change_arrives; assumption|by_malformed]. }
  destruct (string_dec m "textDocument/didClose") as [->|N3].
  { rewrite to_close. destruct (close_params E j) eqn:P; [apply close_arrives; assumption|by_malformed]. }
  destruct (string_dec m "textDocument/didSave") as [->|N4].
  { rewrite to_save. destruct (save_params E j) as [u|] eqn:P; [|by_malformed].
    unfold did_save. destruct (vfs_path E u); [rewrite (inv_file_id _ _ _ _ (r_inv _ _ _ R)); cbn [bind]|];
      apply quiet_arrives; auto; try discriminate; well_formed. }
  destruct (string_dec m "workspace/didChangeConfiguration") as [->|N5].
  { rewrite to_config. destruct (config_params E j) as [u|] eqn:P; [|by_malformed].
    assert (Nm : ~ malformed "workspace/didChangeConfiguration" j) by well_formed.
    unfold did_change_configuration. destruct (pulls E (cfg s)); apply quiet_arrives; auto.
    apply rel_send; [split; reflexivity|exact R]. }
  destruct (string_dec m "workspace/didChangeWatchedFiles") as [->|N6].
  { rewrite to_watched. destruct (watched_params E j) as [u|] eqn:P; [|by_malformed]. apply quiet_arrives; auto; well_formed. }
  destruct (string_dec m "window/workDoneProgress/cancel") as [->|N7].
  { rewrite to_cancel. destruct (cancel_params E j) as [u|] eqn:P; [|by_malformed]. apply quiet_arrives; auto; well_formed. }
  unfold on_notification. repeat (rewrite sync_other by assumption; cbn [bind]). cbn [snd].
  apply quiet_arrives; auto. intros Hm. unfold malformed in Hm.
  repeat destruct Hm as [Hm|Hm]; destruct Hm as [Hm1 Hm2]; contradiction.
Qed.

(** *** Files loaded *)

Lemma vfs_rel : forall l w us s, rel w us s ->
  (forall total done v, In (Progress total done v) l -> done <= total) ->
  exists s', foldM handle_vfs_msg s l = Ok s' /\ rel w (us ++ loads w l) s' /\ sent (client_ s') = sent (client_ s') .
Proof.
  induction l as [|m tl IH]; intros w us s R T; cbn [foldM].
  - exists s. unfold loads. cbn [flat_map]. rewrite app_nil_r. auto.
  - destruct m as [fs|total done v]; cbn [handle_vfs_msg].
    + unfold document. cbn [handle sv_vfs sv_docs].
      destruct (load_exact (docs s) fs w us (the_vfs s) (r_inv _ _ _ R)) as (v1 & e & -> & Ee & I1). cbn [bind sv_vfs sv_docs].
      set (us' := filter (fun x => negb (doc_contains (docs s) (fst x))) fs) in *.
      assert (Eu : us' = filter (fun x => negb (opened w (fst x))) fs)
        by (apply filter_ext; intros x; rewrite (r_open _ _ _ R); reflexivity).
      set (s1 := with_docs _ (docs s) (added_or_removed s)).
      assert (Keep : forall x g p, (forall u, In u x -> fst u <> p) -> written g x p = g p).
      { induction x as [|u x IHx]; intros g p Hx; [reflexivity|]. unfold written in *. cbn [fold_left].
        rewrite IHx by (intros; apply Hx; right; assumption). apply write_other. apply Hx. left. reflexivity. }
      assert (R1 : rel w (us ++ us') s1).
      { assert (R0 : rel (World (disk w) (opened w) (known w) (settings w) (answered w)) (us ++ us') s1).
        { eapply rel_vfs; eauto; [apply (r_open _ _ _ R)|]. intros p Hp.
          unfold written. rewrite fold_left_app. fold (written (disk w) us). fold (written (written (disk w) us) us').
          rewrite Keep; [exact (r_here _ _ _ R _ Hp)|]. intros u Hu. rewrite Eu in Hu. apply filter_In in Hu.
          destruct Hu as [_ Hu]. intros <-. rewrite Hp in Hu. discriminate. }
        destruct w. exact R0. }
      destruct (IH _ _ _ R1) as (s' & Es & R' & _); [intros; eapply T; right; eauto|].
      exists s'. split; [exact Es|]. split; [|reflexivity]. rewrite Eu in R'. unfold loads in *. cbn [flat_map].
      rewrite app_assoc. exact R'.
    + assert (L : done <= total) by (eapply T; left; reflexivity).
      assert (negb (done =? 0) && negb (done <? total) && negb (done =? total) = false) as ->.
      { destruct (Nat.eqb_spec done 0), (Nat.ltb_spec done total), (Nat.eqb_spec done total); simpl; auto; lia. }
      assert (total <? done = false) as -> by (apply Nat.ltb_ge; exact L). cbn [bind].
      apply IH; [|intros; eapply T; right; eauto]. apply rel_progress. destruct R. constructor; auto.
Qed.

Lemma load_arrives : forall w s l, rel w [] s -> tame s (Vfs l) -> arrives w s (Vfs l) (foldM handle_vfs_msg s l).
Proof.
  intros w s l R T. destruct (vfs_rel l w [] s R T) as (s' & -> & R' & _). cbn [app] in R'.
  apply arrives_writes with (o := opened w) (us := loads w l).
  - intros H. inversion H.
  - destruct w. exact R'.
  - apply w_load.
  - intros us' H. inversion H; subst. reflexivity.
  - eexists. apply n_load.
  - intros w' H. inversion H as [| |l0| | |t0 H1 H2 H3]; subst.
    + split; [reflexivity|]. exists (loads w l). split; [apply w_load|]. repeat split.
    + exfalso. eapply H1. apply w_load.
Qed.

(** *** The compiler *)

Lemma check_rel : forall l w s, rel w [] s -> exists s', foldM handle_flycheck_msg s l = Ok s' /\ rel w [] s'.
Proof.
  induction l as [|m tl IH]; intros w s R; cbn [foldM]; [eauto|].
  assert (H : exists s1, handle_flycheck_msg s m = Ok s1 /\ rel w [] s1).
  { destruct m as [id p d|id pr]; cbn [handle_flycheck_msg].
    - rewrite (inv_file_id _ _ _ p (r_inv _ _ _ R)). cbn [bind]. eexists. split; [reflexivity|].
      destruct (written (disk w) [] p); [|exact R]. destruct (index_of p (interner (the_vfs s))) as [i|] eqn:Ei; [|exact R].
      apply rel_diags; [|exact R]. apply below_add; [apply index_of_lt in Ei; exact Ei|exact (r_diags _ _ _ R)].
    - destruct pr; eexists; (split; [reflexivity|]); auto.
      apply rel_progress. apply rel_diags; [|exact R]. apply below_clear_check. exact (r_diags _ _ _ R). }
  destruct H as (s1 & -> & R1). cbn [bind]. apply IH. exact R1.
Qed.

(** *** Tasks *)

Definition is_end (p : prime_progress) : bool := match p with End _ => true | _ => false end.
Definition ends_of (ps : list prime_progress) : nat := List.length (filter is_end ps).
Definition modest (ps : list prime_progress) : Prop := forall d n, In (Report d n) ps -> d <= n.

Lemma ends_of_app : forall a b, ends_of (a ++ b) = ends_of a + ends_of b.
Proof. intros. unfold ends_of. rewrite filter_app, app_length. reflexivity. Qed.
Lemma modest_app : forall a b, modest a -> modest b -> modest (a ++ b).
Proof. intros a b A B d n H. apply in_app_iff in H. destruct H; auto. Qed.

Lemma tasks_rel : forall l w s ps,
  rel w [] s -> modest ps ->
  (forall d n, In (PrimeCaches (Report d n)) l -> d <= n) ->
  (forall ds i x, In (Diagnostics ds) l -> In (i, x) ds -> i < List.length (interner (the_vfs s))) ->
  exists s' ps', fold_left handle_task l (s, ps) = (s', ps') /\ rel w [] s' /\ modest ps' /\
    ends_of ps' = ends_of ps + ends l /\ jobs s' = jobs s.
Proof.
  induction l as [|t tl IH]; intros w s ps R M T D; cbn [fold_left].
  - exists s, ps. unfold ends. simpl. repeat apply conj; auto.
  - destruct (handle_task (s, ps) t) as [s1 ps1] eqn:Eh.
    assert (H : rel w [] s1 /\ modest ps1 /\
              ends_of ps1 = ends_of ps + match t with PrimeCaches (End _) => 1 | _ => 0 end /\ jobs s1 = jobs s /\
              interner (the_vfs s1) = interner (the_vfs s)).
    { destruct t as [t|ds|p]; cbn [handle_task] in Eh.
      - injection Eh as <- <-. repeat apply conj; auto. destruct R. constructor; auto.
      - injection Eh as <- <-. repeat apply conj; auto. apply rel_diags; [|exact R].
        assert (G : forall ds c, (forall i x, In (i, x) ds -> i < List.length (interner (the_vfs s))) ->
                    diag_below (List.length (interner (the_vfs s))) c ->
                    diag_below (List.length (interner (the_vfs s)))
                      (fold_left (fun c x => DiagModel.set_native_diagnostics c (fst x) (snd x)) ds c)).
        { induction ds0 as [|[i x] ds0 IHd]; intros c Hd Hc; [exact Hc|]. cbn [fold_left]. apply IHd.
          - intros i' x' H. eapply Hd. right. exact H.
          - apply below_native; [eapply Hd; left; reflexivity|exact Hc]. }
        apply G; [|exact (r_diags _ _ _ R)]. intros i x H. eapply D; [left; reflexivity|exact H].
      - destruct p as [|d n|c].
        + injection Eh as <- <-. split; [exact R|]. split; [apply modest_app; [exact M|intros d n [H|[]]; discriminate]|].
          split; [rewrite ends_of_app; reflexivity|]. auto.
        + injection Eh as <- <-. split; [exact R|].
          assert (Md : modest [Report d n]).
          { intros d' n' [H|[]]. injection H as <- <-. apply T. left. reflexivity. }
          destruct (rev ps) as [|[|d0 n0|c0] rs] eqn:Er;
            try (split; [apply modest_app; assumption|]; split; [rewrite ends_of_app; reflexivity|]; auto).
          assert (Ep : ps = rev rs ++ [Report d0 n0]) by (rewrite <- (rev_involutive ps), Er; reflexivity).
          subst ps. rewrite removelast_last, !ends_of_app. split; [|split; [cbn; lia|auto]].
          apply modest_app; [|exact Md]. intros d' n' H. apply M. apply in_app_iff. left. exact H.
        + injection Eh as <- <-. split; [exact R|]. split; [apply modest_app; [exact M|intros d n [H|[]]; discriminate]|].
          split; [rewrite ends_of_app; reflexivity|]. auto. }
    destruct H as (R1 & M1 & E1 & J1 & In1).
    destruct (IH w s1 ps1 R1 M1) as (s' & ps' & Ef & R' & M' & E' & J').
    { intros; apply T; right; assumption. }
    { intros ds i x H1 H2. rewrite In1. eapply D; [right; exact H1|exact H2]. }
    exists s', ps'. split; [exact Ef|]. split; [exact R'|]. split; [exact M'|]. split; [|congruence].
    rewrite E', E1. unfold ends. cbn [filter]. destruct t as [t|ds|[|d n|c]]; simpl; lia.
Qed.

Lemma progress_rel : forall ps w s, rel w [] s -> modest ps -> ends_of ps <= jobs s ->
  exists s', foldM handle_progress s ps = Ok s' /\ rel w [] s'.
Proof.
  induction ps as [|p tl IH]; intros w s R M L; cbn [foldM]; [eauto|].
  assert (Mt : modest tl) by (intros d n H; apply M; right; exact H).
  destruct p as [|d n|c]; cbn [handle_progress].
  - cbn [bind]. apply IH; [apply rel_progress; exact R|exact Mt|exact L].
  - assert (n <? d = false) as -> by (apply Nat.ltb_ge; apply M; left; reflexivity). cbn [bind].
    apply IH; [apply rel_progress; exact R|exact Mt|exact L].
  - unfold ends_of in L. cbn [filter is_end List.length] in L. fold (ends_of tl) in L.
    pose proof (r_jobs _ _ _ R) as J. unfold OpQueueModel.op_completed.
    destruct (OpQueueModel.op_in_progress unit (queue s)) eqn:Ep; [|lia]. cbn [bind report_progress]. apply IH; auto.
    + destruct R. constructor; auto. cbn [jobs queue with_queue]. rewrite J. destruct c; reflexivity.
    + cbn [jobs with_queue]. lia.
Qed.

Lemma turn_arrives : forall w s t, rel w [] s -> tame s t -> arrives w s t (handle_turn s t).
Proof.
  intros w s t R T. destruct t as [[q|m j|r]|l|l|l]; cbn [handle_turn].
  - apply arrives_other; try discriminate.
    + destruct R. constructor; auto.
    + intros H. inversion H.
    + intros us H. inversion H.
  - apply notification_arrives. exact R.
  - apply reply_arrives. exact R.
  - destruct T as (T1 & T2 & T3).
    destruct (tasks_rel l w s [] R) as (s1 & ps & -> & R1 & M1 & E1 & J1); auto; [intros d n []|].
    destruct (progress_rel ps w s1 R1 M1) as (s2 & -> & R2); [cbn in E1; lia|].
    apply arrives_other; try discriminate; [exact R2| |]; intros; intros H; inversion H.
  - apply load_arrives; assumption.
  - destruct (check_rel l w s R) as (s1 & -> & R1).
    apply arrives_other; try discriminate; [exact R1| |]; intros; intros H; inversion H.
Qed.

Lemma fatal_split : forall out w t, fatal out w t <-> fatal_at_once out w t \/ exists us, writes w t us /\ homeless w us.
Proof.
  intros out w t. split.
  - intros H. destruct H; [left; apply a_malformed|left; apply a_reply|left; eapply a_change|right]; eauto.
  - intros [H|(us & H1 & H2)]; [|eapply f_homeless; eauto].
    destruct H; [apply f_malformed|apply f_reply|eapply f_change]; eauto.
Qed.

(** A turn crashes exactly when it is fatal, and what it leaves is what the world became. *)
Lemma step_exact : forall w s t, rel w [] s -> tame s t ->
  match handle_event s t with
  | Panic => fatal (sent (client_ s)) w t
  | Ok s' => ~ fatal (sent (client_ s)) w t /\ (exists w', next (sent (client_ s)) w t w') /\
             (forall w', next (sent (client_ s)) w t w' -> rel w' [] s')
  end.
Proof.
  intros w s t R T. unfold handle_event. pose proof (turn_arrives w s t R T) as A.
  destruct (handle_turn s t) as [s1|]; cbn [bind]; [|apply fatal_split; left; exact A].
  destruct A as (Nf & w1 & us & R1 & Ex & Sm & Hh).
  pose proof (drain_rel w1 us s1 R1) as D. destruct (process_changes s1) as [[s2 b]|]; cbn [bind].
  2: { apply fatal_split. right. apply Hh. exact D. }
  destruct D as [Nh R2].
  set (s3 := with_docs s2 (docs s2) false).
  assert (R3 : rel (file_world w1 us) [] s3) by (destruct R2; constructor; auto).
  destruct (quiescent_rel _ (is_quiescent s) b (added_or_removed s2) s3 R3) as (s4 & -> & R4). cbn [bind].
  destruct (publish_rel _ s4 R4) as (s5 & -> & R5). cbn [bind].
  split; [|split].
  - rewrite fatal_split. intros [H|H]; [exact (Nf H)|]. apply Nh. apply Hh. exact H.
  - exact Ex.
  - intros w' Hn. apply Sm in Hn. eapply rel_same; [exact Hn|]. apply status_rel, prime_rel. exact R5.
Qed.

Lemma start_rel : forall c, rel (empty_world c) [] (start c).
Proof.
  intros c. constructor; auto.
  - apply inv_empty.
  - discriminate.
  - intros i k H. discriminate H.
  - split; [intros i k H; discriminate H|intros i e []].
  - intros p. split; [|intros []]. intros (i & k & H & _). discriminate H.
  - intros p H. exfalso. apply H. reflexivity.
  - split; [intros i []|intros id m i []].
  - split; [|split; [|split]].
    + intros n. cbn. split; [congruence|]. intros [(m & []) _].
    + intros n h H. discriminate H.
    + intros n m [].
    + intros n [].
Qed.
End Proofs.
