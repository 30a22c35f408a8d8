(** C34: path normalisation. *)
From Coq Require Import List Ascii String Bool Lia.
From Verif Require Import PathsModel PathsSpec.
Import ListNotations.
Local Open Scope list_scope.

Definition path_eq_dec : forall a b : path, {a = b} + {a <> b} := list_eq_dec ascii_dec.
Lemma path_eqb_spec a b : reflect (a = b) (path_eqb a b).
Proof. unfold path_eqb. destruct (list_eq_dec ascii_dec a b); constructor; assumption. Qed.

(** ** Pieces *)

Lemma split_written p : written (split p) p.
Proof.
  induction p as [|c p IH]; simpl; [constructor; intros []|].
  destruct (Ascii.eqb_spec c slash) as [->|Hc].
  - apply (written_more [] (split p) p); [intros []|exact IH].
  - inversion IH as [x Hx E1 E2|x xs q Hx Hw E1 E2]; subst.
    + constructor. intros [E|E]; [apply Hc; exact E|apply Hx; exact E].
    + apply (written_more (c :: x) xs q); [|exact Hw]. intros [E|E]; [apply Hc; exact E|apply Hx; exact E].
Qed.

Lemma written_split xs p : written xs p -> split p = xs.
Proof.
  induction 1 as [x Hx|x xs p Hx Hw IH].
  - induction x as [|c x IHx]; simpl; [reflexivity|].
    destruct (Ascii.eqb_spec c slash) as [->|Hc]; [exfalso; apply Hx; left; reflexivity|].
    rewrite IHx; [reflexivity|]. intros H. apply Hx. right. exact H.
  - induction x as [|c x IHx]; simpl; [rewrite IH; reflexivity|].
    destruct (Ascii.eqb_spec c slash) as [->|Hc]; [exfalso; apply Hx; left; reflexivity|].
    rewrite IHx; [reflexivity|]. intros H. apply Hx. right. exact H.
Qed.

Lemma join_written xs : xs <> [] -> Forall slash_free xs -> written xs (join_pieces xs).
Proof.
  induction xs as [|x xs IH]; intros Hn HF; [contradiction|]. inversion HF; subst.
  destruct xs as [|y xs]; [constructor; assumption|].
  apply (written_more x (y :: xs)); [assumption|]. apply IH; [discriminate|assumption].
Qed.

Lemma written_join xs p : written xs p -> p = join_pieces xs.
Proof.
  induction 1 as [x Hx|x xs p Hx Hw IH]; [reflexivity|].
  destruct xs as [|y xs]; [inversion Hw|]. simpl join_pieces. rewrite IH. reflexivity.
Qed.

Lemma written_free xs p : written xs p -> Forall slash_free xs /\ xs <> [].
Proof.
  induction 1 as [x Hx|x xs p Hx Hw (HF & _)]; (split; [|discriminate]); constructor; auto.
Qed.

Lemma join_snoc xs x : xs <> [] -> join_pieces (xs ++ [x]) = join_pieces xs ++ slash :: x.
Proof.
  induction xs as [|y xs IH]; intros Hn; [contradiction|].
  destruct xs as [|z xs]; [reflexivity|].
  change ((y :: z :: xs) ++ [x]) with (y :: (z :: xs) ++ [x]).
  change (join_pieces (y :: (z :: xs) ++ [x])) with (y ++ slash :: join_pieces ((z :: xs) ++ [x])).
  rewrite IH by discriminate. change (join_pieces (y :: z :: xs)) with (y ++ slash :: join_pieces (z :: xs)).
  rewrite <- app_assoc. reflexivity.
Qed.

(** ** The buffer of [normalize] *)

Definition render (names : list path) : path := slash :: join_pieces names.

Lemma proper_free xs : Forall proper_name xs -> Forall slash_free xs.
Proof. apply Forall_impl. intros x H. apply H. Qed.
Lemma proper_nontrivial x : proper_name x -> trivial x = false.
Proof.
  intros (H1 & H2 & _). unfold trivial.
  destruct (path_eqb_spec x []); [contradiction|]. destruct (path_eqb_spec x [dot]); [contradiction|reflexivity].
Qed.
Lemma drop_proper xs : Forall proper_name xs -> drop_trivial xs = xs.
Proof. intros H. destruct H as [|x xs Hx H]; [reflexivity|]. simpl. rewrite (proper_nontrivial x Hx). reflexivity. Qed.

Lemma split_join xs : xs <> [] -> Forall slash_free xs -> split (join_pieces xs) = xs.
Proof. intros Hn HF. apply written_split. apply join_written; assumption. Qed.

Lemma last_render xs x : x <> [] -> slash_free x ->
  exists c r, rev (render (xs ++ [x])) = c :: r /\ Ascii.eqb c slash = false.
Proof.
  intros Hn Hf. destruct (exists_last Hn) as (x0 & c & E). exists c.
  assert (exists q, render (xs ++ [x]) = q ++ [c]) as (q & Eq).
  { unfold render. destruct xs as [|y xs].
    - simpl. rewrite E. exists (slash :: x0). reflexivity.
    - rewrite join_snoc by discriminate. rewrite E. exists (slash :: join_pieces (y :: xs) ++ slash :: x0).
      simpl. rewrite <- app_assoc. reflexivity. }
  rewrite Eq, rev_app_distr. simpl. exists (rev q). split; [reflexivity|].
  destruct (Ascii.eqb_spec c slash) as [->|]; [|reflexivity]. exfalso. apply Hf. rewrite E. apply in_or_app. right. left. reflexivity.
Qed.

Lemma push_render xs x : Forall proper_name xs -> proper_name x -> push (render xs) x = render (xs ++ [x]).
Proof.
  intros HF Hx. unfold push.
  assert (Ea : is_absolute x = false).
  { destruct x as [|c x]; [reflexivity|]. simpl. destruct (Ascii.eqb_spec c slash) as [->|]; [|reflexivity].
    exfalso. apply (proj2 (proj2 (proj2 Hx))). left. reflexivity. }
  rewrite Ea. destruct xs as [|y xs] using rev_ind.
  - reflexivity.
  - clear IHxs. apply Forall_app in HF. destruct HF as (HF & Hy). inversion Hy as [|? ? Hy' _]; subst.
    destruct (last_render xs y (proj1 Hy') (proj2 (proj2 (proj2 Hy')))) as (c & r & -> & ->).
    unfold render. rewrite (join_snoc (xs ++ [y])) by (destruct xs; discriminate). reflexivity.
Qed.

Lemma pop_render xs x : Forall proper_name xs -> proper_name x -> pop (render (xs ++ [x])) = render xs.
Proof.
  intros HF Hx. unfold pop, parent, render. change (Ascii.eqb slash slash) with true. cbv iota.
  rewrite split_join.
  - unfold without_last. rewrite rev_app_distr. simpl. rewrite (proper_nontrivial x Hx).
    rewrite drop_proper by (apply Forall_rev; exact HF). rewrite rev_involutive. reflexivity.
  - destruct xs; discriminate.
  - apply Forall_app. split; [apply proper_free; exact HF|]. constructor; [apply Hx|constructor].
Qed.
Lemma pop_root : pop (render []) = render [].
Proof. reflexivity. Qed.

(** The names left over. *)
Definition keep (xs : list path) (x : path) : list path :=
  if trivial x then xs else if path_eqb x [dot; dot] then removelast xs else xs ++ [x].

Lemma keep_proper xs x : Forall proper_name xs -> slash_free x -> Forall proper_name (keep xs x).
Proof.
  intros HF Hx. unfold keep. destruct (trivial x) eqn:Et; [exact HF|].
  destruct (path_eqb_spec x [dot; dot]) as [E|Hd].
  - destruct xs as [|y xs] using rev_ind; [constructor|]. rewrite removelast_last. apply Forall_app in HF. apply HF.
  - apply Forall_app. split; [exact HF|]. constructor; [|constructor].
    unfold trivial in Et. destruct (path_eqb_spec x []); [discriminate Et|]. destruct (path_eqb_spec x [dot]); [discriminate Et|].
    repeat split; assumption.
Qed.

Lemma fold_render cs : forall xs, Forall proper_name xs -> Forall slash_free cs ->
  fold_left normalize_step (body cs) (render xs) = render (fold_left keep cs xs) /\
  Forall proper_name (fold_left keep cs xs).
Proof.
  induction cs as [|c cs IH]; intros xs HF Hc; [split; [reflexivity|exact HF]|].
  inversion Hc as [|? ? Hc1 Hc2]; subst. specialize (IH _ (keep_proper xs c HF Hc1) Hc2).
  cbn [body fold_left]. unfold keep at 2 4. unfold keep in IH at 1 3 5.
  destruct (trivial c) eqn:Et; [exact IH|].
  destruct (path_eqb_spec c [dot; dot]) as [E|Hd]; cbn [fold_left normalize_step].
  - destruct xs as [|y xs _] using rev_ind; [exact IH|]. rewrite removelast_last in IH |- *.
    apply Forall_app in HF. destruct HF as (HF & Hy). inversion Hy; subst. rewrite pop_render by assumption. exact IH.
  - rewrite push_render; [exact IH|exact HF|].
    unfold trivial in Et. destruct (path_eqb_spec c []); [discriminate Et|]. destruct (path_eqb_spec c [dot]); [discriminate Et|].
    repeat split; assumption.
Qed.

Lemma normalize_abs p : normalize (slash :: p) = render (fold_left keep (split p) []) /\
  Forall proper_name (fold_left keep (split p) []).
Proof.
  unfold normalize, components. change (Ascii.eqb slash slash) with true. cbv iota. cbn [fold_left normalize_step].
  change (push [] [slash]) with (render []). apply fold_render; [constructor|].
  apply (written_free _ _ (split_written p)).
Qed.

Lemma absolute_slash p : is_absolute p = true <-> exists q, p = slash :: q.
Proof.
  split; [|intros (q & ->); reflexivity]. destruct p as [|c q]; [discriminate|]. simpl.
  destruct (Ascii.eqb_spec c slash) as [->|]; [|discriminate]. exists q. reflexivity.
Qed.

Lemma render_clean xs : Forall proper_name xs -> clean (render xs).
Proof.
  intros HF. destruct xs as [|x xs]; [apply clean_root|].
  apply clean_names with (x :: xs); [exact HF|]. apply join_written; [discriminate|apply proper_free; exact HF].
Qed.
Lemma clean_render p : clean p -> exists xs, p = render xs /\ Forall proper_name xs.
Proof.
  intros [|xs q HF Hw]; [exists []; split; [reflexivity|constructor]|].
  exists xs. split; [|exact HF]. unfold render. rewrite <- (written_join xs q Hw). reflexivity.
Qed.

(** ** The theorems *)

(** A normalised path has no "." or "..", no doubled slash and no slash at its end, and begins at
    the root: there is nothing in it that could lead above the root. *)
Theorem C34_normal_form : forall p, is_absolute p = true -> clean (normalize p).
Proof.
  intros p H. apply absolute_slash in H. destruct H as (q & ->).
  destruct (normalize_abs q) as (-> & HF). apply render_clean. exact HF.
Qed.
Print Assumptions C34_normal_form.

Theorem C34_clean_unchanged : forall p, clean p -> normalize p = p.
Proof.
  intros p H. apply clean_render in H. destruct H as (xs & -> & HF). unfold render at 1.
  destruct (normalize_abs (join_pieces xs)) as (-> & _). f_equal.
  destruct xs as [|x xs]; [reflexivity|].
  rewrite split_join by (try discriminate; apply proper_free; exact HF).
  assert (G : forall l acc, Forall proper_name l -> fold_left keep l acc = acc ++ l); [|apply (G _ []); exact HF].
  induction l as [|y l IH]; intros acc Hl; [rewrite app_nil_r; reflexivity|]. inversion Hl as [|? ? Hy Hl']; subst.
  cbn [fold_left]. unfold keep at 2. rewrite (proper_nontrivial y Hy).
  destruct (path_eqb_spec y [dot; dot]) as [E|_]; [exfalso; apply (proj1 (proj2 (proj2 Hy))); exact E|].
  rewrite IH by exact Hl'. rewrite <- app_assoc. reflexivity.
Qed.
Print Assumptions C34_clean_unchanged.

Theorem C34_idempotent : forall p, is_absolute p = true -> normalize (normalize p) = normalize p.
Proof. intros p H. apply C34_clean_unchanged. apply C34_normal_form. exact H. Qed.
Print Assumptions C34_idempotent.

Lemma hops_app F xs : forall n ys,
  hops F n (xs ++ ys) = match hops F n xs with Some m => hops F m ys | None => None end.
Proof.
  induction xs as [|x xs IH]; intros n ys; simpl; [reflexivity|]. destruct (hop F n x); [apply IH|reflexivity].
Qed.
Lemma hop_trivial F n x : trivial x = true -> hop F n x = Some n.
Proof.
  unfold trivial, hop. destruct (path_eqb_spec x []) as [->|H1]; [reflexivity|].
  destruct (path_eqb_spec x [dot]) as [->|H2]; [reflexivity|discriminate].
Qed.
Lemma hop_proper F n x : proper_name x -> hop F n x = down F n x.
Proof.
  intros (H1 & H2 & H3 & _). unfold hop.
  destruct (list_eq_dec ascii_dec x []); [contradiction|].
  destruct (list_eq_dec ascii_dec x (list_ascii_of_string ".")); [contradiction|].
  destruct (list_eq_dec ascii_dec x (list_ascii_of_string "..")); [contradiction|reflexivity].
Qed.

Lemma hops_keep F cs : forall xs n m,
  Forall proper_name xs -> Forall slash_free cs -> hops F (root F) xs = Some n -> hops F n cs = Some m ->
  hops F (root F) (fold_left keep cs xs) = Some m.
Proof.
  induction cs as [|c cs IH]; intros xs n m HF Hc Hx Hm; simpl in *; [congruence|].
  inversion Hc as [|? ? Hc1 Hc2]; subst. destruct (hop F n c) as [n'|] eqn:Eh; [|discriminate Hm].
  apply (IH (keep xs c) n' m); [apply keep_proper; assumption|exact Hc2| |exact Hm].
  unfold keep. destruct (trivial c) eqn:Et.
  - rewrite (hop_trivial F n c Et) in Eh. congruence.
  - destruct (path_eqb_spec c [dot; dot]) as [->|Hd].
    + unfold hop in Eh. simpl in Eh. injection Eh as <-.
      destruct xs as [|y xs _] using rev_ind.
      * simpl in *. injection Hx as <-. rewrite (up_root F). reflexivity.
      * rewrite removelast_last. apply Forall_app in HF. destruct HF as (HF & Hy). inversion Hy as [|? ? Hy' _]; subst.
        rewrite hops_app in Hx. destruct (hops F (root F) xs) as [k|]; [|discriminate Hx]. simpl in Hx.
        rewrite (hop_proper F k y Hy') in Hx. destruct (down F k y) as [k'|] eqn:Ed; [|discriminate Hx].
        injection Hx as <-. rewrite (up_down F _ _ _ Ed). reflexivity.
    + rewrite hops_app, Hx. simpl. rewrite Eh. reflexivity.
Qed.

Lemma leads_abs F n q m : leads F n (slash :: q) m <-> hops F (root F) (split q) = Some m.
Proof.
  unfold leads. split.
  - intros (xs & Hw & H). apply written_split in Hw. subst xs. simpl in H. exact H.
  - intros H. exists (split (slash :: q)). split; [apply split_written|]. simpl. exact H.
Qed.
Lemma hops_render F xs : Forall proper_name xs -> hops F (root F) (split (join_pieces xs)) = hops F (root F) xs.
Proof.
  intros HF. destruct xs as [|x xs]; [reflexivity|].
  rewrite split_join by (try discriminate; apply proper_free; exact HF). reflexivity.
Qed.

(** Where the path leads somewhere, the normalised path leads to the same place, from any directory. *)
Theorem C34_same_location :
  forall F p n m, is_absolute p = true -> leads F n p m -> leads F n (normalize p) m.
Proof.
  intros F p n m H HL. apply absolute_slash in H. destruct H as (q & ->). apply leads_abs in HL.
  destruct (normalize_abs q) as (-> & HF). apply leads_abs.
  rewrite hops_render by exact HF.
  apply (hops_keep F (split q) [] (root F) m); [constructor| |reflexivity|exact HL].
  apply (written_free _ _ (split_written q)).
Qed.
Print Assumptions C34_same_location.

(** The other direction does not hold: "/a/../b" normalises to "/b", which may exist without "/a". *)
Theorem C34_same_location_converse_refuted :
  exists F p n m, is_absolute p = true /\ leads F n (normalize p) m /\ ~ leads F n p m.
Proof.
  exists (FS bool false (fun _ => false)
            (fun n x => if n then None else if list_eq_dec ascii_dec x ["b"%char] then Some true else None)
            eq_refl ltac:(intros [|] x m H; simpl in H; [discriminate H|]; reflexivity)).
  exists (list_ascii_of_string "/a/../b"), false, true. split; [reflexivity|]. split.
  - change (normalize (list_ascii_of_string "/a/../b")) with (slash :: ["b"%char]). apply leads_abs. reflexivity.
  - intros H. change (list_ascii_of_string "/a/../b") with (slash :: list_ascii_of_string "a/../b") in H.
    apply leads_abs in H. discriminate H.
Qed.
Print Assumptions C34_same_location_converse_refuted.

Lemma app_cases (l : path) : l = [] \/ exists q c, l = q ++ [c].
Proof. destruct l as [|c q _] using rev_ind; [left; reflexivity|right; exists q, c; reflexivity]. Qed.

Lemma written_app xs p ys q : written xs p -> written ys q -> written (xs ++ ys) (p ++ sl :: q).
Proof.
  induction 1 as [x Hx|x xs p Hx Hw IH]; intros Hq; simpl.
  - apply written_more; assumption.
  - rewrite <- app_assoc. simpl. apply written_more; [exact Hx|]. apply IH. exact Hq.
Qed.
Lemma written_slash_end xs p : written xs (p ++ [sl]) -> exists ys, xs = ys ++ [[]] /\ written ys p.
Proof.
  remember (p ++ [sl]) as r eqn:E. intros H. revert p E. induction H as [x Hx|x xs q Hx Hw IH]; intros p E; subst.
  - exfalso. apply Hx. apply in_or_app. right. left. reflexivity.
  - destruct (app_cases q) as [->|(q' & c & ->)].
    + apply (app_inj_tail x p) in E. destruct E as (<- & _).
      apply written_split in Hw. simpl in Hw. subst xs. exists [x]. split; [reflexivity|constructor; exact Hx].
    + change (sl :: q' ++ [c]) with ((sl :: q') ++ [c]) in E. rewrite app_assoc in E. apply app_inj_tail in E. destruct E as (E & ->).
      destruct (IH q' eq_refl) as (ys & -> & Hys). exists (x :: ys). split; [reflexivity|].
      rewrite <- E. apply written_more; assumption.
Qed.

Lemma absolute_app p q : is_absolute p = true -> is_absolute (p ++ q) = true.
Proof. destruct p; [discriminate|exact (fun H => H)]. Qed.
Lemma push_absolute base p : is_absolute base = true -> is_absolute (push base p) = true.
Proof.
  intros Ha. unfold push. destruct (is_absolute p) eqn:Ep; [exact Ep|].
  destruct (rev base) as [|c r] eqn:Er.
  - apply (f_equal (@rev ascii)) in Er. rewrite rev_involutive in Er. subst base. discriminate Ha.
  - destruct (Ascii.eqb c slash); apply absolute_app; exact Ha.
Qed.

Lemma leads_relative F n p m : is_absolute p = false -> (leads F n p m <-> hops F n (split p) = Some m).
Proof.
  unfold leads. destruct p as [|c p]; intros Ha.
  - simpl. split; [intros (_ & _ & ->); reflexivity|]. intros E. exists [[]]. split; [constructor; intros []|]. congruence.
  - split.
    + intros (xs & Hw & H). apply written_split in Hw. subst xs.
      destruct (ascii_dec c sl) as [->|]; [discriminate Ha|exact H].
    + intros H. exists (split (c :: p)). split; [apply split_written|].
      destruct (ascii_dec c sl) as [->|]; [discriminate Ha|exact H].
Qed.
Lemma leads_absolute F n p m : is_absolute p = true -> (leads F n p m <-> hops F (root F) (split p) = Some m).
Proof.
  intros H. apply absolute_slash in H. destruct H as (q & ->). rewrite leads_abs. reflexivity.
Qed.

Lemma push_leads F n base p b m :
  is_absolute base = true -> leads F n base b -> leads F b p m -> leads F n (push base p) m.
Proof.
  intros Ha Hb Hp. pose proof (push_absolute base p Ha) as Hr. apply leads_absolute; [exact Hr|].
  apply (leads_absolute F n base b Ha) in Hb. unfold push in *.
  destruct (is_absolute p) eqn:Ep; [apply (leads_absolute F b p m Ep) in Hp; exact Hp|].
  apply (leads_relative F b p m Ep) in Hp.
  destruct (rev base) as [|c r] eqn:Er.
  { apply (f_equal (@rev ascii)) in Er. rewrite rev_involutive in Er. subst base. discriminate Ha. }
  apply (f_equal (@rev ascii)) in Er. rewrite rev_involutive in Er. simpl in Er.
  destruct (Ascii.eqb_spec c slash) as [->|Hc].
  - pose proof (split_written base) as Hw. rewrite Er in Hw. apply written_slash_end in Hw.
    destruct Hw as (ys & E & Hw). rewrite <- Er in E. rewrite E, hops_app in Hb.
    destruct (hops F (root F) ys) as [k|] eqn:Ek; [|discriminate Hb]. simpl in Hb. injection Hb as ->.
    rewrite Er, <- app_assoc. simpl. rewrite (written_split (ys ++ split p)).
    + rewrite hops_app, Ek. exact Hp.
    + apply written_app; [exact Hw|apply split_written].
  - rewrite (written_split (split base ++ split p)).
    + rewrite hops_app, Hb. exact Hp.
    + apply written_app; apply split_written.
Qed.

(** [absolutize] never panics on an absolute base, and finds what the second path leads to from
    where the base leads; an absolute second path replaces the base. *)
Theorem C34_absolutize :
  forall base p, is_absolute base = true ->
    exists r, absolutize base p = Some r /\ clean r /\
      forall F n b m, leads F n base b -> leads F b p m -> leads F n r m.
Proof.
  intros base p Ha. pose proof (push_absolute base p Ha) as Hr. exists (normalize (push base p)).
  unfold absolutize, abs_join. rewrite Hr. split; [reflexivity|]. split; [apply C34_normal_form; exact Hr|].
  intros F n b m Hb Hm. apply C34_same_location; [exact Hr|]. eapply push_leads; eassumption.
Qed.
Print Assumptions C34_absolutize.

(** [parent] of an absolute path never panics, and gives the path without its last component. *)
Lemma body_app a : forall b, body (a ++ b) = body a ++ body b.
Proof. induction a as [|c a IH]; intros b; simpl; [reflexivity|]. destruct (trivial c); rewrite IH; reflexivity. Qed.
Lemma body_drop r : body (rev (drop_trivial r)) = body (rev r).
Proof.
  induction r as [|c r IH]; simpl; [reflexivity|]. destruct (trivial c) eqn:Et; [|reflexivity].
  rewrite IH, body_app. simpl. rewrite Et, app_nil_r. reflexivity.
Qed.
Lemma without_last_body cs :
  match without_last cs with
  | None => body cs = []
  | Some cs' => exists c, body cs = body cs' ++ [c]
  end.
Proof.
  assert (B : body cs = body (rev (drop_trivial (rev cs)))) by (rewrite body_drop, rev_involutive; reflexivity).
  unfold without_last. rewrite B. clear B.
  destruct (drop_trivial (rev cs)) as [|c r] eqn:E; [reflexivity|].
  rewrite body_drop. simpl. rewrite body_app.
  assert (Et : trivial c = false).
  { clear - E. induction (rev cs) as [|x l IH]; simpl in E; [discriminate E|].
    destruct (trivial x) eqn:Ex; [exact (IH E)|]. injection E as -> ->. exact Ex. }
  simpl. rewrite Et. eexists. reflexivity.
Qed.
Lemma drop_in r x : In x (drop_trivial r) -> In x r.
Proof. induction r as [|c r IH]; simpl; [tauto|]. destruct (trivial c); [right; apply IH; assumption|exact (fun H => H)]. Qed.
Lemma body_split_join cs : Forall slash_free cs -> body (split (join_pieces cs)) = body cs.
Proof.
  intros HF. destruct cs as [|c cs]; [reflexivity|]. rewrite split_join by (try discriminate; exact HF). reflexivity.
Qed.

Theorem C34_parent :
  forall p, is_absolute p = true ->
    match abs_parent p with
    | None => components p = [RootDir]
    | Some None => False
    | Some (Some q) => is_absolute q = true /\ exists c, components p = components q ++ [c]
    end.
Proof.
  intros p H. apply absolute_slash in H. destruct H as (q & ->). unfold abs_parent, parent.
  change (Ascii.eqb slash slash) with true. cbv iota.
  pose proof (without_last_body (split q)) as Hb. destruct (without_last (split q)) as [cs|] eqn:E.
  - split; [reflexivity|]. destruct Hb as (c & Hb). exists c. unfold components.
    change (Ascii.eqb slash slash) with true. cbv iota. rewrite Hb, body_split_join; [reflexivity|].
    unfold without_last in E. destruct (drop_trivial (rev (split q))) as [|x r] eqn:Ed; [discriminate E|].
    injection E as <-. apply Forall_rev. apply Forall_forall. intros y Hy. apply drop_in in Hy.
    assert (I : In y (rev (split q))) by (apply drop_in; rewrite Ed; right; exact Hy).
    apply in_rev in I. pose proof (proj1 (written_free _ _ (split_written q))) as HF. rewrite Forall_forall in HF. apply HF. exact I.
  - simpl. rewrite Hb. reflexivity.
Qed.
Print Assumptions C34_parent.

(** [starts_with] compares whole components: the base followed by further components. *)
Lemma component_eqb_spec a b : component_eqb a b = true <-> a = b.
Proof.
  destruct a, b; simpl; try (split; [discriminate|discriminate]); try tauto.
  destruct (path_eqb_spec name name0) as [->|H]; [tauto|]. split; [discriminate|]. intros E. injection E as ->. contradiction.
Qed.
Theorem C34_starts_with :
  forall p base, starts_with p base = true <-> exists rest, components p = components base ++ rest.
Proof.
  intros p base. unfold starts_with. generalize (components p) as b. induction (components base) as [|x a IH]; intros b.
  - simpl. split; [|reflexivity]. intros _. exists b. reflexivity.
  - destruct b as [|y b]; simpl; [split; [discriminate|intros (r & E); discriminate E]|].
    rewrite andb_true_iff, component_eqb_spec, IH. split.
    + intros (-> & r & ->). exists r. reflexivity.
    + intros (r & E). injection E as -> ->. split; [reflexivity|]. exists r. reflexivity.
Qed.
Print Assumptions C34_starts_with.

(** What the components of a path are: an absolute path starts with the root; "." counts only as the first piece of a
    relative path; of the other pieces all count but "" and ".". *)
Definition piece_component (x : path) : list component :=
  if path_eq_dec x (list_ascii_of_string "..") then [ParentDir]
  else if path_eq_dec x [] then [] else if path_eq_dec x (list_ascii_of_string ".") then [] else [Normal x].
Lemma body_pieces xs : body xs = flat_map piece_component xs.
Proof.
  induction xs as [|x xs IH]; [reflexivity|]. cbn [body flat_map]. rewrite <- IH. unfold piece_component, trivial.
  change (list_ascii_of_string "..") with [dot; dot]. change (list_ascii_of_string ".") with [dot].
  destruct (path_eqb_spec x []) as [->|N1]; [reflexivity|]. destruct (path_eqb_spec x [dot]) as [->|N2]; [reflexivity|]. cbn [orb].
  destruct (path_eqb_spec x [dot; dot]) as [->|N3]; [reflexivity|].
  destruct (path_eq_dec x [dot; dot]); [contradiction|]. destruct (path_eq_dec x []); [contradiction|]. destruct (path_eq_dec x [dot]); [contradiction|]. reflexivity.
Qed.
Theorem C34_components : forall xs p, written xs p ->
  components (sl :: p) = RootDir :: flat_map piece_component xs /\
  (is_absolute p = false -> p <> [] -> components p =
     (if path_eq_dec (hd [] xs) (list_ascii_of_string ".") then [CurDir] else []) ++ flat_map piece_component xs).
Proof.
  intros xs p W. split.
  - unfold components. change (Ascii.eqb sl slash) with true. cbv iota. rewrite (written_split _ _ W), body_pieces. reflexivity.
  - intros A N. destruct p as [|c p]; [contradiction|]. unfold components. cbn [is_absolute] in A. rewrite A, (written_split _ _ W).
    destruct xs as [|x xs]; [inversion W|]. cbn [hd]. change (list_ascii_of_string ".") with [dot].
    destruct (path_eqb_spec x [dot]) as [->|D].
    + destruct (path_eq_dec [dot] [dot]); [|contradiction]. rewrite body_pieces. reflexivity.
    + destruct (path_eq_dec x [dot]); [contradiction|]. apply body_pieces.
Qed.
Print Assumptions C34_components.
Example C34_components_nontrivial : map components (map list_ascii_of_string ["./a//b/"; "a/./.."; "/./a"]%string) =
  [[CurDir; Normal ["a"%char]; Normal ["b"%char]]; [Normal ["a"%char]; ParentDir]; [RootDir; Normal ["a"%char]]].
Proof. reflexivity. Qed.

Example C34_nontrivial :
  normalize (list_ascii_of_string "/a/../../b/.//c//") = list_ascii_of_string "/b/c" /\
  absolutize (list_ascii_of_string "/srv/scripting") (list_ascii_of_string "../include/./sm.inc")
    = Some (list_ascii_of_string "/srv/include/sm.inc") /\
  abs_parent (list_ascii_of_string "/a/./b//") = Some (Some (list_ascii_of_string "/a")) /\
  starts_with (list_ascii_of_string "/a//b/c") (list_ascii_of_string "/a/b/") = true /\
  starts_with (list_ascii_of_string "/ab") (list_ascii_of_string "/a") = false.
Proof. repeat split. Qed.

(** A file system with "/a" a directory and "/b" a file: "/a/../b" leads to "/b". *)
Example C34_nontrivial_location :
  exists F n m, leads F n (list_ascii_of_string "/a/../b") m /\ m <> root F.
Proof.
  exists (FS nat 0 (fun _ => 0)
            (fun n x => if Nat.eqb n 0 then if list_eq_dec ascii_dec x ["a"%char] then Some 1
                         else if list_eq_dec ascii_dec x ["b"%char] then Some 2 else None else None)
            eq_refl ltac:(intros [|n] x m H; simpl in H; [reflexivity|discriminate H])), 0, 2.
  split; [|discriminate].
  change (list_ascii_of_string "/a/../b") with (slash :: list_ascii_of_string "a/../b").
  apply leads_abs. reflexivity.
Qed.
