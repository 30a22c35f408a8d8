From Coq Require Import List NArith Arith Lia Bool.
From Verif Require Import SemTokensModel SemTokensSpec.
Import ListNotations.
Local Open Scope N_scope.

Lemma token_eqb_eq a b : token_eqb a b = true <-> a = b.
Proof.
  unfold token_eqb. rewrite !andb_true_iff, !N.eqb_eq.
  destruct a, b; simpl. split.
  - intros [[[[-> ->] ->] ->] ->]. reflexivity.
  - intros H; inversion H; subst; tauto.
Qed.

Lemma common_prefix_le_l a b : (common_prefix a b <= length a)%nat.
Proof. revert b; induction a as [|x a IH]; intros [|y b]; simpl; try lia.
  destruct (token_eqb x y); [specialize (IH b)|]; lia. Qed.

Lemma common_prefix_le_r a b : (common_prefix a b <= length b)%nat.
Proof. revert b; induction a as [|x a IH]; intros [|y b]; simpl; try lia.
  destruct (token_eqb x y); [specialize (IH b)|]; lia. Qed.

Lemma common_prefix_firstn a b :
  firstn (common_prefix a b) a = firstn (common_prefix a b) b.
Proof.
  revert b; induction a as [|x a IH]; intros [|y b]; simpl; try reflexivity.
  destruct (token_eqb x y) eqn:E; [|reflexivity].
  apply token_eqb_eq in E; subst. simpl. rewrite IH. reflexivity.
Qed.

Lemma common_suffix (a b : list token) :
  let k := common_prefix (rev a) (rev b) in
  skipn (length a - k) a = skipn (length b - k) b.
Proof.
  intros k.
  pose proof (common_prefix_firstn (rev a) (rev b)) as H. fold k in H.
  rewrite !firstn_rev in H.
  apply (f_equal (@rev token)) in H. rewrite !rev_involutive in H. exact H.
Qed.

Lemma flatten_app a b : flatten (a ++ b) = flatten a ++ flatten b.
Proof. unfold flatten. apply flat_map_app. Qed.

Lemma flatten_length a : length (flatten a) = (5 * length a)%nat.
Proof. induction a as [|x a IH]; [reflexivity|].
  change (flatten (x :: a)) with (flatten [x] ++ flatten a).
  rewrite app_length, IH. cbn [flatten flat_map app length]. lia. Qed.

Lemma flatten_inj a b : flatten a = flatten b -> a = b.
Proof.
  revert b; induction a as [|x a IH]; intros [|y b] H; try discriminate; [reflexivity|].
  destruct x, y. cbn in H. injection H as -> -> -> -> -> H. f_equal. apply IH, H.
Qed.

Lemma diff_shape old new :
  exists p o n s, old = p ++ o ++ s /\ new = p ++ n ++ s /\
   diff_tokens old new =
     match o, n with [], [] => [] | _, _ => [Edit (5 * length p) (5 * length o) n] end.
Proof.
  unfold diff_tokens.
  set (k := common_prefix new old).
  set (o1 := skipn k old). set (n1 := skipn k new).
  set (e := common_prefix (rev n1) (rev o1)).
  exists (firstn k old), (firstn (length o1 - e) o1), (firstn (length n1 - e) n1),
    (skipn (length o1 - e) o1).
  assert (Hk1 : (k <= length old)%nat) by apply common_prefix_le_r.
  assert (Hs : skipn (length n1 - e) n1 = skipn (length o1 - e) o1) by apply common_suffix.
  repeat split.
  - rewrite firstn_skipn. unfold o1. rewrite firstn_skipn. reflexivity.
  - rewrite <- Hs, firstn_skipn. unfold n1.
    replace (firstn k old) with (firstn k new) by apply common_prefix_firstn.
    rewrite firstn_skipn. reflexivity.
  - rewrite (firstn_length_le old Hk1). reflexivity.
Qed.

Lemma apply_edit_mid p o n s :
  apply_edit (flatten (p ++ o ++ s)) (Edit (5 * length p) (5 * length o) n)
  = flatten (p ++ n ++ s).
Proof.
  unfold apply_edit; cbn [start delete_count edit_data].
  rewrite !flatten_app.
  rewrite <- !flatten_length.
  rewrite firstn_app, Nat.sub_diag, firstn_all. cbn [firstn]. rewrite app_nil_r.
  f_equal. f_equal.
  rewrite <- (app_length (flatten p) (flatten o)), app_assoc.
  rewrite skipn_app, skipn_all, Nat.sub_diag. reflexivity.
Qed.

Lemma diff_correct old new :
  apply_edits (flatten old) (diff_tokens old new) = flatten new.
Proof.
  destruct (diff_shape old new) as (p & o & n & s & -> & -> & ->).
  destruct o as [|x o].
  - destruct n as [|y n]; [reflexivity|].
    unfold apply_edits; cbn [fold_right].
    apply (apply_edit_mid p [] (y :: n) s).
  - unfold apply_edits; cbn [fold_right]. apply (apply_edit_mid p (x :: o) n s).
Qed.

Lemma diff_in_bounds old new e :
  In e (diff_tokens old new) ->
  (start e + delete_count e <= length (flatten old))%nat.
Proof.
  destruct (diff_shape old new) as (p & o & n & s & -> & -> & ->).
  rewrite flatten_length, !app_length.
  destruct o as [|x o]; [destruct n as [|y n]|]; cbn [In]; intros He;
  try contradiction; destruct He as [<- | []];
  cbn [start delete_count length]; lia.
Qed.

Lemma common_prefix_self a : common_prefix a a = length a.
Proof. induction a as [|x a IH]; simpl; [reflexivity|].
  destruct (token_eqb x x) eqn:E; [lia|]. 
  assert (token_eqb x x = true) by (apply token_eqb_eq; reflexivity). congruence. Qed.

Lemma diff_empty_iff old new : diff_tokens old new = [] <-> old = new.
Proof.
  split.
  - intros H. apply flatten_inj. rewrite <- (diff_correct old new), H. reflexivity.
  - intros <-. unfold diff_tokens. rewrite common_prefix_self, skipn_all. reflexivity.
Qed.

(** Builder *)

Definition last_start (b : builder) (hs : list hl) : Prop :=
  match data b, hs with
  | _ :: _, h :: _ =>
      prev_line b < s_line (hl_range h) \/
      (prev_line b = s_line (hl_range h) /\ prev_char b <= s_char (hl_range h))
  | _, _ => True
  end.

Lemma decode_from_app l c a b :
  decode_from l c (a ++ b) =
  decode_from l c a ++
  match rev (decode_from l c a) with
  | [] => decode_from l c b
  | t :: _ => decode_from (a_line t) (a_char t) b
  end.
Proof.
  revert l c; induction a as [|x a IH]; intros l c; [reflexivity|].
  cbn [decode_from app]. rewrite IH. f_equal.
  cbn [rev].
  destruct (rev (decode_from _ _ a)) as [|t tl] eqn:E; reflexivity.
Qed.

(** What the builder has recorded so far. *)
Definition builder_ok (b : builder) : Prop :=
  match rev (decode (data b)) with
  | [] => data b = []
  | t :: _ => data b <> [] /\ a_line t = prev_line b /\ a_char t = prev_char b
  end.

Lemma push_ok b h :
  builder_ok b ->
  forward_line h -> last_start b [h] ->
  exists b', push b (hl_range h) (hl_type h) (hl_mods h) = Some b' /\ builder_ok b' /\
    decode (data b') = decode (data b) ++ [abs_of h] /\ data b' <> [] /\
    prev_line b' = s_line (hl_range h) /\ prev_char b' = s_char (hl_range h).
Proof.
  intros Hb Hf Hl. unfold push, checked_sub, last_start, forward_line in *.
  destruct (N.ltb_spec (e_char (hl_range h)) (s_char (hl_range h))) as [Hlt|_]; [lia|].
  unfold builder_ok in Hb.
  destruct (data b) as [|t0 tl] eqn:Ed.
  - eexists; split; [reflexivity|]. cbn [data app prev_line prev_char].
    split; [|split; [|split; [discriminate | split; reflexivity]]].
    + unfold builder_ok. cbn [data prev_line prev_char decode decode_from rev app
        delta_line delta_start a_line a_char].
      rewrite !N.add_0_l.
      split; [discriminate|]. split; [reflexivity|].
      destruct (s_line (hl_range h) =? 0); reflexivity.
    + unfold decode; cbn [decode_from app delta_line delta_start length_ token_type token_modifiers].
      rewrite !N.add_0_l. unfold abs_of. destruct (s_line (hl_range h) =? 0); reflexivity.
  - destruct (rev (decode (t0 :: tl))) as [|t r] eqn:Er; [discriminate|].
    destruct Hb as (_ & Ht1 & Ht2).
    destruct (N.ltb_spec (s_line (hl_range h)) (prev_line b)) as [Hlt|Hge]; [lia|].
    assert (Hstep : forall dl dc,
      (prev_line b + dl = s_line (hl_range h)) ->
      ((if dl =? 0 then prev_char b + dc else dc) = s_char (hl_range h)) ->
      let b' := Builder (s_line (hl_range h)) (s_char (hl_range h))
        ((t0 :: tl) ++ [Token dl dc (e_char (hl_range h) - s_char (hl_range h)) (hl_type h) (hl_mods h)]) in
      builder_ok b' /\ decode (data b') = decode (t0 :: tl) ++ [abs_of h] /\ data b' <> []).
    { intros dl dc H1 H2 b'.
      assert (Hd : decode (data b') = decode (t0 :: tl) ++ [abs_of h]).
      { subst b'. cbn [data]. unfold decode. rewrite decode_from_app.
        unfold decode in Er. rewrite Er. f_equal.
        cbn [decode_from delta_line delta_start length_ token_type token_modifiers].
        rewrite Ht1, Ht2, H1, H2. reflexivity. }
      split; [|split; [exact Hd | discriminate]].
      unfold builder_ok. rewrite Hd, rev_app_distr. cbn [rev app].
      split; [discriminate|]. split; reflexivity. }
    destruct (N.eqb_spec (s_line (hl_range h) - prev_line b) 0) as [Hz|Hz].
    + destruct (N.ltb_spec (s_char (hl_range h)) (prev_char b)) as [Hlt|Hge2]; [lia|].
      eexists; split; [reflexivity|].
      destruct (Hstep (s_line (hl_range h) - prev_line b) (s_char (hl_range h) - prev_char b)) as (A & B & C).
      * lia.
      * rewrite (proj2 (N.eqb_eq _ _) Hz). lia.
      * repeat split; assumption.
    + eexists; split; [reflexivity|].
      destruct (Hstep (s_line (hl_range h) - prev_line b) (s_char (hl_range h))) as (A & B & C).
      * lia.
      * rewrite (proj2 (N.eqb_neq _ _) Hz). reflexivity.
      * repeat split; assumption.
Qed.

Lemma push_all_ok hs : forall b,
  builder_ok b -> Forall forward_line hs -> last_start b hs -> in_order hs ->
  exists b', push_all b hs = Some b' /\ decode (data b') = decode (data b) ++ map abs_of hs.
Proof.
  induction hs as [|h hs IH]; intros b Hb Hf Hl Ho; cbn [push_all map].
  - exists b. rewrite app_nil_r. split; reflexivity.
  - inversion Hf as [|? ? Hf1 Hf2]; subst.
    destruct (push_ok b h Hb Hf1) as (b1 & Hp & Hb1 & Hd1 & Hne & Hpl & Hpc).
    { exact Hl. }
    rewrite Hp.
    destruct (IH b1 Hb1 Hf2) as (b' & Hp' & Hd').
    + unfold last_start. destruct (data b1); [congruence|].
      destruct hs as [|h2 hs]; [exact I|]. destruct Ho as [Hs _]. rewrite Hpl, Hpc. exact Hs.
    + destruct hs; [exact I | apply Ho].
    + exists b'. split; [exact Hp'|]. rewrite Hd', Hd1, <- app_assoc. reflexivity.
Qed.

Lemma builder_round_trip hs :
  Forall forward_line hs -> in_order hs ->
  exists ts, semantic_tokens hs = Some ts /\ decode ts = map abs_of hs.
Proof.
  intros Hf Ho. destruct (push_all_ok hs builder_new) as (b & Hp & Hd); try assumption.
  - reflexivity.
  - destruct hs; exact I.
  - exists (data b). unfold semantic_tokens. rewrite Hp. split; [reflexivity|]. exact Hd.
Qed.

Lemma push_some_inv b h b' :
  push b (hl_range h) (hl_type h) (hl_mods h) = Some b' ->
  forward_line h /\ last_start b [h] /\ data b' <> [] /\
  prev_line b' = s_line (hl_range h) /\ prev_char b' = s_char (hl_range h).
Proof.
  unfold push, checked_sub, last_start, forward_line.
  destruct (data b) as [|t tl].
  - destruct (N.ltb_spec (e_char (hl_range h)) (s_char (hl_range h))); [discriminate|].
    intros H1; injection H1 as <-. cbn. repeat split; try discriminate; assumption.
  - destruct (N.ltb_spec (s_line (hl_range h)) (prev_line b)); [discriminate|].
    destruct (N.eqb_spec (s_line (hl_range h) - prev_line b) 0).
    + destruct (N.ltb_spec (s_char (hl_range h)) (prev_char b)); [discriminate|].
      destruct (N.ltb_spec (e_char (hl_range h)) (s_char (hl_range h))); [discriminate|].
      intros H3; injection H3 as <-. cbn [data prev_line prev_char].
      repeat split; try assumption; [lia|]. discriminate.
    + destruct (N.ltb_spec (e_char (hl_range h)) (s_char (hl_range h))); [discriminate|].
      intros H3; injection H3 as <-. cbn [data prev_line prev_char].
      repeat split; try assumption; [lia|]. discriminate.
Qed.

Lemma push_all_some_inv hs : forall b b',
  push_all b hs = Some b' -> Forall forward_line hs /\ last_start b hs /\ in_order hs.
Proof.
  induction hs as [|h hs IH]; intros b b' H; cbn [push_all] in H.
  - repeat split; [constructor | unfold last_start; destruct (data b); exact I].
  - destruct (push b (hl_range h) (hl_type h) (hl_mods h)) as [b1|] eqn:E; [|discriminate].
    apply push_some_inv in E. destruct E as (Hf & Hl & Hne & Hpl & Hpc).
    destruct (IH b1 b' H) as (Hf2 & Hl2 & Ho2).
    repeat split; [constructor; assumption | exact Hl |].
    destruct hs as [|h2 hs]; [exact I|]. cbn [in_order]. split; [|exact Ho2].
    unfold last_start in Hl2. destruct (data b1); [congruence|].
    unfold starts_le. rewrite <- Hpl, <- Hpc. exact Hl2.
Qed.

Lemma builder_fails_iff hs :
  semantic_tokens hs = None <-> ~ (Forall forward_line hs /\ in_order hs).
Proof.
  split.
  - intros H [Hf Ho]. destruct (builder_round_trip hs Hf Ho) as (ts & Ht & _). congruence.
  - intros H. destruct (semantic_tokens hs) as [ts|] eqn:E; [|reflexivity].
    exfalso; apply H. unfold semantic_tokens in E.
    destruct (push_all builder_new hs) as [b|] eqn:Eb; [|discriminate].
    apply push_all_some_inv in Eb. tauto.
Qed.
