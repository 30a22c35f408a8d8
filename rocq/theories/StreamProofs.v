From Coq Require Import List NArith Bool Lia.
From Verif Require Import Utf8 StreamModel StreamSpec.
Import ListNotations.
Local Open Scope N_scope.

Lemma cont_nl : cont NL = false.
Proof. reflexivity. Qed.
Lemma second3_nl : forall b, second3 b NL = false.
Proof. intros b. unfold second3. destruct (b =? 224), (b =? 237); reflexivity. Qed.
Lemma second4_nl : forall b, second4 b NL = false.
Proof. intros b. unfold second4. destruct (b =? 240), (b =? 244); reflexivity. Qed.

Lemma lossy_nl : forall n a b, (length a <= n)%nat -> lossy (a ++ NL :: b) = lossy a ++ NL :: lossy b.
Proof.
  induction n as [|n IH]; intros a b L.
  { destruct a; [reflexivity|simpl in L; lia]. }
  destruct a as [|b0 a]; [reflexivity|]. cbn [length] in L.
  assert (N0 : forall x, lossy (NL :: x) = NL :: lossy x) by reflexivity.
  cbn [app lossy]. destruct (b0 <? 128); [rewrite IH by lia; reflexivity|].
  destruct (within 194 b0 223).
  { destruct a as [|b1 a]; cbn [app].
    - rewrite cont_nl, N0. reflexivity.
    - cbn [length] in L. destruct (cont b1); [rewrite IH by lia; reflexivity|].
      change (b1 :: a ++ NL :: b) with ((b1 :: a) ++ NL :: b). rewrite IH by (cbn [length]; lia). reflexivity. }
  destruct (within 224 b0 239).
  { destruct a as [|b1 a]; cbn [app].
    - rewrite second3_nl, N0. reflexivity.
    - cbn [length] in L. destruct (second3 b0 b1).
      + destruct a as [|b2 a]; cbn [app].
        * rewrite cont_nl, N0. reflexivity.
        * cbn [length] in L. destruct (cont b2); [rewrite IH by lia; reflexivity|].
          change (b2 :: a ++ NL :: b) with ((b2 :: a) ++ NL :: b). rewrite IH by (cbn [length]; lia). reflexivity.
      + change (b1 :: a ++ NL :: b) with ((b1 :: a) ++ NL :: b). rewrite IH by (cbn [length]; lia). reflexivity. }
  destruct (within 240 b0 244).
  { destruct a as [|b1 a]; cbn [app].
    - rewrite second4_nl, N0. reflexivity.
    - cbn [length] in L. destruct (second4 b0 b1).
      + destruct a as [|b2 a]; cbn [app].
        * rewrite cont_nl, N0. reflexivity.
        * cbn [length] in L. destruct (cont b2).
          -- destruct a as [|b3 a]; cbn [app].
             ++ rewrite cont_nl, N0. reflexivity.
             ++ cbn [length] in L. destruct (cont b3); [rewrite IH by lia; reflexivity|].
                change (b3 :: a ++ NL :: b) with ((b3 :: a) ++ NL :: b). rewrite IH by (cbn [length]; lia). reflexivity.
          -- change (b2 :: a ++ NL :: b) with ((b2 :: a) ++ NL :: b). rewrite IH by (cbn [length]; lia). reflexivity.
      + change (b1 :: a ++ NL :: b) with ((b1 :: a) ++ NL :: b). rewrite IH by (cbn [length]; lia). reflexivity. }
  rewrite IH by lia. reflexivity.
Qed.

(** ends with a line feed, or empty *)
Definition whole (l : list N) : Prop := l = [] \/ exists l', l = l' ++ [NL].

Lemma lossy_whole : forall a b, whole a -> lossy (a ++ b) = lossy a ++ lossy b.
Proof.
  intros a b [->|(a' & ->)]; [reflexivity|]. rewrite <- app_assoc. cbn [app].
  rewrite (lossy_nl _ a' b (le_n _)), (lossy_nl _ a' [] (le_n _)), <- app_assoc. reflexivity.
Qed.

Lemma lossy_whole_whole : forall a, whole a -> whole (lossy a).
Proof.
  intros a [->|(a' & ->)]; [left; reflexivity|right]. rewrite (lossy_nl _ a' [] (le_n _)). exists (lossy a'). reflexivity.
Qed.

Lemma lines_from_nl : forall a cur b, lines_from cur (a ++ NL :: b) = lines_from cur (a ++ [NL]) ++ lines_from [] b.
Proof.
  induction a as [|c a IH]; intros cur b; [reflexivity|]. cbn [app lines_from].
  destruct (c =? NL); [rewrite IH; reflexivity|apply IH].
Qed.

Lemma str_lines_whole : forall a b, whole a -> str_lines (a ++ b) = str_lines a ++ str_lines b.
Proof.
  intros a b [->|(a' & ->)]; [reflexivity|]. rewrite <- app_assoc. apply lines_from_nl.
Qed.

Lemma split_nl_spec : forall l, l = fst (split_nl l) ++ snd (split_nl l) /\ whole (fst (split_nl l)) /\ ~ In NL (snd (split_nl l)).
Proof.
  induction l as [|b l (E & W & N)]; [repeat split; auto; left; reflexivity|]. cbn [split_nl].
  destruct (split_nl l) as [p r]. cbn [fst snd] in *. destruct p as [|x p].
  - destruct (b =? NL) eqn:Q; cbn [fst snd].
    + apply N.eqb_eq in Q. subst b. split; [rewrite E; reflexivity|]. split; [right; exists []; reflexivity|exact N].
    + split; [rewrite E; reflexivity|]. split; [left; reflexivity|].
      intros [H|H]; [apply N.eqb_neq in Q; congruence|exact (N H)].
  - cbn [fst snd]. split; [rewrite E; reflexivity|]. split; [|exact N].
    destruct W as [|(l' & W)]; [discriminate|]. right. exists (b :: l'). rewrite W. reflexivity.
Qed.

(** invariant of a pipe, between rounds: [all] is what was read so far *)
Definition pinv (p : pipe) (all : list N) : Prop :=
  all = dst p ++ data p /\ called p = str_lines (lossy (dst p)) /\
  if done p then data p = [] else whole (dst p) /\ ~ In NL (data p).

Definition got (p : pipe) (r : ready) : list N := match r with Read bs _ => if done p then [] else bs | NotReady => [] end.

Lemma whole_app : forall a b, whole a -> whole b -> whole (a ++ b).
Proof.
  intros a b [->|(a' & ->)] [->|(b' & ->)]; try (left; reflexivity); right.
  - exists b'. reflexivity.
  - exists a'. rewrite app_nil_r. reflexivity.
  - exists ((a' ++ [NL]) ++ b'). rewrite app_assoc. reflexivity.
Qed.

Lemma on_data_inv : forall p all,
  all = dst p ++ data p -> called p = str_lines (lossy (dst p)) -> whole (dst p) ->
  pinv (on_data p) all /\ done (on_data p) = done p.
Proof.
  intros p all A C W. unfold on_data, pinv. destruct (done p) eqn:D; cbn [done data dst called].
  - split; [|reflexivity]. rewrite app_nil_r. repeat split; [exact A|]. rewrite C.
    rewrite lossy_whole by exact W. rewrite str_lines_whole by (apply lossy_whole_whole; exact W). reflexivity.
  - pose proof (split_nl_spec (data p)) as (E & Wn & N). destruct (split_nl (data p)) as [n r]. cbn [fst snd] in *.
    cbn [done data dst called]. split; [|reflexivity].
    repeat split; [| |apply whole_app; assumption|exact N].
    + rewrite A, E, app_assoc. reflexivity.
    + rewrite C, lossy_whole by exact W. rewrite str_lines_whole by (apply lossy_whole_whole; exact W). reflexivity.
Qed.

Lemma poll_inv : forall p all r, pinv p all -> pinv (poll p r) (all ++ got p r) /\
  done (poll p r) = (done p || match r with Read _ eof => eof | NotReady => false end).
Proof.
  intros p all r I. pose proof I as (A & C & W). unfold poll, got. destruct (done p) eqn:D.
  - assert (S : on_data p = p).
    { unfold on_data. rewrite D, W. cbn [lossy]. change (str_lines []) with (@nil (list N)). rewrite !app_nil_r.
      destruct p; cbn in *; subst; reflexivity. }
    assert (E : (all ++ match r with NotReady => [] | Read _ _ => [] end) = all) by (destruct r; apply app_nil_r).
    rewrite E. destruct r; rewrite S; auto.
  - destruct W as [W N]. destruct r as [|bs eof].
    + rewrite app_nil_r. destruct (on_data_inv p all A C W) as [I' D']. split; [exact I'|]. rewrite D', D. reflexivity.
    + destruct (on_data_inv (Pipe (data p ++ bs) eof (dst p) (called p)) (all ++ bs)) as [I' D']; cbn [data done dst called].
      * rewrite A, app_assoc. reflexivity.
      * exact C.
      * exact W.
      * split; [exact I'|exact D'].
Qed.

Definition rest (p : pipe) (rs : list ready) : list N := if done p then [] else printed rs.

Lemma got_rest : forall p r rs all, pinv p all -> got p r ++ rest (poll p r) rs = rest p (r :: rs).
Proof.
  intros p r rs all I. destruct (poll_inv p all r I) as [_ D]. unfold rest, got. rewrite D.
  destruct (done p); cbn [orb]; [destruct r; reflexivity|]. destruct r as [|bs []]; cbn [printed]; try reflexivity.
  apply app_nil_r.
Qed.

Lemma read2_inv : forall rounds err out ae ao, pinv err ae -> pinv out ao ->
  match read2 err out rounds with
  | (e, o, fin) =>
      (fin = true -> done e = true /\ done o = true /\
        pinv e (ae ++ rest err (map fst rounds)) /\ pinv o (ao ++ rest out (map snd rounds))) /\
      (fin = false -> pinv e (ae ++ rest err (map fst rounds)) /\ pinv o (ao ++ rest out (map snd rounds)))
  end.
Proof.
  induction rounds as [|[re ro] rounds IH]; intros err out ae ao Ie Io; cbn [read2].
  - unfold rest. cbn [map printed]. destruct (done err) eqn:D1, (done out) eqn:D2; cbn [andb]; rewrite !app_nil_r;
      (split; [|auto]); intros; try discriminate; auto.
  - destruct (done err && done out) eqn:D.
    + apply andb_prop in D. destruct D as [D1 D2]. unfold rest. rewrite D1, D2, !app_nil_r.
      split; [|intros; discriminate]. auto.
    + destruct (poll_inv err ae re Ie) as [Ie' _]. destruct (poll_inv out ao ro Io) as [Io' _].
      specialize (IH _ _ _ _ Ie' Io'). cbn [map fst snd].
      rewrite <- (got_rest err re (map fst rounds) ae Ie), <- (got_rest out ro (map snd rounds) ao Io), !app_assoc.
      exact IH.
Qed.

(** decoding of well-formed output *)
Lemma lossy_decode : forall n bs t, (length bs <= n)%nat -> decode bs = Some t -> lossy bs = t.
Proof.
  induction n as [|n IH]; intros bs t L H.
  { destruct bs; [injection H as <-; reflexivity|simpl in L; lia]. }
  destruct bs as [|b0 tl]; [injection H as <-; reflexivity|]. cbn [length] in L. cbn [decode lossy] in *.
  destruct (b0 <? 128) eqn:E0.
  { apply option_map_some in H. destruct H as (t' & H & ->). match type of H with decode ?x = _ => rewrite (IH x t') by (assumption || lia) end. reflexivity. }
  destruct tl as [|b1 tl]; [discriminate|]. cbn [length] in L.
  destruct (within 194 b0 223) eqn:E1.
  { destruct (cont b1); [|discriminate]. apply option_map_some in H. destruct H as (t' & H & ->).
    match type of H with decode ?x = _ => rewrite (IH x t') by (assumption || lia) end. reflexivity. }
  destruct tl as [|b2 tl]; [discriminate|]. cbn [length] in L.
  destruct (within 224 b0 239) eqn:E2.
  { destruct (second3 b0 b1); [|discriminate]. cbn [andb] in H. destruct (cont b2); [|discriminate].
    apply option_map_some in H. destruct H as (t' & H & ->). match type of H with decode ?x = _ => rewrite (IH x t') by (assumption || lia) end. reflexivity. }
  destruct tl as [|b3 tl]; [discriminate|]. cbn [length] in L.
  destruct (within 240 b0 244) eqn:E3; [|discriminate]. cbn [andb] in H.
  destruct (second4 b0 b1); [|discriminate]. cbn [andb] in H. destruct (cont b2); [|discriminate]. cbn [andb] in H.
  destruct (cont b3); [|discriminate].
  apply option_map_some in H. destruct H as (t' & H & ->). match type of H with decode ?x = _ => rewrite (IH x t') by (assumption || lia) end. reflexivity.
Qed.

Lemma lossy_encode : forall t, Forall scalar t -> lossy (encode t) = t.
Proof. intros t F. apply (lossy_decode _ _ _ (le_n _)). apply decode_encode. exact F. Qed.

Lemma lines_from_plain : forall l cur, ~ In NL l -> lines_from cur l = match rev cur ++ l with [] => [] | x => [x] end.
Proof.
  induction l as [|c l IH]; intros cur N; cbn [lines_from].
  - rewrite app_nil_r. destruct cur as [|x cur]; [reflexivity|]. cbn [rev]. destruct (rev cur); reflexivity.
  - destruct (c =? NL) eqn:Q; [apply N.eqb_eq in Q; subst; exfalso; apply N; left; reflexivity|].
    rewrite IH by (intros H; apply N; right; exact H). cbn [rev]. rewrite <- app_assoc. reflexivity.
Qed.

Lemma strip_cr_plain : forall l, (forall l', l <> l' ++ [CR]) -> strip_cr l = l.
Proof.
  induction l as [|c l IH]; intros N; [reflexivity|]. destruct l as [|d l]; cbn [strip_cr].
  - destruct (c =? CR) eqn:Q; [|reflexivity]. apply N.eqb_eq in Q. subst. exfalso. exact (N [] eq_refl).
  - cbn [strip_cr] in IH. rewrite IH; [reflexivity|]. intros l' H. apply (N (c :: l')). rewrite H. reflexivity.
Qed.

Lemma lines_from_line : forall l cur b, ~ In NL l -> lines_from cur (l ++ NL :: b) = strip_cr (rev cur ++ l) :: lines_from [] b.
Proof.
  induction l as [|c l IH]; intros cur b N; cbn [app lines_from].
  - rewrite app_nil_r. reflexivity.
  - destruct (c =? NL) eqn:Q; [apply N.eqb_eq in Q; subst; exfalso; apply N; left; reflexivity|].
    rewrite IH by (intros H; apply N; right; exact H). cbn [rev]. rewrite <- app_assoc. reflexivity.
Qed.

Lemma str_lines_text : forall ls last, Forall plain ls -> ~ In NL last ->
  str_lines (text ls last) = ls ++ match last with [] => [] | _ => [last] end.
Proof.
  intros ls last F Nl. unfold text, str_lines. induction F as [|l ls (N & R & _) F IH]; cbn [map concat app].
  - rewrite lines_from_plain by exact Nl. destruct last; reflexivity.
  - rewrite <- !app_assoc. cbn [app]. rewrite lines_from_line by exact N. cbn [rev app]. rewrite strip_cr_plain by exact R.
    rewrite IH. reflexivity.
Qed.

Lemma text_scalar : forall ls last, Forall plain ls -> Forall scalar last -> Forall scalar (text ls last).
Proof.
  intros ls last F S. unfold text. apply Forall_app. split; [|exact S]. apply Forall_concat, Forall_map.
  revert F. apply Forall_impl. intros l (_ & _ & H). apply Forall_app. split; [exact H|]. repeat constructor.
Qed.
