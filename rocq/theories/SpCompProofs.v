From Coq Require Import List NArith Bool String Ascii Lia ZifyBool ZifyN.
From Verif Require Import SpCompModel SpCompSpec.
Import ListNotations.
Local Open Scope N_scope.

Lemma span_all : forall p a b, Forall (fun c => p c = true) a -> match b with c :: _ => p c = false | [] => True end ->
  span p (a ++ b) = (a, b).
Proof.
  intros p a b F H. induction F as [|c a Hc F IH]; cbn [app span].
  - destruct b as [|c b]; [reflexivity|]. cbn [span]. rewrite H. reflexivity.
  - rewrite Hc, IH. reflexivity.
Qed.

Lemma span_spec : forall p l a b, span p l = (a, b) ->
  l = (a ++ b)%list /\ Forall (fun c => p c = true) a /\ match b with c :: _ => p c = false | [] => True end.
Proof.
  intros p. induction l as [|c l IH]; intros a b H; cbn [span] in H.
  - injection H as <- <-. repeat split; constructor.
  - destruct (p c) eqn:E.
    + destruct (span p l) as [a' b']. injection H as <- <-. destruct (IH _ _ eq_refl) as (-> & F & N).
      repeat split; [|exact N]. constructor; assumption.
    + injection H as <- <-. repeat split; [constructor|exact E].
Qed.

Lemma strip_app : forall a b, strip a (a ++ b) = Some b.
Proof. induction a as [|c a IH]; intros b; [reflexivity|]. cbn [app strip]. rewrite N.eqb_refl. apply IH. Qed.

Lemma strip_spec : forall a l b, strip a l = Some b -> l = (a ++ b)%list.
Proof.
  induction a as [|x a IH]; intros l b H; cbn [strip] in H; [injection H as ->; reflexivity|].
  destruct l as [|c l]; [discriminate|]. destruct (c =? x) eqn:E; [|discriminate]. apply N.eqb_eq in E. subst.
  rewrite (IH _ _ H). reflexivity.
Qed.

Lemma match_severity_ok : forall s rest, match_severity (severity_text s ++ str " " ++ rest) = Some (s, rest).
Proof. intros [] rest; reflexivity. Qed.

Lemma match_severity_spec : forall l s r, match_severity l = Some (s, r) -> l = (severity_text s ++ str " " ++ r)%list.
Proof.
  intros l s r H. unfold match_severity in H.
  destruct (strip (str "error ") l) eqn:E1; [injection H as <- <-; apply strip_spec in E1; exact E1|].
  destruct (strip (str "fatal error ") l) eqn:E2; [injection H as <- <-; apply strip_spec in E2; exact E2|].
  destruct (strip (str "warning ") l) eqn:E3; [injection H as <- <-; apply strip_spec in E3; exact E3|discriminate].
Qed.

Lemma path_char_spec : forall c, path_char c <-> is_path c = true.
Proof.
  intros c. unfold path_char, is_path, ascii_digit. split.
  - intros H. cbn in H. repeat (destruct H as [<-|H]; [reflexivity|]). destruct H.
  - intros H.
    assert (D : c < 128) by lia.
    assert (A : forallb (fun n => implb (is_path n) (existsb (N.eqb n) (str ":/\-_. 0123456789abcdefghijklmnopqrstuvwxyzABCDEFGHIJKLMNOPQRSTUVWXYZ")))
                (map N.of_nat (seq 0 128)) = true) by (vm_compute; reflexivity).
    rewrite forallb_forall in A. specialize (A c). 
    assert (I : In c (map N.of_nat (seq 0 128))).
    { apply in_map_iff. exists (N.to_nat c). split; [lia|]. apply in_seq. lia. }
    specialize (A I). unfold is_path at 1, ascii_digit in A. rewrite H in A. cbn [implb] in A.
    apply existsb_exists in A. destruct A as (x & Hx & E). apply N.eqb_eq in E. subst x. exact Hx.
Qed.

Lemma digit_ascii : forall c, 48 <= c <= 57 <-> ascii_digit c = true.
Proof. intros c. unfold ascii_digit. lia. Qed.

Section S.
Variable other_digit : N -> bool.
Notation captures := (captures other_digit).
Notation match_here := (match_here other_digit).
Notation is_digit := (is_digit other_digit).

Lemma not_other : forall c, c <= 127 -> ascii_digit c = false -> is_digit c = false.
Proof. intros c L E. unfold SpCompModel.is_digit. rewrite E. replace (127 <? c) with false by lia. reflexivity. Qed.

Lemma span_dot : forall t, one_line t -> span is_dot t = (t, []).
Proof.
  intros t H. rewrite <- (app_nil_r t) at 1. apply span_all; [|exact I]. apply Forall_forall. intros c Hc.
  unfold is_dot. destruct (c =? 10) eqn:E; [|reflexivity]. apply N.eqb_eq in E. subst. contradiction.
Qed.

Lemma match_here_ok : forall path line s code gap text,
  Forall path_char path -> line <> [] -> Forall (fun c => is_digit c = true) line ->
  Forall (fun c => 48 <= c <= 57) code -> gap <> [] -> Forall (fun c => is_space c = true) gap ->
  one_line text -> trimmed text ->
  match_here (message_line path line s code gap text) = Some (Captures path line s code text).
Proof.
  intros path line s code gap text Fp Ln Fl Fc Gn Fg T1 T2. unfold SpCompModel.match_here, message_line.
  rewrite span_all; [|revert Fp; apply Forall_impl; intros c; apply path_char_spec|reflexivity].
  rewrite strip_app. rewrite span_all; [|exact Fl|apply not_other; [vm_compute; discriminate|reflexivity]].
  destruct line as [|x line]; [congruence|]. rewrite strip_app, match_severity_ok.
  rewrite span_all; [|revert Fc; apply Forall_impl; intros c; apply digit_ascii|reflexivity].
  rewrite strip_app. rewrite span_all; [|exact Fg|exact T2].
  destruct gap; [congruence|]. rewrite span_dot by exact T1. reflexivity.
Qed.

Lemma match_here_spec : forall l c, match_here l = Some c ->
  exists gap rest, l = (message_line (c_path c) (c_line c) (c_sev c) (c_code c) gap (c_msg c) ++ rest)%list /\
    Forall path_char (c_path c) /\ c_line c <> [] /\ Forall (fun x => is_digit x = true) (c_line c) /\
    Forall (fun x => 48 <= x <= 57) (c_code c) /\ gap <> [] /\ Forall (fun x => is_space x = true) gap /\
    trimmed (c_msg c) /\ one_line (c_msg c) /\ match rest with [] => True | x :: _ => x = 10 end.
Proof.
  intros l c H. unfold SpCompModel.match_here in H.
  destruct (span is_path l) as [path l1] eqn:E1. apply span_spec in E1. destruct E1 as (-> & Fp & _).
  destruct (strip (str "(") l1) as [l2|] eqn:E2; [|discriminate]. apply strip_spec in E2. subst l1.
  destruct (span is_digit l2) as [line l3] eqn:E3. apply span_spec in E3. destruct E3 as (-> & Fl & _).
  destruct line as [|x line]; [discriminate|].
  destruct (strip (str ") : ") l3) as [l4|] eqn:E4; [|discriminate]. apply strip_spec in E4. subst l3.
  destruct (match_severity l4) as [[s l5]|] eqn:E5; [|discriminate]. apply match_severity_spec in E5. subst l4.
  destruct (span ascii_digit l5) as [code l6] eqn:E6. apply span_spec in E6. destruct E6 as (-> & Fc & _).
  destruct (strip (str ":") l6) as [l7|] eqn:E7; [|discriminate]. apply strip_spec in E7. subst l6.
  destruct (span is_space l7) as [gap l8] eqn:E8. apply span_spec in E8. destruct E8 as (-> & Fg & N8).
  destruct gap as [|g gap]; [discriminate|]. injection H as <-. cbn [c_path c_line c_sev c_code c_msg].
  destruct (span is_dot l8) as [msg rest] eqn:E9. apply span_spec in E9. destruct E9 as (-> & Fm & N9). cbn [fst].
  exists (g :: gap), rest. split; [unfold message_line; rewrite <- !app_assoc; reflexivity|].
  split; [revert Fp; apply Forall_impl; intros y; apply path_char_spec|].
  split; [discriminate|]. split; [exact Fl|].
  split; [revert Fc; apply Forall_impl; intros y; apply digit_ascii|].
  split; [discriminate|]. split; [exact Fg|].
  split; [destruct msg as [|m msg]; [exact I|exact N8]|].
  split.
  - intros Hin. rewrite Forall_forall in Fm. specialize (Fm _ Hin). discriminate Fm.
  - destruct rest as [|y rest]; [exact I|]. unfold is_dot in N9. destruct (y =? 10) eqn:Q; [apply N.eqb_eq; exact Q|discriminate].
Qed.

Lemma captures_here : forall l c, match_here l = Some c -> captures l = Some c.
Proof. intros l c H. destruct l; cbn [SpCompModel.captures]; rewrite H; reflexivity. Qed.

Lemma captures_spec : forall l c, captures l = Some c ->
  exists pre l', l = (pre ++ l')%list /\ match_here l' = Some c /\
    (forall a b, pre = (a ++ b)%list -> b <> [] -> match_here (b ++ l') = None).
Proof.
  induction l as [|x l IH]; intros c H.
  - cbn [SpCompModel.captures] in H. destruct (match_here []) eqn:E; [|discriminate]. injection H as ->.
    exists [], []. split; [reflexivity|]. split; [exact E|]. intros a b Hab Hb. destruct a, b; try discriminate; congruence.
  - change (captures (x :: l)) with (match match_here (x :: l) with Some c => Some c | None => captures l end) in H.
    destruct (match_here (x :: l)) eqn:E.
    + injection H as ->. exists [], (x :: l). split; [reflexivity|]. split; [exact E|].
      intros a b Hab Hb. destruct a, b; try discriminate; congruence.
    + destruct (IH _ H) as (pre & l' & -> & M & L). exists (x :: pre), l'. split; [reflexivity|]. split; [exact M|].
      intros a b Hab Hb. destruct a as [|y a]; cbn [app] in Hab.
      * subst b. exact E.
      * injection Hab as <- ->. eapply L; [reflexivity|exact Hb].
Qed.

End S.

Lemma parse_from_ok : forall l acc, Forall (fun c => 48 <= c <= 57) l ->
  fold_left (fun a c => a * 10 + (c - 48)) l acc <= U32_MAX ->
  parse_from acc l = Some (fold_left (fun a c => a * 10 + (c - 48)) l acc).
Proof.
  intros l acc F. revert acc. induction F as [|c l Hc F IH]; intros acc H; cbn [parse_from fold_left] in *; [reflexivity|].
  rewrite (proj1 (digit_ascii c) Hc).
  assert (M : forall l a, Forall (fun c => 48 <= c <= 57) l -> a <= fold_left (fun a c => a * 10 + (c - 48)) l a).
  { clear. induction l as [|c l IH]; intros a F; cbn [fold_left]; [lia|]. inversion F as [|? ? K F' ]; subst.
    specialize (IH (a * 10 + (c - 48)) F'). lia. }
  specialize (M l (acc * 10 + (c - 48)) F).
  replace (acc * 10 + (c - 48) <=? U32_MAX) with true by (symmetry; apply N.leb_le; lia).
  apply IH. exact H.
Qed.

Lemma parse_from_spec : forall l acc n, parse_from acc l = Some n ->
  Forall (fun c => 48 <= c <= 57) l /\ n = fold_left (fun a c => a * 10 + (c - 48)) l acc /\ (l <> [] -> n <= U32_MAX).
Proof.
  induction l as [|c l IH]; intros acc n H; cbn [parse_from fold_left] in *.
  - injection H as <-. repeat split; [constructor|congruence].
  - destruct (ascii_digit c) eqn:E; [|discriminate]. destruct (_ <=? U32_MAX) eqn:Q; [|discriminate].
    destruct (IH _ _ H) as (F & V & B). repeat split; [constructor; [apply digit_ascii; exact E|exact F]|exact V|].
    intros _. destruct l; [cbn [parse_from] in H; injection H as <-; apply N.leb_le; exact Q|apply B; discriminate].
Qed.

Lemma parse_u32_spec : forall l n, parse_u32 l = Some n <-> (decimal l /\ n = value l /\ n <= U32_MAX).
Proof.
  intros l n. unfold parse_u32, decimal, value. split.
  - destruct l as [|c l]; [discriminate|]. intros H. apply parse_from_spec in H. destruct H as (F & V & B).
    repeat split; [discriminate|exact F|exact V|apply B; discriminate].
  - intros ((N & F) & -> & B). destruct l as [|c l]; [congruence|]. apply parse_from_ok; assumption.
Qed.

Lemma absolute_spec : forall p, absolute p <-> is_absolute p = true.
Proof.
  intros [|c p]; unfold absolute, is_absolute; split.
  - intros (tl & H). discriminate.
  - discriminate.
  - intros (tl & H). injection H as -> ->. reflexivity.
  - intros H. apply N.eqb_eq in H. subst. eauto.
Qed.
