(** C54, continued: what to_markdown makes of the documentation. *)
From Coq Require Import List Bool Arith String Ascii Lia.
From Verif Require Import DocModel DocSpec DocProps DocMarkdown DocMarkdownSpec.
Import ListNotations.
Local Open Scope string_scope.

(** ** Strings *)
Lemma app_assoc_s : forall a b c : string, (a ++ b) ++ c = a ++ b ++ c.
Proof. induction a as [|x a IH]; intros b c; cbn [append]; [reflexivity|now rewrite IH]. Qed.
Lemma app_nil_s : forall a : string, a ++ "" = a.
Proof. induction a as [|x a IH]; cbn [append]; [reflexivity|now rewrite IH]. Qed.
Lemma length_app_s : forall a b : string, String.length (a ++ b) = String.length a + String.length b.
Proof. induction a as [|x a IH]; intros b; cbn [append String.length]; [reflexivity|now rewrite IH]. Qed.
Lemma span_app : forall f s, s = fst (span f s) ++ snd (span f s).
Proof.
  induction s as [|c s IH]; [reflexivity|]. cbn [span]. destruct (f c); [|reflexivity].
  destruct (span f s) as [a b] eqn:E. cbn [fst snd append] in *. now rewrite <- IH.
Qed.
Lemma skip_spaces_span : forall s, skip_spaces s = snd (span is_space s).
Proof.
  induction s as [|c s IH]; [reflexivity|]. cbn [span skip_spaces]. destruct (is_space c); [|reflexivity].
  destruct (span is_space s) as [a b] eqn:E. exact IH.
Qed.
Lemma sub_all : forall s, substring 0 (String.length s) s = s.
Proof. induction s as [|c s IH]; [reflexivity|]. cbn. now rewrite IH. Qed.
Lemma strip_app : forall p s r, strip p s = Some r -> s = p ++ r.
Proof.
  unfold strip. intros p s r H. destruct (prefix p s) eqn:E; [|discriminate]. injection H as <-.
  revert s E. induction p as [|c p IH]; intros s E.
  - cbn [String.length append]. rewrite Nat.sub_0_r. symmetry. apply sub_all.
  - destruct s as [|x s]; [discriminate|]. cbn [prefix] in E. destruct (ascii_dec c x) as [->|]; [|discriminate].
    cbn [String.length substring append Nat.sub]. now rewrite <- (IH s E).
Qed.
Lemma prefix_refl_app : forall p s, prefix p (p ++ s) = true.
Proof. induction p as [|c p IH]; intros s; [now destruct s|]. cbn. destruct (ascii_dec c c); [apply IH|congruence]. Qed.
Lemma strip_ok : forall p r, strip p (p ++ r) = Some r.
Proof.
  intros p r. unfold strip. rewrite prefix_refl_app. f_equal.
  induction p as [|c p IH]; cbn [append String.length].
  - rewrite Nat.sub_0_r. apply sub_all.
  - cbn [substring Nat.sub]. exact IH.
Qed.

(** ** replace_all *)
Definition shrinks (m : matcher) : Prop := forall s r rest, m s = Some (r, rest) -> String.length rest < String.length s.
Lemma replace_fuel : forall m, shrinks m -> m "" = None -> forall f1 f2 s,
  String.length s <= f1 -> String.length s <= f2 -> replace m f1 s = replace m f2 s.
Proof.
  intros m Hm H0. induction f1 as [|f1 IH]; intros f2 s H1 H2.
  - destruct s; [|cbn in H1; lia]. destruct f2; [reflexivity|]. cbn. now rewrite H0.
  - destruct f2 as [|f2].
    + destruct s; [|cbn in H2; lia]. cbn. now rewrite H0.
    + cbn [replace]. destruct (m s) as [[r rest]|] eqn:E.
      * apply Hm in E. f_equal. apply IH; lia.
      * destruct s as [|c s]; [reflexivity|]. cbn in H1, H2. f_equal. apply IH; lia.
Qed.
Definition sane (m : matcher) : Prop := shrinks m /\ m "" = None.
Lemma ra_match : forall m, sane m -> forall s r rest, m s = Some (r, rest) ->
  replace_all m s = r ++ replace_all m rest.
Proof.
  intros m [Hm H0] s r rest E. unfold replace_all. pose proof (Hm _ _ _ E) as Hlt.
  destruct (String.length s) as [|n] eqn:En; [lia|]. cbn [replace]. rewrite E. f_equal.
  apply replace_fuel; auto; lia.
Qed.
Lemma ra_skip1 : forall m, sane m -> forall c s, m (String c s) = None ->
  replace_all m (String c s) = String c (replace_all m s).
Proof. intros m _ c s E. unfold replace_all. cbn [String.length replace]. now rewrite E. Qed.
Lemma ra_nil : forall m, replace_all m "" = "".
Proof. reflexivity. Qed.
(** ** What the replaced parts are *)
Lemma empty_false : forall s, empty s = false -> 0 < String.length s.
Proof. destruct s; [discriminate|cbn; lia]. Qed.

Lemma eat_app : forall c s r, eat c s = Some r -> s = String c r.
Proof.
  intros c [|x s] r H; [discriminate|]. cbn in H. destruct (Ascii.eqb_spec x c) as [->|]; [|discriminate]. now injection H as ->.
Qed.
Lemma eat_same : forall c s, eat c (String c s) = Some s.
Proof. intros c s. cbn. now rewrite Ascii.eqb_refl. Qed.
Ltac spans :=
  repeat match goal with
  | H : context [let (_, _) := span ?f ?s in _] |- _ =>
      let a := fresh "a" in let b := fresh "b" in let E := fresh "E" in
      destruct (span f s) as [a b] eqn:E
  | H : match eat ?c ?s with _ => _ end = Some _ |- _ =>
      let r := fresh "r" in let E := fresh "E" in destruct (eat c s) as [r|] eqn:E; [|discriminate H]
  | H : (if ?b then _ else _) = Some _ |- _ => let E := fresh "E" in destruct b eqn:E; try discriminate H
  | H : Some _ = Some _ |- _ => injection H as <- <-
  end.
Ltac unspan :=
  repeat match goal with
  | E : eat _ _ = Some _ |- _ => apply eat_app in E
  | E : span ?f ?s = (?a, ?b) |- _ =>
      let P := fresh "P" in pose proof (span_app f s) as P; rewrite E in P; cbn [fst snd] in P; clear E
  end.
Definition gone (c : string) : Prop := said c = [].
Lemma said_app : forall a b, said (a ++ b) = (said a ++ said b)%list.
Proof. induction a as [|x a IH]; intros b; [reflexivity|]. cbn. destruct (marking x); cbn; now rewrite IH. Qed.
Lemma spaces_gone : forall s a b, span is_space s = (a, b) -> said a = [].
Proof.
  induction s as [|c s IH]; intros a b H; cbn in H; [now injection H as <- <-|].
  destruct (is_space c) eqn:Ec; [|now injection H as <- <-].
  destruct (span is_space s) as [a' b'] eqn:E. injection H as <- <-. cbn. unfold marking. rewrite Ec. cbn. eauto.
Qed.
Lemma skip_gone : forall s, said (skip_spaces s) = said s.
Proof.
  intros s. rewrite skip_spaces_span. rewrite (span_app is_space s) at 2. rewrite said_app.
  destruct (span is_space s) as [a b] eqn:E. cbn [fst snd]. now rewrite (spaces_gone _ _ _ E).
Qed.
Lemma skip_length : forall s, String.length (skip_spaces s) <= String.length s.
Proof. induction s as [|c s IH]; [cbn; lia|]. cbn. destruct (is_space c); cbn; lia. Qed.

Definition keeps (m : matcher) : Prop :=
  forall s r rest, m s = Some (r, rest) -> said s = (said r ++ said rest)%list /\ String.length rest < String.length s.
Lemma replace_keeps : forall m, keeps m -> forall fuel s, said (replace m fuel s) = said s.
Proof.
  intros m Hm. induction fuel as [|f IH]; intros s; [reflexivity|]. cbn [replace].
  destruct (m s) as [[r rest]|] eqn:E.
  - rewrite said_app, IH. symmetry. now apply Hm.
  - destruct s as [|c s]; [reflexivity|]. cbn. now rewrite IH.
Qed.

Lemma m2_keeps : keeps m2.
Proof.
  intros s r rest H. unfold m2 in H. spans.
  pose proof (spaces_gone _ _ _ E0) as G. unspan. subst.
  split; [|cbn [String.length]; rewrite length_app_s; cbn [String.length]; lia].
  cbn. rewrite said_app, G. reflexivity.
Qed.
Lemma m3_keeps : keeps m3.
Proof.
  intros s r rest H. unfold m3 in H.
  destruct (eat "010" (match eat "013" s with Some s1 => s1 | None => s end)) as [s2|] eqn:E; [|discriminate H].
  destruct (eat "*" (skip_spaces s2)) as [s3|] eqn:E'; [|discriminate H]. injection H as <- <-.
  pose proof (skip_gone s2) as G. pose proof (skip_length s2) as L. apply eat_app in E, E'. rewrite E' in G, L.
  destruct (eat "013" s) as [s1|] eqn:E1; [apply eat_app in E1; subst s s1|subst s];
    cbn in *; (split; [now rewrite <- G|lia]).
Qed.
Lemma m7_keeps : keeps m7.
Proof.
  intros s r rest H. unfold m7 in H. spans.
  pose proof (spaces_gone _ _ _ E1) as G. pose proof (skip_gone s) as G'. pose proof (skip_length s) as L.
  apply orb_false_iff in E2 as [En Ew]. apply empty_false in Ew. unspan. rewrite E in G', L. subst.
  rewrite <- G'. cbn [String.length] in L. rewrite !length_app_s in L. split; [|lia].
  cbn. rewrite !said_app, G. cbn. now rewrite app_nil_r.
Qed.
Lemma m8_keeps : keeps m8.
Proof.
  intros s r rest H. unfold m8 in H. destruct (strip "_@param_ " s) as [s1|] eqn:E; [|discriminate].
  spans. apply strip_app in E. pose proof (skip_length b) as L. apply empty_false in E1. unspan. subst.
  split.
  - cbn. rewrite !said_app, skip_gone. cbn. rewrite app_nil_r. reflexivity.
  - cbn. rewrite length_app_s. lia.
Qed.
Lemma m9_keeps : keeps m9.
Proof.
  intros s r rest H. unfold m9 in H. spans. apply empty_false in E0. unspan. subst.
  split.
  - cbn [append]. repeat (rewrite ?said_app; cbn [said append]).
    change (marking "(") with false. change (marking ")") with false. change (marking "`") with true. cbn iota.
    rewrite <- ?app_assoc. cbn [app]. rewrite <- ?app_assoc. reflexivity.
  - rewrite length_app_s. cbn. rewrite length_app_s. cbn. lia.
Qed.
Lemma m10_keeps : keeps m10.
Proof.
  intros s r rest H. unfold m10 in H. destruct (strip "DEPRECATED" s) as [s1|] eqn:E; [|discriminate].
  injection H as <- <-. apply strip_app in E. subst. split; [|rewrite length_app_s; cbn; lia]. now rewrite !said_app.
Qed.
Lemma escape_keeps : forall s, said (escape s) = said s.
Proof.
  assert (H : forall ch s, said (escape_char ch s) = said s).
  { intros ch. induction s as [|c s IH]; [reflexivity|]. cbn [escape_char]. destruct (Ascii.eqb c ch); cbn [said].
    - change (marking "\") with true. cbn iota. now rewrite IH.
    - now rewrite IH. }
  intros s. unfold escape. now rewrite !H.
Qed.
Lemma md_keeps : forall s, said (md4 s) = said s /\ said (md1 s) = said s.
Proof.
  intros s. unfold md1, md4. destruct (eat "*" s) as [s1|] eqn:E; [|split; reflexivity]. apply eat_app in E. subst s. split; [reflexivity|].
  destruct (eat "<" s1) as [r|] eqn:E; [|reflexivity]. apply eat_app in E. now subst s1.
Qed.

(** Whatever the comment is, all that it says is shown, in order: only white space, brackets and marks differ. *)
Theorem C54_said : forall s, said (to_markdown s) = said s.
Proof.
  intros s. unfold to_markdown, laid_out, replace_all.
  rewrite (replace_keeps _ m10_keeps), (replace_keeps _ m9_keeps), (replace_keeps _ m8_keeps), (replace_keeps _ m7_keeps).
  rewrite escape_keeps, (proj1 (md_keeps _)), (replace_keeps _ m3_keeps), (replace_keeps _ m2_keeps).
  apply md_keeps.
Qed.
Print Assumptions C54_said.

(** ** Comments laid out line by line *)
Lemma keeps_sane : forall m, keeps m -> m "" = None -> sane m.
Proof. intros m Hm H0. split; [|exact H0]. intros s r rest H. now apply Hm in H. Qed.
Lemma sane2 : sane m2. Proof. apply keeps_sane; [apply m2_keeps|reflexivity]. Qed.
Lemma sane3 : sane m3. Proof. apply keeps_sane; [apply m3_keeps|reflexivity]. Qed.
Lemma sane7 : sane m7. Proof. apply keeps_sane; [apply m7_keeps|reflexivity]. Qed.
Lemma sane8 : sane m8. Proof. apply keeps_sane; [apply m8_keeps|reflexivity]. Qed.

(** Characters at which a pass cannot begin a replacement are copied. *)
Lemma ra_copy : forall m, sane m -> forall (P : ascii -> Prop),
  (forall c s, P c -> m (String c s) = None) -> forall p s, all P p -> replace_all m (p ++ s) = p ++ replace_all m s.
Proof.
  intros m Hm P HP. induction p as [|c p IH]; intros s Hp; [reflexivity|]. destruct Hp as [Hc Hp]. cbn [append].
  rewrite (ra_skip1 _ Hm) by now apply HP. now rewrite IH.
Qed.
Lemma all_app : forall (P : ascii -> Prop) a b, all P a -> all P b -> all P (a ++ b).
Proof. intros P. induction a as [|c a IH]; intros b Ha Hb; [exact Hb|]. destruct Ha. split; auto. Qed.
Lemma all_impl : forall (P Q : ascii -> Prop), (forall c, P c -> Q c) -> forall a, all P a -> all Q a.
Proof. intros P Q HPQ. induction a as [|c a IH]; intros Ha; [exact I|]. destruct Ha. split; auto. Qed.
Lemma all_blanks : forall (P : ascii -> Prop) n, P " "%char -> all P (blanks n).
Proof. intros P n H. induction n as [|n IH]; [exact I|]. split; auto. Qed.

Definition calm (c : ascii) : Prop := c <> "*"%char /\ (is_space c = true -> c = " "%char).
Lemma solid_all : forall t, solid t -> all usual t.
Proof.
  induction t as [|c t IH]; intros H; [exact I|]. destruct H as [Hc Ht]. split; [exact Hc|]. destruct t; [exact I|auto].
Qed.
Lemma usual_calm : forall c, usual c -> calm c.
Proof. intros c (H1 & H2 & H3). split; auto. Qed.
Lemma letter_bool : forall c, letter c -> is_letter c = true.
Proof.
  intros c H. unfold letter in H. unfold is_letter. cbv zeta in *. apply orb_true_iff.
  destruct H as [[H1 H2]|[H1 H2]]; apply Nat.leb_le in H1, H2; rewrite H1, H2; auto.
Qed.
Lemma name_char_bool : forall c, name_char c -> is_param c = true.
Proof.
  intros c H. unfold name_char in H. unfold is_param, is_word. cbv zeta in H.
  destruct H as [H|[[H1 H2]|[H|H]]].
  - now rewrite (letter_bool _ H).
  - unfold is_digit. cbv zeta. apply Nat.leb_le in H1, H2. rewrite H1, H2. cbn. now rewrite orb_true_r.
  - subst c. reflexivity.
  - subst c. reflexivity.
Qed.
Lemma name_char_letter : forall c, letter c -> name_char c.
Proof. intros c H. now left. Qed.
Lemma name_char_not : forall c, name_char c ->
  is_space c = false /\ c <> "*"%char /\ c <> "@"%char /\ c <> "<"%char /\ c <> ">"%char.
Proof.
  intros c H. apply name_char_bool in H. revert c H.
  assert (F : forallb (fun n => let c := ascii_of_nat n in
            implb (is_param c) (negb (is_space c) && forallb (fun d => negb (Ascii.eqb c d)) ["*"; "@"; "<"; ">"]%char))
            (seq 0 256) = true) by (vm_compute; reflexivity).
  intros c H. rewrite forallb_forall in F. specialize (F (nat_of_ascii c)).
  rewrite ascii_nat_embedding in F. cbv zeta in F. rewrite H in F. cbn [implb] in F.
  assert (Hin : In (nat_of_ascii c) (seq 0 256)).
  { apply in_seq. split; [lia|]. destruct c as [[] [] [] [] [] [] [] []]; vm_compute; lia. }
  specialize (F Hin). apply andb_true_iff in F as [F1 F2]. apply negb_true_iff in F1.
  rewrite forallb_forall in F2.
  split; [exact F1|]. repeat split; intros ->; [specialize (F2 "*"%char)|specialize (F2 "@"%char)|specialize (F2 "<"%char)|
    specialize (F2 ">"%char)]; (assert (false = true) by (apply F2; cbn; tauto); discriminate).
Qed.
Lemma name_calm : forall c, name_char c -> calm c.
Proof. intros c H. apply name_char_not in H as (H1 & H2 & H3 & _). split; [exact H2|congruence]. Qed.
Lemma blank_calm : calm " ".
Proof. split; [discriminate|reflexivity]. Qed.
Lemma at_calm : calm "@".
Proof. split; [discriminate|discriminate]. Qed.

Definition blank (l : line) : Prop := l = Blank.
Lemma fine_cons : forall t, fine t -> exists c r, t = String c r /\ is_space c = false /\ usual c.
Proof. intros [|c r] [H1 H2]; [now elim H1|]. exists c, r. destruct H1. auto. Qed.
Lemma behind_calm : forall l, fine_line l -> all calm (behind l).
Proof.
  assert (Ht : forall t, fine t -> all calm t)
    by (intros t [H _]; apply solid_all in H; revert H; apply all_impl, usual_calm).
  intros [i t|i n g t|i g n g' t|] H; cbn [behind fine_line] in *; [| | |exact I].
  - apply all_app; [apply all_blanks, blank_calm|auto].
  - destruct H as (_ & Hn & _ & H).
    repeat (apply all_app; [first [apply all_blanks, blank_calm|exact (conj at_calm I)
                                  |revert Hn; apply all_impl; intros c Hc; now apply name_calm, name_char_letter]|]). auto.
  - destruct H as (_ & Hn & H).
    apply all_app; [apply all_blanks, blank_calm|]. apply all_app.
    { cbn [all]. repeat split; discriminate. }
    repeat (apply all_app; [first [apply all_blanks, blank_calm|revert Hn; apply all_impl, name_calm]|]). auto.
Qed.
Lemma behind_shape : forall l, fine_line l -> l <> Blank ->
  exists i c r, behind l = blanks (S i) ++ String c r /\ is_space c = false /\ c <> "*"%char.
Proof.
  intros [i t|i n g t|i g n g' t|] H Hb; [| | |congruence]; cbn [behind].
  - destruct (fine_cons _ H) as (c & r & -> & Hc & Hu). exists i, c, r. split; [reflexivity|]. split; [exact Hc|]. apply Hu.
  - exists i, "@"%char, (n ++ blanks (S g) ++ t). split; [reflexivity|]. split; [reflexivity|discriminate].
  - exists i, "@"%char, ("param" ++ blanks (S g) ++ n ++ blanks (S g') ++ t). split; [reflexivity|]. split; [reflexivity|discriminate].
Qed.

Lemma span_all : forall f p, all (fun c => f c = true) p -> forall c s, f c = false ->
  span f (p ++ String c s) = (p, String c s).
Proof.
  intros f. induction p as [|x p IH]; intros Hp c s Hc.
  - cbn. now rewrite Hc.
  - destruct Hp as [Hx Hp]. cbn [append span]. rewrite Hx. now rewrite (IH Hp).
Qed.
Lemma skip_all : forall p, all (fun c => is_space c = true) p -> forall s, skip_spaces (p ++ s) = skip_spaces s.
Proof. induction p as [|x p IH]; intros Hp s; [reflexivity|]. destruct Hp as [Hx Hp]. cbn. rewrite Hx. auto. Qed.
Lemma skip_none : forall c s, is_space c = false -> skip_spaces (String c s) = String c s.
Proof. intros c s H. cbn. now rewrite H. Qed.
Lemma blanks_spaces : forall n, all (fun c => is_space c = true) (blanks n).
Proof. intros n. apply all_blanks. reflexivity. Qed.

(** *** The stars of free lines *)
Fixpoint out2 (star : string) (ls : list line) : string :=
  match ls with
  | [] => ""
  | Blank :: ls' => nl ++ nl ++ out2 "" ls'
  | l :: ls' => star ++ behind l ++ nl ++ " " ++ out2 "*" ls'
  end.
Definition more (ls : list line) : string := match ls with [] => "" | _ => "*" ++ behind_stars ls end.
Lemma behind_stars_more : forall l ls, behind_stars (l :: ls) = behind l ++ nl ++ " " ++ more ls.
Proof. intros l [|l' ls]; reflexivity. Qed.
Lemma m2_other : forall c s, c <> "*"%char -> m2 (String c s) = None.
Proof. intros c s H. unfold m2, eat. apply Ascii.eqb_neq in H. now rewrite H. Qed.
Lemma copy2 : forall p s, all calm p -> replace_all m2 (p ++ nl ++ " " ++ s) = p ++ nl ++ " " ++ replace_all m2 s.
Proof.
  intros p s Hp. rewrite (ra_copy _ sane2 calm); [|intros c s' [H _]; now apply m2_other|exact Hp].
  reflexivity.
Qed.
Lemma has_blanks : forall n, has (Ascii.eqb "010") (blanks n) = false.
Proof. induction n as [|n IH]; [reflexivity|exact IH]. Qed.
Lemma out2_cons : forall star l ls, l <> Blank -> out2 star (l :: ls) = star ++ behind l ++ nl ++ " " ++ out2 "*" ls.
Proof. intros star [i t|i n g t|i g n g' t|] ls H; [reflexivity..|congruence]. Qed.
Lemma pass2 : forall ls b, spaced b ls -> Forall fine_line ls ->
  replace_all m2 (more ls) = out2 "*" ls /\ (b = false -> replace_all m2 (behind_stars ls) = out2 "" ls).
Proof.
  induction ls as [|l ls IH]; intros b Hs Hf.
  - split; [reflexivity|]. intros ->. cbn in Hs. discriminate.
  - apply Forall_inv in Hf as Hl. apply Forall_inv_tail in Hf.
    assert (Hd : l = Blank \/ l <> Blank) by (destruct l; auto; right; discriminate).
    destruct Hd as [->|Hb].
    + destruct Hs as [-> Hs]. split; [|discriminate]. cbn [more]. rewrite behind_stars_more. cbn [behind append out2].
      destruct ls as [|l' ls]; [discriminate|].
      destruct (IH false Hs Hf) as [_ IHs]. specialize (IHs eq_refl).
      rewrite (ra_match _ sane2 _ (nl ++ nl) (behind_stars (l' :: ls))); [now rewrite IHs, app_assoc_s|reflexivity].
    + assert (Hs' : spaced true ls) by (destruct l; [exact Hs..|congruence]).
      destruct (IH true Hs' Hf) as [IHm _]. rewrite !(out2_cons _ l ls Hb). cbn [more]. rewrite behind_stars_more.
      assert (Hbody : replace_all m2 (behind l ++ nl ++ " " ++ more ls) = behind l ++ nl ++ " " ++ out2 "*" ls)
        by (rewrite (copy2 _ _ (behind_calm _ Hl)); now rewrite IHm).
      split; [|intros _; exact Hbody].
      destruct (behind_shape l Hl Hb) as (i & c & r & Hsh & Hc & Hstar).
      change ("*" ++ behind l ++ nl ++ " " ++ more ls) with (String "*" (behind l ++ nl ++ " " ++ more ls)).
      rewrite (ra_skip1 _ sane2); [rewrite Hbody; reflexivity|].
      unfold m2. rewrite eat_same, Hsh, app_assoc_s. cbn [append].
      rewrite (span_all is_space (blanks (S i)) (blanks_spaces _) c (r ++ nl ++ String " " (more ls)) Hc).
      now rewrite has_blanks.
Qed.

(** *** The stars at the beginning of lines *)
Fixpoint out3 (sep : string) (ls : list line) : string :=
  match ls with
  | [] => nl ++ " "
  | Blank :: ls' => out3 (nl ++ " " ++ nl ++ nl) ls'
  | l :: ls' => sep ++ behind l ++ out3 "" ls'
  end.
Lemma out3_cons : forall sep l ls, l <> Blank -> out3 sep (l :: ls) = sep ++ behind l ++ out3 "" ls.
Proof. intros sep [i t|i n g t|i g n g' t|] ls H; [reflexivity..|congruence]. Qed.
Definition no_end (c : ascii) : Prop := c <> "010"%char /\ c <> "013"%char.
Lemma m3_other : forall c s, no_end c -> m3 (String c s) = None.
Proof.
  intros c s [H1 H2]. unfold m3. cbn [eat]. apply Ascii.eqb_neq in H1, H2. rewrite H2. cbn [eat]. now rewrite H1.
Qed.
Lemma calm_no_end : forall c, calm c -> no_end c.
Proof. intros c [_ H]. split; intros ->; specialize (H eq_refl); discriminate. Qed.
Lemma m3_nl : forall s, m3 (String "010" s) = match eat "*" (skip_spaces s) with Some rest => Some ("", rest) | None => None end.
Proof. reflexivity. Qed.
Lemma eat_other : forall c x s, x <> c -> eat c (String x s) = None.
Proof. intros c x s H. cbn. apply Ascii.eqb_neq in H. now rewrite H. Qed.
Lemma pass3 : forall ls, Forall fine_line ls ->
  (spaced true ls -> replace_all m3 (nl ++ " " ++ out2 "*" ls) = out3 "" ls) /\
  (spaced false ls ->
     replace_all m3 (out2 "" ls) = out3 "" ls /\
     replace_all m3 (out2 "*" ls) = "*" ++ out3 "" ls /\
     replace_all m3 (nl ++ " " ++ nl ++ nl ++ out2 "" ls) = out3 (nl ++ " " ++ nl ++ nl) ls).
Proof.
  induction ls as [|l ls IH]; intros Hf.
  - split; [reflexivity|discriminate].
  - apply Forall_inv in Hf as Hl. apply Forall_inv_tail in Hf. specialize (IH Hf) as [IHt IHf].
    assert (Hd : l = Blank \/ l <> Blank) by (destruct l; auto; right; discriminate).
    destruct Hd as [->|Hb].
    + split; [|intros [H _]; discriminate]. intros [_ Hs]. destruct (IHf Hs) as (_ & _ & H). exact H.
    + assert (Hs' : forall b, spaced b (l :: ls) -> spaced true ls) by (intros b H; destruct l; [exact H..|congruence]).
      rewrite !out2_cons by exact Hb. rewrite !out3_cons by exact Hb.
      assert (Hbody : spaced true ls -> replace_all m3 (behind l ++ nl ++ " " ++ out2 "*" ls) = behind l ++ out3 "" ls).
      { intros Hs. rewrite (ra_copy _ sane3 calm); [now rewrite IHt|intros c s H; now apply m3_other, calm_no_end|
          now apply behind_calm]. }
      split.
      * intros Hs. specialize (Hbody (Hs' _ Hs)).
        change (nl ++ " " ++ "*" ++ behind l ++ nl ++ " " ++ out2 "*" ls)
          with (String "010" (String " " (String "*" (behind l ++ nl ++ " " ++ out2 "*" ls)))).
        rewrite (ra_match _ sane3 _ "" (behind l ++ nl ++ " " ++ out2 "*" ls)) by reflexivity.
        rewrite Hbody. reflexivity.
      * intros Hs. specialize (Hbody (Hs' _ Hs)). split; [exact Hbody|]. split.
        -- change ("*" ++ behind l ++ nl ++ " " ++ out2 "*" ls) with (String "*" (behind l ++ nl ++ " " ++ out2 "*" ls)).
           rewrite (ra_skip1 _ sane3) by (apply m3_other; split; discriminate). now rewrite Hbody.
        -- change ("" ++ behind l ++ nl ++ " " ++ out2 "*" ls) with (behind l ++ nl ++ " " ++ out2 "*" ls).
           destruct (behind_shape l Hl Hb) as (i & c & r & Hsh & Hc & Hstar).
           set (X := behind l ++ nl ++ " " ++ out2 "*" ls) in *.
           assert (HX : eat "*" (skip_spaces X) = None).
           { unfold X. rewrite Hsh, app_assoc_s, skip_all by apply blanks_spaces. cbn [append].
             rewrite skip_none by exact Hc. now apply eat_other. }
           change (nl ++ " " ++ nl ++ nl ++ X) with (String "010" (String " " (String "010" (String "010" X)))).
           assert (Hn : forall w, all (fun c => is_space c = true) w -> m3 (String "010" (w ++ X)) = None).
           { intros w Hw. rewrite m3_nl, skip_all by exact Hw. now rewrite HX. }
           rewrite (ra_skip1 _ sane3) by (apply (Hn (String " " (String "010" (String "010" "")))); cbn; auto).
           rewrite (ra_skip1 _ sane3) by (apply m3_other; split; discriminate).
           rewrite (ra_skip1 _ sane3) by (apply (Hn (String "010" "")); cbn; auto).
           rewrite (ra_skip1 _ sane3) by (apply (Hn ""); cbn; auto).
           rewrite Hbody. reflexivity.
Qed.

(** *** Brackets *)
Lemma escape_char_app : forall ch a b, escape_char ch (a ++ b) = escape_char ch a ++ escape_char ch b.
Proof. intros ch. induction a as [|c a IH]; intros b; [reflexivity|]. cbn. destruct (Ascii.eqb c ch); cbn; now rewrite IH. Qed.
Lemma escape_app : forall a b, escape (a ++ b) = escape a ++ escape b.
Proof. intros a b. unfold escape. now rewrite !escape_char_app. Qed.
Lemma escape_same : forall a, all (fun c => c <> "<"%char /\ c <> ">"%char) a -> escape a = a.
Proof.
  unfold escape. induction a as [|c a IH]; intros Ha; [reflexivity|]. destruct Ha as [[H1 H2] Ha].
  cbn [escape_char]. apply Ascii.eqb_neq in H1, H2. rewrite H1. cbn [escape_char]. rewrite H2. now rewrite IH.
Qed.
Definition esc_line (l : line) : line :=
  match l with
  | Text i t => Text i (escape t)
  | Tag i n g t => Tag i n g (escape t)
  | Param i g n g' t => Param i g n g' (escape t)
  | Blank => Blank
  end.
Lemma escape_name : forall n, all name_char n -> escape n = n.
Proof.
  intros n H. apply escape_same. revert H. apply all_impl. intros c H. apply name_char_not in H. tauto.
Qed.
Lemma escape_blanks : forall n, escape (blanks n) = blanks n.
Proof. intros n. apply escape_same, all_blanks. split; discriminate. Qed.
Lemma escape_behind : forall l, fine_line l -> escape (behind l) = behind (esc_line l).
Proof.
  intros [i t|i n g t|i g n g' t|] H; cbn [behind esc_line fine_line] in *; rewrite ?escape_app, ?escape_blanks; try reflexivity.
  - destruct H as (_ & H & _). rewrite (escape_name n); [reflexivity|]. revert H. apply all_impl, name_char_letter.
  - destruct H as (_ & H & _). now rewrite (escape_name n).
Qed.
Lemma escape_out3 : forall ls sep, Forall fine_line ls -> escape (out3 sep ls) = out3 (escape sep) (map esc_line ls).
Proof.
  induction ls as [|l ls IH]; intros sep Hf; [reflexivity|]. apply Forall_inv in Hf as Hl. apply Forall_inv_tail in Hf.
  assert (Hd : l = Blank \/ l <> Blank) by (destruct l; auto; right; discriminate). destruct Hd as [->|Hb].
  - cbn [out3 map esc_line]. rewrite IH by exact Hf. reflexivity.
  - cbn [map]. rewrite !out3_cons by (try exact Hb; destruct l; discriminate || congruence).
    rewrite !escape_app, IH, escape_behind by assumption. reflexivity.
Qed.
Lemma solid_cons : forall c t, usual c -> solid t -> solid (String c t).
Proof. intros c t Hc Ht. split; [exact Hc|]. now destruct t. Qed.
Lemma solid_last : forall c, usual c -> is_space c = false -> solid (String c "").
Proof. intros c Hc Hs. split; assumption. Qed.
Lemma usual_backslash : usual "\".
Proof. split; [discriminate|]. split; discriminate. Qed.
Lemma escape_char_solid : forall ch t, solid t -> solid (escape_char ch t).
Proof.
  intros ch. induction t as [|c t IH]; intros H; [exact H|]. destruct H as [Hc Ht]. cbn [escape_char].
  assert (H' : solid (String c (escape_char ch t))).
  { destruct t as [|c' t']; [now apply solid_last|]. apply solid_cons; [exact Hc|now apply IH]. }
  destruct (Ascii.eqb c ch); [|exact H']. apply solid_cons; [apply usual_backslash|exact H'].
Qed.
Lemma fine_escape : forall t, fine t -> fine (escape t).
Proof.
  intros t [H1 H2]. split; [unfold escape; now apply escape_char_solid, escape_char_solid|].
  destruct t as [|c t]; [exact I|]. unfold escape. cbn [escape_char].
  destruct (Ascii.eqb c "<"); [reflexivity|]. cbn [escape_char]. destruct (Ascii.eqb c ">"); [reflexivity|exact H2].
Qed.
Lemma fine_esc_line : forall l, fine_line l -> fine_line (esc_line l).
Proof.
  intros [i t|i n g t|i g n g' t|] H; cbn [esc_line fine_line] in *; [now apply fine_escape| | |exact I].
  - destruct H as (H1 & H2 & H3 & H4). repeat (split; [assumption|]). now apply fine_escape.
  - destruct H as (H1 & H2 & H3). repeat (split; [assumption|]). now apply fine_escape.
Qed.

(** *** Tags *)
Fixpoint out7 (sep : string) (ls : list line) : string :=
  match ls with
  | [] => nl ++ " "
  | Text i t :: ls' => sep ++ blanks (S i) ++ t ++ out7 "" ls'
  | Tag _ n _ t :: ls' => nl ++ nl ++ "_@" ++ n ++ "_ " ++ t ++ out7 "" ls'
  | Param _ _ n g t :: ls' => nl ++ nl ++ "_@param_ " ++ n ++ blanks (S g) ++ t ++ out7 "" ls'
  | Blank :: ls' => out7 (nl ++ " " ++ nl ++ nl) ls'
  end.
Definition white (s : string) : Prop := all (fun c => is_space c = true) s.
Lemma m7_none : forall w c s, white w -> is_space c = false -> c <> "@"%char -> m7 (w ++ String c s) = None.
Proof.
  intros w c s Hw Hc Ha. unfold m7. rewrite skip_all by exact Hw. rewrite skip_none by exact Hc.
  now rewrite eat_other.
Qed.
Lemma copy7_white : forall w c s, white w -> is_space c = false -> c <> "@"%char ->
  replace_all m7 (w ++ String c s) = w ++ replace_all m7 (String c s).
Proof.
  induction w as [|x w IH]; intros c s Hw Hc Ha; [reflexivity|]. cbn [append].
  rewrite (ra_skip1 _ sane7); [|exact (m7_none (String x w) c s Hw Hc Ha)].
  rewrite IH; [reflexivity|apply Hw|exact Hc|exact Ha].
Qed.
(** A text that does not end in white space: the first sign behind the white space at its front is not @. *)
Lemma solid_front : forall t, solid t -> exists w c r, t = w ++ String c r /\ white w /\ is_space c = false /\ c <> "@"%char.
Proof.
  induction t as [|c t IH]; intros H; [now elim H|]. destruct H as [Hc Ht].
  destruct (is_space c) eqn:Es.
  - destruct t as [|c' t']; [congruence|]. destruct (IH Ht) as (w & d & r & E & Hw & Hd).
    exists (String c w), d, r. cbn [append]. rewrite <- E. split; [reflexivity|]. split; [split; assumption|exact Hd].
  - exists "", c, t. split; [reflexivity|]. split; [exact I|]. split; [exact Es|apply Hc].
Qed.
Lemma copy7_solid : forall t s, solid t -> replace_all m7 (t ++ s) = t ++ replace_all m7 s.
Proof.
  induction t as [|c t IH]; intros s H; [reflexivity|]. cbn [append].
  rewrite (ra_skip1 _ sane7).
  - f_equal. destruct t as [|c' t']; [reflexivity|]. apply IH. apply H.
  - destruct (solid_front _ H) as (w & d & r & E & Hw & Hd & Ha).
    change (String c (t ++ s)) with (String c t ++ s). rewrite E, app_assoc_s. cbn [append]. now apply m7_none.
Qed.
Lemma all_white : forall a b, white a -> white b -> white (a ++ b).
Proof. intros a b Ha Hb. now apply all_app. Qed.
Lemma m7_tag : forall w n g t s, white w -> n <> "" -> all letter n -> fine t ->
  m7 (w ++ "@" ++ n ++ blanks (S g) ++ t ++ s) = Some (nl ++ nl ++ "_@" ++ n ++ "_ ", t ++ s).
Proof.
  intros w n g t s Hw Hn0 Hn Ht. unfold m7. rewrite skip_all by exact Hw. cbn [append].
  rewrite skip_none by reflexivity. rewrite eat_same.
  change (blanks (S g) ++ t ++ s) with (String " " (blanks g ++ t ++ s)).
  rewrite (span_all is_letter n); [|revert Hn; apply all_impl, letter_bool|reflexivity].
  destruct (fine_cons _ Ht) as (c & r & -> & Hc & _). cbn [append].
  change (String " " (blanks g ++ String c (r ++ s))) with (blanks (S g) ++ String c (r ++ s)).
  rewrite (span_all is_space (blanks (S g)) (blanks_spaces _) c _ Hc).
  destruct n as [|x n]; [congruence|]. reflexivity.
Qed.
Lemma pass7 : forall ls sep, Forall fine_line ls -> white sep -> (ls = [] -> sep = "") ->
  spaced (empty sep) ls -> replace_all m7 (out3 sep ls) = out7 sep ls.
Proof.
  induction ls as [|l ls IH]; intros sep Hf Hw H0 Hs; [reflexivity|].
  apply Forall_inv in Hf as Hl. apply Forall_inv_tail in Hf.
  destruct l as [i t|i n g t|i g n g' t|]; cbn [out3 out7 behind]; cbn [spaced] in Hs; cbn [fine_line] in Hl.
  - pose proof (proj1 Hl) as Hsol. destruct (fine_cons _ Hl) as (c & r & Et & Hc & Hu).
    rewrite app_assoc_s, <- (app_assoc_s sep). rewrite Et at 1. cbn [append].
    rewrite copy7_white; [|apply all_white; [exact Hw|apply blanks_spaces]|exact Hc|apply Hu].
    rewrite app_assoc_s. do 2 f_equal.
    change (String c (r ++ out3 "" ls)) with (String c r ++ out3 "" ls). rewrite <- Et.
    rewrite copy7_solid by exact Hsol. f_equal. apply IH; [exact Hf|exact I|reflexivity|exact Hs].
  - destruct Hl as (Hn0 & Hn & _ & Ht). rewrite !app_assoc_s, <- (app_assoc_s sep).
    rewrite (ra_match _ sane7 _ _ _ (m7_tag (sep ++ blanks (S i)) n g t (out3 "" ls)
               (all_white _ _ Hw (blanks_spaces _)) Hn0 Hn Ht)).
    rewrite !app_assoc_s. do 5 f_equal. rewrite copy7_solid by apply Ht. f_equal.
    apply IH; [exact Hf|exact I|reflexivity|exact Hs].
  - destruct Hl as (Hn0 & Hn & Ht).
    assert (Hnt : fine (n ++ blanks (S g') ++ t)).
    { split.
      - assert (Hbt : solid (blanks (S g') ++ t)).
        { generalize (S g'). intros k. induction k as [|k IHk]; [apply Ht|]. cbn [blanks append]. apply solid_cons; [|exact IHk].
          split; [discriminate|]. split; [discriminate|reflexivity]. }
        clear - Hn Hbt. induction n as [|x n IHn]; [exact Hbt|]. destruct Hn as [Hx Hn]. cbn [append]. apply solid_cons; [|auto].
        apply name_char_not in Hx as (H1 & H2 & H3 & _). split; [exact H2|]. split; [exact H3|congruence].
      - destruct n as [|x n]; [congruence|]. cbn [append]. destruct Hn as [Hx _]. apply name_char_not in Hx. tauto. }
    rewrite !app_assoc_s, <- (app_assoc_s sep).
    assert (E : forall s, (sep ++ blanks (S i)) ++ "@param" ++ blanks (S g) ++ n ++ blanks (S g') ++ t ++ s
                = (sep ++ blanks (S i)) ++ "@" ++ "param" ++ blanks (S g) ++ (n ++ blanks (S g') ++ t) ++ s).
    { intros s. now rewrite !app_assoc_s. }
    rewrite E.
    rewrite (ra_match _ sane7 _ _ _ (m7_tag (sep ++ blanks (S i)) "param" g (n ++ blanks (S g') ++ t) (out3 "" ls)
               (all_white _ _ Hw (blanks_spaces _)) ltac:(discriminate) ltac:(cbn; repeat split; right; vm_compute; lia) Hnt)).
    rewrite copy7_solid by apply Hnt. rewrite (IH "") by (try exact Hf; try exact I; try reflexivity; exact Hs).
    rewrite !app_assoc_s. reflexivity.
  - destruct Hs as [_ Hs]. apply IH; [exact Hf|cbn; auto| |exact Hs]. intros ->. discriminate.
Qed.

(** *** Parameters *)
Lemma strip_none1 : forall c s, c <> "_"%char -> strip "_@param_ " (String c s) = None.
Proof. intros c s H. unfold strip. cbn [prefix]. destruct (ascii_dec "_" c); [congruence|reflexivity]. Qed.
Lemma m8_next : forall c d s, d <> "@"%char -> m8 (String c (String d s)) = None.
Proof.
  intros c d s H. unfold m8, strip. cbn [prefix]. destruct (ascii_dec "_" c); [|reflexivity].
  destruct (ascii_dec "@" d); [congruence|reflexivity].
Qed.
Lemma m8_end : forall c, m8 (String c "") = None.
Proof. intros c. unfold m8, strip. cbn [prefix]. now destruct (ascii_dec "_" c). Qed.
Definition no_at (s : string) : Prop := all (fun c => c <> "@"%char) s.
Definition no_at_first (s : string) : Prop := match s with String c _ => c <> "@"%char | EmptyString => True end.
Lemma copy8 : forall p s, no_at p -> no_at_first s -> replace_all m8 (p ++ s) = p ++ replace_all m8 s.
Proof.
  induction p as [|c p IH]; intros s Hp Hs; [reflexivity|]. destruct Hp as [Hc Hp]. cbn [append].
  rewrite (ra_skip1 _ sane8); [now rewrite IH|]. destruct (p ++ s) as [|d r] eqn:E; [apply m8_end|]. apply m8_next.
  destruct p as [|x p]; cbn [append] in E.
  - subst s. exact Hs.
  - injection E as -> _. apply Hp.
Qed.
Lemma usual_no_at : forall t, solid t -> no_at t.
Proof. intros t H. apply solid_all in H. revert H. apply all_impl. intros c H. apply H. Qed.
Lemma white_no_at : forall w, white w -> no_at w.
Proof. apply all_impl. intros c H ->. discriminate. Qed.
Lemma name_no_at : forall n, all name_char n -> no_at n.
Proof. apply all_impl. intros c H. apply name_char_not in H. tauto. Qed.
Lemma out7_first : forall ls sep, white sep -> no_at_first (out7 sep ls).
Proof.
  intros ls. induction ls as [|l ls IH]; intros sep Hw; [cbn; discriminate|].
  destruct l as [i t|i n g t|i g n g' t|]; cbn [out7]; try (cbn; discriminate).
  - destruct sep as [|c sep]; [cbn; discriminate|]. cbn. intros ->. destruct Hw as [H _]. discriminate.
  - apply IH. cbn. auto.
Qed.
(** The lines as they are shown, apart from the brackets *)
Fixpoint shown' (sep : string) (ls : list line) : string :=
  match ls with
  | [] => nl ++ " "
  | Text i t :: ls' => sep ++ blanks (S i) ++ t ++ shown' "" ls'
  | Tag _ n _ t :: ls' => nl ++ nl ++ "_@" ++ n ++ "_ " ++ t ++ shown' "" ls'
  | Param _ _ n _ t :: ls' => nl ++ nl ++ "_@param_ `" ++ n ++ "` " ++ dash ++ " >" ++ t ++ shown' "" ls'
  | Blank :: ls' => shown' (nl ++ " " ++ nl ++ nl) ls'
  end.
Lemma prefix_name : forall p n s, all letter n -> prefix (p ++ "_ ") (n ++ "_ " ++ s) = true -> all letter p -> n = p.
Proof.
  assert (U : letter "_" -> False) by (intros [H|H]; revert H; vm_compute; lia).
  induction p as [|c p IH]; intros n s Hn H Hp.
  - destruct n as [|x n]; [reflexivity|]. exfalso. cbn [append prefix] in H. destruct (ascii_dec "_" x) as [<-|]; [|discriminate].
    destruct Hn as [Hx _]. exact (U Hx).
  - destruct Hp as [Hc Hp]. destruct n as [|x n].
    + cbn [append prefix] in H. destruct (ascii_dec c "_") as [->|]; [now elim U|discriminate].
    + cbn [append prefix] in H. destruct (ascii_dec c x) as [->|]; [|discriminate]. f_equal. destruct Hn as [_ Hn]. exact (IH _ _ Hn H Hp).
Qed.
Lemma pass8 : forall ls sep, Forall fine_line ls -> white sep -> replace_all m8 (out7 sep ls) = shown' sep ls.
Proof.
  induction ls as [|l ls IH]; intros sep Hf Hw; [reflexivity|].
  apply Forall_inv in Hf as Hl. apply Forall_inv_tail in Hf.
  assert (Hrest : forall t, fine t -> replace_all m8 (t ++ out7 "" ls) = t ++ shown' "" ls).
  { intros t Ht. rewrite copy8; [now rewrite IH|apply usual_no_at, Ht|now apply out7_first]. }
  assert (Hfirst : forall t s, fine t -> no_at_first (t ++ s)).
  { intros t s Ht. destruct (fine_cons _ Ht) as (c & r & -> & _ & Hu). apply Hu. }
  destruct l as [i t|i n g t|i g n g' t|]; cbn [out7 shown']; cbn [fine_line] in Hl.
  - rewrite copy8; [|now apply white_no_at|cbn; discriminate].
    rewrite copy8; [|apply white_no_at, blanks_spaces|now apply Hfirst]. now rewrite Hrest.
  - destruct Hl as (Hn0 & Hn & Hp & Ht).
    assert (Hn' : no_at n) by (apply name_no_at; revert Hn; apply all_impl, name_char_letter).
    rewrite <- app_assoc_s. rewrite copy8; [|cbn; repeat split; discriminate|cbn; discriminate]. rewrite app_assoc_s.
    do 2 f_equal. cbn [append].
    assert (Hm : m8 (String "_" (String "@" (n ++ String "_" (String " " (t ++ out7 "" ls))))) = None).
    { unfold m8, strip. cbn [prefix].
      destruct (prefix "param_ " (n ++ String "_" (String " " (t ++ out7 "" ls)))) eqn:E; [|reflexivity].
      exfalso. apply Hp. apply (prefix_name "param" n (t ++ out7 "" ls) Hn E). cbn. repeat split; right; vm_compute; lia. }
    rewrite (ra_skip1 _ sane8 _ _ Hm).
    assert (Hnf : forall s, no_at_first (n ++ String "_" s)).
    { intros s. destruct n as [|x n]; [congruence|]. apply Hn'. }
    rewrite (ra_skip1 _ sane8).
    2:{ pose proof (Hnf (String " " (t ++ out7 "" ls))) as Hx.
        destruct (n ++ String "_" (String " " (t ++ out7 "" ls))); [apply m8_end|now apply m8_next]. }
    do 2 f_equal. rewrite copy8; [|exact Hn'|cbn; discriminate]. f_equal.
    change (String "_" (String " " (t ++ out7 "" ls))) with ("_ " ++ t ++ out7 "" ls).
    rewrite copy8; [|cbn; repeat split; discriminate|now apply Hfirst]. now rewrite Hrest.
  - destruct Hl as (Hn0 & Hn & Ht).
    rewrite <- app_assoc_s. rewrite copy8; [|cbn; repeat split; discriminate|cbn; discriminate]. rewrite app_assoc_s.
    do 2 f_equal.
    assert (Hm : m8 ("_@param_ " ++ n ++ blanks (S g') ++ t ++ out7 "" ls)
                 = Some ("_@param_ `" ++ n ++ "` " ++ dash ++ " >", t ++ out7 "" ls)).
    { unfold m8. rewrite strip_ok.
      change (blanks (S g') ++ t ++ out7 "" ls) with (String " " (blanks g' ++ t ++ out7 "" ls)).
      rewrite (span_all is_param n); [|revert Hn; apply all_impl, name_char_bool|reflexivity].
      destruct n as [|x n]; [congruence|]. cbn [empty].
      change (String " " (blanks g' ++ t ++ out7 "" ls)) with (blanks (S g') ++ t ++ out7 "" ls).
      rewrite skip_all by apply blanks_spaces.
      destruct (fine_cons _ Ht) as (c & r & -> & Hc & _). cbn [append]. now rewrite skip_none. }
    rewrite (ra_match _ sane8 _ _ _ Hm). rewrite Hrest by exact Ht. now rewrite !app_assoc_s.
  - apply IH; [exact Hf|cbn; auto].
Qed.
Lemma shown_esc : forall ls sep, shown' sep (map esc_line ls) = shown sep ls.
Proof.
  induction ls as [|l ls IH]; intros sep; [reflexivity|].
  destruct l as [i t|i n g t|i g n g' t|]; cbn [map esc_line shown shown']; rewrite IH; reflexivity.
Qed.
Lemma spaced_esc : forall ls b, spaced b ls -> spaced b (map esc_line ls).
Proof.
  induction ls as [|l ls IH]; intros b H; [exact H|]. destruct l; cbn [map esc_line spaced] in *; auto. destruct H. auto.
Qed.
Lemma laid_out_lines : forall ls, usual_layout ls -> laid_out ("*" ++ behind_stars ls) = shown "" ls.
Proof.
  intros ls [Hs Hf]. destruct ls as [|l ls]; [discriminate|]. unfold laid_out.
  change ("*" ++ behind_stars (l :: ls)) with (more (l :: ls)).
  assert (Hm1 : md1 (more (l :: ls)) = more (l :: ls)).
  { unfold md1, more. cbn [append]. rewrite eat_same. rewrite behind_stars_more.
    apply Forall_inv in Hf. assert (Hb : l <> Blank) by (intros ->; destruct Hs; discriminate).
    destruct (behind_shape l Hf Hb) as (i & c & r & -> & _). reflexivity. }
  rewrite Hm1. rewrite (proj1 (pass2 _ _ Hs Hf)).
  destruct (proj2 (pass3 _ Hf) Hs) as (_ & -> & _).
  unfold md4. cbn [append]. rewrite eat_same. rewrite escape_out3 by exact Hf.
  change (escape "") with "".
  assert (Hf' : Forall fine_line (map esc_line (l :: ls))).
  { clear - Hf. induction Hf; constructor; auto. now apply fine_esc_line. }
  assert (Hs' : spaced true (map esc_line (l :: ls))).
  { apply spaced_esc in Hs. destruct l; cbn [map esc_line spaced] in *; auto. destruct Hs; discriminate. }
  rewrite (pass7 _ "" Hf' I (fun _ => eq_refl) Hs').
  rewrite (pass8 _ "" Hf' I). apply shown_esc.
Qed.

(** A comment written as is usual is shown in paragraphs, apart from the marks put around calls and deprecations. *)
Theorem C54_layout : forall ls, usual_layout ls ->
  to_markdown (comment_to_doc (comment_of ls)) = replace_all m10 (replace_all m9 (shown "" ls)).
Proof.
  intros ls H. unfold comment_of.
  assert (E : "/**" ++ end_of_line ++ " *" ++ behind_stars ls ++ "*/"
            = "/*" ++ "*" ++ (end_of_line ++ " ") ++ ("*" ++ behind_stars ls) ++ "*/") by now rewrite !app_assoc_s.
  rewrite E. rewrite C54_block_comment.
  - unfold to_markdown. now rewrite laid_out_lines.
  - intros c [<-|[]]. reflexivity.
  - intros c [<-|[<-|[]]]; reflexivity.
  - intros (c & s & Hc & Hsp). cbn in Hc. injection Hc as <- _. discriminate.
  - discriminate.
  - discriminate.
  - intros (c & s & Hc & Hsp). cbn in Hc. injection Hc as <- _. discriminate.
Qed.
Print Assumptions C54_layout.

(** Without calls and deprecations the paragraphs are all there is. *)
Lemma m9_paren : forall s, has (Ascii.eqb "(") s = false -> m9 s = None.
Proof.
  intros s H. unfold m9. destruct (span is_word s) as [a b] eqn:E. destruct (empty a); [reflexivity|].
  destruct (eat "(" b) as [r|] eqn:E'; [|reflexivity]. apply eat_app in E'. subst b.
  pose proof (span_app is_word s) as P. rewrite E in P. cbn [fst snd] in P. exfalso. rewrite P in H.
  clear - H. induction a as [|c a IH]; cbn [append has] in H; [rewrite Ascii.eqb_refl in H; discriminate|].
  apply orb_false_iff in H as [_ H]. auto.
Qed.
Lemma no_calls : forall s, has (Ascii.eqb "(") s = false -> replace_all m9 s = s.
Proof.
  induction s as [|c s IH]; intros H; [reflexivity|].
  rewrite (ra_skip1 _ (keeps_sane _ m9_keeps eq_refl)) by now apply m9_paren.
  rewrite IH; [reflexivity|]. cbn in H. now apply orb_false_iff in H.
Qed.
Lemma no_deprecated : forall s, (forall a b, s <> a ++ "DEPRECATED" ++ b) -> replace_all m10 s = s.
Proof.
  induction s as [|c s IH]; intros H; [reflexivity|].
  rewrite (ra_skip1 _ (keeps_sane _ m10_keeps eq_refl)).
  - rewrite IH; [reflexivity|]. intros a b ->. exact (H (String c a) b eq_refl).
  - unfold m10. destruct (strip "DEPRECATED" (String c s)) as [r|] eqn:E; [|reflexivity].
    apply strip_app in E. elim (H "" r E).
Qed.
Theorem C54_paragraphs : forall ls, usual_layout ls ->
  has (Ascii.eqb "(") (shown "" ls) = false -> (forall a b, shown "" ls <> a ++ "DEPRECATED" ++ b) ->
  to_markdown (comment_to_doc (comment_of ls)) = shown "" ls.
Proof. intros ls H Hc Hd. rewrite C54_layout by exact H. rewrite no_calls by exact Hc. now apply no_deprecated. Qed.
Print Assumptions C54_paragraphs.

(** ** Calls *)
Lemma word_bool : forall c, is_word c = true <-> word_char c.
Proof.
  intros c. unfold is_word, is_letter, is_digit, word_char, letter. cbv zeta. rewrite !orb_true_iff, !andb_true_iff, !Nat.leb_le, Ascii.eqb_eq. tauto.
Qed.
Lemma arg_bool : forall c, is_arg c = true <-> arg_char c.
Proof. intros c. unfold is_arg, arg_char. rewrite !orb_true_iff, word_bool, !Ascii.eqb_eq. tauto. Qed.
Lemma span_holds : forall f s, all (fun c => f c = true) (fst (span f s)).
Proof.
  intros f s. induction s as [|c s IH]; [exact I|]. cbn. destruct (f c) eqn:E; [|exact I]. destruct (span f s). cbn in *. auto.
Qed.
Lemma m9_call : forall s name args rest, call_at s name args rest -> m9 s = Some ("`" ++ name ++ "(" ++ args ++ ")" ++ "`", rest).
Proof.
  intros s name args rest (-> & N & W & A). unfold m9.
  assert (E : span is_word (name ++ "(" ++ args ++ ")" ++ rest) = (name, "(" ++ args ++ ")" ++ rest)).
  { apply (span_all is_word name); [|reflexivity]. apply (all_impl word_char); [|exact W]. intros c. apply word_bool. }
  rewrite E. destruct name as [|c name]; [elim N; reflexivity|]. cbn [empty].
  change ("(" ++ args ++ ")" ++ rest) with (String "(" (args ++ String ")" rest)). rewrite eat_same.
  rewrite (span_all is_arg args); [|apply (all_impl arg_char); [intros x; apply arg_bool|exact A]|reflexivity].
  rewrite eat_same. reflexivity.
Qed.
Lemma m9_some : forall s r rest, m9 s = Some (r, rest) -> exists name args, call_at s name args rest /\ r = "`" ++ name ++ "(" ++ args ++ ")" ++ "`".
Proof.
  intros s r rest H. unfold m9 in H. pose proof (span_app is_word s) as P. pose proof (span_holds is_word s) as Q. destruct (span is_word s) as [name s1]. cbn [fst snd] in P, Q.
  destruct (empty name) eqn:En; [discriminate|]. destruct (eat "(" s1) as [s2|] eqn:E1; [|discriminate]. apply eat_app in E1.
  pose proof (span_app is_arg s2) as P2. pose proof (span_holds is_arg s2) as Q2. destruct (span is_arg s2) as [args s3]. cbn [fst snd] in P2, Q2.
  destruct (eat ")" s3) as [rest'|] eqn:E2; [|discriminate]. apply eat_app in E2. injection H as <- <-.
  exists name, args. split; [|reflexivity]. subst. split; [reflexivity|]. split; [intros ->; discriminate|].
  split; [apply (all_impl (fun c => is_word c = true)); [intros c; apply word_bool|exact Q]|apply (all_impl (fun c => is_arg c = true)); [intros c; apply arg_bool|exact Q2]].
Qed.
Theorem C54_calls : forall s r, replace_all m9 s = r <-> calls_marked s r.
Proof.
  assert (Sn : sane m9) by exact (keeps_sane _ m9_keeps eq_refl).
  assert (A : forall n s, String.length s < n -> calls_marked s (replace_all m9 s)).
  { induction n as [|n IH]; intros s L; [lia|]. destruct (m9 s) as [[r rest]|] eqn:E.
    - rewrite (ra_match _ Sn _ _ _ E). destruct (m9_some _ _ _ E) as (name & args & C & ->). rewrite !app_assoc_s. eapply marked_call; [exact C|].
      apply IH. pose proof (proj1 Sn _ _ _ E). lia.
    - destruct s as [|c s]; [constructor|]. rewrite (ra_skip1 _ Sn _ _ E). apply marked_char; [|apply IH; cbn in L; lia].
      intros name args rest C. rewrite (m9_call _ _ _ _ C) in E. discriminate. }
  assert (B : forall s r, calls_marked s r -> replace_all m9 s = r).
  { intros s r H. induction H as [|s name args rest r C _ IH|c s r N _ IH]; [reflexivity| |].
    - rewrite (ra_match _ Sn _ _ _ (m9_call _ _ _ _ C)), IH, !app_assoc_s. reflexivity.
    - rewrite (ra_skip1 _ Sn); [rewrite IH; reflexivity|]. destruct (m9 (String c s)) as [[x y]|] eqn:E; [|reflexivity].
      destruct (m9_some _ _ _ E) as (name & args & C & _). elim (N _ _ _ C). }
  intros s r. split; [intros <-; exact (A (S (String.length s)) s (Nat.lt_succ_diag_r _))|apply B].
Qed.
Print Assumptions C54_calls.

(** A call with two arguments is not marked, nor is one with an array. *)
Theorem C54_calls_refuted : to_markdown "See add(a, b) and get(a[0]), not add(a)." = "See add(a, b) and get(a[0]), not `add(a)`.".
Proof. vm_compute. reflexivity. Qed.
Print Assumptions C54_calls_refuted.

(** Lines that begin directly behind their stars run together, and so do their words; an address is taken for a tag; a star at
    the end of a line is lost with the one after it. *)
Theorem C54_layout_refuted :
  to_markdown (comment_to_doc ("/**" ++ nl ++ " *Counts" ++ nl ++ " *entries." ++ nl ++ " */")) = "Countsentries." ++ nl ++ " " /\
  to_markdown "mail me@home now" = "mail me" ++ nl ++ nl ++ "_@home_ now" /\
  to_markdown (comment_to_doc ("/* a *" ++ nl ++ " * b" ++ nl ++ " */")) = "a " ++ nl ++ nl ++ " b" ++ nl ++ " ".
Proof. vm_compute. repeat split. Qed.
Print Assumptions C54_layout_refuted.

Example C54_markdown_nontrivial :
  let ls := [Text 0 "Adds a < b."; Text 2 "See add(a)."; Blank; Text 0 "More."; Blank; Param 0 0 "a" 1 "First."; Tag 0 "return" 0 "Sum."] in
  usual_layout ls /\
  shown "" ls = " Adds a \< b.   See add(a)." ++ nl ++ " " ++ nl ++ nl ++ " More." ++ nl ++ nl ++ "_@param_ `a` " ++ dash ++ " >First."
                ++ nl ++ nl ++ "_@return_ Sum." ++ nl ++ " " /\
  to_markdown (comment_to_doc (comment_of ls))
  = " Adds a \< b.   See `add(a)`." ++ nl ++ " " ++ nl ++ nl ++ " More." ++ nl ++ nl ++ "_@param_ `a` " ++ dash ++ " >First."
    ++ nl ++ nl ++ "_@return_ Sum." ++ nl ++ " ".
Proof.
  split; [|split; vm_compute; reflexivity]. split; [cbn; auto|].
  repeat apply Forall_cons; try apply Forall_nil; cbn [fine_line solid all fine]; unfold fine, usual; cbn [solid];
    unfold usual, letter, name_char;
    repeat match goal with
    | |- True => exact I
    | |- _ /\ _ => split
    | |- _ <> _ => discriminate
    | |- is_space _ = true -> _ => vm_compute; intros; (discriminate || reflexivity)
    | |- is_space _ = false => reflexivity
    end; vm_compute; lia.
Qed.
