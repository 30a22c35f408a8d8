(** C76: the profiler reads its filter as it is written. *)

From Coq Require Import String Ascii List Arith NArith Bool Lia DecimalString DecimalN Decimal.
From Verif Require Import ProfileModel ProfileSpec ProfileProofs.
Import ListNotations.

Definition lacks (c : ascii) (s : string) : Prop := ~ In c (list_ascii_of_string s).

Lemma lacks_app c a b : lacks c a -> lacks c b -> lacks c (a ++ b).
Proof.
  unfold lacks. induction a as [| x a IH]; intros A B; [exact B |]. cbn in *. intros [E | I]; [auto |]. apply IH; auto.
Qed.

Lemma rfind_none c s : lacks c s -> rfind c s = None.
Proof.
  unfold lacks. induction s as [| a s IH]; intro H; [reflexivity |]. cbn in *. rewrite IH by auto.
  destruct (Ascii.eqb_spec a c); [exfalso; auto | reflexivity].
Qed.

Lemma rfind_last c a b : lacks c b -> rfind c (a ++ String c b) = Some (a, b).
Proof.
  intro H. induction a as [| x a IH]; cbn.
  - rewrite (rfind_none _ _ H), Ascii.eqb_refl. reflexivity.
  - rewrite IH. reflexivity.
Qed.

Lemma split_plain c s : lacks c s -> split c s = [s].
Proof.
  unfold lacks. induction s as [| a s IH]; intro H; [reflexivity |]. cbn in *. rewrite IH by auto.
  destruct (Ascii.eqb_spec a c); [exfalso; auto | reflexivity].
Qed.

Lemma split_cons c s r : lacks c s -> split c (s ++ String c r) = s :: split c r.
Proof.
  unfold lacks. induction s as [| a s IH]; intro H; cbn in *.
  - now rewrite Ascii.eqb_refl.
  - rewrite IH by auto. destruct (Ascii.eqb_spec a c); [exfalso; auto | reflexivity].
Qed.

Lemma split_names l : l <> [] -> Forall (lacks "|"%char) l -> split "|"%char (String.concat "|" l) = l.
Proof.
  intros N H. induction H as [| s r Hs Hr IH]; [congruence |]. destruct r as [| s2 r].
  - apply split_plain, Hs.
  - change (String.concat "|" (s :: s2 :: r)) with (s ++ String "|"%char (String.concat "|" (s2 :: r)))%string.
    rewrite split_cons by exact Hs. rewrite IH by discriminate. reflexivity.
Qed.

Definition digit (c : ascii) : Prop := In c (list_ascii_of_string "0123456789").

Lemma digits u : Forall digit (list_ascii_of_string (NilEmpty.string_of_uint u)).
Proof. induction u; cbn; constructor; try assumption; unfold digit; cbn; auto 12. Qed.

Lemma number_lacks n c : ~ digit c -> lacks c (number n).
Proof. intros H I. apply H. exact (proj1 (Forall_forall _ _) (digits (N.to_uint n)) c I). Qed.

Lemma number_nonempty n : number n <> EmptyString.
Proof.
  unfold number. intro E.
  assert (N.to_uint n = Decimal.Nil) as Q by (destruct (N.to_uint n); cbn in E; congruence).
  pose proof (Unsigned.of_to n) as R. rewrite Q in R. cbn in R. subst n. discriminate Q.
Qed.

Lemma parse_number n : (n < 2 ^ 64)%N -> parse (number n) = Some n.
Proof.
  intro L. unfold parse.
  assert (P : match number n with String "+"%char r => r | _ => number n end = number n).
  { pose proof (digits (N.to_uint n)) as D. change (NilEmpty.string_of_uint (N.to_uint n)) with (number n) in D.
    destruct (number n) as [| a r]; [reflexivity |]. cbn in D. apply Forall_inv in D. unfold digit in D. cbn in D.
    repeat (destruct D as [<- | D]; [reflexivity |]). destruct D. }
  rewrite P. destruct (String.eqb_spec (number n) EmptyString) as [E | _]; [destruct (number_nonempty n E) |].
  unfold number. rewrite NilEmpty.usu, Unsigned.of_to. now rewrite (proj2 (N.ltb_lt _ _) L).
Qed.

Lemma not_digit c : (forall d, In d (list_ascii_of_string "0123456789") -> d <> c) -> ~ digit c.
Proof. intros H I. exact (H c I eq_refl). Qed.

Ltac no_digit := apply not_digit; let x := fresh in let I := fresh in intros x I; cbn in I; repeat (destruct I as [<- | I]; [discriminate |]); destruct I.

Lemma names_lack c l : c <> "|"%char -> Forall (lacks c) l -> lacks c (String.concat "|" l).
Proof.
  intros N H. induction H as [| s r Hs Hr IH]; [intros [] |]. destruct r as [| s2 r]; [exact Hs |].
  change (String.concat "|" (s :: s2 :: r)) with (s ++ ("|" ++ String.concat "|" (s2 :: r)))%string.
  apply lacks_app; [exact Hs |]. apply lacks_app; [| exact IH]. intros [E | []]. congruence.
Qed.

(** A filter that is written is read back; a depth that is not written is 999 and a limit
    that is not written is zero. *)
Theorem C76_filter : forall names depth limit,
  Forall plain names -> names <> ["*"%string] ->
  (forall d, depth = Some d -> (d < 2 ^ 64)%N) -> (forall d, limit = Some d -> (d < 2 ^ 64)%N) ->
  from_spec (written names depth limit) =
  Some (Filter (match depth with Some d => N.to_nat d | None => 999 end) names
               (match limit with Some d => (d * 1000000)%N | None => 0%N end)).
Proof.
  intros names depth limit P NS D L.
  set (head := match names with [] => "*"%string | _ => String.concat "|" names end).
  assert (HL : forall c, c <> "|"%char -> c <> "*"%char -> Forall (lacks c) names -> lacks c head).
  { intros c C1 C2 H. unfold head. destruct names; [intros [E | []]; congruence |]. now apply names_lack. }
  assert (G : lacks ">"%char head).
  { apply HL; [discriminate | discriminate |]. eapply Forall_impl; [| exact P]. intros s Q I. exact (proj2 (proj2 (Q _ I)) eq_refl). }
  assert (A : lacks "@"%char head).
  { apply HL; [discriminate | discriminate |]. eapply Forall_impl; [| exact P]. intros s Q I. exact (proj1 (proj2 (Q _ I)) eq_refl). }
  assert (B : (if String.eqb head "*" then [] else split "|"%char head) = names).
  { unfold head. destruct names as [| n r]; [reflexivity |].
    assert (S1 : split "|"%char (String.concat "|" (n :: r)) = n :: r).
    { apply split_names; [discriminate |]. eapply Forall_impl; [| exact P]. intros s Q I. exact (proj1 (Q _ I) eq_refl). }
    destruct (String.eqb_spec (String.concat "|" (n :: r)) "*") as [E | _]; [| exact S1].
    rewrite E in S1. cbn in S1. congruence. }
  set (mid := (head ++ match depth with Some d => "@" ++ number d | None => "" end)%string).
  assert (W : written names depth limit = (mid ++ match limit with Some d => ">" ++ number d | None => "" end)%string).
  { unfold written, mid, head. now rewrite app_assoc_s. }
  assert (M : lacks ">"%char mid).
  { unfold mid. apply lacks_app; [exact G |]. destruct depth as [d |]; [| intros []].
    intros [E | I]; [discriminate E |]. revert I. apply number_lacks. no_digit. }
  unfold from_spec. rewrite W.
  assert (X : match rfind ">"%char (mid ++ match limit with Some d => ">" ++ number d | None => "" end) with
              | Some (before, after) => option_map (fun n => (before, (n * 1000000)%N)) (parse after)
              | None => Some ((mid ++ match limit with Some d => ">" ++ number d | None => "" end)%string, 0%N)
              end = Some (mid, match limit with Some d => (d * 1000000)%N | None => 0%N end)).
  { destruct limit as [d |].
    - change (">" ++ number d)%string with (String ">"%char (number d)).
      rewrite rfind_last by (apply number_lacks; no_digit). rewrite parse_number by (apply L; reflexivity). reflexivity.
    - rewrite app_empty_r, rfind_none by exact M. reflexivity. }
  rewrite X. clear X.
  assert (Y : match rfind "@"%char mid with
              | Some (before, after) => option_map (fun n => (before, N.to_nat n)) (parse after)
              | None => Some (mid, 999)
              end = Some (head, match depth with Some d => N.to_nat d | None => 999 end)).
  { unfold mid. destruct depth as [d |].
    - change ("@" ++ number d)%string with (String "@"%char (number d)).
      rewrite rfind_last by (apply number_lacks; no_digit). rewrite parse_number by (apply D; reflexivity). reflexivity.
    - rewrite app_empty_r, rfind_none by exact A. reflexivity. }
  rewrite Y, B. reflexivity.
Qed.
Print Assumptions C76_filter.

Example C76_filter_nontrivial :
  written ["infer"; "parse"]%string (Some 3%N) (Some 10%N) = "infer|parse@3>10"%string /\
  from_spec "infer|parse@3>10" = Some (Filter 3 ["infer"; "parse"]%string 10000000%N) /\
  from_spec "*>10" = Some (Filter 999 [] 10000000%N) /\
  from_spec "infer@deep" = None /\ init_from "" = Some (Filter 0 [] 0%N).
Proof. repeat split; vm_compute; reflexivity. Qed.
