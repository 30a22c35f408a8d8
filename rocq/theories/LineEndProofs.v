From Coq Require Import List NArith Bool Lia.
From Verif Require Import LineEndModel LineEndSpec.
Import ListNotations.
Local Open Scope N_scope.

Lemma find_none s : find_crlf s = None -> ~ has_crlf s /\ normalized s s.
Proof.
  induction s as [|a s IH]; intros H.
  - split; [intros (x & y & E); destruct x; discriminate E|constructor].
  - destruct s as [|b s].
    + split; [intros ([|? [|? x]] & y & E); discriminate E|].
      constructor; [intros tl (_ & E); discriminate E|constructor].
    + change (find_crlf (a :: b :: s)) with
        (if (a =? cr) && (b =? lf) then Some 0%nat else option_map S (find_crlf (b :: s))) in H.
      destruct ((a =? cr) && (b =? lf)) eqn:E; [discriminate H|].
      destruct (find_crlf (b :: s)) eqn:Ef; [discriminate H|]. destruct (IH eq_refl) as (A & B).
      assert (Hab : ~ (a = 13 /\ b = 10)).
      { intros (-> & ->). discriminate E. }
      split.
      * intros ([|c x] & y & E2); simpl in E2; [injection E2; intros; subst; tauto|].
        apply A. exists x, y. inversion E2. reflexivity.
      * constructor; [|exact B]. intros tl (-> & E2). injection E2 as -> _. tauto.
Qed.

Lemma find_some s i : find_crlf s = Some i ->
  exists a b, s = a ++ 13 :: 10 :: b /\ List.length a = i /\
    forall u t, normalized (13 :: u) t -> hd 0 u = 10 -> normalized (a ++ 13 :: u) (a ++ t).
Proof.
  revert i. induction s as [|a s IH]; intros i H; [discriminate H|].
  destruct s as [|b s]; [discriminate H|].
  change (find_crlf (a :: b :: s)) with
        (if (a =? cr) && (b =? lf) then Some 0%nat else option_map S (find_crlf (b :: s))) in H.
  destruct ((a =? cr) && (b =? lf)) eqn:E.
  - apply andb_prop in E. destruct E as (E1 & E2). apply N.eqb_eq in E1. apply N.eqb_eq in E2.
    unfold cr, lf in *. subst. injection H as <-.
    exists [], s. repeat split. intros u t Hu _. exact Hu.
  - destruct (find_crlf (b :: s)) as [j|] eqn:Ef; [|discriminate H]. injection H as <-.
    destruct (IH j eq_refl) as (x & y & E2 & Hl & Hn).
    exists (a :: x), y. rewrite E2. repeat split; [simpl; congruence|].
    intros u t Hu Hh. simpl. constructor; [|apply Hn; assumption].
    intros tl (-> & E3). destruct x as [|c x]; simpl in *.
    + discriminate E3.
    + injection E2 as -> _. injection E3 as -> _. discriminate E.
Qed.

Lemma skipn_skipn {A} (b a : nat) (l : list A) : skipn a (skipn b l) = skipn (a + b) l.
Proof.
  revert l. induction b as [|b IH]; intros l; [rewrite PeanoNat.Nat.add_0_r; reflexivity|].
  destruct l as [|x l]; [rewrite !skipn_nil; reflexivity|].
  rewrite <- plus_n_Sm. simpl. apply IH.
Qed.

Lemma copy_skip tail gap idx : (gap <= idx)%nat -> (idx <= List.length tail)%nat ->
  firstn (idx - gap) (copy_within tail gap idx) = firstn (idx - gap) (skipn gap tail) /\
  skipn (idx - gap) (copy_within tail gap idx) = skipn (idx - gap) tail.
Proof.
  intros H1 H2. unfold copy_within.
  assert (Hl : List.length (firstn (idx - gap) (skipn gap tail)) = (idx - gap)%nat).
  { rewrite firstn_length, skipn_length. lia. }
  rewrite firstn_app, skipn_app, Hl, PeanoNat.Nat.sub_diag. simpl.
  rewrite app_nil_r. split.
  - apply firstn_all2. lia.
  - rewrite skipn_all2 by lia. reflexivity.
Qed.

(** the loop, started after at least one pair was seen: [skipn gap tail] is what is left to copy *)
Lemma norm_loop_seen fuel : forall done tail gap rest,
  skipn gap tail = rest -> (gap <= List.length tail)%nat -> (List.length rest < fuel)%nat ->
  exists t, normalized rest t /\ norm_loop fuel done tail gap true = Some (done ++ t, Dos).
Proof.
  induction fuel as [|fuel IH]; intros done tail gap rest Hrest Hgap Hfuel; [lia|].
  simpl norm_loop. rewrite Hrest.
  assert (Hlen : List.length rest = (List.length tail - gap)%nat) by (rewrite <- Hrest; apply skipn_length).
  destruct (find_crlf rest) as [i|] eqn:Ef.
  - destruct (find_some _ _ Ef) as (a & b & E & Hl & Hn).
    assert (Hi : (i + gap <= List.length tail)%nat).
    { rewrite E, app_length in Hlen. simpl in Hlen. lia. }
    destruct (copy_skip tail gap (i + gap)) as (C1 & C2); [lia|exact Hi|].
    replace (i + gap - gap)%nat with i in * by lia. rewrite C1, C2, Hrest, E.
    replace (firstn i (a ++ 13 :: 10 :: b)) with a
      by (rewrite firstn_app, <- Hl, PeanoNat.Nat.sub_diag, firstn_all; simpl; rewrite app_nil_r; reflexivity).
    assert (Hsk : skipn gap (skipn i tail) = 13 :: 10 :: b).
    { rewrite skipn_skipn, PeanoNat.Nat.add_comm, <- skipn_skipn. rewrite Hrest, E, skipn_app, <- Hl.
      rewrite skipn_all, PeanoNat.Nat.sub_diag. reflexivity. }
    assert (Hlt : List.length (skipn i tail) = (gap + 2 + List.length b)%nat).
    { rewrite skipn_length. rewrite E, app_length in Hlen. simpl in Hlen. lia. }
    destruct (PeanoNat.Nat.eqb_spec (List.length (skipn i tail)) gap); [lia|].
    destruct (IH (done ++ a) (skipn i tail) (S gap) (10 :: b)) as (t & Ht & Hr).
    { change (S gap) with (1 + gap)%nat. rewrite <- skipn_skipn, Hsk. reflexivity. }
    { lia. }
    { rewrite E, app_length in Hfuel. simpl in *. lia. }
    exists (a ++ t). split.
    + apply Hn; [|reflexivity]. inversion Ht as [| |c s t' Hne Hs]; subst.
      constructor. exact Hs.
    + rewrite Hr, app_assoc. reflexivity.
  - destruct (find_none _ Ef) as (_ & Hn).
    destruct (copy_skip tail gap (List.length tail)) as (C1 & C2); [lia|lia|].
    rewrite C1, C2, Hrest.
    assert (Hl2 : List.length (skipn (List.length tail - gap) tail) = gap) by (rewrite skipn_length; lia).
    rewrite Hl2, PeanoNat.Nat.eqb_refl. exists rest. split; [exact Hn|].
    replace (firstn (List.length tail - gap) rest) with rest by (symmetry; apply firstn_all2; lia).
    f_equal. f_equal. rewrite app_length, Hl2.
    replace (List.length (done ++ rest) + gap - gap)%nat with (List.length (done ++ rest)) by lia.
    rewrite firstn_app, firstn_all, PeanoNat.Nat.sub_diag. simpl. apply app_nil_r.
Qed.

Lemma has_crlf_dec s : (find_crlf s = None /\ ~ has_crlf s) \/ (find_crlf s <> None /\ has_crlf s).
Proof.
  destruct (find_crlf s) as [i|] eqn:E; [right|left].
  - split; [discriminate|]. destruct (find_some _ _ E) as (a & b & -> & _). exists a, b. reflexivity.
  - split; [reflexivity|]. apply find_none. exact E.
Qed.

Lemma normalize_spec s : exists t e, normalize s = Some (t, e) /\ normalized s t /\ (e = Dos <-> has_crlf s).
Proof.
  unfold normalize. simpl norm_loop. destruct (find_crlf s) as [i|] eqn:Ef.
  - destruct (find_some _ _ Ef) as (a & b & -> & Hl & Hn).
    destruct (copy_skip (a ++ 13 :: 10 :: b) 0 (i + 0)) as (C1 & C2);
      [lia|rewrite app_length; simpl; lia|].
    rewrite C1, C2. rewrite PeanoNat.Nat.add_0_r, PeanoNat.Nat.sub_0_r in *. cbn [skipn].
    replace (firstn i (a ++ 13 :: 10 :: b)) with a
      by (rewrite firstn_app, <- Hl, PeanoNat.Nat.sub_diag, firstn_all; simpl; rewrite app_nil_r; reflexivity).
    replace (skipn i (a ++ 13 :: 10 :: b)) with (13 :: 10 :: b)
      by (rewrite skipn_app, <- Hl, skipn_all, PeanoNat.Nat.sub_diag; reflexivity).
    cbn [List.length PeanoNat.Nat.eqb app].
    destruct (norm_loop_seen (S (List.length (a ++ 13 :: 10 :: b))) a (13 :: 10 :: b) 1 (10 :: b)) as (t & Ht & Hr).
    { reflexivity. } { simpl. lia. } { rewrite app_length. simpl. lia. }
    exists (a ++ t), Dos. split; [exact Hr|]. split.
    + apply Hn; [|reflexivity]. inversion Ht; subst. constructor. assumption.
    + split; [intros _; exists a, b; reflexivity|reflexivity].
  - destruct (find_none _ Ef) as (A & B). exists s, Unix. split; [reflexivity|]. split; [exact B|].
    split; [discriminate|tauto].
Qed.

Lemma normalized_fun s t u : normalized s t -> normalized s u -> t = u.
Proof.
  intros H. revert u. induction H as [|s t H IH|c s t Hne H IH]; intros u Hu; inversion Hu; subst.
  - reflexivity.
  - f_equal. apply IH. assumption.
  - exfalso. match goal with H : forall tl, ~ _ |- _ => eapply H; split; reflexivity end.
  - exfalso. eapply Hne. split; reflexivity.
  - f_equal. apply IH. assumption.
Qed.

Lemma normalized_lines s t : normalized s t ->
  count_occ N.eq_dec t 10 = count_occ N.eq_dec s 10.
Proof.
  induction 1 as [|s t H IH|c s t Hne H IH]; [reflexivity| |].
  - change (13 :: 10 :: s) with ([13] ++ 10 :: s). rewrite count_occ_app. simpl. rewrite IH. reflexivity.
  - simpl. rewrite IH. reflexivity.
Qed.
