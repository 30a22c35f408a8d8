From Coq Require Import List Bool Arith Lia.
From Verif Require Import PrimeModel.
Import ListNotations.

Section Proofs.
Variable file : Type.
Variable projects : list (project file).
Notation state := (state file).
Notation step := (step file projects).
Notation run := (run file projects).

(** progress *)
Definition bounded (s : state) : Prop :=
  projects_done _ s <= length projects /\
  (forall d t, In (d, t) (reports _ s) -> t = length projects /\ d <= projects_done _ s) /\
  (finished _ s = true <-> projects_done _ s = length projects).

Lemma step_bounded : forall s e, bounded s -> bounded (step s e).
Proof.
  intros s e (B & R & F). destruct e as [|w|w]; cbn [PrimeModel.step].
  - destruct (finished _ s) eqn:Q; [split; [exact B|split; [exact R|rewrite Q; exact F]]|].
    assert (L : projects_done _ s < length projects).
    { destruct F as [_ F]. assert (projects_done _ s <> length projects) by (intros E; specialize (F E); discriminate). lia. }
    destruct (news _ s) as [|[r|r] tl]; unfold bounded; cbn [projects_done reports finished].
    + split; [lia|]. split; [exact R|]. split; [discriminate|lia].
    + split; [lia|]. split.
      * intros d t H. apply in_app_or in H. destruct H as [H|[H|[]]]; [apply R; exact H|injection H as <- <-; auto].
      * rewrite Nat.leb_le. lia.
    + split; [lia|]. split.
      * intros d t H. apply in_app_or in H. destruct H as [H|[H|[]]]; [destruct (R _ _ H); auto|injection H as <- <-; auto].
      * rewrite Nat.leb_le. lia.
  - destruct (finished _ s) eqn:Q; [split; [exact B|split; [exact R|rewrite Q; exact F]]|].
    destruct (nth_error _ w) as [[p|]|]; try (split; [exact B|split; [exact R|rewrite Q; exact F]]).
    destruct (work _ s); [split; [exact B|split; [exact R|rewrite Q; exact F]]|].
    unfold bounded; cbn [projects_done reports finished]. auto.
  - destruct (nth_error _ w) as [[p|]|]; try (split; [exact B|split; [exact R|exact F]]).
Qed.

Lemma run_bounded : forall n h, bounded (run n h).
Proof.
  intros n h. unfold run. assert (B : bounded (start file projects n)).
  { unfold bounded, start. cbn [projects_done reports finished]. split; [lia|]. split; [intros d t []|].
    rewrite Nat.leb_le. lia. }
  revert B. generalize (start file projects n). induction h as [|e h IH]; intros s B; [exact B|].
  cbn [fold_left]. apply IH. apply step_bounded. exact B.
Qed.

(** one worker: [k] batches were queued, [fin] are the finished projects in order *)
Definition is_end (m : progress file) : bool := match m with EndProject _ _ => true | _ => false end.
Definition one (s : state) : Prop :=
  exists k fin,
    (exists cur, workers _ s = [cur] /\
       concat (repeat projects k) = fin ++ match cur with Some p => [p] | None => [] end ++ work _ s) /\
    projects_done _ s + length (filter is_end (news _ s)) = length fin /\
    (forall p f, In p fin -> In f (nodes _ p) -> In f (indexed _ s)).

Lemma repeat_snoc : forall A (x : A) k, repeat x (S k) = repeat x k ++ [x].
Proof. induction k as [|k IH]; [reflexivity|]. cbn [repeat app] in *. rewrite <- IH. reflexivity. Qed.

Lemma step_one : forall s e, one s -> one (step s e).
Proof.
  intros s e (k & fin & (cur & W & C) & D & I). destruct e as [|w|w]; cbn [PrimeModel.step].
  - destruct (finished _ s); [exists k, fin; eauto|].
    assert (C' : concat (repeat projects (S k)) = fin ++ match cur with Some p => [p] | None => [] end ++ work _ s ++ projects).
    { rewrite repeat_snoc, concat_app, C. cbn [concat]. rewrite app_nil_r, <- !app_assoc. reflexivity. }
    destruct (news _ s) as [|[r|r] tl] eqn:Nw; exists (S k), fin; cbn [workers work news projects_done indexed];
      (split; [exists cur; auto|]); (split; [|exact I]); cbn [filter is_end length] in D |- *; lia.
  - destruct (finished _ s); [exists k, fin; eauto|]. rewrite W.
    destruct w as [|w]; [|cbn [nth_error]; destruct w; exists k, fin; eauto]. cbn [nth_error].
    destruct cur as [p|]; [exists k, fin; eauto|]. destruct (work _ s) as [|p tl] eqn:E; [exists k, fin; rewrite E; eauto|].
    exists k, fin. cbn [workers work news projects_done indexed set_nth]. split; [exists (Some p); split; [reflexivity|exact C]|].
    split; [|exact I]. rewrite filter_app, app_length. cbn. lia.
  - rewrite W. destruct w as [|w]; [|cbn [nth_error]; destruct w; exists k, fin; eauto]. cbn [nth_error].
    destruct cur as [p|]; [|exists k, fin; eauto].
    exists k, (fin ++ [p]). cbn [workers work news projects_done indexed set_nth].
    split; [exists None; split; [reflexivity|rewrite <- app_assoc; exact C]|].
    split; [rewrite filter_app, !app_length; cbn; lia|].
    intros q f Hq Hf. apply in_or_app. apply in_app_or in Hq. destruct Hq as [Hq|[<-|[]]]; [left; eapply I; eauto|right; exact Hf].
Qed.

Lemma run_one : forall h, one (run 1 h).
Proof.
  intros h. unfold run. assert (B : one (start file projects 1)).
  { exists 0, []. cbn. split; [exists None; auto|]. split; [reflexivity|intros p f []]. }
  revert B. generalize (start file projects 1). induction h as [|e h IH]; intros s B; [exact B|].
  cbn [fold_left]. apply IH. apply step_one. exact B.
Qed.

Lemma one_covers : forall s, one s -> bounded s -> finished _ s = true -> forall p f, In p projects -> In f (nodes _ p) -> In f (indexed _ s).
Proof.
  intros s (k & fin & (cur & W & C) & D & I) (_ & _ & F) Q p f Hp Hf.
  apply F in Q. assert (L : length projects <= length fin) by lia.
  apply (I p); [|exact Hf].
  destruct k as [|k].
  - destruct fin; [destruct projects; [destruct Hp|simpl in L; lia]|discriminate C].
  - cbn [repeat concat] in C.
    assert (E : firstn (length projects) (projects ++ concat (repeat projects k)) = projects)
      by (rewrite firstn_app, Nat.sub_diag, firstn_all; cbn; apply app_nil_r).
    rewrite C in E. rewrite firstn_app in E. replace (length projects - length fin) with 0 in E by lia.
    cbn [firstn] in E. rewrite app_nil_r in E. rewrite <- E in Hp.
    clear -Hp. revert Hp. generalize (length projects). induction fin as [|x fin IH]; intros n H; destruct n; cbn in H; try tauto.
    destruct H as [H|H]; [left; exact H|right; eapply IH; exact H].
Qed.
End Proofs.
