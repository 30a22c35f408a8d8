From Coq Require Import List Bool String Arith Lia.
From Verif Require Import SessionModel SessionSpec.
Import ListNotations.
Local Open Scope string_scope.

Section Proofs.
Variables json other state : Type.
Variable as_list : json -> option (list json).
Variable handle : state -> event json other -> option state.
Variable configure : option json -> state.
Notation message := (message json).
Notation event := (event json other).
Notation is_reply := (is_reply json).
Notation usable := (usable json as_list).

Lemma pull_spec : forall pre i v l post ign,
  forallb (fun m => negb (usable m)) pre = true -> i = pull_id -> as_list v = Some l ->
  pull_loop json as_list (pre ++ MResponse _ i (Some v) :: post) ign =
  Pulled _ l (ign ++ filter (fun m => negb (is_reply m)) pre) post.
Proof.
  induction pre as [|m pre IH]; intros i v l post ign H -> E.
  - cbn [app pull_loop filter]. rewrite String.eqb_refl, E, app_nil_r. reflexivity.
  - cbn [forallb] in H. apply andb_prop in H. destruct H as [Hm H].
    assert (K : forall x, (ign ++ x :: filter (fun m => negb (is_reply m)) pre)%list = ((ign ++ [x]) ++ filter (fun m => negb (is_reply m)) pre)%list)
      by (intros x; rewrite <- app_assoc; reflexivity).
    cbn [app pull_loop]. destruct m as [me c|me c|j r]; cbn [filter SessionSpec.is_reply negb].
    + rewrite K. apply IH; auto.
    + rewrite K. apply IH; auto.
    + cbn [SessionSpec.usable] in Hm. fold pull_id in *. destruct (String.eqb j pull_id) eqn:J; cbn [negb].
      * destruct r as [w|]; [|apply IH; auto]. cbn in Hm. destruct (as_list w); [discriminate|]. apply IH; auto.
      * rewrite K. apply IH; auto.
Qed.

Lemma pull_none : forall inbox ign,
  forallb (fun m => negb (usable m)) inbox = true -> pull_loop json as_list inbox ign = PullPanic _.
Proof.
  induction inbox as [|m inbox IH]; intros ign H; [reflexivity|].
  cbn [forallb] in H. apply andb_prop in H. destruct H as [Hm H].
  cbn [pull_loop]. destruct m as [me c|me c|j r]; [apply IH; auto|apply IH; auto|].
  cbn [SessionSpec.usable] in Hm. fold pull_id in *. destruct (String.eqb j pull_id); [|apply IH; auto].
  destruct r as [w|]; [|apply IH; auto]. cbn in Hm. destruct (as_list w); [discriminate|]. apply IH; auto.
Qed.

(** handling [todo] from a state, cut at exit or an error *)
Fixpoint feed (s : state) (todo : list event) : list event * option state :=
  match todo with
  | [] => ([], Some s)
  | e :: tl =>
      if is_exit _ _ e then ([], None)
      else match handle s e with
           | None => ([e], None)
           | Some s => let (h, r) := feed s tl in (e :: h, r)
           end
  end.

Lemma feed_app : forall a b s,
  feed s (a ++ b) = match feed s a with
                    | (h, Some s) => let (h', r) := feed s b in ((h ++ h')%list, r)
                    | (h, None) => (h, None)
                    end.
Proof.
  induction a as [|e a IH]; intros b s; cbn [app feed].
  - destruct (feed s b); reflexivity.
  - destruct (is_exit _ _ e); [reflexivity|]. destruct (handle s e); [|reflexivity].
    rewrite IH. destruct (feed s0 a) as [h [s1|]]; [|reflexivity]. destruct (feed s1 b). reflexivity.
Qed.

Lemma feed_prefix : forall todo s, exists n, fst (feed s todo) = firstn n (before_exit _ _ todo).
Proof.
  induction todo as [|e tl IH]; intros s; cbn [feed before_exit]; [exists 0; reflexivity|].
  destruct (is_exit _ _ e); [exists 0; reflexivity|]. destruct (handle s e) as [s'|].
  - destruct (IH s') as [n H]. exists (S n). destruct (feed s' tl). cbn in *. f_equal. exact H.
  - exists 1. reflexivity.
Qed.

Lemma feed_all : forall todo s, (forall s e, handle s e <> None) -> fst (feed s todo) = before_exit _ _ todo.
Proof.
  intros todo s N. revert s. induction todo as [|e tl IH]; intros s; cbn [feed before_exit]; [reflexivity|].
  destruct (is_exit _ _ e); [reflexivity|]. destruct (handle s e) as [s'|] eqn:E; [|destruct (N s e E)].
  specialize (IH s'). destruct (feed s' tl). cbn in *. f_equal. exact IH.
Qed.

Lemma replay_spec : forall q s done,
  replay _ _ _ handle (List.length (rev q)) s (rev q) done =
  match feed s (map (Lsp _ _) q) with
  | (h, Some s) => inr (s, (done ++ h)%list)
  | (h, None) => inl (SessionModel.Returned _ _ (done ++ h))
  end.
Proof.
  intros q. rewrite rev_length. induction q as [|m q IH]; intros s done.
  - cbn [List.length replay map feed]. rewrite app_nil_r. reflexivity.
  - cbn [List.length replay map feed]. unfold pop. rewrite rev_involutive.
    destruct (is_exit _ _ (Lsp json other m)); [rewrite app_nil_r; reflexivity|].
    destruct (handle s (Lsp json other m)) as [s'|]; [|reflexivity].
    rewrite IH. destruct (feed s' (map (Lsp _ _) q)) as [h [s1|]]; rewrite <- app_assoc; reflexivity.
Qed.

Lemma main_loop_spec : forall sched s inbox done,
  handled _ _ (main_loop _ _ _ handle s sched inbox done) = (done ++ fst (feed s (deliver _ _ sched inbox)))%list.
Proof.
  induction sched as [|c sched IH]; intros s inbox done; cbn [main_loop deliver]; [cbn; rewrite app_nil_r; reflexivity|].
  destruct c as [|o].
  - destruct inbox as [|m inbox]; [cbn; rewrite app_nil_r; reflexivity|]. cbn [feed].
    destruct (is_exit _ _ (Lsp json other m)); [cbn; rewrite app_nil_r; reflexivity|].
    destruct (handle s (Lsp json other m)) as [s'|]; [|reflexivity]. rewrite IH.
    destruct (feed s' (deliver _ _ sched inbox)). cbn. rewrite <- app_assoc. reflexivity.
  - cbn [feed].
    destruct (is_exit _ _ (Other json other o)); [cbn; rewrite app_nil_r; reflexivity|].
    destruct (handle s (Other json other o)) as [s'|]; [|reflexivity]. rewrite IH.
    destruct (feed s' (deliver _ _ sched inbox)). cbn. rewrite <- app_assoc. reflexivity.
Qed.

Lemma run_feed : forall pre i v c cs post sched,
  forallb (fun m => negb (usable m)) pre = true -> i = pull_id -> as_list v = Some (c :: cs) ->
  exists r, run _ _ _ as_list handle configure true (pre ++ MResponse _ i (Some v) :: post) sched = Some r /\
    handled _ _ r = fst (feed (configure (Some c))
                          (map (Lsp _ _) (filter (fun m => negb (is_reply m)) pre) ++ deliver _ _ sched post)).
Proof.
  intros pre i v c cs post sched H I E. unfold run, initialize, pull_config_sync.
  rewrite (pull_spec pre i v (c :: cs) post [] H I E). cbn [app].
  rewrite replay_spec, feed_app. destruct (feed _ _) as [h [s|]].
  - eexists. split; [reflexivity|]. rewrite main_loop_spec. cbn [app].
    destruct (feed s (deliver _ _ sched post)). reflexivity.
  - eexists. split; reflexivity.
Qed.
End Proofs.
