(** C39: cache priming. *)
From Coq Require Import List Bool Arith Lia.
From Verif Require Import PrimeModel PrimeProofs.
Import ListNotations.

(** For every number of workers and every schedule, each progress report has at most as many finished projects as
    there are projects, and the job ends exactly when all the projects are counted as finished. *)
Theorem C39_progress :
  forall file projects workers h,
    let s := run file projects workers h in
    (forall d t, In (d, t) (reports file s) -> t = length projects /\ d <= t) /\
    (finished file s = true <-> projects_done file s = length projects).
Proof.
  intros file projects workers h s. destruct (run_bounded file projects workers h) as (B & R & F). fold s in B, R, F.
  split; [|exact F]. intros d t H. destruct (R d t H) as [-> L]. split; [reflexivity|lia].
Qed.
Print Assumptions C39_progress.

(** the counts in successive reports: each is the one before or one more *)
Fixpoint steady (d : nat) (rs : list (nat * nat)) : Prop :=
  match rs with
  | [] => True
  | (d', _) :: tl => (d' = d \/ d' = S d) /\ steady d' tl
  end.
Definition last_count (d : nat) (rs : list (nat * nat)) : nat := last (map fst rs) d.
Lemma steady_snoc : forall rs d x t, steady d rs -> (x = last_count d rs \/ x = S (last_count d rs)) -> steady d (rs ++ [(x, t)]).
Proof.
  induction rs as [|[y u] rs IH]; intros d x t S L; simpl; [split; [exact L|exact I]|].
  destruct S as [S1 S2]. split; [exact S1|]. apply IH; [exact S2|].
  unfold last_count in *. cbn [map fst] in L. destruct rs as [|z rs]; [exact L|].
  replace (last (y :: map fst (z :: rs)) d) with (last (map fst (z :: rs)) y) in L; [exact L|].
  clear. change (last (map fst (z :: rs)) y = last (map fst (z :: rs)) d). revert z.
  induction rs as [|w rs IH]; intros z; [reflexivity|]. cbn [map last] in *. apply IH.
Qed.
Lemma last_snoc : forall rs d x t, last_count d (rs ++ [(x, t)]) = x.
Proof. intros. unfold last_count. rewrite map_app. simpl. apply last_last. Qed.

(** Progress is reported without delay and without leaps, for every schedule and number of workers: the
    counts reported go up by at most one each time, starting from nothing done, and the last one is the number
    of projects counted as done (so the last report of a finished job is that everything is done). *)
Theorem C39_reports :
  forall file projects workers h,
    let s := run file projects workers h in
    steady 0 (reports file s) /\ last_count 0 (reports file s) = projects_done file s.
Proof.
  intros file projects workers h. unfold run.
  assert (B : steady 0 (reports file (start file projects workers)) /\
              last_count 0 (reports file (start file projects workers)) = projects_done file (start file projects workers))
    by (split; [exact I|reflexivity]).
  revert B. generalize (start file projects workers). induction h as [|e h IH]; intros s [B1 B2]; [split; assumption|].
  cbn [fold_left]. apply IH. clear IH. destruct e as [|w|w]; cbn [step].
  - destruct (finished file s); [split; assumption|]. destruct (news file s) as [|[r|r] tl]; cbn [reports projects_done].
    + split; assumption.
    + rewrite last_snoc. split; [apply steady_snoc; auto|reflexivity].
    + rewrite last_snoc. split; [apply steady_snoc; auto|reflexivity].
  - destruct (finished file s); [split; assumption|]. destruct (nth_error _ w) as [[p|]|]; try (split; assumption).
    destruct (work file s); split; assumption.
  - destruct (nth_error _ w) as [[p|]|]; split; assumption.
Qed.
Print Assumptions C39_reports.

(** With a single worker, for every schedule: when the job ends every file of every project has been indexed. *)
Theorem C39_one_worker_partial :
  forall file projects h,
    let s := run file projects 1 h in
    finished file s = true ->
    forall p f, In p projects -> In f (nodes file p) -> In f (indexed file s).
Proof.
  intros file projects h s Q. apply one_covers with (projects := projects); [apply run_one|apply run_bounded|exact Q].
Qed.
Print Assumptions C39_one_worker_partial.

(** Finding: with two workers or more this is false: projects are queued again on each iteration, and finishing the
    same project twice counts twice. The job then ends with the other project not indexed, and for good: workers
    stop when the job has ended. *)
Theorem C39_workers_refuted :
  exists (projects : list (project nat)) h,
    let s := run nat projects 2 h in
    finished nat s = true /\
    exists p, In p projects /\ forall f, In f (nodes nat p) -> ~ In f (indexed nat s).
Proof.
  exists [Project nat 1 [1; 3]; Project nat 2 [2]],
    ([Coordinate; Take 0; Finish 0; Coordinate; Take 1; Take 0; Finish 0] ++ repeat Coordinate 5). vm_compute.
  split; [reflexivity|]. exists (Project nat 2 [2]). split; [auto|]. intros f [<-|[]] H.
  repeat (destruct H as [H|H]; [discriminate H|]). exact H.
Qed.
Print Assumptions C39_workers_refuted.

Example C39_nontrivial :
  let projects := [Project nat 1 [1; 3]; Project nat 2 [2]] in
  let s := run nat projects 1 ([Coordinate; Take 0; Coordinate; Finish 0; Coordinate; Take 0; Finish 0] ++ repeat Coordinate 4) in
  finished nat s = true /\ reports nat s = [(0, 2); (1, 2); (1, 2); (2, 2)] /\ indexed nat s = [1; 3; 2].
Proof. vm_compute. repeat split. Qed.
