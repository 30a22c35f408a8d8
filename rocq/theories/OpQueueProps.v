(** C12: background operations. *)
From Coq Require Import List Bool String Arith Lia.
From Verif Require Import OpQueueModel OpQueueSpec OpQueueProofs.
Import ListNotations.
Local Open Scope string_scope.

(** An attempt to start gives nothing while an operation runs, and otherwise the most recent request
    made since the last start, if any. *)
Theorem C12_start :
  forall args h q t, calls args (default args) h = Some (q, t) ->
  forall before result after, t = (before ++ (Start args, result) :: after)%list ->
    result = if running args before then None else wanted args before.
Proof. exact calls_start. Qed.
Print Assumptions C12_start.

(** At most one operation runs: starts exceed completions by one exactly while one runs. *)
Theorem C12_one_at_a_time :
  forall args h q t, calls args (default args) h = Some (q, t) ->
    List.length (filter (starts args) t) =
    List.length (filter (completes args) t) + (if running args t then 1 else 0).
Proof. exact calls_count. Qed.
Print Assumptions C12_one_at_a_time.

(** A completion crashes exactly when nothing runs; no other call can. *)
Theorem C12_completion :
  forall args h q t, calls args (default args) h = Some (q, t) ->
    (calls args (default args) (h ++ [Complete args]) = None <-> running args t = false) /\
    (forall c, c <> Complete args -> calls args (default args) (h ++ [c]) <> None).
Proof.
  intros args h q t H. split; [exact (calls_complete args h q t H)|].
  intros c N. rewrite calls_snoc, H. destruct c; [discriminate| |congruence].
  cbn [call1]. destruct (should_start_op args q). discriminate.
Qed.
Print Assumptions C12_completion.

(** Indexing: whatever the schedule of the main loop and of the indexing jobs, the loop does not crash,
    at most one job exists, every job counted as completed was started, and the progress
    notifications form episodes. *)
Theorem C12_indexing :
  forall report h, exists s, run report (start report) h = Some s /\
    List.length (jobs report s) <= 1 /\
    completed report s <= started report s <= completed report s + 1 /\
    bracketed report false (notified report s).
Proof.
  intros report h. destruct (run_inv report h) as (s & R & [L H P (o & So & _)]).
  exists s. split; [exact R|]. split; [lia|]. split; [lia|].
  apply scan_bracketed. rewrite scan_app in So. destruct (scan report false (notified _ s)); congruence.
Qed.
Print Assumptions C12_indexing.

(** No request for indexing is lost: at the end of a turn in which it was requested, or before which a
    request was pending, a job is started that turn, or one is running and the request stays pending;
    and a request never stays pending unless a job runs. *)
Theorem C12_not_lost :
  forall report h n w s s',
    run report (start report) h = Some s -> step report s (Turn report n w) = Some s' ->
    (op_requested unit (queue report s') <> None -> started report s' = completed report s' + 1) /\
    (w = true \/ op_requested unit (queue report s) <> None ->
       started report s' = completed report s' + 1 /\
       (op_requested unit (queue report s') <> None \/ started report s' = S (started report s))).
Proof.
  intros report h n w s s' R E. destruct (run_inv report h) as (s0 & R0 & I).
  assert (s0 = s) as -> by congruence. destruct (step_inv report s (Turn _ n w) I) as (s1 & E1 & _ & K).
  assert (s1 = s') as -> by congruence. exact (K n w eq_refl).
Qed.
Print Assumptions C12_not_lost.

(** Finding: if indexing panics (rather than being cancelled), its job never reports the end and no
    later request starts indexing again, whatever happens. *)
Theorem C12_panicked_job_refuted :
  forall report h, exists s,
    run report (start report) ([Turn report 0 true; JobBegins report; JobDies report] ++ h) = Some s /\
    started report s = 1.
Proof.
  intros report h.
  assert (A : forall a b s, run report s (a ++ b)%list = match run report s a with Some s => run report s b | None => None end).
  { induction a as [|e a IH]; intros b s; [reflexivity|]. cbn [app run]. destruct (step report s e); [apply IH|reflexivity]. }
  rewrite A.
  assert (run report (start report) [Turn report 0 true; JobBegins report; JobDies report] =
          Some (State report (OpQueue unit None true) [] [Begin report] [] 1 0)) as -> by (vm_compute; reflexivity).
  destruct (dead_run report h (State report (OpQueue unit None true) [] [Begin report] [] 1 0)) as (s & R & E).
  { repeat split; reflexivity. }
  exists s. split; [exact R|exact E].
Qed.
Print Assumptions C12_panicked_job_refuted.

(** requests while one runs, only the latest is started; a cancelled indexing is started again *)
Example C12_nontrivial :
  calls nat (default nat)
    [Request _ "a" 1; Request _ "b" 2; Start _; Request _ "c" 3; Start _; Complete _; Start _; Start _] =
  Some (OpQueue nat None true,
    [(Request _ "a" 1, None); (Request _ "b" 2, None); (Start _, Some ("b", 2)); (Request _ "c" 3, None);
     (Start _, None); (Complete _, None); (Start _, Some ("c", 3)); (Start _, None)]) /\
  exists s, run nat (start nat)
    [Turn _ 0 true; JobBegins _; JobReports _ 1; JobReports _ 2; Turn _ 3 false; JobReports _ 3; Turn _ 0 true;
     JobEnds _ true; Turn _ 2 false; JobBegins _; Turn _ 1 false] = Some s /\
    notified nat s = [Begin _; Report _ 2; Report _ 3; End _ true; Begin _] /\ started nat s = 2 /\ completed nat s = 1.
Proof. split; [reflexivity|]. eexists. split; [vm_compute; reflexivity|]. repeat split. Qed.
