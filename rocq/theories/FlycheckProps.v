(** C14: the life of compiler checks. *)
From Coq Require Import List Bool Arith.
From Verif Require Import FlycheckModel FlycheckSpec FlycheckProofs.
Import ListNotations.

(** For every schedule in which the reader of the compiler's output does not panic: the messages describe
    a sequence of checks, each reporting what its process sent, and a check is open exactly while a
    process runs. *)
Theorem C14_bracketed_partial :
  forall diagnostic h,
    ~ In (Eof diagnostic ReaderPanicked) h ->
    let s := run diagnostic h in
    exists done open,
      checks diagnostic (sent diagnostic s) done open /\
      (open = None <-> proc diagnostic s = None) /\
      match open with
      | None => Forall2 (faithful diagnostic) done (rev (outputs diagnostic s))
      | Some ds => exists o os rest, outputs diagnostic s = o :: os /\ o = ds ++ rest /\
                                     Forall2 (faithful diagnostic) done (rev os)
      end.
Proof.
  intros diagnostic h N s.
  assert (D : control_ _ s <> Dead /\ forall b, proc _ s <> Some (Process _ b (Some ReaderPanicked))).
  { unfold s, run. assert (G : control_ _ (start diagnostic) <> Dead /\ forall b, proc _ (start diagnostic) <> Some (Process _ b (Some ReaderPanicked)))
      by (split; [|intros b]; discriminate).
    revert N G. generalize (start diagnostic). induction h as [|e h IH]; intros s0 N G; [exact G|]. cbn [fold_left].
    apply IH; [intros Q; apply N; right; exact Q|]. destruct G as [G1 G2].
    assert (e <> Eof diagnostic ReaderPanicked) as Ne by (intros ->; apply N; left; reflexivity).
    destruct s0 as [ib dr pr co se ou]; cbn [control_ proc] in *.
    destruct e as [c| |x|e| | |sp]; cbn [step control_ proc inbox dropped sent outputs].
    - destruct dr; split; assumption.
    - split; assumption.
    - destruct pr as [[b [c|]]|], ou; cbn [control_ proc]; split; try assumption; intros; discriminate.
    - destruct pr as [[b [c|]]|]; cbn [control_ proc]; split; try assumption; try (intros b' E; injection E; intros; subst; congruence).
    - destruct co, ib as [|[] ib], dr; cbn [control_ proc]; unfold goto, cancel_check_process; cbn [proc];
        destruct pr; cbn [control_ proc inbox dropped sent outputs]; split; try assumption; try discriminate;
        intros; discriminate.
    - destruct co, pr as [[[|x b] [[ok|]|]]|]; cbn [control_ proc]; split; try assumption; try discriminate;
        try (intros; discriminate); try (exfalso; exact (G2 _ eq_refl)).
    - destruct co, ib; cbn [control_ proc]; try destruct sp; cbn [control_ proc]; split; try assumption; try discriminate;
        intros; discriminate. }
  pose proof (run_inv diagnostic h) as I. fold s in I. unfold inv in I.
  assert (L : live diagnostic s) by (destruct (control_ _ s); try (apply I); destruct D; congruence).
  destruct L as (d & op & C & P). exists d, op. split; [exact C|].
  destruct (proc _ s) as [p|].
  - destruct P as (ds & o & os & -> & O & Eo & F). split; [split; discriminate|].
    exists o, os, (buffer _ p). repeat split; assumption.
  - destruct P as [-> F]. split; [split; reflexivity|exact F].
Qed.
Print Assumptions C14_bracketed_partial.

(** In every schedule the messages are at least a beginning of such a sequence, and once the worker has
    exited, every check has ended and no process is left. *)
Theorem C14_exit :
  forall diagnostic h,
    let s := run diagnostic h in
    (exists done open, checks diagnostic (sent diagnostic s) done open) /\
    (control_ diagnostic s = Exited ->
       proc diagnostic s = None /\ exists done, checks diagnostic (sent diagnostic s) done None).
Proof.
  intros diagnostic h s. pose proof (run_inv diagnostic h) as I. fold s in I. unfold inv in I. split.
  - destruct (control_ _ s).
    + destruct I as (d & op & C & _). eauto.
    + destruct I as [(d & op & C & _) _]. eauto.
    + destruct I as [(d & op & C & _) _]. eauto.
    + destruct I as (d & ds & C). eauto.
  - intros E. rewrite E in I. destruct I as [(d & op & C & P) (Q & _)]. split; [exact Q|].
    rewrite Q in P. destruct P as [-> _]. eauto.
Qed.
Print Assumptions C14_exit.

(** Finding: if the thread reading the compiler's output panics, the worker dies: the check never ends and
    later requests have no effect. (In debug builds a message for line 0 makes it panic, see C15.) *)
Theorem C14_reader_panic_refuted :
  forall diagnostic (d : diagnostic) h,
    let s := run diagnostic ([Call _ Restart; TakeInbox _; Timeout _ true; Eof _ ReaderPanicked; TakeOutput _] ++ h) in
    sent diagnostic s = [DidStart _].
Proof.
  intros diagnostic d h. cbv zeta. unfold run. rewrite fold_left_app.
  set (s0 := fold_left (step diagnostic) [Call _ Restart; TakeInbox _; Timeout _ true; Eof _ ReaderPanicked; TakeOutput _] (start _)).
  assert (K : control_ _ s0 = Dead /\ sent _ s0 = [DidStart _]) by (split; reflexivity).
  clearbody s0. revert s0 K. induction h as [|e h IH]; intros s0 [K1 K2]; [exact K2|]. cbn [fold_left].
  apply IH. destruct s0 as [ib dr pr co se ou]; cbn [control_ sent] in *. subst co se.
  destruct e as [c| |x|e| | |sp]; cbn [step control_ proc inbox dropped sent outputs].
  - destruct dr; split; reflexivity.
  - split; reflexivity.
  - destruct pr as [[b [c|]]|], ou; split; reflexivity.
  - destruct pr as [[b [c|]]|]; split; reflexivity.
  - split; reflexivity.
  - split; reflexivity.
  - split; reflexivity.
Qed.
Print Assumptions C14_reader_panic_refuted.

(** a check cancelled by a restart with output pending, a second one that finishes, a failed start, and
    the end of the worker during a check *)
Example C14_nontrivial :
  let h := [Call _ Restart; TakeInbox _; Call _ Restart; TakeInbox _; Timeout _ true; Output _ 1; Output _ 2; TakeOutput _;
            Call _ Restart; TakeInbox _; Timeout _ true; Output _ 3; Eof _ (Joined true); TakeOutput _; TakeOutput _;
            Call _ Restart; TakeInbox _; Timeout _ false; Call _ Restart; TakeInbox _; Timeout _ true; Drop _; TakeInbox _] in
  let s := run nat h in
  ~ In (Eof nat ReaderPanicked) h /\ control_ nat s = Exited /\
  sent nat s = [DidStart _; AddDiagnostic _ 1; DidCancel _; DidStart _; AddDiagnostic _ 3; DidFinish _ true;
                DidFailToRestart _; DidStart _; DidCancel _] /\
  checks nat (sent nat s) [([1], Cancelled); ([3], Finished); ([], Cancelled)] None.
Proof.
  cbv zeta. split; [cbn; intuition discriminate|]. split; [reflexivity|]. split; [reflexivity|].
  change (sent nat _) with ((((((((([] ++ [DidStart nat]) ++ [AddDiagnostic _ 1]) ++ [DidCancel _]) ++ [DidStart _]) ++ [AddDiagnostic _ 3])
    ++ [DidFinish _ true]) ++ [DidFailToRestart _]) ++ [DidStart _]) ++ [DidCancel nat]).
  change [([1], Cancelled); ([3], Finished); ([], Cancelled)] with ((([] ++ [([] ++ [1], Cancelled)]) ++ [([] ++ [3], Finished)]) ++ [([] : list nat, Cancelled)]).
  repeat constructor.
Qed.
