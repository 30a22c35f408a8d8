(** What the messages of a compiler check look like: a sequence of checks, each started, reporting
    diagnostics, and finished or cancelled before the next one starts. *)
From Coq Require Import List Bool Arith.
From Verif Require Import FlycheckModel.
Import ListNotations.

Section Spec.
Variable diagnostic : Type.
Notation message := (message diagnostic).

(** A check: its diagnostics, and how it ended: finished, or cancelled *)
Inductive end_ := Finished | Cancelled.

(** [checks ms done open]: the messages describe the checks [done], oldest first, and then, if [open] is
    [Some ds], a check that has not ended *)
Inductive checks : list message -> list (list diagnostic * end_) -> option (list diagnostic) -> Prop :=
| ch_nil : checks [] [] None
| ch_fail : forall ms d, checks ms d None -> checks (ms ++ [DidFailToRestart _]) d None
| ch_start : forall ms d, checks ms d None -> checks (ms ++ [DidStart _]) d (Some [])
| ch_diag : forall ms d ds x, checks ms d (Some ds) -> checks (ms ++ [AddDiagnostic _ x]) d (Some (ds ++ [x]))
| ch_finish : forall ms d ds ok, checks ms d (Some ds) -> checks (ms ++ [DidFinish _ ok]) (d ++ [(ds, Finished)]) None
| ch_cancel : forall ms d ds, checks ms d (Some ds) -> checks (ms ++ [DidCancel _]) (d ++ [(ds, Cancelled)]) None.

(** a check that ended reported what its process sent: all of it if it finished, the beginning of it if it
    was cancelled *)
Definition faithful (c : list diagnostic * end_) (output : list diagnostic) : Prop :=
  match snd c with
  | Finished => fst c = output
  | Cancelled => exists rest, output = fst c ++ rest
  end.
End Spec.
