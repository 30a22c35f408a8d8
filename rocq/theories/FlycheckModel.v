(** Model of the compiler check worker: crates/flycheck/src/lib.rs:69-101 (handle), 200-288 (actor) and
    341-418 (the process), as an interleaving of the worker, the callers and the compiler process.
    - The channel between callers and worker is [inbox]; it closes when the handle is dropped.
    - The compiler and the thread reading its output are external: they send diagnostics to the channel of
      the current process and close it at the end. Dropping a CommandHandle kills the process and
      joins the reader before the channel is dropped (field order, lib.rs:344-353), so a cancelled process
      sends nothing more.
    - next_event (lib.rs:213-226) looks at the inbox first, but a message may also arrive between that look and
      the selection, so the worker may take either channel whenever both are ready.
    - Whether spawning works, and whether the process ended well, are inputs. *)
From Coq Require Import List Bool Arith.
Import ListNotations.

Section Flycheck.
Variable diagnostic : Type.

(** lib.rs:153-156 *)
Inductive change := Restart | Cancel.

(** lib.rs:103-115, 143-151 *)
Inductive message :=
| AddDiagnostic (d : diagnostic)
| DidStart
| DidFinish (ok : bool)
| DidCancel
| DidFailToRestart.

(** The channel of a running process: what it sent and was not received, and whether it is closed (with
    how the reading thread ended: its result, or a panic) *)
Inductive ending := Joined (ok : bool) | ReaderPanicked.
Record process := Process { buffer : list diagnostic; closed : option ending }.

(** Where the worker is: waiting for the next event (lib.rs:229), in the loop that collects further
    restarts (lib.rs:238-243), or ended; Dead: it panicked *)
Inductive control := Waiting | Collecting | Exited | Dead.

Record state := State {
  inbox : list change; dropped : bool;
  proc : option process;           (* command_handle *)
  control_ : control;
  sent : list message;
  outputs : list (list diagnostic) (* what each spawned process sent, the latest process first (history) *) }.
Definition start : state := State [] false None Waiting [] [].

(** lib.rs:290-299: cancel_check_process *)
Definition cancel_check_process (s : state) : state :=
  match proc s with
  | Some _ => State (inbox s) (dropped s) None (control_ s) (sent s ++ [DidCancel]) (outputs s)
  | None => s
  end.
Definition goto (s : state) (c : control) : state := State (inbox s) (dropped s) (proc s) c (sent s) (outputs s).

Inductive event :=
| Call (c : change)          (* restart() or cancel(), lib.rs:93-100 *)
| Drop                       (* the handle is dropped *)
| Output (d : diagnostic)    (* the reader of the current process sends a diagnostic *)
| Eof (e : ending)           (* the reader ends, closing the channel *)
| TakeInbox                  (* the worker receives from the inbox *)
| TakeOutput                 (* the worker receives from the process *)
| Timeout (spawned : bool).  (* no further request for 50ms, lib.rs:238 *)

Definition step (s : state) (e : event) : state :=
  match e with
  | Call c => if dropped s then s else State (inbox s ++ [c]) (dropped s) (proc s) (control_ s) (sent s) (outputs s)
  | Drop => State (inbox s) true (proc s) (control_ s) (sent s) (outputs s)
  | Output d =>
      match proc s, outputs s with
      | Some (Process b None), o :: os =>
          State (inbox s) (dropped s) (Some (Process (b ++ [d]) None)) (control_ s) (sent s) ((o ++ [d]) :: os)
      | _, _ => s
      end
  | Eof e =>
      match proc s with
      | Some (Process b None) => State (inbox s) (dropped s) (Some (Process b (Some e))) (control_ s) (sent s) (outputs s)
      | _ => s
      end
  | TakeInbox =>
      match control_ s with
      | Waiting =>
          match inbox s with
          | Cancel :: tl => cancel_check_process (State tl (dropped s) (proc s) (control_ s) (sent s) (outputs s))
          | Restart :: tl =>
              goto (cancel_check_process (State tl (dropped s) (proc s) (control_ s) (sent s) (outputs s))) Collecting
          | [] => if dropped s then goto (cancel_check_process s) Exited (* lib.rs:286-287 *) else s
          end
      | Collecting =>
          match inbox s with
          | Cancel :: tl => State tl (dropped s) (proc s) Waiting (sent s) (outputs s)
          | Restart :: tl => State tl (dropped s) (proc s) Collecting (sent s) (outputs s)
          | [] => s
          end
      | _ => s
      end
  | TakeOutput =>
      match control_ s, proc s with
      | Waiting, Some (Process (d :: b) c) =>
          State (inbox s) (dropped s) (Some (Process b c)) Waiting (sent s ++ [AddDiagnostic d]) (outputs s)
      | Waiting, Some (Process [] (Some (Joined ok))) =>
          (* lib.rs:265-280 *)
          State (inbox s) (dropped s) None Waiting (sent s ++ [DidFinish ok]) (outputs s)
      | Waiting, Some (Process [] (Some ReaderPanicked)) =>
          (* joining a thread that panicked panics *)
          State (inbox s) (dropped s) None Dead (sent s) (outputs s)
      | _, _ => s
      end
  | Timeout spawned =>
      match control_ s, inbox s with
      | Collecting, [] =>
          (* lib.rs:245-263 *)
          if spawned then
            State (inbox s) (dropped s) (Some (Process [] None)) Waiting (sent s ++ [DidStart]) ([] :: outputs s)
          else State (inbox s) (dropped s) (proc s) Waiting (sent s ++ [DidFailToRestart]) (outputs s)
      | _, _ => s
      end
  end.
Definition run (h : list event) : state := fold_left step h start.
End Flycheck.
