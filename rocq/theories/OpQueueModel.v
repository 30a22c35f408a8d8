(** Model of crates/sourcepawn_lsp/src/op_queue.rs and of its use for indexing ("priming caches") by the
    main loop: main_loop.rs:304-338 (prime_caches), 570-581 (handle_task), 594-655 (task events),
    670-675 and 745-749 of handle_event.
    Simplifications: causes are strings, the arguments and outputs of the queue are kept abstract in the
    first part and () in the second, as in the program; a failed assert is [None]. *)
From Coq Require Import List Bool String Arith.
Import ListNotations.
Local Open Scope string_scope.

Section Queue.
Variable args : Type.

(** op_queue.rs:6-10; the last result is only stored *)
Record op_queue := OpQueue { op_requested : option (string * args); op_in_progress : bool }.
Definition default : op_queue := OpQueue None false.

(** op_queue.rs:23-25 *)
Definition request_op (q : op_queue) (reason : string) (a : args) : op_queue :=
  OpQueue (Some (reason, a)) (op_in_progress q).

(** op_queue.rs:26-32 *)
Definition should_start_op (q : op_queue) : op_queue * option (string * args) :=
  if op_in_progress q then (q, None)
  else (OpQueue None (match op_requested q with Some _ => true | None => false end), op_requested q).

(** op_queue.rs:33-37: asserts that an operation is in progress *)
Definition op_completed (q : op_queue) : option op_queue :=
  if op_in_progress q then Some (OpQueue (op_requested q) false) else None.

(** Histories of calls; the trace records what each call returned *)
Inductive call := Request (reason : string) (a : args) | Start | Complete.
Definition trace := list (call * option (string * args)).
Fixpoint calls (q : op_queue) (h : list call) : option (op_queue * trace) :=
  match h with
  | [] => Some (q, [])
  | c :: tl =>
      match (match c with
             | Request r a => Some (request_op q r a, None)
             | Start => Some (should_start_op q)
             | Complete => option_map (fun q => (q, None)) (op_completed q)
             end) with
      | None => None
      | Some (q, o) => option_map (fun r => (fst r, (c, o) :: snd r)) (calls q tl)
      end
  end.
End Queue.

Section Indexing.
(** ParallelPrimeCachesProgress *)
Variable report : Type.

(** main_loop.rs:44-51: PrimeCachesProgress *)
Inductive progress := Begin | Report (r : report) | End (cancelled : bool).

(** A running job of the pool (main_loop.rs:310-336): it sends Begin, then reports, then End; it dies
    without sending End if indexing panics. *)
Inductive phase := Spawned | Indexing.

Record state := State {
  queue : op_queue unit;
  jobs : list phase;           (* jobs in the pool *)
  channel : list progress;     (* their messages, in order of sending *)
  notified : list progress;    (* progress notifications sent to the editor *)
  started : nat; completed : nat (* jobs spawned, and End messages handled *) }.
Definition start : state := State (default unit) [] [] [] 0 0.

(** main_loop.rs:571-580: collecting the progress messages of one turn *)
Definition collect (acc : list progress) (p : progress) : list progress :=
  match p with
  | Report _ =>
      match rev acc with
      | Report _ :: _ => removelast acc ++ [p]
      | _ => acc ++ [p]
      end
  | _ => acc ++ [p]
  end.

(** main_loop.rs:601-654: what is done with them *)
Fixpoint announce (s : state) (ps : list progress) : option state :=
  match ps with
  | [] => Some s
  | p :: tl =>
      match (match p with
             | End cancelled =>
                 match op_completed unit (queue s) with
                 | None => None
                 | Some q =>
                     let q := if cancelled then request_op unit q "restart after cancellation" tt else q in
                     Some (State q (jobs s) (channel s) (notified s) (started s) (S (completed s)))
                 end
             | _ => Some s
             end) with
      | None => None
      | Some s => announce (State (queue s) (jobs s) (channel s) (notified s ++ [p]) (started s) (completed s)) tl
      end
  end.

(** main_loop.rs:745-749 *)
Definition maybe_start (s : state) : state :=
  match should_start_op unit (queue s) with
  | (q, Some _) => State q (jobs s ++ [Spawned]) (channel s) (notified s) (S (started s)) (completed s)
  | (q, None) => State q (jobs s) (channel s) (notified s) (started s) (completed s)
  end.

(** What can happen. [Turn n wanted]: one turn of the main loop in which [n] messages are received
    (0: the turn is for another event) and in which indexing is requested, because the server became
    quiescent, if [wanted]. The others are steps of the job. *)
Inductive event := Turn (n : nat) (wanted : bool) | JobBegins | JobReports (r : report) | JobEnds (cancelled : bool) | JobDies.

Definition step (s : state) (e : event) : option state :=
  match e with
  | Turn n wanted =>
      let ps := fold_left collect (firstn n (channel s)) [] in
      match announce (State (queue s) (jobs s) (skipn n (channel s)) (notified s) (started s) (completed s)) ps with
      | None => None
      | Some s =>
          let q := if wanted then request_op unit (queue s) "became quiescent" tt else queue s in
          Some (maybe_start (State q (jobs s) (channel s) (notified s) (started s) (completed s)))
      end
  | JobBegins =>
      match jobs s with
      | Spawned :: tl => Some (State (queue s) (Indexing :: tl) (channel s ++ [Begin]) (notified s) (started s) (completed s))
      | _ => Some s
      end
  | JobReports r =>
      match jobs s with
      | Indexing :: tl => Some (State (queue s) (jobs s) (channel s ++ [Report r]) (notified s) (started s) (completed s))
      | _ => Some s
      end
  | JobEnds c =>
      match jobs s with
      | Indexing :: tl => Some (State (queue s) tl (channel s ++ [End c]) (notified s) (started s) (completed s))
      | _ => Some s
      end
  | JobDies =>
      match jobs s with
      | Indexing :: tl => Some (State (queue s) tl (channel s) (notified s) (started s) (completed s))
      | _ => Some s
      end
  end.
Fixpoint run (s : state) (h : list event) : option state :=
  match h with
  | [] => Some s
  | e :: tl => match step s e with Some s => run s tl | None => None end
  end.
End Indexing.
