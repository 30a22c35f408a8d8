(** Model of the thread pool: crates/stdx/src/thread/pool.rs, the use of intents by thread.rs:79-82 and
    thread/intent.rs:22-32, and crates/sourcepawn_lsp/src/task_pool.rs.
    Simplifications: a task is known by a number, its code is not modelled: whether it panics is chosen by the
    schedule; the channel is crossbeam's (unbounded, first in first out, closed for a side when the other is gone);
    the class of a thread is the intent last applied to it, as on Apple systems; elsewhere there are no classes. The
    counter is an integer. The steps of a worker are interleaved in any order. *)
From Coq Require Import List Bool Arith ZArith.
Import ListNotations.

(** intent.rs:5-13 *)
Inductive intent := Worker | LatencySensitive.
Definition intent_eqb (a b : intent) : bool :=
  match a, b with Worker, Worker | LatencySensitive, LatencySensitive => true | _, _ => false end.

(** pool.rs:32-35. [guarded]: the code is wrapped into catch_unwind: requests (dispatch.rs:99-108) and the restart of the
    compiler checks (handlers/notification.rs:257-265) are, indexing (main_loop.rs:309-336) and the fetching of
    diagnostics (443-448) are not. [answers]: it was given to TaskPool::spawn, which sends the result (task_pool.rs:21-30). *)
Record job := Job { id : nat; requested : intent; guarded : bool; answers : bool }.

(** Where a worker is in the loop of pool.rs:54-62 *)
Inductive phase :=
  | Waiting               (* in recv *)
  | Received (j : job)    (* 54 *)
  | Prepared (j : job)    (* behind 58 *)
  | Running (j : job)     (* behind 59 *)
  | Returned (j : job)    (* behind 60 *)
  | Left                  (* the loop ended *)
  | Panicked (j : job).   (* the thread ended by a panic; its receiver is dropped *)
Record thread := Thread { current_intent : intent; class : intent; at_ : phase }.
Record pool := Pool { queue : list job; closed : bool; threads : list thread; extant_tasks : Z }.

(** pool.rs:38-78; thread.rs:80 applies the initial intent *)
Definition new (n : nat) : pool := Pool [] false (repeat (Thread Worker Worker Waiting) n) 0.

Inductive observation := Began (w : nat) (j : job) | Ended (w : nat) (j : job) | Died (w : nat) (j : job) | Sent (i : nat).
Inductive event := Spawn (j : job) | Close | Advance (w : nat) (panics : bool).
Inductive outcome := Next (p : pool) (o : list observation) | Crash | Impossible.

Fixpoint set {A} (l : list A) (w : nat) (x : A) : list A :=
  match l, w with
  | [], _ => []
  | _ :: tl, 0 => x :: tl
  | a :: tl, S k => a :: set tl k x
  end.
(** the receiver is dropped *)
Definition gone (t : thread) : bool := match at_ t with Left | Panicked _ => true | _ => false end.

(** pool.rs:80-97: send fails, and unwrap panics, if no receiver is left. The pool cannot be used once dropped. *)
Definition spawn (j : job) (p : pool) : outcome :=
  if closed p then Impossible
  else if forallb gone (threads p) then Crash
  else Next (Pool (queue p ++ [j]) false (threads p) (extant_tasks p)) [].
(** pool.rs:20-28: the sender is dropped first *)
Definition close (p : pool) : outcome := Next (Pool (queue p) true (threads p) (extant_tasks p)) [].

(** One step of worker [w]; [debug]: debug assertions are on and the system has classes (pool.rs:84-89). *)
Definition advance (debug : bool) (w : nat) (panics : bool) (p : pool) : outcome :=
  match nth_error (threads p) w with
  | None => Impossible
  | Some (Thread cur cls ph) =>
      let to q t e o := Next (Pool q (closed p) (set (threads p) w t) e) o in
      match ph with
      | Waiting =>
          match queue p with
          | j :: q => to q (Thread cur cls (Received j)) (extant_tasks p) [Began w j]
          | [] => if closed p then to [] (Thread cur cls Left) (extant_tasks p) [] else Impossible
          end
      | Received j =>
          (* 55-58 *)
          if intent_eqb (requested j) cur then to (queue p) (Thread cur cls (Prepared j)) (extant_tasks p) []
          else to (queue p) (Thread (requested j) (requested j) (Prepared j)) (extant_tasks p) []
      | Prepared j => to (queue p) (Thread cur cls (Running j)) (extant_tasks p + 1)%Z []
      | Running j =>
          if (debug && negb (intent_eqb cls (requested j))) || (panics && negb (guarded j))
          then to (queue p) (Thread cur cls (Panicked j)) (extant_tasks p) [Died w j]
          else to (queue p) (Thread cur cls (Returned j)) (extant_tasks p) (Ended w j :: if answers j then [Sent (id j)] else [])
      | Returned j => to (queue p) (Thread cur cls Waiting) (extant_tasks p - 1)%Z []
      | Left | Panicked _ => Impossible
      end
  end.

Definition step (debug : bool) (p : pool) (e : event) : outcome :=
  match e with Spawn j => spawn j p | Close => close p | Advance w x => advance debug w x p end.
Fixpoint run (debug : bool) (p : pool) (evs : list event) : outcome :=
  match evs with
  | [] => Next p []
  | e :: tl =>
      match step debug p e with
      | Next p o => match run debug p tl with Next p o' => Next p (o ++ o') | x => x end
      | x => x
      end
  end.
(** pool.rs:99-105 *)
Definition len (p : pool) : Z := extant_tasks p.
