(** What is asked of the thread pool, for C56. *)
From Coq Require Import List Bool Arith.
From Verif Require Import PoolModel.
Import ListNotations.

(** The tasks given, begun, ended and died, in the order they were. *)
Definition given (evs : list event) : list job := flat_map (fun e => match e with Spawn j => [j] | _ => [] end) evs.
Definition began (o : list observation) : list job := flat_map (fun x => match x with Began _ j => [j] | _ => [] end) o.
Definition ended (o : list observation) : list job := flat_map (fun x => match x with Ended _ j => [j] | _ => [] end) o.
Definition died (o : list observation) : list job := flat_map (fun x => match x with Died _ j => [j] | _ => [] end) o.
Definition sent (o : list observation) : list nat := flat_map (fun x => match x with Sent i => [i] | _ => [] end) o.

(** The tasks whose code is being run, and those taken from the queue whose code has not come to an end *)
Definition running (p : pool) : list job :=
  flat_map (fun t => match at_ t with Running j | Returned j => [j] | _ => [] end) (threads p).
Definition in_hand (p : pool) : list job :=
  flat_map (fun t => match at_ t with Received j | Prepared j | Running j => [j] | _ => [] end) (threads p).
(** Nothing can happen unless more is asked of the pool. *)
Definition stuck (debug : bool) (p : pool) : Prop := forall w x, advance debug w x p = Impossible.
Definition live (p : pool) : Prop := exists t, In t (threads p) /\ gone t = false.
Definition advances (evs : list event) : Prop := Forall (fun e => match e with Advance _ _ => True | _ => False end) evs.
