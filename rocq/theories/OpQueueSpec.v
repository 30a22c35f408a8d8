(** What the queue of background operations promises, in terms of the calls made and their results. *)
From Coq Require Import List Bool String Arith.
From Verif Require Import OpQueueModel.
Import ListNotations.

Section Queue.
Variable args : Type.
Notation trace := (trace args).

(** a call that started an operation *)
Definition starts (x : call args * option (string * args)) : bool :=
  match x with (Start _, Some _) => true | _ => false end.
Definition completes (x : call args * option (string * args)) : bool :=
  match x with (Complete _, _) => true | _ => false end.

(** is an operation running after this trace? The latest start or completion tells. *)
Definition running (t : trace) : bool :=
  match filter (fun x => starts x || completes x) (rev t) with
  | x :: _ => starts x
  | [] => false
  end.

(** the most recent request that no start has followed *)
Fixpoint recent (t : trace) : option (string * args) :=   (* newest call first *)
  match t with
  | [] => None
  | (Request _ r a, _) :: _ => Some (r, a)
  | x :: tl => if starts x then None else recent tl
  end.
Definition wanted (t : trace) : option (string * args) := recent (rev t).

End Queue.

Section Indexing.
Variable report : Type.
(** notifications form episodes: Begin, any number of reports, End *)
Fixpoint bracketed (open : bool) (l : list (progress report)) : Prop :=
  match l with
  | [] => True
  | Begin _ :: tl => open = false /\ bracketed true tl
  | Report _ _ :: tl => open = true /\ bracketed true tl
  | End _ _ :: tl => open = true /\ bracketed false tl
  end.
End Indexing.
