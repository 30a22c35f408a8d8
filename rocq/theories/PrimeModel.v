(** Model of cache priming, crates/ide/src/prime_caches.rs:21-124, as an interleaving of the coordinating
    thread and its workers over two FIFO channels.
    - A project is a root with its files; [projects] are the values of projects_to_prime.
    - One iteration of the coordinating loop is one step: it queues all the projects and receives a progress
      message or times out. Workers take a project, and later finish it, indexing all its files.
    - Cancellation (unwinding) and worker death are not modelled. Names of projects are dropped. *)
From Coq Require Import List Bool Arith.
Import ListNotations.

Section Prime.
Variable file : Type.
Record project := Project { root : file; nodes : list file }.
Variable projects : list project.

(** prime_caches.rs:35-38 *)
Inductive progress := BeginProject (r : file) | EndProject (r : file).

Record state := State {
  work : list project;                 (* the work channel *)
  news : list progress;                (* the progress channel *)
  workers : list (option project);     (* what each worker is doing *)
  projects_done : nat;
  reports : list (nat * nat);          (* the progress passed to the callback: done and total *)
  indexed : list file;                 (* files whose definitions were computed *)
  finished : bool }.                   (* the loop has ended *)

Definition start (num_worker_threads : nat) : state :=
  State [] [] (repeat None num_worker_threads) 0 [] [] (length projects <=? 0).

Fixpoint set_nth {A} (n : nat) (x : A) (l : list A) : list A :=
  match l, n with
  | [], _ => []
  | _ :: tl, 0 => x :: tl
  | y :: tl, S n => y :: set_nth n x tl
  end.

Inductive event := Coordinate | Take (worker : nat) | Finish (worker : nat).

Definition step (s : state) (e : event) : state :=
  match e with
  | Coordinate =>
      (* prime_caches.rs:81-123 *)
      if finished s then s
      else
        let work' := work s ++ projects in
        match news s with
        | [] => State work' [] (workers s) (projects_done s) (reports s) (indexed s) false
        | m :: tl =>
            let d := match m with BeginProject _ => projects_done s | EndProject _ => S (projects_done s) end in
            State work' tl (workers s) d (reports s ++ [(d, length projects)]) (indexed s) (length projects <=? d)
        end
  | Take w =>
      (* prime_caches.rs:45-48. Once the loop has ended the progress channel is closed and workers stop. *)
      if finished s then s
      else match nth_error (workers s) w, work s with
      | Some None, p :: tl =>
          State tl (news s ++ [BeginProject (root p)]) (set_nth w (Some p) (workers s)) (projects_done s)
                (reports s) (indexed s) false
      | _, _ => s
      end
  | Finish w =>
      (* prime_caches.rs:50-54 *)
      match nth_error (workers s) w with
      | Some (Some p) =>
          State (work s) (news s ++ [EndProject (root p)]) (set_nth w None (workers s)) (projects_done s)
                (reports s) (indexed s ++ nodes p) (finished s)
      | _ => s
      end
  end.
Definition run (num_worker_threads : nat) (h : list event) : state := fold_left step h (start num_worker_threads).
End Prime.
