(** The progress shown to the user: crates/sourcepawn_lsp/src/progress.rs, and who reports what: main_loop.rs:451-490
    (handle_vfs_msg), 492-554 (handle_flycheck_msg), 567-581 and 596-646 (indexing), with the loader (StatusModel), the
    queue of indexing (OpQueueModel) and the workers that run the compiler (FlycheckModel).
    - The texts of progress messages are left out, percentages are kept as fractions.
    - A turn of the main loop is divided into what it does about files, indexing and checks; every order of these is a
      history here. When indexing is requested is left open, as are the callers of the workers (C57). *)
From Coq Require Import List Bool Arith String.
From Verif Require StatusModel OpQueueModel FlycheckModel SaveModel.
Import ListNotations.
Local Open Scope string_scope.
Local Open Scope nat_scope.
Local Open Scope list_scope.

(** progress.rs:4-8 *)
Inductive kind := Begin | Report | End.
Definition fraction := (nat * nat)%type.
(** lsp_types::WorkDoneProgress *)
Inductive value :=
| WorkBegin (title : string) (cancellable : bool) (f : option fraction)
| WorkReport (cancellable : bool) (f : option fraction)
| WorkEnd.
(** What the client is sent *)
Inductive out := Create (token : string) | Note (token : string) (v : value) | SpcompStatus (quiescent : bool).

(** progress.rs:10-15; a failed assertion is [None] *)
Definition mk_fraction (done total : nat) : option fraction := if done <=? total then Some (done, total) else None.

(** progress.rs:17-69 *)
Definition report_progress (title : string) (k : kind) (f : option fraction) (cancel_token : option string) : list out :=
  let cancellable := match cancel_token with Some _ => true | None => false end in
  let token := match cancel_token with Some t => t | None => ("rustAnalyzer/" ++ title)%string end in
  match k with
  | Begin => [Create token; Note token (WorkBegin title cancellable f)]
  | Report => [Note token (WorkReport cancellable f)]
  | End => [Note token WorkEnd]
  end.

(** main_loop.rs:463-489 *)
Definition vfs_out (m : StatusModel.loader_msg) : option (list out) :=
  match m with
  | StatusModel.Loaded _ _ => Some []
  | StatusModel.Progress n_total n_done _ =>
      match (if n_done =? 0 then Some Begin else if n_done <? n_total then Some Report
             else if n_done =? n_total then Some End else None), mk_fraction n_done n_total with
      | Some k, Some f => Some (report_progress "Roots Scanned" k (Some f) None)
      | _, _ => None
      end
  end.

(** main_loop.rs:601-645; a report of indexing says how many projects are done, of how many *)
Definition index_out (p : OpQueueModel.progress fraction) : option (list out) :=
  match p with
  | OpQueueModel.Begin _ => Some (report_progress "Indexing" Begin (Some (0, 1)) None)
  | OpQueueModel.Report _ (done, total) =>
      match mk_fraction done total with
      | Some f => Some (report_progress "Indexing" Report (Some f) None)
      | None => None
      end
  | OpQueueModel.End _ _ => Some (report_progress "Indexing" End (Some (1, 1)) None)
  end.

Section Checks.
Variable diagnostic : Type.
Notation message := (FlycheckModel.message diagnostic).
Notation actor := (FlycheckModel.state diagnostic).

(** main_loop.rs:492-554; [n] is the number of checkers *)
Definition check_out (n : nat) (m : nat * message) : list out :=
  let id := fst m in
  let title := if n =? 1 then "spcomp check" else ("spcomp check (#" ++ SaveModel.display (S id) ++ ")")%string in
  match snd m with
  | FlycheckModel.AddDiagnostic _ _ => []
  | FlycheckModel.DidStart _ => SpcompStatus false :: report_progress title Begin None (Some (SaveModel.token id))
  | FlycheckModel.DidCancel _ | FlycheckModel.DidFinish _ _ =>
      SpcompStatus true :: report_progress title End None (Some (SaveModel.token id))
  | FlycheckModel.DidFailToRestart _ => []
  end.

(** [crew] are the workers made so far, with their ids (reload.rs:78-115); [mail] is their common channel; [checkers] is
    the size of the present map *)
Record state := State {
  files : StatusModel.state;
  index : OpQueueModel.state fraction;
  crew : list (nat * actor);
  mail : list (nat * message);
  checkers : nat;
  client : list out }.

Fixpoint all_out {A} (f : A -> option (list out)) (l : list A) : option (list out) :=
  match l with
  | [] => Some []
  | a :: tl => match f a, all_out f tl with Some x, Some y => Some (x ++ y) | _, _ => None end
  end.

Inductive event :=
| Files (e : StatusModel.event)
| Index (e : OpQueueModel.event fraction)
| Reload (ids : list nat)                                (* reload_flycheck: a worker for each root *)
| Work (k : nat) (e : FlycheckModel.event diagnostic)    (* a step of, or a call to, the k-th worker *)
| Checks (n : nat).                                      (* the main loop takes n messages of the workers *)

Fixpoint set_nth {A} (n : nat) (x : A) (l : list A) : list A :=
  match l, n with
  | [], _ => []
  | _ :: tl, 0 => x :: tl
  | y :: tl, S n => y :: set_nth n x tl
  end.

Definition step (s : state) (e : event) : option state :=
  match e with
  | Files e =>
      let seen := match e with StatusModel.Turn StatusModel.Vfs => StatusModel.from_loader (files s) | _ => [] end in
      match all_out vfs_out seen with
      | Some o => Some (State (StatusModel.step true (files s) e) (index s) (crew s) (mail s) (checkers s) (client s ++ o))
      | None => None
      end
  | Index e =>
      match OpQueueModel.step fraction (index s) e with
      | Some q =>
          match all_out index_out (skipn (List.length (OpQueueModel.notified fraction (index s))) (OpQueueModel.notified fraction q)) with
          | Some o => Some (State (files s) q (crew s) (mail s) (checkers s) (client s ++ o))
          | None => None
          end
      | None => None
      end
  | Reload ids =>
      Some (State (files s) (index s) (crew s ++ map (fun i => (i, FlycheckModel.start diagnostic)) ids) (mail s) (List.length ids) (client s))
  | Work k e =>
      match nth_error (crew s) k with
      | Some (id, a) =>
          let a' := FlycheckModel.step diagnostic a e in
          let new := skipn (List.length (FlycheckModel.sent diagnostic a)) (FlycheckModel.sent diagnostic a') in
          Some (State (files s) (index s) (set_nth k (id, a') (crew s)) (mail s ++ map (pair id) new) (checkers s) (client s))
      | None => Some s
      end
  | Checks n =>
      Some (State (files s) (index s) (crew s) (skipn n (mail s)) (checkers s)
                  (client s ++ flat_map (check_out (checkers s)) (firstn n (mail s))))
  end.
Fixpoint run (s : state) (h : list event) : option state :=
  match h with
  | [] => Some s
  | e :: tl => match step s e with Some s => run s tl | None => None end
  end.
(** [dirs]: the number of include directories, as in [StatusModel.start] *)
Definition start (dirs : option nat) : state :=
  State (StatusModel.start dirs) (OpQueueModel.start fraction) [] [] 0 [].
End Checks.
