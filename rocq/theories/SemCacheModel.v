(** Model of the semantic-token result cache: crates/sourcepawn_lsp/src/handlers/request.rs:63-133
    (full, delta and range handlers), lsp/to_proto.rs:72-102 (result ids, delta), and the cache
    clears in handlers/notification.rs (didClose) and main_loop.rs (client refresh).

    Handlers run on worker threads; the cache is behind a mutex, so each lock/unlock section is one
    atomic action here and actions of different threads interleave arbitrarily.  The tokens computed
    by a handler are an arbitrary input of the action that starts it.  The id counter is an AtomicU32;
    wrap-around after 2^32 results is not modelled.  Ids are decimal strings; decimal printing is
    injective, so they are modelled by the numbers.  Uris and thread ids are numbers. *)
From Coq Require Import List NArith.
From Verif Require Import SemTokensModel.
Import ListNotations.
Local Open Scope N_scope.

(** Replies: SemanticTokens{result_id, data} or SemanticTokensDelta{result_id, edits}. The delta also
    records the previous_result_id of the request it answers. *)
Inductive reply :=
| RFull (id : N) (toks : list token)
| RDelta (prev : N) (id : N) (es : list edit).

Definition reply_id (r : reply) : N :=
  match r with RFull id _ => id | RDelta _ id _ => id end.

(** Where a handler thread is. *)
Inductive thread :=
| Idle
| Computed (uri : N) (prev : option N) (id : N) (toks : list token)
   (** tokens computed; [prev] is None for a full request, the previous_result_id for a delta *)
| Decided (uri : N) (id : N) (toks : list token) (r : reply)
   (** delta request after the [remove] of request.rs:92-95 *)
| Inserted (r : reply).
   (** cache updated, reply on its way to the client *)

Record state := State {
  counter : N;                                   (* TOKEN_RESULT_COUNTER, to_proto.rs:72 *)
  cache : N -> option (N * list token);          (* semantic_tokens_cache: uri -> (id, data) *)
  threads : N -> thread;
  log : list reply;                              (* replies sent, oldest first *)
  issued : list (N * (N * list token))
    (* history variable, never read by [step]: id -> (uri, tokens) of every request started *)
}.

Definition upd {A} (f : N -> A) (k : N) (v : A) : N -> A :=
  fun x => if x =? k then v else f x.

Definition init : state := State 1 (fun _ => None) (fun _ => Idle) [] [].

Inductive action :=
| Start (tid uri : N) (prev : option N) (toks : list token)
    (* request.rs:67-71 / 85-90: compute tokens, take an id *)
| Remove (tid : N)            (* request.rs:92-105: take the cached entry, decide the reply *)
| Insert (tid : N)            (* request.rs:74-76, 106-108, 114-117: insert *)
| Send (tid : N)              (* request.rs:78, 109, 119: reply *)
| RangeReq (uri : N) (toks : list token)
                              (* request.rs:122-133: takes an id, does not touch the cache *)
| Close (uri : N)             (* notification.rs didClose: remove the entry *)
| ClearAll.                   (* main_loop.rs client refresh: clear the cache *)

Definition step (s : state) (a : action) : state :=
  match a with
  | Start t u p toks =>
      match threads s t with
      | Idle => State (counter s + 1) (cache s)
                  (upd (threads s) t (Computed u p (counter s) toks)) (log s)
                  (issued s ++ [(counter s, (u, toks))])
      | _ => s
      end
  | Remove t =>
      match threads s t with
      | Computed u (Some p) id toks =>
          let r := match cache s u with
                   | Some (pid, old) =>
                       if pid =? p then RDelta p id (diff_tokens old toks) else RFull id toks
                   | None => RFull id toks
                   end in
          State (counter s) (upd (cache s) u None) (upd (threads s) t (Decided u id toks r))
                (log s) (issued s)
      | _ => s
      end
  | Insert t =>
      match threads s t with
      | Computed u None id toks =>
          State (counter s) (upd (cache s) u (Some (id, toks)))
                (upd (threads s) t (Inserted (RFull id toks))) (log s) (issued s)
      | Decided u id toks r =>
          State (counter s) (upd (cache s) u (Some (id, toks)))
                (upd (threads s) t (Inserted r)) (log s) (issued s)
      | _ => s
      end
  | Send t =>
      match threads s t with
      | Inserted r =>
          State (counter s) (cache s) (upd (threads s) t Idle) (log s ++ [r]) (issued s)
      | _ => s
      end
  | RangeReq u toks =>
      State (counter s + 1) (cache s) (threads s) (log s ++ [RFull (counter s) toks])
            (issued s ++ [(counter s, (u, toks))])
  | Close u => State (counter s) (upd (cache s) u None) (threads s) (log s) (issued s)
  | ClearAll => State (counter s) (fun _ => None) (threads s) (log s) (issued s)
  end.

Definition run (acts : list action) : state := fold_left step acts init.
