(** Model of the handling of requests: crates/sourcepawn_lsp/src/dispatch.rs:25-228 (request
    dispatcher), global_state.rs:179-231 (request queue) and main_loop.rs:340-397, 419-421, 556-560
    (new requests, finished and retried tasks).
    External code, left as inputs:
    - whether parameters deserialise ([parse]) and the message of the error;
    - what a handler running on the thread pool does ([outcome]), and when;
    - lsp_server's ReqQueue (not in this repository): incoming requests are a map from id to data,
      [register] inserts, [complete] removes and tells whether it was there.
    Simplifications: result values are an abstract type; durations and logs are dropped; the tasks
    that the main loop takes in one turn are handled one event each (main_loop.rs:596-600 handles them
    in the same order and the loop does nothing else in between that concerns requests). *)
From Coq Require Import List ZArith Bool String Lia Arith.
Import ListNotations.
Local Open Scope string_scope.

(** lsp_server::RequestId *)
Inductive req_id := IdNum (n : Z) | IdStr (s : string).
Definition id_dec : forall a b : req_id, {a = b} + {a <> b}.
Proof. decide equality; [apply Z.eq_dec|apply string_dec]. Defined.

Section Requests.
Variable json : Type.
(** lib.rs:27-33 from_json at the parameter type of the method: the error message, if any *)
Variable parse_error : string -> json -> option string.
(** what serialising [()] yields *)
Variable null : json.

Record request := Req { rq_id : req_id; rq_method : string; rq_params : json }.

(** lsp_server::Response *)
Inductive body := Result (v : json) | Error (code : Z) (message : string).
Record response := Resp { rs_id : req_id; rs_body : body }.

(** lsp_server::ErrorCode *)
Definition InvalidRequest : Z := (-32600)%Z.
Definition MethodNotFound : Z := (-32601)%Z.
Definition InvalidParams : Z := (-32602)%Z.
Definition InternalError : Z := (-32603)%Z.

(** thread::Result<anyhow::Result<R::Result>>: what the closure run on the pool yields. The payload of a
    panic is a string when downcasting it to String or &str works. *)
Inductive outcome :=
| Returned (v : json)
| FailedLsp (code : Z) (message : string)
| Cancelled
| Failed (message : string)
| Panicked (payload : option string).

(** main_loop.rs:36-41: Task, the variants that concern requests *)
Inductive task := TResponse (r : response) | TRetry (q : request).

(** global_state.rs: the fields used. [pending] is req_queue.incoming, [jobs] what was given to the pool
    and has not been finished by a worker, [tasks] the channel from the pool to the main loop. *)
Record state := State {
  pending : list req_id;
  shutdown_requested : bool;
  jobs : list request;
  tasks : list task;
  sent : list response }.
Definition start : state := State [] false [] [] [].

(** ReqQueue::incoming *)
Definition register (i : req_id) (p : list req_id) : list req_id :=
  if in_dec id_dec i p then p else i :: p.
Definition is_pending (i : req_id) (p : list req_id) : bool := if in_dec id_dec i p then true else false.

(** global_state.rs:210-221: respond *)
Definition respond (s : state) (r : response) : state :=
  if is_pending (rs_id r) (pending s) then
    State (remove id_dec (rs_id r) (pending s)) (shutdown_requested s) (jobs s) (tasks s) (sent s ++ [r])
  else s.

(** dispatch.rs:25-28 *)
Record dispatcher := Dispatcher { dp_req : option request; dp_state : state }.

(** dispatch.rs:125-154: parse *)
Definition parse (d : dispatcher) (method : string) : dispatcher * option request :=
  match dp_req d with
  | Some q =>
      if String.eqb (rq_method q) method then
        match parse_error method (rq_params q) with
        | None => (Dispatcher None (dp_state d), Some q)
        | Some e => (Dispatcher None (respond (dp_state d) (Resp (rq_id q) (Error InvalidParams e))), None)
        end
      else (d, None)
  | None => (d, None)
  end.

(** dispatch.rs:189-215: result_to_response; None is [Err(cancelled)] *)
Definition result_to_response (i : req_id) (o : outcome) : option response :=
  match o with
  | Returned v => Some (Resp i (Result v))
  | FailedLsp c m => Some (Resp i (Error c m))
  | Cancelled => None
  | Failed m => Some (Resp i (Error InternalError m))
  | Panicked _ => None (* not a case of this function, see below *)
  end.

(** dispatch.rs:157-187: thread_result_to_response *)
Definition thread_result_to_response (i : req_id) (o : outcome) : option response :=
  match o with
  | Panicked p =>
      let message := match p with
                     | Some m => "request handler panicked" ++ ": " ++ m
                     | None => "request handler panicked"
                     end in
      Some (Resp i (Error InternalError message))
  | _ => result_to_response i o
  end.

(** dispatch.rs:34-54 for the only request handled this way, main_loop.rs:354-357: shutdown *)
Definition on_shutdown (d : dispatcher) : dispatcher :=
  match parse d "shutdown" with
  | (d, None) => d
  | (d, Some q) =>
      let s := dp_state d in
      let s := State (pending s) true (jobs s) (tasks s) (sent s) in
      match result_to_response (rq_id q) (Returned null) with
      | Some r => Dispatcher (dp_req d) (respond s r)
      | None => Dispatcher (dp_req d) s
      end
  end.

(** dispatch.rs:57-111: on, on_latency_sensitive, on_with_thread_intent. The intent only selects the
    priority of the thread. *)
Definition on (method : string) (d : dispatcher) : dispatcher :=
  match parse d method with
  | (d, None) => d
  | (d, Some q) =>
      let s := dp_state d in
      Dispatcher (dp_req d) (State (pending s) (shutdown_requested s) (jobs s ++ [q]) (tasks s) (sent s))
  end.

(** dispatch.rs:113-123: finish *)
Definition finish (d : dispatcher) : state :=
  match dp_req d with
  | Some q => respond (dp_state d) (Resp (rq_id q) (Error MethodNotFound "unknown request"))
  | None => dp_state d
  end.

(** main_loop.rs:377-395 and the METHOD constants of lsp_types and lsp_ext.rs *)
Definition handled_methods : list string :=
  ["textDocument/semanticTokens/full"; "textDocument/semanticTokens/full/delta";
   "textDocument/semanticTokens/range"; "textDocument/definition"; "textDocument/hover";
   "sourcepawn-lsp/syntaxTree"; "sourcepawn-lsp/projectsGraphviz"; "sourcepawn-lsp/preprocessedDocument";
   "sourcepawn-lsp/itemTree"; "sourcepawn-lsp/analyzerStatus"; "sourcepawn-lsp/projectMainPath"].

(** main_loop.rs:347-397: on_request *)
Definition on_request (s : state) (q : request) : state :=
  let d := on_shutdown (Dispatcher (Some q) s) in
  match dp_req d with
  | Some q =>
      if shutdown_requested (dp_state d) then
        respond (dp_state d) (Resp (rq_id q) (Error InvalidRequest "Shutdown already requested."))
      else finish (fold_left (fun d m => on m d) handled_methods d)
  | None => finish (fold_left (fun d m => on m d) handled_methods d)
  end.

(** main_loop.rs:341-344 with global_state.rs:223-231: on_new_request *)
Definition on_new_request (s : state) (q : request) : state :=
  on_request (State (register (rq_id q) (pending s)) (shutdown_requested s) (jobs s) (tasks s) (sent s)) q.

(** main_loop.rs:556-560: handle_task *)
Definition handle_task (s : state) (t : task) : state :=
  match t with
  | TResponse r => respond s r
  | TRetry q => if is_pending (rq_id q) (pending s) then on_request s q else s
  end.

(** What can happen: a request or another message arrives, a worker finishes the [n]-th job given to
    the pool and sends the task (dispatch.rs:97-107), the main loop receives a task.
    [Cancel] is the notification "$/cancelRequest", which main_loop.rs:399-417 ignores. *)
Inductive event := Arrive (q : request) | Cancel (i : req_id) | Work (n : nat) (o : outcome) | Receive.

Fixpoint remove_nth {A} (n : nat) (l : list A) : list A :=
  match l, n with
  | [], _ => []
  | _ :: tl, O => tl
  | x :: tl, S n => x :: remove_nth n tl
  end.

Definition step (s : state) (e : event) : state :=
  match e with
  | Arrive q => on_new_request s q
  | Cancel _ => s
  | Work n o =>
      match nth_error (jobs s) n with
      | None => s
      | Some q =>
          let t := match thread_result_to_response (rq_id q) o with
                   | Some r => TResponse r
                   | None => TRetry q
                   end in
          State (pending s) (shutdown_requested s) (remove_nth n (jobs s)) (tasks s ++ [t]) (sent s)
      end
  | Receive =>
      match tasks s with
      | [] => s
      | t :: tl => handle_task (State (pending s) (shutdown_requested s) (jobs s) tl (sent s)) t
      end
  end.
Definition run (h : list event) : state := fold_left step h start.
End Requests.
