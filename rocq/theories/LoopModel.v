(** Model of the main loop as a whole: crates/sourcepawn_lsp/src/main_loop.rs:54-89 (run), 340-344, 399-757
    (on_new_request, on_notification, update_diagnostics, handle_vfs_msg, handle_flycheck_msg, handle_task,
    handle_event), dispatch.rs:216-255 (NotificationDispatcher), handlers/notification.rs,
    global_state.rs:177-196 (send_request, complete_request), 234-362 (process_changes), progress.rs and
    reload.rs:16-122. It puts together the models of the parts: the virtual file system and the open
    documents (VfsModel, OpenDocsModel), the changes given to the analysis (SyncModel), the requests of the
    editor (RequestsModel), the diagnostics (DiagModel) and the indexing queue (OpQueueModel).
    What may crash is kept: every unwrap, expect, assert, index and panic of the thread of the main loop
    is [Panic]. Left out or external:
    - deserialising parameters and converting URIs to paths are inputs; so are the settings, of which only
      the questions asked by the loop are kept, and the roots of the projects found by the analysis;
    - sending on a channel does not fail (the other threads of the server, and the one that writes to the
      editor, are there) and threads can be spawned;
    - the ids of outgoing requests, i32 in lsp_server, do not overflow;
    - one turn takes the messages waiting on one channel: they are the list given with the turn;
    - the semantic tokens cache, logs, and the contents of the notifications sent to the editor. *)
From Coq Require Import List NArith ZArith Bool String Arith.
From Verif Require Import VfsModel TextModel Utf8 OpenDocsModel.
From Verif Require SyncModel RequestsModel DiagModel OpQueueModel.
Import ListNotations.
Local Open Scope string_scope.
Local Open Scope nat_scope.
Local Open Scope list_scope.

(** The inputs of the model *)
Record env := Env {
  json : Type; uri : Type; config : Type;
  (* serde_json::from_value for the parameters of requests (an error message) and the value of () *)
  parse_error : string -> json -> option string;
  null : json;
  (* serde_json::from_value for the parameters of the notifications *)
  open_params : json -> option (uri * Z * list char);
  change_params : json -> option (uri * Z * list change);
  close_params : json -> option uri;
  save_params : json -> option uri;
  config_params : json -> option unit;
  watched_params : json -> option (list uri);
  cancel_params : json -> option unit;
  (* from_proto.rs:14-23: vfs_path, None when the URI is not a file *)
  vfs_path : uri -> option path;
  (* configs.get_mut(0), handlers/notification.rs:204 *)
  first_setting : json -> option json;
  (* config.rs: Config::update (with whether there were errors), the root followed by
     include_directories(), whether the settings of the compiler differ (reload.rs:66-69), whether there
     is a compiler path, has_pull_configuration_support, semantic_tokens_refresh, prefill_caches *)
  update_config : config -> json -> config * bool;
  cfg_roots : config -> list path;
  compiler_differs : config -> config -> bool;
  has_compiler : config -> bool; pulls : config -> bool; refreshes : config -> bool; prefills : config -> bool;
  (* ide: the keys of Analysis::graph().subgraphs_with_roots(), None when cancelled (reload.rs:80-86) *)
  project_roots : SyncModel.db -> option (list file_id);
  (* config.position_encoding(), negotiated once *)
  enc : encoding }.

Section Loop.
Context {E : env}.
Notation json := (json E).
Notation uri := (uri E).
Notation config := (config E).

(** ** State *)

(** handlers given to send_request: the one of handlers/notification.rs:195-216, or [|_, _| ()] *)
Inductive handler := ApplySettings | Nothing.
(** lsp_server::OutgoingReqQueue; [sent] are the requests sent to the editor so far, with their methods *)
Record client := Client { outgoing : list (Z * handler); next_id : Z; sent : list (Z * string) }.
(** global_state.rs: vfs_config_version, vfs_progress_config_version, _n_total, _n_done *)
Record scan := Scan { version : nat; p_version : nat; n_total : nat; n_done : nat }.

(** global_state.rs:52-97 GlobalState, the fields used. [reported] is last_reported_status as health and
    quiescence. [jobs] is the number of indexing jobs given to the pool whose End was not received yet; it
    is not part of the program. *)
Record state := State {
  files : SyncModel.state;
  docs : mem_docs; added_or_removed : bool;
  cfg : config; config_errors : bool;
  scanning : scan;
  reported : option (bool * bool);
  requests : RequestsModel.state json;
  client_ : client;
  diags : DiagModel.collection;
  queue : OpQueueModel.op_queue unit;
  jobs : nat }.

Definition with_files s x := State x (docs s) (added_or_removed s) (cfg s) (config_errors s) (scanning s) (reported s) (requests s) (client_ s) (diags s) (queue s) (jobs s).
Definition with_docs s x b := State (files s) x b (cfg s) (config_errors s) (scanning s) (reported s) (requests s) (client_ s) (diags s) (queue s) (jobs s).
Definition with_cfg s x := State (files s) (docs s) (added_or_removed s) x (config_errors s) (scanning s) (reported s) (requests s) (client_ s) (diags s) (queue s) (jobs s).
Definition with_errors s x := State (files s) (docs s) (added_or_removed s) (cfg s) x (scanning s) (reported s) (requests s) (client_ s) (diags s) (queue s) (jobs s).
Definition with_scan s x := State (files s) (docs s) (added_or_removed s) (cfg s) (config_errors s) x (reported s) (requests s) (client_ s) (diags s) (queue s) (jobs s).
Definition with_reported s x := State (files s) (docs s) (added_or_removed s) (cfg s) (config_errors s) (scanning s) x (requests s) (client_ s) (diags s) (queue s) (jobs s).
Definition with_requests s x := State (files s) (docs s) (added_or_removed s) (cfg s) (config_errors s) (scanning s) (reported s) x (client_ s) (diags s) (queue s) (jobs s).
Definition with_client s x := State (files s) (docs s) (added_or_removed s) (cfg s) (config_errors s) (scanning s) (reported s) (requests s) x (diags s) (queue s) (jobs s).
Definition with_diags s x := State (files s) (docs s) (added_or_removed s) (cfg s) (config_errors s) (scanning s) (reported s) (requests s) (client_ s) x (queue s) (jobs s).
Definition with_queue s x n := State (files s) (docs s) (added_or_removed s) (cfg s) (config_errors s) (scanning s) (reported s) (requests s) (client_ s) (diags s) x n.

Definition the_vfs (s : state) : vfs := SyncModel.st_vfs (files s).

(** ** What arrives *)

(** lsp_server::Response *)
Record response := Response { r_id : RequestsModel.req_id; r_error : bool; r_result : option json }.
(** lsp_server::Message *)
Inductive lsp_message :=
| Request (q : RequestsModel.request json)
| Notification (method : string) (params : json)
| Reply (r : response).
(** vfs::loader::Message *)
Inductive loader_message := Loaded (fs : list (path * option contents)) | Progress (total done config_version : nat).
(** main_loop.rs:39-51: Task *)
Inductive prime_progress := Begin | Report (done total : nat) | End (cancelled : bool).
Inductive task :=
| ForRequest (t : RequestsModel.task json)
| Diagnostics (l : list (file_id * list DiagModel.diagnostic))
| PrimeCaches (p : prime_progress).
(** flycheck::Message *)
Inductive check_progress := DidStart | DidCheckCrate | DidCancel | DidFailToRestart | DidFinish.
Inductive check_message :=
| AddDiagnostic (id : nat) (p : path) (d : DiagModel.diagnostic)
| CheckProgress (id : nat) (p : check_progress).
(** main_loop.rs:31-36: Event, with the messages of the same channel handled in the same turn *)
Inductive turn :=
| Lsp (m : lsp_message)
| Tasks (l : list task)
| Vfs (l : list loader_message)
| Flycheck (l : list check_message).

(** ** Requests to the editor *)

(** global_state.rs:177-187 with OutgoingReqQueue::register *)
Definition send_request (s : state) (method : string) (h : handler) : state :=
  let c := client_ s in
  with_client s (Client ((next_id c, h) :: outgoing c) (next_id c + 1)%Z (sent c ++ [(next_id c, method)])).

Fixpoint find_out (l : list (Z * handler)) (i : Z) : option handler :=
  match l with [] => None | (j, h) :: tl => if Z.eqb j i then Some h else find_out tl i end.
Definition remove_out (l : list (Z * handler)) (i : Z) : list (Z * handler) :=
  filter (fun x => negb (Z.eqb (fst x) i)) l.
(** OutgoingReqQueue::complete; the ids given out are numbers *)
Definition complete (c : client) (i : RequestsModel.req_id) : option (handler * client) :=
  match i with
  | RequestsModel.IdStr _ => None
  | RequestsModel.IdNum n =>
      match find_out (outgoing c) n with
      | None => None
      | Some h => Some (h, Client (remove_out (outgoing c) n) (next_id c) (sent c))
      end
  end.

(** progress.rs:18-70: a new progress token is announced when the progress begins *)
Definition report_progress (s : state) (begins : bool) : state :=
  if begins then send_request s "window/workDoneProgress/create" Nothing else s.

(** ** Settings *)

(** reload.rs:75-122; the thread of a checker is given the path of the root *)
Definition reload_flycheck (s : state) : res state :=
  if (has_compiler E) (cfg s) then
    match (project_roots E) (SyncModel.st_db (files s)) with
    | None => Ok s
    | Some ids => bind (SyncModel.mapM (file_path (the_vfs s)) ids) (fun _ => Ok s)
    end
  else Ok s.

Definition paths_eq_dec : forall a b : list path, {a = b} + {a <> b} := list_eq_dec path_eq_dec.

(** reload.rs:38-73, not during initialisation *)
Definition update_configuration (s : state) (c : config) : res state :=
  let old := cfg s in
  let s := with_cfg s c in
  let s := if paths_eq_dec ((cfg_roots E) c) ((cfg_roots E) old) then s
           else
             let w := files s in
             let s := with_files s (SyncModel.State (SyncModel.st_vfs w) (SyncModel.st_db w) ((cfg_roots E) c)) in
             let k := scanning s in
             with_scan s (Scan (S (version k)) (p_version k) (n_total k) (n_done k)) in
  if (compiler_differs E) c old then reload_flycheck s else Ok s.

(** global_state.rs:189-196, handlers/notification.rs:195-216 *)
Definition complete_request (s : state) (r : response) : res state :=
  match complete (client_ s) (r_id r) with
  | None => Panic
  | Some (h, c) =>
      let s := with_client s c in
      match h with
      | Nothing => Ok s
      | ApplySettings =>
          match r_error r, r_result r with
          | true, _ => Ok s
          | false, None => Ok s
          | false, Some v =>
              match (first_setting E) v with
              | None => Ok s
              | Some j => let (c, e) := (update_config E) (cfg s) j in update_configuration (with_errors s e) c
              end
          end
      end
  end.

(** ** Notifications *)

(** handlers/notification.rs:20-117: the effect on the documents is that of OpenDocsModel *)
Definition document (s : state) (m : message) (b : bool) : res state :=
  bind (handle (Server (the_vfs s) (docs s) (enc E)) m) (fun v =>
    let w := files s in
    Ok (with_docs (with_files s (SyncModel.State (sv_vfs v) (SyncModel.st_db w) (SyncModel.st_roots w))) (sv_docs v) b)).

Definition did_open (s : state) (x : uri * Z * list char) : res state :=
  let '(u, v, t) := x in
  match (vfs_path E) u with Some p => document s (DidOpen p v t) true | None => Ok s end.
Definition did_change (s : state) (x : uri * Z * list change) : res state :=
  let '(u, v, cs) := x in
  match (vfs_path E) u with Some p => document s (DidChange p v cs) (added_or_removed s) | None => Ok s end.
Definition did_close (s : state) (u : uri) : res state :=
  match (vfs_path E) u with
  | Some p =>
      bind (document s (DidClose p) true) (fun s =>
      bind (file_id_of (the_vfs s) p) (fun i =>
        Ok (match i with Some i => with_diags s (DiagModel.clear_native_for (diags s) i) | None => s end)))
  | None => Ok s
  end.
(** notification.rs:119-134, 222-267: saving gives a task to the pool, which is not modelled here *)
Definition did_save (s : state) (u : uri) : res state :=
  match (vfs_path E) u with
  | Some p => bind (file_id_of (the_vfs s) p) (fun _ => Ok s)
  | None => Ok s
  end.
(** notification.rs:168-220 *)
Definition did_change_configuration (s : state) (_ : unit) : res state :=
  if (pulls E) (cfg s) then Ok (send_request s "workspace/configuration" ApplySettings) else Ok s.
(** notification.rs:136-146: the loader is told; notification.rs:148-166: the checker is told *)
Definition did_change_watched_files (s : state) (_ : list uri) : res state := Ok s.
Definition work_done_progress_cancel (s : state) (_ : unit) : res state := Ok s.

(** dispatch.rs:216-246: NotificationDispatcher, the notification if it was not taken yet *)
Definition dispatcher : Type := option (string * json) * state.
Definition on_sync_mut {P : Type} (method : string) (parse : json -> option P) (f : state -> P -> res state)
    (d : dispatcher) : res dispatcher :=
  match fst d with
  | None => Ok d
  | Some (m, j) =>
      if String.eqb m method then
        match parse j with
        | None => Panic
        | Some x => bind (f (snd d) x) (fun s => Ok (None, s))
        end
      else Ok d
  end.

(** main_loop.rs:399-417; [finish] only logs *)
Definition on_notification (s : state) (method : string) (params : json) : res state :=
  bind (on_sync_mut "textDocument/didOpen" (open_params E) did_open (Some (method, params), s)) (fun d =>
  bind (on_sync_mut "textDocument/didChange" (change_params E) did_change d) (fun d =>
  bind (on_sync_mut "textDocument/didClose" (close_params E) did_close d) (fun d =>
  bind (on_sync_mut "textDocument/didSave" (save_params E) did_save d) (fun d =>
  bind (on_sync_mut "workspace/didChangeConfiguration" (config_params E) did_change_configuration d) (fun d =>
  bind (on_sync_mut "workspace/didChangeWatchedFiles" (watched_params E) did_change_watched_files d) (fun d =>
  bind (on_sync_mut "window/workDoneProgress/cancel" (cancel_params E) work_done_progress_cancel d) (fun d =>
  Ok (snd d)))))))).

(** ** The other events *)

Fixpoint foldM {A B} (f : B -> A -> res B) (b : B) (l : list A) : res B :=
  match l with [] => Ok b | x :: tl => bind (f b x) (fun b => foldM f b tl) end.

(** main_loop.rs:451-490 *)
Definition handle_vfs_msg (s : state) (m : loader_message) : res state :=
  match m with
  | Loaded fs => document s (OpenDocsModel.Loaded fs) (added_or_removed s)
  | Progress total done v =>
      let s := with_scan s (Scan (version (scanning s)) v total done) in
      if negb (done =? 0) && negb (done <? total) && negb (done =? total) then Panic
      (* progress.rs:12 *)
      else if total <? done then Panic
      else Ok (report_progress s (done =? 0))
  end.

(** main_loop.rs:492-554 *)
Definition handle_flycheck_msg (s : state) (m : check_message) : res state :=
  match m with
  | AddDiagnostic id p d =>
      bind (file_id_of (the_vfs s) p) (fun i =>
        Ok (match i with
            | Some i => with_diags s (DiagModel.add_check_diagnostic (diags s) id i d)
            | None => s
            end))
  | CheckProgress id DidStart => Ok (report_progress (with_diags s (DiagModel.clear_check (diags s) id)) true)
  | CheckProgress id DidFailToRestart => Ok s
  | CheckProgress id _ => Ok (report_progress s false)
  end.

(** main_loop.rs:556-581; the second component collects the progress of indexing *)
Definition handle_task (x : state * list prime_progress) (t : task) : state * list prime_progress :=
  let (s, ps) := x in
  match t with
  | ForRequest t => (with_requests s (RequestsModel.handle_task json (parse_error E) (null E) (requests s) t), ps)
  | Diagnostics l =>
      (with_diags s (fold_left (fun c x => DiagModel.set_native_diagnostics c (fst x) (snd x)) l (diags s)), ps)
  | PrimeCaches (Report d n) =>
      (s, match rev ps with
          | Report _ _ :: _ => removelast ps ++ [Report d n]
          | _ => ps ++ [Report d n]
          end)
  | PrimeCaches p => (s, ps ++ [p])
  end.

(** main_loop.rs:602-645 *)
Definition handle_progress (s : state) (p : prime_progress) : res state :=
  match p with
  | Begin => Ok (report_progress s true)
  | Report d n => if n <? d then Panic else Ok (report_progress s false)
  | End cancelled =>
      match OpQueueModel.op_completed unit (queue s) with
      | None => Panic
      | Some q =>
          let q := if cancelled then OpQueueModel.request_op unit q "restart after cancellation" tt else q in
          Ok (report_progress (with_queue s q (jobs s - 1)) false)
      end
  end.

(** main_loop.rs:589-661 *)
Definition handle_turn (s : state) (t : turn) : res state :=
  match t with
  | Lsp (Request q) => Ok (with_requests s (RequestsModel.on_new_request json (parse_error E) (null E) (requests s) q))
  | Lsp (Notification m j) => on_notification s m j
  | Lsp (Reply r) => complete_request s r
  | Tasks l => let (s, ps) := fold_left handle_task l (s, []) in foldM handle_progress s ps
  | Vfs l => foldM handle_vfs_msg s l
  | Flycheck l => foldM handle_flycheck_msg s l
  end.

(** ** The end of a turn *)

(** reload.rs:17-21 *)
Definition is_quiescent (s : state) : bool :=
  negb (match reported s with None => true | _ => false end
        || (p_version (scanning s) <? version (scanning s))
        || (n_done (scanning s) <? n_total (scanning s))).

(** global_state.rs:234-362: process_changes, with lines 313-315 that SyncModel leaves out *)
Definition process_changes (s : state) : res (state * bool) :=
  let gone := filter (fun c => match snd c with Delete => true | _ => false end)
                     (SyncModel.effective (SyncModel.merge (changes (the_vfs s)))) in
  bind (SyncModel.process_changes (files s)) (fun r =>
    Ok (with_diags (with_files s (fst r))
          (fold_left (fun d c => DiagModel.clear_native_for d (fst c)) gone (diags s)), snd r)).

(** main_loop.rs:423-449: the file of every open document is looked up *)
Definition update_diagnostics (s : state) : res state :=
  bind (SyncModel.mapM (fun x => bind (file_id_of (the_vfs s) (fst x)) (fun i =>
          match i with Some i => Ok i | None => Panic end)) (docs s)) (fun _ => Ok s).

(** main_loop.rs:702-748: a URI is made for every file with new diagnostics *)
Definition publish (s : state) : res state :=
  match DiagModel.take_changes (diags s) with
  | (c, None) => Ok (with_diags s c)
  | (c, Some ids) => bind (SyncModel.mapM (file_path (the_vfs s)) ids) (fun _ => Ok (with_diags s c))
  end.

(** main_loop.rs:750-752 *)
Definition maybe_prime (s : state) : state :=
  match OpQueueModel.should_start_op unit (queue s) with
  | (q, Some _) => with_queue s q (S (jobs s))
  | (q, None) => with_queue s q (jobs s)
  end.

(** main_loop.rs:276-302, reload.rs:23-36 *)
Definition update_status_or_notify (s : state) : state := with_reported s (Some (config_errors s, is_quiescent s)).

(** main_loop.rs:665-700 *)
Definition when_quiescent (was_quiescent state_changed docs_changed : bool) (s : state) : res state :=
  if is_quiescent s then
    let s := if negb was_quiescent && (prefills E) (cfg s)
             then with_queue s (OpQueueModel.request_op unit (queue s) "became quiescent" tt) (jobs s) else s in
    let s := if (negb was_quiescent || state_changed) && (refreshes E) (cfg s)
             then send_request s "workspace/semanticTokens/refresh" Nothing else s in
    if negb was_quiescent || state_changed || docs_changed then update_diagnostics s else Ok s
  else Ok s.

(** main_loop.rs:583-757 *)
Definition handle_event (s : state) (t : turn) : res state :=
  let was_quiescent := is_quiescent s in
  bind (handle_turn s t) (fun s =>
  bind (process_changes s) (fun r =>
  let (s, state_changed) := r : state * bool in
  let docs_changed := added_or_removed s in
  let s := with_docs s (docs s) false in
  bind (when_quiescent was_quiescent state_changed docs_changed s) (fun s =>
  bind (publish s) (fun s =>
  Ok (update_status_or_notify (maybe_prime s)))))).

(** ** The loop *)

(** main_loop.rs:64-70, 79-85 *)
Definition is_exit (t : turn) : bool :=
  match t with Lsp (Notification m _) => String.eqb m "exit" | _ => false end.

Inductive outcome := Running (s : state) | Returned | Crashed.
(** main_loop.rs:78-88: [None] is a connection closed by the editor *)
Fixpoint serve (s : state) (h : list (option turn)) : outcome :=
  match h with
  | [] => Running s
  | None :: _ => Returned
  | Some t :: tl =>
      if is_exit t then Returned
      else match handle_event s t with Ok s => serve s tl | Panic => Crashed end
  end.

(** global_state.rs:88-144 and main_loop.rs:203: the state after initialisation with settings [c] *)
Definition start (c : config) : state :=
  State (SyncModel.init ((cfg_roots E) c)) [] false c false (Scan 1 0 0 0) None (RequestsModel.start json)
        (Client [] 0 []) DiagModel.default (OpQueueModel.default unit) 0.

(** main_loop.rs:54-89: the messages ignored while the settings were fetched come first *)
Definition run (c : config) (ignored : list lsp_message) (h : list (option turn)) : outcome :=
  match serve (start c) (map (fun m => Some (Lsp m)) ignored) with
  | Running s =>
      match reload_flycheck s with
      | Ok s => serve (update_status_or_notify s) h
      | Panic => Crashed
      end
  | o => o
  end.
End Loop.
Arguments state E : clear implicits.
Arguments lsp_message E : clear implicits.
Arguments response E : clear implicits.
Arguments turn E : clear implicits.
Arguments task E : clear implicits.
Arguments outcome E : clear implicits.
