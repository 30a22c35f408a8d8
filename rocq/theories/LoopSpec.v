(** What should make the server stop: a world that only knows the files, the open documents, the settings
    and what was answered, and the turns that no server written like this one survives. *)
From Coq Require Import List NArith ZArith Bool String Arith.
From Verif Require Import VfsModel TextModel Utf8 LoopModel SyncSpec.
From Verif Require TextSpec.
From Verif Require RequestsModel.
Import ListNotations.
Local Open Scope string_scope.
Local Open Scope nat_scope.
Local Open Scope list_scope.

Section Spec.
Context {E : env}.

(** [known p]: the analysis has been told which source root [p] belongs to. *)
Record world := World {
  disk : path -> option contents;
  opened : path -> bool;
  known : path -> Prop;
  settings : config E;
  answered : list Z }.
Definition empty_world (c : config E) : world := World (fun _ => None) (fun _ => false) (fun _ => False) c [].

(** ** The files written by a turn *)

Definition update : Type := (path * option contents)%type.
Definition write (f : path -> option contents) (u : update) : path -> option contents :=
  fun q => if path_eq_dec (fst u) q then snd u else f q.
Definition written (f : path -> option contents) (us : list update) : path -> option contents := fold_left write us f.

(** The document [p] after the changes [cs], if they can be made. *)
Definition edited (w : world) (p : path) (cs : list change) : option (list char) :=
  match disk w p with
  | Some bs => match decode bs with Some t => apply_document_changes (enc E) t cs | None => None end
  | None => None
  end.

Definition loads (w : world) (l : list loader_message) : list update :=
  flat_map (fun m => match m with Loaded fs => filter (fun x => negb (opened w (fst x))) fs | Progress _ _ _ => [] end) l.

Inductive writes (w : world) : turn E -> list update -> Prop :=
| w_open j u v t p : open_params E j = Some (u, v, t) -> vfs_path E u = Some p ->
    writes w (Lsp (Notification "textDocument/didOpen" j)) [(p, Some (encode t))]
| w_change j u v cs p t : change_params E j = Some (u, v, cs) -> vfs_path E u = Some p -> opened w p = true ->
    edited w p cs = Some t ->
    writes w (Lsp (Notification "textDocument/didChange" j)) [(p, Some (encode t))]
| w_load l : writes w (Vfs l) (loads w l).

(** ** Where files belong *)

(** How often [q] appears or disappears. *)
Fixpoint flips (q : path) (f : path -> option contents) (us : list update) : nat :=
  match us with
  | [] => 0
  | u :: tl =>
      (match f q, write f u q with Some _, None | None, Some _ => 1 | _, _ => 0 end) + flips q (write f u) tl
  end.
(** The source roots are only recomputed for a file that appears or disappears, once, in the turn. *)
Definition recomputed (f : path -> option contents) (us : list update) : Prop := exists q, flips q f us = 1.
Definition covered (c : config E) (p : path) : Prop := exists r, In r (cfg_roots E c) /\ under p r.

(** A file appears and no source root is found for it. *)
Definition homeless (w : world) (us : list update) : Prop :=
  exists p, disk w p = None /\ written (disk w) us p <> None /\ ~ known w p /\
            ~ (recomputed (disk w) us /\ covered (settings w) p).

(** ** Messages that cannot be understood *)

Definition malformed (m : string) (j : json E) : Prop :=
  (m = "textDocument/didOpen" /\ open_params E j = None) \/
  (m = "textDocument/didChange" /\ change_params E j = None) \/
  (m = "textDocument/didClose" /\ close_params E j = None) \/
  (m = "textDocument/didSave" /\ save_params E j = None) \/
  (m = "workspace/didChangeConfiguration" /\ config_params E j = None) \/
  (m = "workspace/didChangeWatchedFiles" /\ watched_params E j = None) \/
  (m = "window/workDoneProgress/cancel" /\ cancel_params E j = None).

(** Requests of the server that wait for an answer; [out] are those it has sent, with their methods. *)
Definition awaited (out : list (Z * string)) (w : world) (i : RequestsModel.req_id) : Prop :=
  exists n m, i = RequestsModel.IdNum n /\ In (n, m) out /\ ~ In n (answered w).

Inductive fatal (out : list (Z * string)) (w : world) : turn E -> Prop :=
| f_malformed m j : malformed m j -> fatal out w (Lsp (Notification m j))
| f_reply r : ~ awaited out w (r_id r) -> fatal out w (Lsp (Reply r))
| f_change j u v cs p : change_params E j = Some (u, v, cs) -> vfs_path E u = Some p -> opened w p = true ->
    edited w p cs = None -> fatal out w (Lsp (Notification "textDocument/didChange" j))
| f_homeless t us : writes w t us -> homeless w us -> fatal out w t.

(** ** What a turn does to the world *)

(** The settings in an answer to a request for them *)
Definition new_settings (out : list (Z * string)) (w : world) (r : response E) : config E :=
  match r_id r, r_error r, r_result r with
  | RequestsModel.IdNum n, false, Some v =>
      if existsb (fun x => Z.eqb (fst x) n && String.eqb (snd x) "workspace/configuration") out then
        match first_setting E v with Some j => fst (update_config E (settings w) j) | None => settings w end
      else settings w
  | _, _, _ => settings w
  end.
Definition set_open (o : path -> bool) (p : path) (b : bool) : path -> bool := fun q => if path_eq_dec p q then b else o q.

Definition file_world (w : world) (us : list update) : world :=
  World (written (disk w) us) (opened w)
        (fun p => known w p \/ (recomputed (disk w) us /\ written (disk w) us p <> None /\ covered (settings w) p))
        (settings w) (answered w).

Inductive next (out : list (Z * string)) (w : world) : turn E -> world -> Prop :=
| n_open j u v t p us : open_params E j = Some (u, v, t) -> vfs_path E u = Some p ->
    writes w (Lsp (Notification "textDocument/didOpen" j)) us ->
    next out w (Lsp (Notification "textDocument/didOpen" j))
      (let w' := file_world w us in World (disk w') (set_open (opened w) p true) (known w') (settings w) (answered w))
| n_change j us : writes w (Lsp (Notification "textDocument/didChange" j)) us ->
    next out w (Lsp (Notification "textDocument/didChange" j)) (file_world w us)
| n_load l : next out w (Vfs l) (file_world w (loads w l))
| n_close j u p : close_params E j = Some u -> vfs_path E u = Some p ->
    next out w (Lsp (Notification "textDocument/didClose" j))
      (World (disk w) (set_open (opened w) p false) (known w) (settings w) (answered w))
| n_reply r n : r_id r = RequestsModel.IdNum n ->
    next out w (Lsp (Reply r)) (World (disk w) (opened w) (known w) (new_settings out w r) (n :: answered w))
| n_other t : (forall us, ~ writes w t us) -> (forall r, t <> Lsp (Reply r)) ->
    (forall j u p, t = Lsp (Notification "textDocument/didClose" j) -> close_params E j = Some u -> vfs_path E u = Some p -> False) ->
    next out w t w.

(** ** Histories *)

(** What happens, each time with the requests the server has sent until then; [None] is the end of the
    connection. *)
Definition history : Type := list (list (Z * string) * option (turn E)).
Definition exits (t : turn E) : Prop := exists j, t = Lsp (Notification "exit" j).

Inductive ending := Lives | Leaves | Dies.
Inductive fate : world -> history -> ending -> Prop :=
| h_end w : fate w [] Lives
| h_closed w out h : fate w ((out, None) :: h) Leaves
| h_exit w out t h : exits t -> fate w ((out, Some t) :: h) Leaves
| h_fatal w out t h : ~ exits t -> fatal out w t -> fate w ((out, Some t) :: h) Dies
| h_next w out t w' h e : ~ exits t -> ~ fatal out w t -> next out w t w' -> fate w' h e ->
    fate w ((out, Some t) :: h) e.

(** ** An editor, and a disk, that keep the server alive *)

(** Once a change of [cs] replaces the whole text, none before it is about a part of it. *)
Definition tidy (cs : list change) : Prop :=
  forall cs1 f cs2, cs = cs1 ++ f :: cs2 -> c_range f = None -> Forall (fun c => c_range c = None) cs1.

Definition calm (out : list (Z * string)) (w : world) (t : turn E) : Prop :=
  match t with
  | Lsp (Request _) | Tasks _ | Flycheck _ => True
  | Lsp (Reply r) => awaited out w (r_id r)
  | Lsp (Notification m j) =>
      ~ malformed m j /\
      (forall u v x p, m = "textDocument/didOpen" -> open_params E j = Some (u, v, x) -> vfs_path E u = Some p ->
         Forall scalar x /\ covered (settings w) p) /\
      (forall u v cs p x, m = "textDocument/didChange" -> change_params E j = Some (u, v, cs) ->
         vfs_path E u = Some p -> opened w p = true -> disk w p = Some (encode x) -> Forall scalar x ->
         Forall (fun c => Forall scalar (c_text c)) cs /\ tidy cs /\ exists x', TextSpec.client (enc E) x cs x')
  | Vfs l => NoDup (map fst (loads w l)) /\ forall p c, In (p, Some c) (loads w l) -> covered (settings w) p
  end.
Fixpoint polite (w : world) (h : history) : Prop :=
  match h with
  | (out, Some t) :: tl => exits t \/ (calm out w t /\ forall w', next out w t w' -> polite w' tl)
  | _ => True
  end.

(** ** The other threads of the server *)

(** They do what the main loop relies on: they do not count beyond the total, an indexing job ends once,
    and diagnostics are about files of the server. *)
Definition ends (l : list (task E)) : nat :=
  List.length (filter (fun t => match t with PrimeCaches (End _) => true | _ => false end) l).
Definition tame (s : state E) (t : turn E) : Prop :=
  match t with
  | Lsp _ | Flycheck _ => True
  | Vfs l => forall total done v, In (Progress total done v) l -> done <= total
  | Tasks l =>
      ends l <= jobs s /\
      (forall d n, In (PrimeCaches (Report d n)) l -> d <= n) /\
      (forall ds i x, In (Diagnostics ds) l -> In (i, x) ds -> i < List.length (interner (the_vfs s)))
  end.
Fixpoint all_tame (s : state E) (h : list (option (turn E))) : Prop :=
  match h with
  | Some t :: tl => tame s t /\ forall s', handle_event s t = Ok s' -> all_tame s' tl
  | _ => True
  end.

(** ** The server watched *)

Fixpoint watched (s : state E) (h : list (option (turn E))) : history :=
  match h with
  | [] => []
  | x :: tl =>
      (sent (client_ s), x) ::
      match x with
      | Some t => match handle_event s t with Ok s' => watched s' tl | Panic => [] end
      | None => []
      end
  end.
Definition lsp_turns (l : list (lsp_message E)) : list (option (turn E)) := map (fun m => Some (Lsp m)) l.
(** The state once the settings have been fetched, if the server gets there *)
Definition initialised (c : config E) (ignored : list (lsp_message E)) : option (state E) :=
  match serve (start c) (lsp_turns ignored) with
  | Running s => match reload_flycheck s with Ok s => Some (update_status_or_notify s) | Panic => None end
  | _ => None
  end.
Definition watched_run (c : config E) (ignored : list (lsp_message E)) (h : list (option (turn E))) : history :=
  watched (start c) (lsp_turns ignored) ++
  match initialised c ignored with Some s => watched s h | None => [] end.
Definition threads_ok (c : config E) (ignored : list (lsp_message E)) (h : list (option (turn E))) : Prop :=
  match initialised c ignored with Some s => all_tame s h | None => True end.
Definition ending_of (o : outcome E) : ending :=
  match o with Running _ => Lives | Returned => Leaves | Crashed => Dies end.
End Spec.
Arguments world E : clear implicits.
