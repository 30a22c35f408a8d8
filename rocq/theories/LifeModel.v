(** Model of finding included files while the settings change: GlobalState::update_configuration
    (crates/sourcepawn_lsp/src/reload.rs:38-66) between the runs of process_changes (SyncModel), and
    FileLoaderDelegate (crates/base-db/src/lib.rs:149-170) with the lookups in the file set of a source
    root (crates/vfs/src/file_set.rs:33-56).
    Simplifications:
    - changed settings only set the directories here; the files that the loader then reports are
      updates of the history, and it reports none as removed because a directory is no longer
      configured (crates/vfs-notify/src/lib.rs:97-141);
    - the written path is relative and cut into its components, ".inc" appended already; IncludeModel
      has the texts, and absolute paths. *)
From Coq Require Import List NArith Bool String Arith.
From Verif Require Import VfsModel SyncModel.
Import ListNotations.
Local Open Scope string_scope.
Local Open Scope list_scope.

(** reload.rs:40-50 and 51: [fsc.set_roots], nothing else of the state that is modelled *)
Definition update_configuration (dirs : list path) (s : state) : state := State (st_vfs s) (st_db s) dirs.

Inductive happening := Files (e : event) | Configure (dirs : list path).
Definition happen (s : state) (e : happening) : res state :=
  match e with
  | Files e => on_event s e
  | Configure dirs => Ok (update_configuration dirs s)
  end.
Fixpoint live (s : state) (h : list happening) : res state :=
  match h with
  | [] => Ok s
  | e :: tl => bind (happen s e) (fun s => live s tl)
  end.

(** vfs_path.rs:42-54: join and normalise by components *)
Definition step (p : path) (c : string) : path :=
  if string_dec c "." then p else if string_dec c "" then p
  else if string_dec c ".." then removelast p else p ++ [c].
Definition join (base : path) (q : list string) : path := fold_left step q base.

(** file_set.rs: [self.files.get] and [self.uris.get] *)
Definition file_at (fs : list (file_id * path)) (t : path) : option file_id :=
  option_map fst (find (fun f => if path_eq_dec (snd f) t then true else false) fs).
Definition uri (fs : list (file_id * path)) (i : file_id) : option path :=
  option_map snd (find (fun f => Nat.eqb (fst f) i) fs).

(** base-db/src/lib.rs:156-161 and file_set.rs:47-50: [self.uris[&path.anchor]] panics for an anchor
    that is not in the set of its source root. *)
Definition look_next_to (d : db) (anchor : file_id) (q : list string) : res (option file_id) :=
  match file_source_root d anchor with
  | None => Panic
  | Some k =>
      match source_root d k with
      | None => Panic
      | Some R =>
          match uri (file_set R) anchor with
          | None => Panic
          | Some p => Ok (file_at (file_set R) (join (removelast p) q))
          end
      end
  end.

(** base-db/src/lib.rs:162-169 and file_set.rs:53-56 *)
Fixpoint look_in (rs : list root) (q : list string) : option file_id :=
  match rs with
  | [] => None
  | R :: tl =>
      match file_at (file_set R) (join (root_path R) q) with
      | Some j => Some j
      | None => look_in tl q
      end
  end.

(** base-db/src/include.rs:117-171: next to the file for quotes, then in the roots *)
Definition find_include (d : db) (anchor : file_id) (quoted : bool) (q : list string) : res (option file_id) :=
  bind (if quoted then look_next_to d anchor q else Ok None) (fun o =>
  Ok (match o with Some j => Some j | None => look_in (source_roots d) q end)).
