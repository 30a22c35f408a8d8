(** Model of open documents: crates/sourcepawn_lsp/src/mem_docs.rs, the document notifications of
    handlers/notification.rs:20-122 and main_loop.rs:451-461 (files loaded by the vfs loader).
    Simplifications:
    - a document URI is its path (URIs that are not files are ignored by the code);
    - the file loader is external: any list of (path, contents) may be reported at any time, whether
      because of the initial scan, of a watcher event or of [invalidate];
    - the semantic token cache and diagnostics touched by didClose are modelled elsewhere. *)
From Coq Require Import List NArith ZArith Bool String.
From Verif Require Import VfsModel TextModel Utf8.
Import ListNotations.

(** mem_docs.rs:13-16, 60-70: FxHashMap<VfsPath, DocumentData>, the data is the version *)
Definition mem_docs := list (path * Z).

Fixpoint doc_get (m : mem_docs) (p : path) : option Z :=
  match m with
  | [] => None
  | (q, v) :: tl => if path_eq_dec q p then Some v else doc_get tl p
  end.
Definition doc_contains (m : mem_docs) (p : path) : bool := match doc_get m p with Some _ => true | None => false end.
Fixpoint doc_insert (m : mem_docs) (p : path) (v : Z) : mem_docs :=
  match m with
  | [] => [(p, v)]
  | (q, w) :: tl => if path_eq_dec q p then (q, v) :: tl else (q, w) :: doc_insert tl p v
  end.
Fixpoint doc_remove (m : mem_docs) (p : path) : mem_docs :=
  match m with
  | [] => []
  | (q, w) :: tl => if path_eq_dec q p then doc_remove tl p else (q, w) :: doc_remove tl p
  end.

Record server := Server { sv_vfs : vfs; sv_docs : mem_docs; sv_enc : encoding }.
Definition start (enc : encoding) : server := Server empty [] enc.

(** What reaches the main loop *)
Inductive message :=
| DidOpen (p : path) (version : Z) (text : list char)
| DidChange (p : path) (version : Z) (cs : list change)
| DidClose (p : path)
| Loaded (files : list (path * option contents)).

(** main_loop.rs:454-460 *)
Fixpoint load (m : mem_docs) (v : vfs) (files : list (path * option contents)) : res vfs :=
  match files with
  | [] => Ok v
  | (p, c) :: tl =>
      if doc_contains m p then load m v tl
      else bind (set_file_contents v p c) (fun r => load m (fst r) tl)
  end.

Definition handle (s : server) (msg : message) : res server :=
  match msg with
  | DidOpen p v t =>
      (* notification.rs:60-90; a duplicate open is only logged *)
      let m := doc_insert (sv_docs s) p v in
      bind (set_file_contents (sv_vfs s) p (Some (encode t))) (fun r => Ok (Server (fst r) m (sv_enc s)))
  | DidChange p v cs =>
      (* notification.rs:20-58 *)
      if doc_contains (sv_docs s) p then
        let m := doc_insert (sv_docs s) p v in
        bind (file_id_of (sv_vfs s) p) (fun i =>
        match i with
        | None => Panic
        | Some i =>
            bind (file_contents (sv_vfs s) i) (fun bs =>
            match decode bs with
            | None => Panic
            | Some t =>
                match apply_document_changes (sv_enc s) t cs with
                | None => Panic
                | Some t' => bind (set_file_contents (sv_vfs s) p (Some (encode t')))
                               (fun r => Ok (Server (fst r) m (sv_enc s)))
                end
            end)
        end)
      else Ok s
  | DidClose p =>
      (* notification.rs:92-122 *)
      Ok (Server (sv_vfs s) (doc_remove (sv_docs s) p) (sv_enc s))
  | Loaded files =>
      bind (load (sv_docs s) (sv_vfs s) files) (fun v => Ok (Server v (sv_docs s) (sv_enc s)))
  end.

Fixpoint serve (s : server) (h : list message) : res server :=
  match h with
  | [] => Ok s
  | m :: tl => bind (handle s m) (fun s => serve s tl)
  end.
