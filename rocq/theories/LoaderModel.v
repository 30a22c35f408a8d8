(** Model of the loader of files: crates/vfs/src/loader.rs (Entry, Directories, dirs), crates/vfs-notify/src/lib.rs:96-264
    (NotifyActor), with the two places that drive it: crates/sourcepawn_lsp/src/reload.rs:50-66 (the configuration sent)
    and main_loop.rs:453-461 (what is done with the files it sends), handlers/notification.rs:136-146 (the editor's watcher).
    - A path is the list of its components below the root: the paths compared here are absolute, and Path's
      equality and starts_with work by components.
    - The disk is the tree of directories and files one sees when links are followed, as WalkDir does here. A directory
      or a file that cannot be read is left out (read gives None, WalkDir an error that is dropped).
    - One turn of the loader is one step: the disk does not change while a configuration is loaded.
    - A file that is open in the editor is not written (main_loop.rs:457): C09 treats that, no file is open here.
    - The progress messages are in StatusModel (C42). *)
From Coq Require Import List Bool Arith String Ascii.
Import ListNotations.
Local Open Scope string_scope.
Local Open Scope list_scope.

Definition path := list string.
Definition bytes := string.

Definition path_eqb (a b : path) : bool := if list_eq_dec string_dec a b then true else false.

(** std Path::starts_with on absolute paths: [base] is a prefix of [p] by components *)
Fixpoint starts_with (p base : path) {struct base} : bool :=
  match base, p with
  | [], _ => true
  | b :: base', c :: p' => String.eqb b c && starts_with p' base'
  | _ :: _, [] => false
  end.

(** std Path::extension: what follows the last dot of the file name, if something precedes that dot *)
Fixpoint after_last_dot (s : string) : option (string * string) :=
  match s with
  | EmptyString => None
  | String c s' =>
      match after_last_dot s' with
      | Some (before, after) => Some (String c before, after)
      | None => if Ascii.eqb c "."%char then Some (EmptyString, s') else None
      end
  end.
Definition name_extension (name : string) : option string :=
  if String.eqb name ".." then None
  else match after_last_dot name with
       | Some (EmptyString, _) | None => None
       | Some (_, after) => Some after
       end.
Definition file_name (p : path) : option string :=
  match rev p with [] => None | n :: _ => Some n end.
Definition extension (p : path) : option string :=
  match file_name p with Some n => name_extension n | None => None end.
Definition unwrap_or_default (o : option string) : string := match o with Some s => s | None => "" end.

(** The disk *)
Inductive node := File (contents : bytes) | Dir (kids : list (string * node)).

Fixpoint kid (name : string) (kids : list (string * node)) : option node :=
  match kids with
  | [] => None
  | (n, k) :: kids' => if String.eqb n name then Some k else kid name kids'
  end.
Fixpoint lookup (n : node) (p : path) : option node :=
  match p with
  | [] => Some n
  | c :: p' => match n with
               | File _ => None
               | Dir kids => match kid c kids with Some k => lookup k p' | None => None end
               end
  end.

(** vfs-notify lib.rs:257-259: reading a directory fails *)
Definition read (disk : node) (p : path) : option bytes :=
  match lookup disk p with Some (File b) => Some b | _ => None end.

(** loader.rs:25-30, 8-13 *)
Record directories := Directories { extensions : list string; include : list path; exclude : list path }.
Inductive entry := Files (files : list path) | Dirs (d : directories).

(** loader.rs:145-165 *)
Definition includes_path (d : directories) (p : path) : bool :=
  match fold_left (fun acc incl =>
          if starts_with p incl
          then Some (match acc with
                     | Some prev => if starts_with prev incl then prev else incl
                     | None => incl
                     end)
          else acc) (include d) None with
  | None => false
  | Some incl => negb (existsb (fun excl => starts_with p excl && starts_with excl incl) (exclude d))
  end.
(** loader.rs:123, lib.rs:231, negated *)
Definition has_extension (d : directories) (p : path) : bool :=
  existsb (fun it => String.eqb it (unwrap_or_default (extension p))) (extensions d).
(** loader.rs:120-129, 135-137 *)
Definition dirs_contain_file (d : directories) (p : path) : bool :=
  if has_extension d p then includes_path d p else false.
Definition contains_file (e : entry) (p : path) : bool :=
  match e with
  | Files files => existsb (fun it => path_eqb it p) files
  | Dirs d => dirs_contain_file d p
  end.
(** loader.rs:110-115 *)
Definition contains_dir (e : entry) (p : path) : bool :=
  match e with Files _ => false | Dirs d => includes_path d p end.

(** loader.rs:92-94, 176-183 *)
Definition sp_files_recursively (base : path) : entry :=
  Dirs (Directories ["sp"; "inc"] [base] [base ++ [".git"]]).

(** walkdir below [root]: every entry with its path, directories first; [keep] is the filter_entry predicate
    (lib.rs:207-218), asked for each entry; nothing below a refused directory is visited *)
Definition is_dir (n : node) : bool := match n with Dir _ => true | File _ => false end.
Fixpoint walk (keep : path -> bool -> bool) (at_ : path) (n : node) : list (path * bool) :=
  if keep at_ (is_dir n) then
    (at_, is_dir n) ::
    match n with
    | File _ => []
    | Dir kids => flat_map (fun k => walk keep (at_ ++ [fst k]) (snd k)) kids
    end
  else [].

(** lib.rs:207-218 *)
Definition keep_entry (d : directories) (root : path) (p : path) (dir : bool) : bool :=
  if negb dir then true
  else path_eqb root p || forallb (fun it => negb (path_eqb it p)) (exclude d ++ include d).

(** WalkDir::new(root): a root that does not exist is an error, dropped by it.ok() *)
Definition walk_root (disk : node) (d : directories) (root : path) : list (path * bool) :=
  match lookup disk root with
  | Some n => walk (keep_entry d root) root n
  | None => []
  end.

(** lib.rs:184-245: the files with their contents, and the paths given to the watcher *)
Definition load_entry (disk : node) (e : entry) (watch : bool) : list (path * option bytes) * list path :=
  match e with
  | Files files => (map (fun f => (f, read disk f)) files, if watch then files else [])
  | Dirs d =>
      let entries := flat_map (walk_root disk d) (include d) in
      (map (fun x => (fst x, read disk (fst x))) (filter (fun x => negb (snd x) && has_extension d (fst x)) entries),
       if watch then map fst (filter snd entries) else [])
  end.

(** The actor (lib.rs:66-71): [watching] are the paths given to the watcher, if there is one *)
Record actor := Actor { watched_entries : list entry; watching : option (list path) }.
Definition new_actor : actor := Actor [] None.

(** lib.rs:247-251 *)
Definition watch_path (a : actor) (ps : list path) : actor :=
  Actor (watched_entries a) (option_map (fun w => w ++ ps) (watching a)).

Inductive loader_message := Loaded (files : list (path * option bytes)).

(** lib.rs:125-137 *)
Definition load_entries (disk : node) (load : list entry) (watch : list nat) (a : actor) : actor * list loader_message :=
  fold_left (fun (acc : actor * list loader_message) ie =>
      let '(a, out) := acc in
      let w := existsb (Nat.eqb (fst ie)) watch in
      let a := if w then Actor (watched_entries a ++ [snd ie]) (watching a) else a in
      let '(files, paths) := load_entry disk (snd ie) w in
      (watch_path a paths, out ++ [Loaded files]))
    (combine (seq 0 (List.length load)) load) (a, []).
(** lib.rs:101-138; the watcher can be created *)
Definition on_config (disk : node) (load : list entry) (watch : list nat) (a : actor) : actor * list loader_message :=
  let watcher := match watch with [] => None | _ => Some [] end in
  load_entries disk load watch (Actor [] watcher).
(** lib.rs:139-143 *)
Definition on_invalidate (disk : node) (p : path) (a : actor) : actor * list loader_message :=
  (a, [Loaded [(p, read disk p)]]).
(** lib.rs:145-180; [disk] is the disk when the event is handled *)
Definition on_event (disk : node) (paths : list path) (a : actor) : actor * list loader_message :=
  let '(a, files) :=
    fold_left (fun (acc : actor * list (path * option bytes)) p =>
        let '(a, files) := acc in
        match lookup disk p with
        | None => (a, files)
        | Some n =>
            if is_dir n && existsb (fun e => contains_dir e p) (watched_entries a) then (watch_path a [p], files)
            else if is_dir n then (a, files)
            else if negb (existsb (fun e => contains_file e p) (watched_entries a)) then (a, files)
            else (a, files ++ [(p, read disk p)])
        end) paths (a, []) in
  (a, [Loaded files]).

(** The files the server knows, main_loop.rs:453-461 with Vfs::set_file_contents *)
Definition known := path -> option bytes.
Definition set_file_contents (v : known) (p : path) (c : option bytes) : known :=
  fun q => if path_eqb p q then c else v q.
Definition handle_loaded (v : known) (m : loader_message) : known :=
  match m with Loaded files => fold_left (fun v pc => set_file_contents v (fst pc) (snd pc)) files v end.

(** The server and the loader together. A step of the disk changes nothing by itself. *)
Record world := World { disk : node; act : actor; files : known }.
Inductive step :=
  | DiskBecomes (n : node)
  | Configure (include_directories : list path) (root : path)       (* reload.rs:50-66 *)
  | EditorSays (p : path)                                           (* notification.rs:136-146 *)
  | WatcherSays (paths : list path).

Definition deliver (w : world) (r : actor * list loader_message) : world :=
  World (disk w) (fst r) (fold_left handle_loaded (snd r) (files w)).
Definition do_step (w : world) (s : step) : world :=
  match s with
  | DiskBecomes n => World n (act w) (files w)
  | Configure incs root =>
      let load := map sp_files_recursively incs in
      deliver w (on_config (disk w) (load ++ [sp_files_recursively root]) (seq 0 (List.length load)) (act w))
  | EditorSays p => deliver w (on_invalidate (disk w) p (act w))
  | WatcherSays ps => deliver w (on_event (disk w) ps (act w))
  end.
Definition run (w : world) (ss : list step) : world := fold_left do_step ss w.
Definition start (n : node) : world := World n new_actor (fun _ => None).
