(** Model of how pending file changes reach the analysis: GlobalState::process_changes
    (crates/sourcepawn_lsp/src/global_state.rs:234-362), FileSetConfig::partition
    (crates/vfs/src/file_set.rs:96-122), SourceRootConfig::partition (crates/base-db/src/input.rs:67-83)
    and Change::apply (crates/base-db/src/change.rs:48-70).
    Simplifications:
    - hash maps are association lists in insertion order; the result does not depend on their
      iteration order since their keys are distinct;
    - a salsa input is a partial function; reading one that was never set is [Panic], as in salsa;
      durabilities and the clearing of native diagnostics are left out;
    - all paths are real (not virtual) paths, as those made from document URIs are. *)
From Coq Require Import List NArith Bool String Ascii Arith.
From Verif Require Import VfsModel LineEndModel Utf8.
Import ListNotations.
Local Open Scope string_scope.

(** base-db: FileExtension and its TryFrom<&str> *)
Inductive extension := Sp | Inc.
Definition extension_of_string (s : string) : option extension :=
  if string_dec s "sp" then Some Sp else if string_dec s "inc" then Some Inc else None.

(** std::path: the part of a file name after its last dot; none when the dot comes first *)
Fixpoint rsplit_dot (s : string) : option (string * string) :=
  match s with
  | EmptyString => None
  | String c tl =>
      match rsplit_dot tl with
      | Some (a, b) => Some (String c a, b)
      | None => if Ascii.eqb c "." then Some (EmptyString, tl) else None
      end
  end.
Definition file_extension (name : string) : option string :=
  match rsplit_dot name with
  | Some (EmptyString, _) => None
  | Some (_, e) => Some e
  | None => None
  end.

(** global_state.rs:353-356: a file with a SourcePawn extension *)
Definition path_extension (p : path) : option extension :=
  match rev p with
  | [] => None
  | name :: _ => match file_extension name with Some e => extension_of_string e | None => None end
  end.

(** vfs_path.rs:79-85, Path::starts_with: prefix by components *)
Fixpoint starts_with (p root : path) : bool :=
  match root, p with
  | [], _ => true
  | c :: root, d :: p => if string_dec c d then starts_with p root else false
  | _ :: _, [] => false
  end.

(** base-db input.rs:15-23 SourceRoot, with the FileSet as a list of (id, path) *)
Record root := Root { is_include_dir : bool; file_set : list (file_id * path); root_path : path }.

(** Vec::dedup: drops an element equal to the one before it *)
Fixpoint dedup (l : list path) : list path :=
  match l with
  | p :: (q :: _) as tl => if path_eq_dec p q then dedup tl else p :: dedup tl
  | _ => l
  end.

(** file_set.rs:96-122. The two nested loops insert a file in the set of every root it is under. *)
Definition partition_files (v : vfs) (roots : list path) : list (list (file_id * path) * path) :=
  map (fun r => (filter (fun f => starts_with (snd f) r) (iter v), r)) (dedup roots).

(** input.rs:67-83: all roots but the first are include directories *)
Definition partition (v : vfs) (roots : list path) : list root :=
  match partition_files v roots with
  | [] => []
  | (fs, r) :: tl => Root false fs r :: map (fun x => Root true (fst x) (snd x)) tl
  end.

(** The salsa inputs of base-db/src/lib.rs:125-145 *)
Record db := Db {
  file_text : file_id -> option (list N);
  file_source_root : file_id -> option nat;
  source_root : nat -> option root;
  source_roots : list root;
  known_files : list (file_id * extension) }.
Definition empty_db : db := Db (fun _ => None) (fun _ => None) (fun _ => None) [] [].

Definition fset {A} (f : nat -> option A) (i : nat) (x : A) : nat -> option A :=
  fun j => if Nat.eqb i j then Some x else f j.

(** change.rs:49-61 *)
Fixpoint set_roots_from (idx : nat) (rs : list root) (d : db) : db :=
  match rs with
  | [] => d
  | r :: tl =>
      let fr := fold_left (fun f x => fset f (fst x) idx) (file_set r) (file_source_root d) in
      set_roots_from (S idx) tl
        (Db (file_text d) fr (fset (source_root d) idx r) (source_roots d) (known_files d))
  end.
Definition set_roots (rs : list root) (d : db) : db :=
  let d := set_roots_from 0 rs d in
  Db (file_text d) (file_source_root d) (source_root d) rs (known_files d).

(** change.rs:63-69 *)
Fixpoint set_texts (fs : list (file_id * option (list N))) (d : db) : res db :=
  match fs with
  | [] => Ok d
  | (i, t) :: tl =>
      match file_source_root d i with
      | None => Panic
      | Some r =>
          match source_root d r with
          | None => Panic
          | Some _ =>
              let t := match t with Some t => t | None => [] end in
              set_texts tl (Db (fset (file_text d) i t) (file_source_root d) (source_root d)
                               (source_roots d) (known_files d))
          end
      end
  end.

(** change.rs:48-70 *)
Definition apply_change (roots : option (list root)) (fs : list (file_id * option (list N))) (d : db) : res db :=
  set_texts fs (match roots with Some rs => set_roots rs d | None => d end).

(** global_state.rs:255-288: merging the changes of one file; the flag is [just_created] *)
Definition merge_kind (e : kind * bool) (new : kind) : kind * bool :=
  match fst e, new with
  | _, Delete => (Delete, snd e)
  | Create, (Create | Modify) => e
  | Modify, Modify => e
  | Delete, Create => (Modify, true)
  | Delete, Modify => (Create, true)
  | Modify, Create => e
  end.
Definition first_kind (k : kind) : kind * bool := (k, match k with Create => true | _ => false end).

Fixpoint merge_one (m : list (file_id * (kind * bool))) (c : changed_file) : list (file_id * (kind * bool)) :=
  match m with
  | [] => [(fst c, first_kind (snd c))]
  | (i, e) :: tl => if Nat.eqb i (fst c) then (i, merge_kind e (snd c)) :: tl else (i, e) :: merge_one tl c
  end.
Definition merge (cs : list changed_file) : list (file_id * (kind * bool)) := fold_left merge_one cs [].

(** global_state.rs:290-299 *)
Definition effective (m : list (file_id * (kind * bool))) : list changed_file :=
  map (fun x => (fst x, fst (snd x)))
    (filter (fun x => match snd x with (Delete, true) => false | _ => true end) m).

(** lib.rs:64-66 *)
Definition is_created_or_deleted (c : changed_file) : bool :=
  match snd c with Create | Delete => true | Modify => false end.

(** global_state.rs:322-334: the text of a changed file *)
Definition changed_text (v : vfs) (c : changed_file) : res (file_id * option (list N)) :=
  match snd c with
  | Delete => Ok (fst c, None)
  | _ => bind (file_contents v (fst c)) (fun bs =>
           Ok (fst c, match decode bs with
                      | Some _ => option_map fst (normalize bs)
                      | None => None
                      end))
  end.
Fixpoint mapM {A B} (f : A -> res B) (l : list A) : res (list B) :=
  match l with
  | [] => Ok []
  | x :: tl => bind (f x) (fun y => bind (mapM f tl) (fun ys => Ok (y :: ys)))
  end.

(** global_state.rs:348-359: files.sort(), by file id since ids are distinct *)
Fixpoint insert_sorted (x : file_id * extension) (l : list (file_id * extension)) :=
  match l with
  | [] => [x]
  | y :: tl => if Nat.leb (fst x) (fst y) then x :: l else y :: insert_sorted x tl
  end.
Definition sort_files (l : list (file_id * extension)) := fold_right insert_sorted [] l.
Definition known (v : vfs) : list (file_id * extension) :=
  sort_files (flat_map (fun x => match path_extension (snd x) with Some e => [(fst x, e)] | None => [] end) (iter v)).

Record state := State { st_vfs : vfs; st_db : db; st_roots : list path }.
Definition init (roots : list path) : state := State empty empty_db roots.

(** global_state.rs:234-362; the result tells whether there were changes. *)
Definition process_changes (s : state) : res (state * bool) :=
  let (cs, v) := take_changes (st_vfs s) in
  match cs with
  | [] => Ok (State v (st_db s) (st_roots s), false)
  | _ =>
      let files := effective (merge cs) in
      let structure := existsb is_created_or_deleted files in
      bind (mapM (changed_text v) files) (fun texts =>
      bind (apply_change (if structure then Some (partition v (st_roots s)) else None) texts (st_db s)) (fun d =>
      Ok (State v (Db (file_text d) (file_source_root d) (source_root d) (source_roots d) (known v))
                (if structure then dedup (st_roots s) else st_roots s), true)))
  end.

(** Histories: updates of the virtual file system and runs of [process_changes]. *)
Inductive event := Update (p : path) (c : option contents) | Drain.
Definition on_event (s : state) (e : event) : res state :=
  match e with
  | Update p c => bind (set_file_contents (st_vfs s) p c) (fun r => Ok (State (fst r) (st_db s) (st_roots s)))
  | Drain => bind (process_changes s) (fun r => Ok (fst r))
  end.
Fixpoint play (s : state) (h : list event) : res state :=
  match h with
  | [] => Ok s
  | e :: tl => bind (on_event s e) (fun s => play s tl)
  end.

(** What the analysis sees for a path: Analysis::file_text and the source root of its file id. *)
Definition analysis_text (s : state) (p : path) : option (list N) :=
  match index_of p (interner (st_vfs s)) with Some i => file_text (st_db s) i | None => None end.
Definition root_of (s : state) (p : path) : option nat :=
  match index_of p (interner (st_vfs s)) with Some i => file_source_root (st_db s) i | None => None end.
