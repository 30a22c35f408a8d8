(** Model of crates/base-db/src/include.rs, of the path resolution of crates/vfs/src/file_set.rs and
    crates/base-db/src/{lib,input}.rs, and of its other users. Paths are Unix paths as in PathsModel. *)
From Coq Require Import List Ascii String Bool Arith.
From Verif Require Import PathsModel GraphModel.
Import ListNotations.
Local Open Scope list_scope.

Definition quote : ascii := "034"%char.
Definition lt_ : ascii := "<"%char.
Definition gt_ : ascii := ">"%char.

(** The greedy group [([^>]+)] followed by [close]: the longest group that starts here; [acc] is
    what was read so far, backwards. *)
Fixpoint longest (close : ascii) (acc : path) (best : option path) (t : path) : option path :=
  match t with
  | [] => best
  | c :: tl =>
      let best := if Ascii.eqb c close then match acc with [] => best | _ => Some (rev acc) end else best in
      if Ascii.eqb c gt_ then best else longest close (c :: acc) best tl
  end.
(** [Regex::captures] followed by [get(1)]: the leftmost match. *)
Fixpoint capture (open close : ascii) (t : path) : option path :=
  match t with
  | [] => None
  | c :: tl =>
      if Ascii.eqb c open then
        match longest close [] None tl with
        | Some g => Some g
        | None => capture open close tl
        end
      else capture open close tl
  end.
(** include.rs:74-77 *)
Definition re_chevron : path -> option path := capture lt_ gt_.
Definition re_quote : path -> option path := capture quote quote.

(** [str::ends_with] *)
Definition ends_with (p suffix : path) : bool :=
  path_eqb (skipn (List.length p - List.length suffix) p) suffix && (List.length suffix <=? List.length p).
Definition dot_sp : path := list_ascii_of_string ".sp".
Definition dot_inc : path := list_ascii_of_string ".inc".
(** include.rs:183-193 [infer_include_ext] *)
Definition infer_include_ext (p : path) : path * extension :=
  if ends_with p dot_sp then (p, Sp)
  else if ends_with p dot_inc then (p, Inc)
  else (p ++ dot_inc, Inc).

(** ** File sets *)

(** Two [VfsPath]s are equal, and hash equally, when their components are. *)
Fixpoint components_eqb (a b : list component) : bool :=
  match a, b with
  | [], [] => true
  | x :: a, y :: b => component_eqb x y && components_eqb a b
  | _, _ => false
  end.
Definition same_path (p q : path) : bool := components_eqb (components p) (components q).

(** file_set.rs:14-19; the map [files] and its inverse [uris] as one list of distinct paths. *)
Definition file_set := list (path * nat).
Definition get_file (fs : file_set) (p : path) : option nat :=
  option_map snd (find (fun e => same_path (fst e) p) fs).
Definition get_uri (fs : file_set) (f : nat) : option path :=
  option_map fst (find (fun e => snd e =? f) fs).

Inductive res (A : Type) := Ok (a : A) | Panic.
Arguments Ok {A}. Arguments Panic {A}.

(** vfs_path.rs:42-54 [join] for paths on disk: join and normalise. *)
Definition vfs_join (p q : path) : res path :=
  match abs_join p q with Some r => Ok (normalize r) | None => Panic end.

(** file_set.rs:36-51 [resolve_path]: [uris] indexed with an unknown anchor panics. *)
Definition resolve_in (fs : file_set) (anchor : nat) (p : path) : res (option nat) :=
  if is_absolute p then Ok (get_file fs p)
  else match get_uri fs anchor with
       | None => Panic
       | Some base =>
           match vfs_join (pop base) p with
           | Ok q => Ok (get_file fs q)
           | Panic => Panic
           end
       end.

(** input.rs:15-25 without [is_include_dir]; file_set.rs:53-56. *)
Record source_root := SourceRoot { file_set_of : file_set; root_path : path }.
Definition resolve_relative_to_root (r : source_root) (p : path) : res (option nat) :=
  match vfs_join (root_path r) p with
  | Ok q => Ok (get_file (file_set_of r) q)
  | Panic => Panic
  end.

(** file_set.rs:92-108 [partition], without the removal of repeated roots: a file goes to every
    root its path starts with. *)
Definition partition (vfs : file_set) (roots : list path) : list source_root :=
  map (fun r => SourceRoot (filter (fun e => starts_with (fst e) r) vfs) r) roots.

(** change.rs:46-60: the root of a file is the last one that has it; [None]: never set. *)
Definition file_source_root (srs : list source_root) (f : nat) : option source_root :=
  find (fun sr => existsb (fun e => snd e =? f) (file_set_of sr)) (rev srs).

(** base-db/src/lib.rs:156-161 *)
Definition resolve_path (srs : list source_root) (anchor : nat) (p : path) : res (option nat) :=
  match file_source_root srs anchor with
  | None => Panic
  | Some sr => resolve_in (file_set_of sr) anchor p
  end.
(** base-db/src/lib.rs:162-169 *)
Fixpoint resolve_path_relative_to_roots (srs : list source_root) (p : path) : res (option nat) :=
  match srs with
  | [] => Ok None
  | sr :: tl =>
      match resolve_relative_to_root sr p with
      | Ok (Some f) => Ok (Some f)
      | Ok None => resolve_path_relative_to_roots tl p
      | Panic => Panic
      end
  end.

(** ** Directives *)

Inductive include_kind := Chevrons | Quotes.
Inductive outcome :=
| Resolved (f : nat) (kind : include_kind) (e : extension)
| Unresolved (p : path)
| Nothing.

(** include.rs:92-177, one directive of file [f] with the trimmed text [text]. *)
Definition file_include (srs : list source_root) (f : nat) (is_try : bool) (text : path) : res outcome :=
  let by_roots (kind : include_kind) (p : path) (e : extension) : res outcome :=
    match resolve_path_relative_to_roots srs p with
    | Ok (Some g) => Ok (Resolved g kind e)
    | Ok None => Ok (if is_try then Nothing else Unresolved p)
    | Panic => Panic
    end in
  match re_quote text with
  | Some raw =>
      let '(p, e) := infer_include_ext raw in
      match resolve_path srs f p with
      | Ok (Some g) => Ok (Resolved g Quotes e)
      | Ok None => by_roots Quotes p e
      | Panic => Panic
      end
  | None =>
      match re_chevron text with
      | Some raw => let '(p, e) := infer_include_ext raw in by_roots Chevrons p e
      | None => Ok Nothing
      end
  end.

(** hir-def/src/db.rs:147-200 [resolve_include_node], given the kind of the path node and its text:
    the file, the path and the extension; the outer [None] when the expression does not match. *)
Definition resolve_include_node (srs : list source_root) (f : nat) (kind : include_kind) (text : path)
  : res (option (option nat * path * extension)) :=
  let by_roots p :=
    let '(p, e) := infer_include_ext p in
    match resolve_path_relative_to_roots srs p with
    | Ok g => Ok (Some (g, p, e))
    | Panic => Panic
    end in
  match kind with
  | Chevrons => match re_chevron text with Some p => by_roots p | None => Ok None end
  | Quotes =>
      match re_quote text with
      | None => Ok None
      | Some p =>
          let '(p, e) := infer_include_ext p in
          match resolve_path srs f p with
          | Ok (Some g) => Ok (Some (Some g, p, e))
          | Ok None => by_roots p
          | Panic => Panic
          end
      end
  end.

(** preprocessor/src/db.rs:92-101 and 153-162: the file the preprocessor includes. *)
Definition preprocessor_include (srs : list source_root) (f : nat) (quoted : bool) (p : path) : res (option nat) :=
  let p := fst (infer_include_ext p) in
  match (if quoted then resolve_path srs f p else Ok None) with
  | Ok (Some g) => Ok (Some g)
  | Ok None => resolve_path_relative_to_roots srs p
  | Panic => Panic
  end.
