(** Model of crates/vfs/src/vfs_path.rs on Unix. A path is the list of its bytes; names are taken to be
    valid UTF-8, so [to_str] always succeeds. Paths on disk are those of PathsModel. *)
From Coq Require Import List Ascii String Bool Arith.
From Verif Require Import PathsModel.
Import ListNotations.
Local Open Scope list_scope.

(** vfs_path.rs:277-281 [VfsPathRepr] *)
Inductive vfs_path := Real (p : path) | Virtual (s : path).

(** vfs_path.rs:24-27 [new_virtual_path]; [None] is the failed assertion. *)
Definition new_virtual_path (s : path) : option vfs_path := if is_absolute s then Some (Virtual s) else None.
(** vfs_path.rs:283-287 [From<AbsPathBuf>] *)
Definition from_abs (p : path) : vfs_path := Real (normalize p).
(** vfs_path.rs:31-33 [new_real_path]; [None] is the panic of [AbsPathBuf::assert]. *)
Definition new_real_path (s : path) : option vfs_path := if is_absolute s then Some (from_abs s) else None.

(** std [str::rfind] with the two parts around the place found. *)
Fixpoint rsplit (c : ascii) (s : path) : option (path * path) :=
  match s with
  | [] => None
  | x :: tl =>
      match rsplit c tl with
      | Some (a, b) => Some (x :: a, b)
      | None => if Ascii.eqb x c then Some ([], tl) else None
      end
  end.

(** vfs_path.rs:346-353 [VirtualPath::pop]; [None] where it returns false. *)
Definition virtual_pop (s : path) : option path :=
  match rsplit slash s with Some (a, _) => Some a | None => None end.

(** std [trim_start_matches] with "./" *)
Fixpoint trim_here (p : path) : path :=
  match p with
  | a :: b :: rest => if Ascii.eqb a dot && Ascii.eqb b slash then trim_here rest else p
  | _ => p
  end.
(** vfs_path.rs:365-376 [VirtualPath::join] *)
Fixpoint virtual_join (res p : path) : option path :=
  let append := Some (res ++ slash :: trim_here p) in
  match p with
  | a :: b :: c :: rest =>
      if Ascii.eqb a dot && Ascii.eqb b dot && Ascii.eqb c slash then
        match virtual_pop res with None => None | Some r => virtual_join r rest end
      else append
  | _ => append
  end.

(** std [str::starts_with] *)
Fixpoint string_prefix (a b : path) : bool :=
  match a, b with
  | [], _ => true
  | x :: a, y :: b => Ascii.eqb x y && string_prefix a b
  | _ :: _, [] => false
  end.

(** std [Path::strip_prefix] for a path that is absolute or empty; [Components::as_path] leaves out
    what is skipped on either side. A virtual path is never another one. *)
Fixpoint skip_names (n : nat) (cs : list path) : list path :=
  match n with
  | 0 => cs
  | S n => match drop_trivial cs with _ :: tl => skip_names n tl | [] => [] end
  end.
Definition trim_right (cs : list path) : list path := rev (drop_trivial (rev cs)).
Definition std_strip (p base : path) : option path :=
  if starts_with p base then
    match p with
    | [] => Some []
    | _ :: tl =>
        match components base with
        | [] => Some (slash :: join_pieces (trim_right (split tl)))
        | _ :: b => Some (join_pieces (trim_right (drop_trivial (skip_names (List.length b) (split tl)))))
        end
    end
  else None.

(** std [Path::file_name], [rsplit_file_at_dot], [file_stem] and [extension]; paths/src/lib.rs:201-206
    [name_and_extension] *)
Definition file_name (p : path) : option path :=
  match rev (components p) with Normal x :: _ => Some x | _ => None end.
Definition at_dot (x : path) : option path * option path :=
  match rsplit dot x with
  | Some ([], _) => (Some x, None)
  | Some (before, after) => (Some before, Some after)
  | None => (None, Some x)
  end.
Definition file_stem (p : path) : option path :=
  match file_name p with
  | Some x => match at_dot x with (Some b, _) => Some b | (None, a) => a end
  | None => None
  end.
Definition extension (p : path) : option path :=
  match file_name p with
  | Some x => match at_dot x with (Some _, a) => a | (None, _) => None end
  | None => None
  end.
Definition real_name (p : path) : option (path * option path) :=
  match file_stem p with Some s => Some (s, extension p) | None => None end.

(** vfs_path.rs:389-414 [VirtualPath::name_and_extension] *)
Definition virtual_name (s : path) : option (path * option path) :=
  let file_path := match rev s with c :: r => if Ascii.eqb c slash then rev r else s | [] => s end in
  let name := match rsplit slash file_path with Some (_, b) => b | None => file_path end in
  match name with
  | [] => None
  | _ =>
      match rsplit dot name with
      | None | Some ([], _) => Some (name, None)
      | Some (stem, ext) => Some (stem, Some ext)
      end
  end.

(** vfs_path.rs:44-55 [join]; the outer [None] is the panic of AbsPathBuf::join. *)
Definition vfs_join (v : vfs_path) (p : path) : option (option vfs_path) :=
  match v with
  | Real it => match abs_join it p with Some r => Some (Some (Real (normalize r))) | None => None end
  | Virtual it => Some (match virtual_join it p with Some r => Some (Virtual r) | None => None end)
  end.
(** vfs_path.rs:71-76 [pop] *)
Definition vfs_pop (v : vfs_path) : bool * vfs_path :=
  match v with
  | Real it => match parent it with Some p => (true, Real p) | None => (false, v) end
  | Virtual it => match virtual_pop it with Some p => (true, Virtual p) | None => (false, v) end
  end.
(** vfs_path.rs:79-85 [starts_with] *)
Definition vfs_starts_with (v w : vfs_path) : bool :=
  match v, w with
  | Real l, Real r => starts_with l r
  | Virtual l, Virtual r => string_prefix r l
  | _, _ => false
  end.
(** vfs_path.rs:87-93 [strip_prefix] *)
Definition vfs_strip_prefix (v w : vfs_path) : option path :=
  match v, w with
  | Real l, Real r => std_strip l r
  | Virtual l, Virtual r => std_strip l r
  | _, _ => None
  end.
(** vfs_path.rs:98-105 [parent] *)
Definition vfs_parent (v : vfs_path) : option vfs_path :=
  let (b, p) := vfs_pop v in if b then Some p else None.
(** vfs_path.rs:108-113 [name_and_extension] *)
Definition vfs_name (v : vfs_path) : option (path * option path) :=
  match v with Real p => real_name p | Virtual s => virtual_name s end.
(** vfs_path.rs:124-168 [encode] on Unix *)
Definition vfs_encode (v : vfs_path) : path :=
  match v with Real p => ascii_of_nat 0 :: p | Virtual s => ascii_of_nat 1 :: s end.
(** The derived [Eq]: std compares paths by their components. *)
Fixpoint components_eqb (a b : list component) : bool :=
  match a, b with
  | [], [] => true
  | x :: a, y :: b => component_eqb x y && components_eqb a b
  | _, _ => false
  end.
Definition vfs_eqb (v w : vfs_path) : bool :=
  match v, w with
  | Real p, Real q => components_eqb (components p) (components q)
  | Virtual s, Virtual t => path_eqb s t
  | _, _ => false
  end.
