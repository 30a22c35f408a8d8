(** Model of crates/paths/src/lib.rs on Unix, with the parts of std::path it rests on. A path is
    the list of its bytes. Windows prefixes are not modelled. *)
From Coq Require Import List Ascii String Bool.
Import ListNotations.
Local Open Scope list_scope.

Definition path := list ascii.
Definition slash : ascii := "/"%char.
Definition dot : ascii := "."%char.

Definition path_eqb (a b : path) : bool := if list_eq_dec ascii_dec a b then true else false.

(** The pieces between the slashes, at least one. *)
Fixpoint split (p : path) : list path :=
  match p with
  | [] => [[]]
  | c :: tl =>
      if Ascii.eqb c slash then [] :: split tl
      else match split tl with
           | x :: xs => (c :: x) :: xs
           | [] => [[c]]
           end
  end.

Fixpoint join_pieces (cs : list path) : path :=
  match cs with
  | [] => []
  | [c] => c
  | c :: tl => c ++ slash :: join_pieces tl
  end.

Inductive component := RootDir | CurDir | ParentDir | Normal (name : path).

Definition trivial (c : path) : bool := path_eqb c [] || path_eqb c [dot].

(** std [Components::parse_single_component] outside the start of the path: empty pieces and "."
    are skipped. *)
Fixpoint body (cs : list path) : list component :=
  match cs with
  | [] => []
  | c :: tl =>
      if trivial c then body tl
      else (if path_eqb c [dot; dot] then ParentDir else Normal c) :: body tl
  end.

(** std [Path::is_absolute]. *)
Definition is_absolute (p : path) : bool :=
  match p with c :: _ => Ascii.eqb c slash | [] => false end.

(** std [Path::components]: "." is kept only at the start of a relative path. *)
Definition components (p : path) : list component :=
  match p with
  | c :: tl =>
      if Ascii.eqb c slash then RootDir :: body (split tl)
      else match split p with
           | x :: xs => if path_eqb x [dot] then CurDir :: body xs else body (x :: xs)
           | [] => []
           end
  | [] => []
  end.

(** std [PathBuf::push]. *)
Definition push (buf p : path) : path :=
  if is_absolute p then p
  else match rev buf with
       | [] => p
       | c :: _ => if Ascii.eqb c slash then buf ++ p else buf ++ slash :: p
       end.

Fixpoint drop_trivial (cs : list path) : list path :=
  match cs with
  | c :: tl => if trivial c then drop_trivial tl else cs
  | [] => []
  end.

(** [Components::next_back] followed by [as_path]: the last component goes and what is skipped
    before it; [None] when there is no component. *)
Definition without_last (cs : list path) : option (list path) :=
  match drop_trivial (rev cs) with
  | [] => None
  | _ :: r => Some (rev (drop_trivial r))
  end.

(** std [Path::parent]. *)
Definition parent (p : path) : option path :=
  match p with
  | c :: tl =>
      if Ascii.eqb c slash then
        match without_last (split tl) with
        | Some cs => Some (slash :: join_pieces cs)
        | None => None
        end
      else match split p with
           | x :: xs =>
               if path_eqb x [dot] then
                 match without_last xs with
                 | Some cs => Some (join_pieces (x :: cs))
                 | None => Some []
                 end
               else match without_last (x :: xs) with
                    | Some cs => Some (join_pieces cs)
                    | None => None
                    end
           | [] => None
           end
  | [] => None
  end.

(** std [PathBuf::pop]. *)
Definition pop (buf : path) : path := match parent buf with Some p => p | None => buf end.

(** paths/src/lib.rs:313-340 [normalize_path]; without the Windows prefix. *)
Definition normalize_step (ret : path) (c : component) : path :=
  match c with
  | RootDir => push ret [slash]
  | CurDir => ret
  | ParentDir => pop ret
  | Normal n => push ret n
  end.
Definition normalize (p : path) : path := fold_left normalize_step (components p) [].

(** paths/src/lib.rs:158-161 [join]; [None] is the panic of [unwrap] on a path that is not
    absolute. *)
Definition abs_join (base p : path) : option path :=
  let r := push base p in if is_absolute r then Some r else None.

(** paths/src/lib.rs:153-156 [absolutize]. *)
Definition absolutize (base p : path) : option path := option_map normalize (abs_join base p).

(** paths/src/lib.rs:148-151 [parent]; the inner [None] is the failed assertion. *)
Definition abs_parent (p : path) : option (option path) :=
  match parent p with
  | None => None
  | Some q => Some (if is_absolute q then Some q else None)
  end.

Definition component_eqb (a b : component) : bool :=
  match a, b with
  | RootDir, RootDir | CurDir, CurDir | ParentDir, ParentDir => true
  | Normal x, Normal y => path_eqb x y
  | _, _ => false
  end.

(** paths/src/lib.rs:193-195 [starts_with], std [iter_after]. *)
Fixpoint is_prefix (a b : list component) : bool :=
  match a, b with
  | [], _ => true
  | x :: a, y :: b => component_eqb x y && is_prefix a b
  | _ :: _, [] => false
  end.
Definition starts_with (p base : path) : bool := is_prefix (components base) (components p).
