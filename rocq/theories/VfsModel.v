(** Model of the virtual file system: crates/vfs/src/lib.rs and crates/vfs/src/path_interner.rs.
    Simplifications: a VfsPath is its list of components and only compared; contents are lists of
    bytes; u32 file ids do not overflow. Out-of-bounds indexing and unwrap are [Panic]. *)
From Coq Require Import List NArith Bool String Arith.
Import ListNotations.

Inductive res (A : Type) := Ok (a : A) | Panic.
Arguments Ok {A} _.
Arguments Panic {A}.
Definition bind {A B} (x : res A) (f : A -> res B) : res B :=
  match x with Ok a => f a | Panic => Panic end.

Definition path := list string.
Definition contents := list N.
Notation file_id := nat (only parsing).

Definition path_eq_dec : forall p q : path, {p = q} + {p <> q} := list_eq_dec string_dec.
Definition contents_eq_dec : forall c d : option contents, {c = d} + {c <> d}.
Proof. decide equality. apply (list_eq_dec N.eq_dec). Defined.

(** lib.rs:49-78 ChangedFile, ChangeKind *)
Inductive kind := Create | Modify | Delete.
Notation changed_file := (nat * kind)%type (only parsing).

(** lib.rs:41-45 *)
Record vfs := Vfs { interner : list path; data : list (option contents); changes : list changed_file }.
Definition empty : vfs := Vfs [] [] [].

(** path_interner.rs:23-25: get_index_of *)
Fixpoint index_of (p : path) (l : list path) : option nat :=
  match l with
  | [] => None
  | q :: tl => if path_eq_dec q p then Some 0 else option_map S (index_of p tl)
  end.

(** path_interner.rs:31-36: insert_full *)
Definition intern (p : path) (l : list path) : nat * list path :=
  match index_of p l with
  | Some i => (i, l)
  | None => (List.length l, l ++ [p])
  end.

(** lib.rs:184-186: Vfs::get, panics when out of bounds *)
Definition get (v : vfs) (i : file_id) : res (option contents) :=
  match nth_error (data v) i with Some c => Ok c | None => Panic end.

(** lib.rs:82-84: file_id *)
Definition file_id_of (v : vfs) (p : path) : res (option file_id) :=
  match index_of p (interner v) with
  | None => Ok None
  | Some i => bind (get v i) (fun c => Ok (match c with Some _ => Some i | None => None end))
  end.

(** lib.rs:91-93: file_path (the interner's lookup panics when out of bounds) *)
Definition file_path (v : vfs) (i : file_id) : res path :=
  match nth_error (interner v) i with Some p => Ok p | None => Panic end.

(** lib.rs:101-103: file_contents *)
Definition file_contents (v : vfs) (i : file_id) : res contents :=
  bind (get v i) (fun c => match c with Some c => Ok c | None => Panic end).

(** lib.rs:113-121: iter, the existing files *)
Fixpoint iter_from (n : nat) (ps : list path) (ds : list (option contents)) : list (file_id * path) :=
  match ps, ds with
  | p :: ps, d :: ds =>
      match d with Some _ => (n, p) :: iter_from (S n) ps ds | None => iter_from (S n) ps ds end
  | _, _ => []
  end.
Definition iter (v : vfs) : list (file_id * path) := iter_from 0 (interner v) (data v).

Fixpoint set_nth {A} (i : nat) (x : A) (l : list A) : list A :=
  match l, i with
  | [], _ => []
  | _ :: tl, O => x :: tl
  | y :: tl, S i => y :: set_nth i x tl
  end.

(** lib.rs:171-177: alloc_file_id; [resize_with] only grows because of the [max] *)
Definition alloc_file_id (v : vfs) (p : path) : file_id * vfs :=
  let (i, ps) := intern p (interner v) in
  let len := Nat.max (List.length (data v)) (S i) in
  (i, Vfs ps (data v ++ repeat None (len - List.length (data v))) (changes v)).

(** lib.rs:129-147: set_file_contents. The result tells whether something changed. *)
Definition set_file_contents (v : vfs) (p : path) (c : option contents) : res (vfs * bool) :=
  let (i, v) := alloc_file_id v p in
  bind (get v i) (fun old =>
    let push k := Ok (Vfs (interner v) (set_nth i c (data v)) (changes v ++ [(i, k)]), true) in
    match old, c with
    | None, None => Ok (v, false)
    | Some o, Some n => if list_eq_dec N.eq_dec o n then Ok (v, false) else push Modify
    | None, Some _ => push Create
    | Some _, None => push Delete
    end).

(** lib.rs:150-157: has_changes, take_changes *)
Definition has_changes (v : vfs) : bool := match changes v with [] => false | _ => true end.
Definition take_changes (v : vfs) : list changed_file * vfs :=
  (changes v, Vfs (interner v) (data v) []).

(** lib.rs:160-162: exists *)
Definition exists_ (v : vfs) (i : file_id) : res bool :=
  bind (get v i) (fun c => Ok (match c with Some _ => true | None => false end)).

(** Histories of calls *)
Inductive op := Set_ (p : path) (c : option contents) | Take.
Definition step (v : vfs) (o : op) : res vfs :=
  match o with
  | Set_ p c => bind (set_file_contents v p c) (fun r => Ok (fst r))
  | Take => Ok (snd (take_changes v))
  end.
Fixpoint run (v : vfs) (h : list op) : res vfs :=
  match h with
  | [] => Ok v
  | o :: tl => bind (step v o) (fun v => run v tl)
  end.
