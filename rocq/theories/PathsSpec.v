(** What a Unix path denotes in a file system without symbolic links. *)
From Coq Require Import List Ascii String Bool.
Import ListNotations.
Local Open Scope list_scope.

(** Directories and files: every node has a parent, the root is its own. *)
Record fs := FS {
  node : Type;
  root : node;
  up : node -> node;
  down : node -> list ascii -> option node;
  up_root : up root = root;
  up_down : forall n x m, down n x = Some m -> up m = n
}.

Definition sl : ascii := "/"%char.
Definition slash_free (x : list ascii) : Prop := ~ In sl x.

(** "" and "." stay, ".." goes up, a name goes down. *)
Definition hop (F : fs) (n : node F) (x : list ascii) : option (node F) :=
  if list_eq_dec ascii_dec x [] then Some n
  else if list_eq_dec ascii_dec x (list_ascii_of_string ".") then Some n
  else if list_eq_dec ascii_dec x (list_ascii_of_string "..") then Some (up F n)
  else down F n x.
Fixpoint hops (F : fs) (n : node F) (xs : list (list ascii)) : option (node F) :=
  match xs with
  | [] => Some n
  | x :: tl => match hop F n x with Some m => hops F m tl | None => None end
  end.

(** [written xs p]: [p] is the pieces [xs] with a slash between every two. *)
Inductive written : list (list ascii) -> list ascii -> Prop :=
| written_one x : slash_free x -> written [x] x
| written_more x xs p : slash_free x -> written xs p -> written (x :: xs) (x ++ sl :: p).

(** [leads F n p m]: read from the node [n], the path [p] leads to [m]. *)
Definition leads (F : fs) (n : node F) (p : list ascii) (m : node F) : Prop :=
  exists xs, written xs p /\
    match p with
    | c :: _ => if ascii_dec c sl then hops F (root F) xs = Some m else hops F n xs = Some m
    | [] => m = n
    end.

(** A path without "." or "..", doubled slashes or a slash at the end. *)
Definition proper_name (x : list ascii) : Prop :=
  x <> [] /\ x <> list_ascii_of_string "." /\ x <> list_ascii_of_string ".." /\ slash_free x.
Inductive clean : list ascii -> Prop :=
| clean_root : clean [sl]
| clean_names xs p : Forall proper_name xs -> written xs p -> clean (sl :: p).
