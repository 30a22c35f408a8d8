(** The places paths name, and what it means to go from one to another. *)
From Coq Require Import List Ascii String Bool.
From Verif Require Import PathsModel PathsSpec VfsPathModel.
Import ListNotations.
Local Open Scope list_scope.

(** A place is given by the names on the way from the root. *)
Definition spot := list (list ascii).

(** [shows v l]: [v] is the path that names the place [l], as it is made on disk or in memory. *)
Inductive shows : vfs_path -> spot -> Prop :=
| shows_root_real : shows (Real [sl]) []
| shows_real l p : Forall proper_name l -> written l p -> shows (Real (sl :: p)) l
| shows_root_virtual : shows (Virtual []) []
| shows_virtual l p : Forall proper_name l -> written l p -> shows (Virtual (sl :: p)) l.

Definition same_kind (v w : vfs_path) : Prop :=
  match v, w with Real _, Real _ | Virtual _, Virtual _ => True | _, _ => False end.

(** [walk stay l ps m]: the pieces [ps] lead from [l] to [m]. Above the root is the root on disk
    ([stay]), and nothing in memory. *)
Definition here : list ascii := list_ascii_of_string ".".
Definition up_ : list ascii := list_ascii_of_string "..".
Inductive walk (stay : Prop) : spot -> list (list ascii) -> spot -> Prop :=
| walk_end l : walk stay l [] l
| walk_empty l ps m : walk stay l ps m -> walk stay l ([] :: ps) m
| walk_here l ps m : walk stay l ps m -> walk stay l (here :: ps) m
| walk_up l x ps m : walk stay l ps m -> walk stay (l ++ [x]) (up_ :: ps) m
| walk_top ps m : stay -> walk stay [] ps m -> walk stay [] (up_ :: ps) m
| walk_name l x ps m : proper_name x -> walk stay (l ++ [x]) ps m -> walk stay l (x :: ps) m.

(** Pieces that go up, then stay, then name places: "../../a/b", "./a". *)
Inductive plain : list (list ascii) -> Prop :=
| plain_names x xs : Forall proper_name (x :: xs) -> plain (x :: xs)
| plain_here ps : stays ps -> plain (here :: ps)
| plain_up ps : plain ps -> plain (up_ :: ps)
with stays : list (list ascii) -> Prop :=
| stays_names x xs : Forall proper_name (x :: xs) -> stays (x :: xs)
| stays_here ps : stays ps -> stays (here :: ps).

(** The stem and the extension of a file name: the extension is behind the last dot, unless the name
    begins there. *)
Definition dotless (x : list ascii) : Prop := ~ In "."%char x.
Inductive named : list ascii -> list ascii -> option (list ascii) -> Prop :=
| named_plain x : dotless x -> named x x None
| named_hidden x : dotless x -> named ("."%char :: x) ("."%char :: x) None
| named_ext s e : s <> [] -> dotless e -> named (s ++ "."%char :: e) s (Some e).
