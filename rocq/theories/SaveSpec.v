(** When the compiler should be run, in terms of the known files, their includes and the settings (GraphSpec). *)
From Coq Require Import List Bool Arith String.
From Verif Require Import GraphModel GraphSpec SaveModel.
Import ListNotations.
Local Open Scope list_scope.

(** [r] is the root of a project that contains [f] *)
Definition project_with (s : state) (f r : nat) : Prop :=
  project_root (documents s) (includes s) r /\ reaches (documents s) (includes s) r f.

(** [c] compiles with the settings of the session *)
Definition configured (s : state) (c : checker) : Prop :=
  compiler_path (config_ s) = Some (ck_path c) /\
  ck_arguments c = compiler_arguments (config_ s) /\ ck_includes c = include_directories (config_ s).

(** There is one checker for each project, and it uses the settings of the session *)
Definition up_to_date (s : state) : Prop :=
  compiler_path (config_ s) <> None /\
  NoDup (map ck_root (flycheck s)) /\
  (forall r, In r (map ck_root (flycheck s)) <-> project_root (documents s) (includes s) r) /\
  (forall c, In c (flycheck s) -> configured s c).

(** Events that change neither the files nor the settings *)
Definition quiet (e : event) : Prop := match e with Settings _ _ | FilesChange _ _ => False | _ => True end.

(** The uris saved in a history, in order *)
Fixpoint saves (h : list event) : list saved_uri :=
  match h with
  | [] => []
  | Save u :: tl => u :: saves tl
  | _ :: tl => saves tl
  end.

(** [cs] are the checkers that saving [u] is to run: those of the projects containing the file; all if there is none *)
Definition asked (s : state) (u : saved_uri) (cs : list checker) : Prop :=
  NoDup cs /\
  if negb (compiler_on_save (config_ s)) then cs = []
  else match u with
       | NoFile => cs = []
       | NoPath => forall c, In c cs <-> In c (flycheck s)
       | File f =>
           (forall c, In c cs <-> In c (flycheck s) /\ project_with s f (ck_root c)) /\ cs <> [] \/
           (forall c, In c cs <-> In c (flycheck s)) /\ (forall c, In c (flycheck s) -> ~ project_with s f (ck_root c))
       end.
