(** Which file is the main file of a project. *)
From Coq Require Import List.
From Verif Require Import GraphModel GraphSpec UrlModel UrlSpec.
From Verif Require VfsModel.
Import ListNotations.

(** The files of the graph are those of the file system. *)
Definition in_vfs (v : VfsModel.vfs) (ds : list (nat * extension)) (is : nat -> list (nat * extension)) : Prop :=
  forall f, known ds f \/ (exists a, includes_directly ds is a f) -> exists p, VfsModel.file_path v f = VfsModel.Ok p /\ proper_path p.
(** [r] starts a project that has the file [f]. *)
Definition starts (ds : list (nat * extension)) (is : nat -> list (nat * extension)) (r f : nat) : Prop :=
  project_root ds is r /\ reaches ds is r f.
(** The address [u] is that of the file [f]. *)
Definition address_of (v : VfsModel.vfs) (u : url) (f : nat) : Prop :=
  exists l, locates u l /\ VfsModel.file_path v f = VfsModel.Ok (stored l).
