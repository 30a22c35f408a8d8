(** Which files are loaded, in the words of crates/vfs/src/loader.rs:15-24 and 84-91, without the walk. *)
From Coq Require Import List Bool Arith String Ascii.
From Verif Require Import LoaderModel.
Import ListNotations.
Local Open Scope string_scope.
Local Open Scope list_scope.

(** [p] is [base] or lies below it *)
Definition under (base p : path) : Prop := exists rest, p = base ++ rest.

Fixpoint no_dot (s : string) : Prop :=
  match s with EmptyString => True | String c s' => c <> "."%char /\ no_dot s' end.
(** the name ends in ".e", and something precedes that *)
Definition ends_in (name e : string) : Prop :=
  exists stem, stem <> "" /\ name = (stem ++ "." ++ e)%string /\ no_dot e /\ name <> "..".
Definition path_ends_in (p : path) (e : string) : Prop :=
  exists dir name, p = dir ++ [name] /\ ends_in name e.
(** a file without an extension counts as one whose extension is empty *)
Definition wanted_extension (exts : list string) (p : path) : Prop :=
  exists e, In e exts /\ (path_ends_in p e \/ (e = "" /\ forall x, ~ path_ends_in p x)).

(** The longest of the include and exclude paths above [p] is an include path; on a tie the exclude path wins. *)
Definition included (d : directories) (p : path) : Prop :=
  exists i, In i (include d) /\ under i p /\
    forall e, In e (exclude d) -> under e p -> List.length e < List.length i.

Definition file_on (disk : node) (p : path) : Prop := exists b, lookup disk p = Some (File b).
Definition dir_on (disk : node) (p : path) : Prop := exists k, lookup disk p = Some (Dir k).

(** What a directory given in the configuration stands for: its .sp and .inc files, at any depth, but those in its .git *)
Definition source_file (base p : path) : Prop :=
  (path_ends_in p "sp" \/ path_ends_in p "inc") /\
  under base p /\ ~ under (base ++ [".git"]) p.

(** names in a directory are different *)
Inductive sound_disk : node -> Prop :=
  | sound_file b : sound_disk (File b)
  | sound_dir kids : NoDup (map fst kids) -> (forall n k, In (n, k) kids -> sound_disk k) -> sound_disk (Dir kids).
