(** The definitions of a file as the resolver has them: the item tree's items with their interned ids, and back. *)
From Coq Require Import List String.
From Verif Require Import ItemTreeModel FindDefModel.
From Verif Require HirModel OffsetModel.
Import ListNotations.

(** hir-def/src/db.rs:240-388: the kind of [FileDefId] that an item is declared as *)
Definition sort_of (x : file_item) : HirModel.def_kind :=
  match x with
  | FFunction _ => HirModel.DFunction | FVariable _ => HirModel.DGlobal | FMacro _ => HirModel.DMacro
  | FEnumStruct _ => HirModel.DEnumStruct | FMethodmap _ => HirModel.DMethodmap | FEnum _ => HirModel.DEnum
  | FVariant _ => HirModel.DVariant | FTypedef _ => HirModel.DTypedef | FTypeset _ => HirModel.DTypeset
  | FFunctag _ => HirModel.DFunctag | FFuncenum _ => HirModel.DFuncenum
  end.
(** db.rs:247-260 and the like: [db.intern_function(...)]; interning is an input. *)
Definition id_of (intern : file_item -> nat) (x : file_item) : HirModel.file_def := (sort_of x, intern x).
(** db.rs:214-238: the same [DefMap] that FindDefModel reads *)
Definition def_map_of (intern : file_item -> nat) (file : nat) (m : FindDefModel.def_map) : HirModel.def_map :=
  HirModel.DefMap file (map (fun e => (fst e, map (id_of intern) (snd e))) (FindDefModel.dm_values m)).

(** hir/src/lib.rs:58-104 [DefResolution]: a definition of a file, looked up by its id; a member of an enum struct or methodmap.
    Local variables are shown by CursorModel. *)
Definition item_def (look_up : HirModel.file_def -> FindDefModel.res resolution) (member : nat -> FindDefModel.res resolution)
    (d : OffsetModel.found_def) : FindDefModel.res resolution :=
  match d with
  | OffsetModel.FFunction i => look_up (HirModel.DFunction, i)
  | OffsetModel.FItem d => look_up d
  | OffsetModel.FAttribute i => member i
  | OffsetModel.FLocal _ _ => Nothing
  end.
