(** The members of enum structs and methodmaps by name (crates/hir-def/src/data.rs), for the questions about names in their
    methods (crates/hir/src/semantics.rs:280-360), and the node of a method. *)
From Coq Require Import List String Bool Arith.
From Verif Require Import AstIdModel TypeRefModel ItemTreeModel FindDefModel.
Import ListNotations.
Local Open Scope string_scope.
Local Open Scope nat_scope.
Local Open Scope list_scope.

(** [items_map]: a later member replaces an earlier one of the same name. *)
Definition has_name {A} (name : A -> option string) (nm : string) (x : A) : bool :=
  match name x with Some n => String.eqb n nm | None => false end.
Definition item_named {A} (name : A -> option string) (l : list A) (nm : string) : option A := find (has_name name nm) (rev l).

Section file.
Variable t : itree.
Definition function_name (j : nat) : option string := option_map fn_name (nth_error (functions t) j).
(** data.rs:443-470 *)
Definition es_item_name (x : es_item) : option string :=
  match x with ESMethod j => function_name j | ESField j => option_map fld_name (nth_error (fields t) j) end.
(** data.rs:188-244 *)
Definition mm_item_name (x : mm_item) : option string :=
  match x with MMMethod j => function_name j | MMProperty j => option_map pr_name (nth_error (properties t) j) end.
(** The members of the methodmap in whose data they are copied (data.rs:161-173; C31), if it has none of its own with the name. *)
Variable inherited_method : nat -> string -> option def.
Variable inherited_accessor : nat -> string -> bool -> option def.

(** semantics.rs:345-357; data.rs:482-487 and 271-278 [method], 489-491 and 289-291 [items] *)
Definition method_named (d : def) (nm : string) : option def :=
  match d with
  | Top (FEnumStruct i) =>
      let* s := nth_error (enum_structs t) i in
      let* x := item_named es_item_name (es_items s) nm in
      match x with ESMethod j => Some (InEnumStruct i j) | ESField _ => None end
  | Top (FMethodmap i) =>
      let* s := nth_error (methodmaps t) i in
      match item_named mm_item_name (mm_items s) nm with
      | Some (MMMethod j) => Some (InMethodmap i j)
      | Some (MMProperty _) => None
      | None => inherited_method i nm
      end
  | _ => None
  end.
(** semantics.rs:312-325; data.rs:201-220, 280-287 [property] *)
Definition is_accessor (getter : bool) (j : nat) : bool := has_name function_name (if getter then "get" else "set") j.
Definition accessor_named (d : def) (nm : string) (getter : bool) : option def :=
  match d with
  | Top (FMethodmap i) =>
      let* s := nth_error (methodmaps t) i in
      match item_named mm_item_name (mm_items s) nm with
      | Some (MMProperty p) =>
          let* pr := nth_error (properties t) p in
          option_map (InMethodmap i) (find (is_accessor getter) (indices (pr_accessors pr)))
      | Some (MMMethod _) => None
      | None => inherited_accessor i nm getter
      end
  | _ => None
  end.

(** hir-def/src/src.rs:12-21 [AssocItemLoc::source] *)
Definition method_source (root : syn) (j : nat) : res syn :=
  try f := must (nth_error (functions t) j) in
  try p := must (get_raw (plain root) (fn_ast f)) in
  try s := must (locate p root []) in Val (sp_node s).
End file.
