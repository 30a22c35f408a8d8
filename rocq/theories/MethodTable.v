(** The tables that lead from the node of a method, getter or setter to its number (crates/hir-def/src/child_by_source.rs:88-158). *)
From Coq Require Import List String Bool Arith.
From Verif Require Import AstIdModel TypeRefModel ItemTreeModel FindDefModel.
Import ListNotations.
Local Open Scope nat_scope.
Local Open Scope list_scope.

Section file.
Variable root : syn.
Variable t : itree.
(** What else the tables of the enum struct and of the methodmap with the number answer: the fields and the properties. *)
Variable es_other mm_other : nat -> key -> ptr -> res def.
(** The fields of the enum struct can be read (child_by_source.rs:90, 100-110, data.rs:504-529; C46_crash_iff). *)
Variable fields_read : nat -> bool.
(** The rows of the members copied from the methodmap it inherits from (data.rs:161-173; C47); they come first. *)
Variable inherited_rows : nat -> option (list row).

(** child_by_source.rs:112-114, 140-142 and 150-154 *)
Definition function_row (mk : nat -> def) (j : nat) : option row :=
  let* f := nth_error (functions t) j in let* p := get_raw (plain root) (fn_ast f) in Some (KFunction, p, mk j).
(** child_by_source.rs:99-116 *)
Definition es_rows (i : nat) (x : es_item) : option (list row) :=
  match x with ESField _ => Some [] | ESMethod j => let* r := function_row (InEnumStruct i) j in Some [r] end.
(** child_by_source.rs:131-156 *)
Definition mm_rows (i : nat) (x : mm_item) : option (list row) :=
  match x with
  | MMMethod j => let* r := function_row (InMethodmap i) j in Some [r]
  | MMProperty q =>
      let* pr := nth_error (properties t) q in
      let* l := all (function_row (InMethodmap i)) (indices (pr_accessors pr)) in
      let* _ := get_raw (plain root) (pr_ast pr) in Some l
  end.
(** child_by_source.rs:88-125 *)
Definition es_table (d : def) (k : key) (p : ptr) : res def :=
  match d with
  | Top (FEnumStruct i) =>
      try s := must (nth_error (enum_structs t) i) in
      try _ := must (if fields_read i then Some tt else None) in
      try rows := must (all (es_rows i) (es_items s)) in
      match k with KFunction => ask (find_row k p (List.concat rows)) | _ => es_other i k p end
  | _ => Panic
  end.
(** child_by_source.rs:127-158 *)
Definition mm_table (d : def) (k : key) (p : ptr) : res def :=
  match d with
  | Top (FMethodmap i) =>
      try s := must (nth_error (methodmaps t) i) in
      try old := must (inherited_rows i) in
      try rows := must (all (mm_rows i) (mm_items s)) in
      match k with KFunction => ask (find_row k p (old ++ List.concat rows)) | _ => mm_other i k p end
  | _ => Panic
  end.
End file.
