(** Model of crates/hir-def/src/hir/type_ref.rs. Names are strings. *)
From Coq Require Import List String.
Import ListNotations.

(** type_ref.rs:7-40 *)
Inductive type_ref :=
| TName (n : string) | TOldName (n : string) | TInt | TBool | TFloat | TChar | TVoid | TAny
| TOldString | TOldFloat | TArray (t : type_ref) (size : nat).

(** The children of a return type node (type_ref.rs:66-77): a dimension, fixed or not, or a type. *)
Inductive type_child := CDimension | CType (t : type_ref).

(** type_ref.rs:63-87 *)
Definition from_returntype_node (children : list type_child) : option type_ref :=
  let step acc c :=
    match c with
    | CDimension => (fst acc, S (snd acc))
    | CType t => (Some t, snd acc)
    end in
  let (ty, size) := fold_left step children (None, O) in
  match ty with
  | Some t => if Nat.ltb 0 size then Some (TArray t size) else Some t
  | None => None
  end.

(** type_ref.rs:89-100 *)
Definition to_lower_dim (t : type_ref) : type_ref :=
  match t with
  | TArray e size => if Nat.ltb 1 size then TArray e (size - 1) else t
  | _ => t
  end.

Fixpoint repeat_text (n : nat) (s : string) : string :=
  match n with O => EmptyString | S k => (s ++ repeat_text k s)%string end.

(** type_ref.rs:102-120 *)
Fixpoint to_str (t : type_ref) : string :=
  match t with
  | TName n => n
  | TOldName n => (n ++ ":")%string
  | TInt => "int" | TBool => "bool" | TFloat => "float" | TChar => "char" | TVoid => "void"
  | TAny => "any" | TOldString => "String" | TOldFloat => "Float"
  | TArray t size => (to_str t ++ repeat_text size "[]")%string
  end.
