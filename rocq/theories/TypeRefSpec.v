(** Array types as element type and number of dimensions. *)
From Coq Require Import List String.
From Verif Require Import TypeRefModel.

(** The type of an array of [t] with [n] dimensions; none of them is [t] itself. *)
Definition array_type (t : type_ref) (n : nat) : type_ref :=
  match n with O => t | S _ => TArray t n end.
(** [t] is not itself an array type: element types never are in the syntax. *)
Definition scalar (t : type_ref) : Prop := forall e n, t <> TArray e n.
(** [n] indexings, with the type [index] gives to one *)
Fixpoint indexed (index : type_ref -> type_ref) (n : nat) (t : type_ref) : type_ref :=
  match n with O => t | S k => indexed index k (index t) end.
