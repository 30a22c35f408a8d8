(** Projects in terms of the known files and their includes only. *)
From Coq Require Import List.
From Verif Require Import GraphModel.
Import ListNotations.

Section spec.
Variable documents : list (nat * extension).
Variable includes : nat -> list (nat * extension).

Definition known (f : nat) : Prop := In f (map fst documents).
Definition includes_directly (a b : nat) : Prop := known a /\ In b (map fst (includes a)).
Inductive reaches : nat -> nat -> Prop :=
| reaches_self a : reaches a a
| reaches_step a b c : includes_directly a b -> reaches b c -> reaches a c.

(** A file that includes something, or that nothing includes. *)
Definition project_root (f : nat) : Prop :=
  (known f \/ exists a, includes_directly a f) /\
  ((exists b, includes_directly f b) \/ ~ exists a, includes_directly a f).
End spec.
