(** Members of a methodmap along its inheritance chain. *)
From Coq Require Import List String.
From Verif Require Import MethodmapModel.
Import ListNotations.

Section spec.
Variable w : world.

Definition parent (id p : nat) : Prop :=
  exists n, d_inherits (decl_of w id) = Some n /\ resolves w (d_file (decl_of w id)) n = Some (AMethodmap p).

(** The declaration of [n] in force in [id] itself: the last one, should there be several. *)
Definition own (id : nat) (n : name) (x : member) : Prop :=
  exists before after, d_items (decl_of w id) = before ++ (n, x) :: after /\ forall y, ~ In (n, y) after.
Definition declares (id : nat) (n : name) : Prop := exists x, In (n, x) (d_items (decl_of w id)).

(** Member [n] of [id]: its own, else that of the nearest ancestor declaring one. *)
Inductive member_of : nat -> name -> member -> Prop :=
| mo_own id n x : own id n x -> member_of id n x
| mo_inherited id p n x : ~ declares id n -> parent id p -> member_of p n x -> member_of id n x.

(** Going from parent to parent comes to an end. *)
Inductive grounded : nat -> Prop :=
| grounded_here id : (forall p, parent id p -> grounded p) -> grounded id.

(** [ancestor id a]: [a] is reached from [id] by one or more steps. *)
Inductive ancestor : nat -> nat -> Prop :=
| an_one id p : parent id p -> ancestor id p
| an_more id p a : parent id p -> ancestor p a -> ancestor id a.
End spec.
