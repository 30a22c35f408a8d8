(** What a truthful readiness status is. *)
From Coq Require Import List Bool Arith.
From Verif Require Import StatusModel.
Import ListNotations.

(** Every entry of the most recent configuration has been loaded and handled *)
Definition all_loaded (s : state) : Prop :=
  forall n i, nth_error (sizes s) (length (sizes s) - 1) = Some n -> i < n -> In (Loaded (length (sizes s)) i) (handled s).

(** Nothing is left to load or to handle *)
Definition settled (s : state) : Prop := to_loader s = [] /\ loading s = None /\ from_loader s = [].

(** The statuses the client was told, oldest first *)
Definition told (s : state) : list status :=
  flat_map (fun e => match e with Notify st => [st] | _ => [] end) (effects s).

(** each differs from the one before *)
Fixpoint all_changes (l : list status) : Prop :=
  match l with
  | a :: ((b :: _) as tl) => a <> b /\ all_changes tl
  | _ => True
  end.
