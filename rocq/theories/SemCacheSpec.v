(** The client's side for C03. *)
From Coq Require Import List NArith.
From Verif Require Import SemTokensModel SemTokensSpec SemCacheModel.
Import ListNotations.
Local Open Scope N_scope.

(** A client keeps, per result id it received, the integer array it ended up with: the data of a
    full reply, or the edits applied to the array it held under the id it had named. *)
Definition client_step (view : N -> option (list N)) (r : reply) : N -> option (list N) :=
  match r with
  | RFull id toks => upd view id (Some (flatten toks))
  | RDelta prev id es =>
      upd view id (option_map (fun arr => apply_edits arr es) (view prev))
  end.

Definition client_view (l : list reply) : N -> option (list N) :=
  fold_left client_step l (fun _ => None).

(** A client that only names result ids it has received. *)
Fixpoint honest_from (s : state) (acts : list action) : Prop :=
  match acts with
  | [] => True
  | a :: tl =>
      match a with
      | Start _ _ (Some p) _ => In p (map reply_id (log s))
      | _ => True
      end /\ honest_from (step s a) tl
  end.

Definition honest (acts : list action) : Prop := honest_from init acts.
