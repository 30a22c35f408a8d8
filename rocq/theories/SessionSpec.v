(** The expected order of handling: messages in order of arrival, except the replies to the
    configuration request of the start, first those that arrived before that reply. *)
From Coq Require Import List Bool String.
From Verif Require Import SessionModel.
Import ListNotations.
Local Open Scope string_scope.

Section Spec.
Variables json other : Type.
Variable as_list : json -> option (list json).
Notation message := (message json).
Notation event := (event json other).

Definition is_reply (m : message) : bool :=
  match m with MResponse _ i _ => String.eqb i "initial_config_pull" | _ => false end.
(** a reply that carries a list of settings *)
Definition usable (m : message) : bool :=
  match m with
  | MResponse _ i (Some v) => String.eqb i "initial_config_pull" && match as_list v with Some _ => true | None => false end
  | _ => false
  end.

(** the events after the start, as the channels deliver them *)
Fixpoint deliver (sched : list (choice other)) (inbox : list message) : list event :=
  match sched with
  | [] => []
  | TakeOther _ o :: tl => Other _ _ o :: deliver tl inbox
  | TakeLsp _ :: tl => match inbox with [] => [] | m :: inbox => Lsp _ _ m :: deliver tl inbox end
  end.

(** the events up to the notification to exit *)
Fixpoint before_exit (l : list event) : list event :=
  match l with
  | [] => []
  | e :: tl => if is_exit _ _ e then [] else e :: before_exit tl
  end.

Definition lsp_messages (l : list event) : list message :=
  flat_map (fun e => match e with Lsp _ _ m => [m] | Other _ _ _ => [] end) l.

Definition handled (e : ended json other) : list event :=
  match e with Returned _ _ h => h | Waiting _ _ h _ => h end.
End Spec.
