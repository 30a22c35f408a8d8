(** What a virtual file system should be: a map from paths to contents with a log of changes. It
    depends on the history of calls only. *)
From Coq Require Import List NArith Bool String.
From Verif Require Import VfsModel.
Import ListNotations.

(** The last contents set for [p] in a history, None if none or removed. *)
Fixpoint last_set (h : list op) (p : path) (before : option contents) : option contents :=
  match h with
  | [] => before
  | Set_ q c :: tl => last_set tl p (if path_eq_dec q p then c else before)
  | Take :: tl => last_set tl p before
  end.
Definition current (h : list op) (p : path) : option contents := last_set h p None.

(** The kind of change, None if nothing changes. *)
Definition change_kind (old new : option contents) : option kind :=
  match old, new with
  | None, None => None
  | None, Some _ => Some Create
  | Some _, None => Some Delete
  | Some a, Some b => if list_eq_dec N.eq_dec a b then None else Some Modify
  end.

(** [logs h l]: the changes made by the history [h] and not yet taken, oldest first. *)
Inductive logs : list op -> list (path * kind) -> Prop :=
| l_nil : logs [] []
| l_take h l : logs h l -> logs (h ++ [Take]) []
| l_same h l p c : logs h l -> change_kind (current h p) c = None -> logs (h ++ [Set_ p c]) l
| l_change h l p c k : logs h l -> change_kind (current h p) c = Some k ->
    logs (h ++ [Set_ p c]) (l ++ [(p, k)]).
