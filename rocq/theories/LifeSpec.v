(** Which file an include means, given the files that exist and the configured directories. *)
From Coq Require Import List NArith Bool String.
From Verif Require Import VfsModel SyncModel SyncSpec LifeModel.
Import ListNotations.
Local Open Scope string_scope.
Local Open Scope list_scope.

(** The updates and drains of a history, and the directories configured in the end. *)
Fixpoint files_of (h : list happening) : list event :=
  match h with
  | [] => []
  | Files e :: tl => e :: files_of tl
  | Configure _ :: tl => files_of tl
  end.
Fixpoint dirs_after (dirs : list path) (h : list happening) : list path :=
  match h with
  | [] => dirs
  | Files _ :: tl => dirs_after dirs tl
  | Configure dirs :: tl => dirs_after dirs tl
  end.
Definition configures (h : list happening) : Prop := exists dirs, In (Configure dirs) h.

(** Where the components of a relative path lead. *)
Inductive leads : path -> list string -> path -> Prop :=
| l_done p : leads p [] p
| l_stay p c q t : c = "." \/ c = "" -> leads p q t -> leads p (c :: q) t
| l_up p d q t : leads p q t -> leads (p ++ [d]) (".." :: q) t
| l_top q t : leads [] q t -> leads [] (".." :: q) t
| l_down p c q t : c <> "." -> c <> "" -> c <> ".." -> leads (p ++ [c]) q t -> leads p (c :: q) t.

(** One place to look: start in [fst c], and only take files under [snd c]. *)
Definition offers (h : list event) (q : list string) (c : path * path) (t : path) : Prop :=
  leads (fst c) q t /\ contents_after h t <> None /\ under t (snd c).
Inductive first_offer (h : list event) (q : list string) : list (path * path) -> path -> Prop :=
| o_here c cs t : offers h q c t -> first_offer h q (c :: cs) t
| o_later c cs t : (forall u, ~ offers h q c u) -> first_offer h q cs t -> first_offer h q (c :: cs) t.

(** The file meant by the path [q] in [p], whose own directory lies in the configured [home]: the one
    next to [p] when written with quotes, or else the one in the first directory that has it. *)
Definition meant (h : list event) (dirs : list path) (home p : path) (quoted : bool) (q : list string) : path -> Prop :=
  first_offer h q ((if quoted then [(removelast p, home)] else []) ++ map (fun r => (r, r)) dirs).

(** At the end of [h] a file exists that did not at the last drain, or the other way round. *)
Definition came_or_went (h : list event) : Prop :=
  exists h1 b p, h = h1 ++ b /\ batch_start h1 /\ no_drain b /\ there h1 p <> there h p.

(** The settings did not change since the start, or since a drain with files that came or went. *)
Definition taken_over (h : list happening) : Prop :=
  ~ configures h \/
  exists h0 h1, h = h0 ++ Files Drain :: h1 /\ came_or_went (files_of h0) /\ ~ configures h1.

(** No file goes to and fro between two drains. *)
Definition calm (h : list happening) : Prop := forall b p, ~ flickers b (files_of h) p.

(** Whenever the changes are drained, the existing files lie in the configured directories. *)
Definition covered (dirs : list path) (h : list happening) : Prop :=
  forall h0 h1, h = h0 ++ Files Drain :: h1 -> forall p, contents_after (files_of h0) p <> None ->
  exists r, In r (dirs_after dirs h0) /\ under p r.
