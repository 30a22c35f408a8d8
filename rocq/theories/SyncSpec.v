(** What draining file changes should achieve, in terms of the history of updates only. *)
From Coq Require Import List NArith Bool String.
From Verif Require Import VfsModel VfsSpec LineEndSpec Utf8 SyncModel.
Import ListNotations.

(** The last contents given for [p]. *)
Definition as_op (e : event) : op := match e with Update p c => Set_ p c | Drain => Take end.
Definition contents_after (h : list event) (p : path) : option contents := current (map as_op h) p.

(** The text the analysis should hold for a file with these contents: the decoded text with LF line
    ends; the empty text for contents that are not UTF-8 and for a removed file; none is also fine
    for a file that does not exist. *)
Inductive holds : option contents -> option (list N) -> Prop :=
| h_text c t : is_utf8 c -> normalized c t -> holds (Some c) (Some t)
| h_binary c : ~ is_utf8 c -> holds (Some c) (Some [])
| h_removed : holds None (Some [])
| h_never : holds None None.

Definition no_drain (b : list event) : Prop := ~ In Drain b.
Definition batch_start (h : list event) : Prop := h = [] \/ exists h', h = h' ++ [Drain].

(** [flickers b h p]: between two drains of [h], [p] existed (b = true) or not (b = false) at the
    first one, then not, then again, and finally not again at the second one. *)
Definition there (h : list event) (p : path) : bool :=
  match contents_after h p with Some _ => true | None => false end.
Definition flickers (b : bool) (h : list event) (p : path) : Prop :=
  exists h1 b1 b2 b3 h2,
    h = h1 ++ b1 ++ b2 ++ b3 ++ Drain :: h2 /\ batch_start h1 /\ no_drain (b1 ++ b2 ++ b3) /\
    there h1 p = b /\ there (h1 ++ b1) p = negb b /\ there (h1 ++ b1 ++ b2) p = b /\
    there (h1 ++ b1 ++ b2 ++ b3) p = negb b.

(** [r] is the last of the configured roots that contain [p]. *)
Definition under (p r : path) : Prop := exists rest, p = r ++ rest.
Definition last_containing (roots : list path) (p r : path) : Prop :=
  exists a b, roots = a ++ r :: b /\ under p r /\ forall x, In x b -> ~ under p x.

(** [p] names a SourcePawn source or include file: its last component is a non-empty stem, a dot and
    "sp" or "inc". *)
Definition extension_text (e : extension) : string := match e with Sp => "sp" | Inc => "inc" end.
Definition sourcepawn_file (p : path) (e : extension) : Prop :=
  exists dir stem, p = dir ++ [(stem ++ "." ++ extension_text e)%string] /\ stem <> ""%string.
