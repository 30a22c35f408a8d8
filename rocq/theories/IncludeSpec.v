(** Which file an include directive means. A place on disk is the list of names from the root of
    the file system. *)
From Coq Require Import List Ascii String Bool.
From Verif Require Import PathsSpec.
Import ListNotations.
Local Open Scope list_scope.

Definition name := list ascii.
Definition place := list name.

(** Where the pieces of a written path lead from a place. *)
Inductive moves : place -> list name -> place -> Prop :=
| m_done p : moves p [] p
| m_stay p x xs q : x = [] \/ x = list_ascii_of_string "." -> moves p xs q -> moves p (x :: xs) q
| m_up p d xs q : moves p xs q -> moves (p ++ [d]) (list_ascii_of_string ".." :: xs) q
| m_up_root xs q : moves [] xs q -> moves [] (list_ascii_of_string ".." :: xs) q
| m_down p x xs q : proper_name x -> moves (p ++ [x]) xs q -> moves p (x :: xs) q.

(** [names dir w p]: the written path [w], used in the directory [dir], names the place [p]. *)
Definition names (dir : place) (w : list ascii) (p : place) : Prop :=
  exists xs, written xs w /\
    match w with
    | c :: _ => if ascii_dec c sl then moves [] xs p else moves dir xs p
    | [] => moves dir xs p
    end.

(** The path looked for: ".inc" is appended unless the path ends in ".sp" or ".inc". *)
Definition has_suffix (w s : list ascii) : Prop := exists p, w = p ++ s.
Definition sp_name (w : list ascii) : Prop := has_suffix w (list_ascii_of_string ".sp").
Definition inc_name (w : list ascii) : Prop := has_suffix w (list_ascii_of_string ".inc").
Definition completed (w w' : list ascii) : Prop :=
  ((sp_name w \/ inc_name w) -> w' = w) /\
  ((~ sp_name w /\ ~ inc_name w) -> w' = w ++ list_ascii_of_string ".inc").

(** The files on disk and the configured roots, in order. *)
Record world := World { on_disk : list (place * nat); roots : list place }.

Definition inside (root p : place) : Prop := exists rest, p = root ++ rest.

(** A candidate: look in directory [c_dir], but only at files inside [c_root]. *)
Record candidate := Candidate { c_dir : place; c_root : place }.
Definition offers (W : world) (w : list ascii) (c : candidate) (f : nat) : Prop :=
  exists p, names (c_dir c) w p /\ In (p, f) (on_disk W) /\ inside (c_root c) p.

(** The search order: the directory of the including file for quotes, then the roots. *)
Definition from_roots (W : world) : list candidate := map (fun r => Candidate r r) (roots W).
Definition candidates (W : world) (quoted : bool) (dir home : place) : list candidate :=
  if quoted then Candidate dir home :: from_roots W else from_roots W.

(** The first candidate that offers a file. *)
Inductive first_offer (W : world) (w : list ascii) : list candidate -> nat -> Prop :=
| fo_here c cs f : offers W w c f -> first_offer W w (c :: cs) f
| fo_later c cs f : (forall g, ~ offers W w c g) -> first_offer W w cs f -> first_offer W w (c :: cs) f.
Definition no_offer (W : world) (w : list ascii) (cs : list candidate) : Prop :=
  forall c f, In c cs -> ~ offers W w c f.

(** What the regular expression OPEN([^>]+)CLOSE captures in a text: at the first place where it matches at all,
    the longest possible group. *)
Definition group_at (open close : ascii) (t g : list ascii) : Prop :=
  g <> [] /\ ~ In ">"%char g /\ exists rest, t = open :: g ++ close :: rest.
Definition captured (open close : ascii) (t g : list ascii) : Prop :=
  exists pre s, t = pre ++ s /\ group_at open close s g /\
    (forall g', group_at open close s g' -> List.length g' <= List.length g) /\
    (forall pre' s' g', t = pre' ++ s' -> List.length pre' < List.length pre -> ~ group_at open close s' g').
