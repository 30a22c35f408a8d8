(** What the compiler printed, and the lines of a text. *)
From Coq Require Import List NArith Bool.
From Verif Require Import Utf8 StreamModel.
Import ListNotations.
Local Open Scope N_scope.

(** All the bytes read from a pipe, up to its end *)
Fixpoint printed (rs : list ready) : list N :=
  match rs with
  | [] => []
  | NotReady :: tl => printed tl
  | Read bs eof :: tl => if eof then bs else bs ++ printed tl
  end.

(** A line as the compiler prints it: without line break, not ending in a carriage return *)
Definition plain (l : list N) : Prop := ~ In NL l /\ (forall l', l <> l' ++ [CR]) /\ Forall scalar l.

(** The text consisting of the lines [ls], each ended by a line feed, and an unended last line (possibly empty) *)
Definition text (ls : list (list N)) (last : list N) : list N := concat (map (fun l => l ++ [NL]) ls) ++ last.
