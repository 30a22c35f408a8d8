(** What the profiler should print of a run of nested spans. *)

From Coq Require Import String Ascii List Arith NArith Bool Sorted DecimalString OrderedTypeEx.
From Verif Require Import ProfileModel.
Import ListNotations.

(** A span with the spans opened and closed inside it, in order. *)
Inductive span := Span (m : message) (inner : list span).

Definition said (s : span) : message := let 'Span m _ := s in m.
Definition took (s : span) : N := m_duration (said s).
Definition named (s : span) : string := m_label (said s).

Fixpoint size (s : span) : nat :=
  match s with Span _ l => S (list_sum (map size l)) end.

(** Opening and closing spans one after the other. *)
Inductive event := Open | Close (m : message).

Fixpoint events (s : span) : list event :=
  match s with Span m l => Open :: flat_map events l ++ [Close m] end.

Fixpoint follow (l : list event) (t : tree) : option tree :=
  match l with
  | [] => Some t
  | Open :: r => match start t with Some t => follow r t | None => None end
  | Close m :: r => match finish m t with Some t => follow r t | None => None end
  end.

Definition total (l : list span) : N := fold_right N.add 0%N (map took l).

(** Clocks do not run backwards: what happens inside a span takes no longer
    than the span. *)
Inductive timed : span -> Prop :=
| timed_span m l : Forall timed l -> (total l <= m_duration m)%N -> timed (Span m l).

(** More whole milliseconds than the limit. *)
Definition long (limit : N) (s : span) : bool := (limit / 1000000 <? took s / 1000000)%N.

Definition called (x : string) (s : span) : bool := String.eqb (named s) x.

Definition number (n : N) : string := DecimalString.NilEmpty.string_of_uint (N.to_uint n).

(** A line: four spaces for each level, whole milliseconds set to the right in a column
    of five with their unit behind, or a zero without one, and a text. *)
Definition spaces (n : nat) : string := string_of_list_ascii (repeat " "%char n).

Definition time (d : N) : string :=
  let n := (d / 1000000)%N in
  (spaces (5 - String.length (number n)) ++ number n ++ (if (n =? 0)%N then "  " else "ms"))%string.

Definition line (level : nat) (d : N) (text : string) : string :=
  (spaces (4 * level) ++ time d ++ " - " ++ text)%string.

Definition titled (m : message) : string :=
  match m_detail m with Some d => (m_label m ++ " @ " ++ d)%string | None => m_label m end.

(** What is printed of a span: a line of its own; below it, one level deeper,
    the inner spans longer than the limit, in order; then one line for each name
    of the others, names in order, with how long they took together and how many
    they are; then what is left of the span's time, if it is longer than the limit
    and there are inner spans. *)
Inductive report (limit : N) : nat -> span -> list string -> Prop :=
| report_span level m l below names :
    Forall2 (report limit (S level)) (List.filter (long limit) l) below ->
    StronglySorted String_as_OT.lt names ->
    (forall x, In x names <-> exists s, In s l /\ long limit s = false /\ named s = x) ->
    report limit level (Span m l)
      (line level (m_duration m) (titled m) :: List.concat below ++
       map (fun x =>
              let short := List.filter (fun s => negb (long limit s) && called x s)%bool l in
              line (S level) (total short) (x ++ " (" ++ number (N.of_nat (List.length short)) ++ " calls)")%string) names ++
       (if (negb (Nat.eqb (List.length l) 0) && (limit <? m_duration m - total l)%N)%bool
        then [line (S level) (m_duration m - total l)%N "???"] else [])).

(** The spans a filter keeps of a call made while [d] spans are open: outside of
    all spans only those of a name asked for start one, and there are at most one
    more than the depth asked for inside each other. *)
Definition wanted (f : ProfileModel.filter) (x : string) : bool :=
  match f_allowed f with [] => true | l => existsb (String.eqb x) l end.

Fixpoint kept (f : ProfileModel.filter) (d : nat) (c : call) : list span :=
  match c with
  | Call m inner =>
      if f_depth f <? d then []
      else if (Nat.eqb d 0 && negb (wanted f (m_label m)))%bool then flat_map (kept f d) inner
      else [Span m (flat_map (kept f (S d)) inner)]
  end.

(** Levels of spans. *)
Fixpoint levels (s : span) : nat :=
  match s with Span _ l => S (list_max (map levels l)) end.

(** Clocks do not run backwards, said of calls. *)
Inductive punctual : call -> Prop :=
| punctual_call m inner :
    Forall punctual inner ->
    (fold_right N.add 0 (map (fun c => let 'Call m _ := c in m_duration m) inner) <= m_duration m)%N ->
    punctual (Call m inner).

(** How a filter is written: names with bars between them, or a star for all of
    them, then, if wanted, the depth after an at sign and the limit in milliseconds after
    a greater-than sign. *)
Definition plain (s : string) : Prop :=
  forall c, In c (list_ascii_of_string s) -> c <> "|"%char /\ c <> "@"%char /\ c <> ">"%char.

Definition written (names : list string) (depth limit : option N) : string :=
  ((match names with [] => "*" | _ => String.concat "|" names end) ++
   (match depth with Some d => "@" ++ number d | None => "" end) ++
   (match limit with Some d => ">" ++ number d | None => "" end))%string.
