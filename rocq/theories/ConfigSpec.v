(** The meaning of a configuration document. *)
From Coq Require Import List String NArith.
From Verif Require Import ConfigModel.
Import ListNotations.

(** The document holds [v] under the keys [ks], outermost first. *)
Inductive holds : json -> list string -> json -> Prop :=
| holds_here v : holds v [] v
| holds_in kvs k c ks v : In (k, c) kvs -> holds c ks v -> holds (JObj kvs) (k :: ks) v.

(** No object of the document has a key twice. *)
Inductive sound : json -> Prop :=
| sound_atom j : (forall l, j <> JArr l) -> (forall kvs, j <> JObj kvs) -> sound j
| sound_arr l : Forall sound l -> sound (JArr l)
| sound_obj kvs : NoDup (map fst kvs) -> Forall (fun e => sound (snd e)) kvs -> sound (JObj kvs).

(** Which JSON values stand for which values of a type. *)
Definition is_bool (j : json) (b : bool) : Prop := j = JBool b.
Definition is_string (j : json) (s : string) : Prop := j = JStr s.
Definition is_below (m : N) (j : json) (n : N) : Prop := j = JPos n /\ (n < m)%N.
Definition is_list {T} (R : json -> T -> Prop) (j : json) (xs : list T) : Prop := exists l, j = JArr l /\ Forall2 R l xs.
Definition is_optional {T} (R : json -> T -> Prop) (j : json) (x : option T) : Prop :=
  match x with None => j = JNull | Some y => R j y end.

(** The setting under the keys [ks] is [x]: its value if it is there with the right type, else the
    default [d]. *)
Definition setting {T} (R : json -> T -> Prop) (j : json) (ks : list string) (d x : T) : Prop :=
  (exists v, holds j ks v /\ R v x) \/ ((forall v y, holds j ks v -> ~ R v y) /\ x = d).

Local Open Scope string_scope.
Definition configured (j : json) (c : config_data) : Prop :=
  setting is_bool j ["cachePriming"; "enable"] true (cachePriming_enable c) /\
  setting (is_below 256) j ["cachePriming"; "numThreads"] 0%N (cachePriming_numThreads c) /\
  setting (is_list is_string) j ["compiler"; "arguments"] [] (compiler_arguments c) /\
  setting is_bool j ["compiler"; "onSave"] true (compiler_onSave c) /\
  setting (is_optional is_string) j ["compiler"; "path"] None (compiler_path c) /\
  setting (is_list is_string) j ["includeDirectories"] [] (includeDirectories c) /\
  setting is_bool j ["linter"; "disable"] false (linter_disable c) /\
  setting (is_optional (is_below (2 ^ 64))) j ["numThreads"] None (numThreads c).

(** A setting that is there but has the wrong type. *)
Definition ill_typed (j : json) (ks : list string) : Prop :=
  exists v, holds j ks v /\
    match ks with
    | ["cachePriming"; "enable"] | ["compiler"; "onSave"] | ["linter"; "disable"] => forall b, ~ is_bool v b
    | ["cachePriming"; "numThreads"] => forall n, ~ is_below 256 v n
    | ["compiler"; "arguments"] | ["includeDirectories"] => forall l, ~ is_list is_string v l
    | ["compiler"; "path"] => forall o, ~ is_optional is_string v o
    | ["numThreads"] => forall o, ~ is_optional (is_below (2 ^ 64)) v o
    | _ => False
    end.
