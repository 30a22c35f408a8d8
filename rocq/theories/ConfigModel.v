(** The server's settings: crates/sourcepawn_lsp/src/config.rs. *)
From Coq Require Import List Ascii String Bool NArith ZArith.
Import ListNotations.

(** ** serde_json *)

(** [serde_json::Value]. A number is [PosInt], [NegInt] or [Float]; the value of the last two is
    not needed. An object is the list of its entries. *)
Inductive json :=
| JNull
| JBool (b : bool)
| JPos (n : N)
| JNeg (n : N)
| JFloat
| JStr (s : string)
| JArr (l : list json)
| JObj (kvs : list (string * json)).

(** serde_json [parse_index]: an array index inside a pointer. *)
Definition digit (c : ascii) : option N :=
  let n := N_of_ascii c in if (48 <=? n)%N && (n <=? 57)%N then Some (n - 48)%N else None.
Fixpoint number (acc : N) (s : string) : option N :=
  match s with
  | EmptyString => Some acc
  | String c s' => match digit c with Some d => number (10 * acc + d)%N s' | None => None end
  end.
Definition parse_index (s : string) : option nat :=
  match s with
  | EmptyString => None
  | String c s' =>
      if Ascii.eqb c "+" || (Ascii.eqb c "0" && negb (String.eqb s' "")) then None
      else option_map N.to_nat (number 0 s)
  end.

Fixpoint member (k : string) (kvs : list (string * json)) : option json :=
  match kvs with
  | [] => None
  | (k', v) :: tl => if String.eqb k' k then Some v else member k tl
  end.
Fixpoint set_member (k : string) (v : json) (kvs : list (string * json)) : list (string * json) :=
  match kvs with
  | [] => []
  | (k', v') :: tl => if String.eqb k' k then (k', v) :: tl else (k', v') :: set_member k v tl
  end.
Fixpoint set_nth (i : nat) (v : json) (l : list json) : list json :=
  match l, i with
  | [], _ => []
  | _ :: tl, O => v :: tl
  | x :: tl, S i' => x :: set_nth i' v tl
  end.

(** [Value::pointer_mut] followed by [take]: the value found there, and the document in which it
    is replaced by null. *)
Fixpoint take_at (toks : list string) (j : json) : option (json * json) :=
  match toks with
  | [] => Some (j, JNull)
  | t :: ts =>
      match j with
      | JObj kvs =>
          match member t kvs with
          | Some c => match take_at ts c with
                      | Some (v, c') => Some (v, JObj (set_member t c' kvs))
                      | None => None
                      end
          | None => None
          end
      | JArr l =>
          match parse_index t with
          | Some i => match nth_error l i with
                      | Some c => match take_at ts c with
                                  | Some (v, c') => Some (v, JArr (set_nth i c' l))
                                  | None => None
                                  end
                      | None => None
                      end
          | None => None
          end
      | _ => None
      end
  end.

(** [str::split('/').skip(1)]; the escapes ~0 and ~1 do not occur in the names of the settings. *)
Fixpoint split_on (c : ascii) (s : string) : list string :=
  match s with
  | EmptyString => [EmptyString]
  | String d s' =>
      if Ascii.eqb d c then EmptyString :: split_on c s'
      else match split_on c s' with
           | x :: xs => String d x :: xs
           | [] => [String d EmptyString]
           end
  end.
Definition pointer_tokens (pointer : string) : list string := tl (split_on "/" pointer).
Fixpoint replace (a b : ascii) (s : string) : string :=
  match s with
  | EmptyString => EmptyString
  | String c s' => String (if Ascii.eqb c a then b else c) (replace a b s')
  end.

(** [serde_json::from_value] at the types that occur; a failure carries a message we do not model. *)
Definition decode (T : Type) := json -> option T.
Definition de_bool : decode bool := fun j => match j with JBool b => Some b | _ => None end.
Definition de_string : decode string := fun j => match j with JStr s => Some s | _ => None end.
Definition de_u8 : decode N := fun j => match j with JPos n => if (n <=? 255)%N then Some n else None | _ => None end.
Definition de_usize : decode N := fun j => match j with JPos n => if (n <? 2 ^ 64)%N then Some n else None | _ => None end.
Fixpoint all_some {A B} (f : A -> option B) (l : list A) : option (list B) :=
  match l with
  | [] => Some []
  | x :: tl => match f x with Some y => option_map (cons y) (all_some f tl) | None => None end
  end.
Definition de_vec {T} (d : decode T) : decode (list T) := fun j => match j with JArr l => all_some d l | _ => None end.
Definition de_option {T} (d : decode T) : decode (option T) := fun j => match j with JNull => Some None | _ => option_map Some (d j) end.

(** ** config.rs *)

(** config.rs:344-379 [get_field]. The candidates are tried lazily: [filter_map] yields the decoded
    value of a pointer that exists, [find(Result::is_ok)] drops the failures, so the [Err] arm
    behind it is never reached. The errors are those of [error_sink]. The inner [option] is the
    panic for a default that cannot be decoded; the text of the default is given parsed. *)
Fixpoint get_candidates {T} (de : decode T) (names : list string) (j : json) : option (T + string) * json :=
  match names with
  | [] => (None, j)
  | n :: ns =>
      let pointer := String "/" (replace "_" "/" n) in
      match take_at (pointer_tokens pointer) j with
      | None => get_candidates de ns j
      | Some (v, j') =>
          let res := match de v with Some x => inl x | None => inr pointer end in
          match res with
          | inl x => (Some (inl x), j')
          | inr _ => get_candidates de ns j'
          end
      end
  end.
Definition get_field {T} (de : decode T) (field : string) (alias : option string) (default : json)
    (st : json * list string) : option (T * (json * list string)) :=
  let '(j, errors) := st in
  let '(found, j') := get_candidates de ((match alias with Some a => [a] | None => [] end) ++ [field]) j in
  let '(chosen, errors') := match found with
                            | Some (inl x) => (Some x, errors)
                            | Some (inr pointer) => (None, errors ++ [pointer])
                            | None => (None, errors)
                            end in
  match chosen with
  | Some x => Some (x, (j', errors'))
  | None => option_map (fun x => (x, (j', errors'))) (de default)
  end.

(** config.rs:36-56 [ConfigData]. *)
Record config_data := ConfigData {
  cachePriming_enable : bool;
  cachePriming_numThreads : N;
  compiler_arguments : list string;
  compiler_onSave : bool;
  compiler_path : option string;
  includeDirectories : list string;
  linter_disable : bool;
  numThreads : option N }.

(** config.rs:274-341, the code generated for [from_json]. *)
Notation "'let?' p := e 'in' k" := (match e with Some p => k | None => None end) (at level 200, p pattern, k at level 200).
Definition from_json (j : json) : option (config_data * list string) :=
  let s := (j, []) in
  let? (a, s) := get_field de_bool "cachePriming_enable" None (JBool true) s in
  let? (b, s) := get_field de_u8 "cachePriming_numThreads" None (JPos 0) s in
  let? (c, s) := get_field (de_vec de_string) "compiler_arguments" None (JArr []) s in
  let? (d, s) := get_field de_bool "compiler_onSave" None (JBool true) s in
  let? (e, s) := get_field (de_option de_string) "compiler_path" None JNull s in
  let? (f, s) := get_field (de_vec de_string) "includeDirectories" None (JArr []) s in
  let? (g, s) := get_field de_bool "linter_disable" None (JBool false) s in
  let? (h, s) := get_field (de_option de_usize) "numThreads" None JNull s in
  Some (ConfigData a b c d e f g h, snd s).

(** config.rs:112-127 [Config::update] on the [data] of the configuration, with the errors it
    returns; an empty list is [Ok]. *)
Definition update (data : config_data) (j : json) : option (config_data * list string) :=
  match j with
  | JNull | JObj [] => Some (data, [])
  | _ => from_json j
  end.

(** config.rs:59-63 [Default]. *)
Definition default_data : option config_data := option_map fst (from_json JNull).

(** config.rs:174-179; [cpus] is what num_cpus reports. *)
Definition prime_caches_num_threads (cpus : N) (d : config_data) : N :=
  match cachePriming_numThreads d with
  | 0%N => if (cpus <=? 255)%N then cpus else 255%N
  | n => n
  end.

(** config.rs:163-172, on Unix. *)
Definition include_directories (d : config_data) : list string :=
  filter (fun p => match p with String c _ => Ascii.eqb c "/" | EmptyString => false end) (includeDirectories d).
