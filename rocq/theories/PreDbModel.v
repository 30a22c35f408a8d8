(** Model of crates/preprocessor/src/db.rs: the queries that preprocess a project. *)
From Coq Require Import List ZArith Bool String.
From Verif Require Import PreTypes MacroModel EvalModel PreModel.
Import ListNotations.
Local Open Scope Z_scope.

(** What the queries read. [w_syms f] are the symbols of file [f] (the lexer is an input, see
    PreTypes). [w_resolve f path quoted] is db.rs:93-101 and 154-162: the extension is completed,
    then a quoted path is looked up next to [f], then in the roots (IncludeModel); [None] is the
    error "Include not found". [w_fuel] bounds the loops of one preprocessing (PreModel). *)
Record world := World {
  w_syms : Z -> list (symbol * bool);
  w_resolve : Z -> string -> bool -> option Z;
  w_chevron : string -> option string;
  w_quote : string -> option string;
  w_trim : string -> string;
  w_chk : bool;
  w_fuel : nat
}.

(** Maps keyed by file id; adding in front replaces, as [insert] and [extend] do. *)
Fixpoint zget {A} (l : list (Z * A)) (k : Z) : option A :=
  match l with
  | [] => None
  | (j, x) :: tl => if j =? k then Some x else zget tl k
  end.
Definition zmem (k : Z) (l : list Z) : bool := existsb (Z.eqb k) l.

(** The callback made for file [f] runs with the lookups of [w]. *)
Definition file_env (w : world) (f : Z)
    (inc : incs_t -> macros_map -> string -> bool -> incs_t * macros_map * bool) : env :=
  Env inc (w_chevron w) (w_quote w) (w_trim w) f (w_chk w).

Definition set_bad (i : incs_t) (t : trouble) : incs_t :=
  Incs (i_results i) (i_being i) (i_outputs i) (i_visits i)
       (match i_bad i with None => Some t | b => b end).

Inductive qres := QOk (results : list (Z * params)) (visits : list Z) | QBad (t : trouble).

(** The macros of one file in a map of output macros, db.rs:118-124 and 163-170. *)
Definition outputs_of (outputs : list (Z * macros_map)) (f : Z) : macros_map :=
  match zget outputs f with Some m => m | None => [] end.

(** db.rs:91-127: the include callback of the first query for file [f]; [rec] is the query itself.
    A failed nested query is noted in [i_bad]; what happens afterwards does not matter. *)
Definition params_inc (w : world) (rec : Z -> macros_map -> list Z -> qres) (f : Z)
    (i : incs_t) (m : macros_map) (path : string) (quoted : bool) : incs_t * macros_map * bool :=
  match w_resolve w f path quoted with
  | None => (i, m, false)
  | Some inc =>
      if zmem inc (i_being i) then (i, m, true)
      else
        match rec inc m (i_being i) with
        | QBad t => (set_bad i t, m, true)
        | QOk res visits =>
            match zget res inc with
            | None => (set_bad i Crash, m, true)
            | Some p =>
                (Incs (res ++ i_results i) (p_being p ++ i_being i) (p_outputs p ++ i_outputs i)
                      (i_visits i ++ visits) (i_bad i),
                 mextend m (outputs_of (p_outputs p) inc), true)
            end
        end
  end.

(** db.rs:133-143 *)
Definition params_finish (f : Z) (m : macros_map) (s : st) : qres :=
  let i := incs s in
  match i_bad i with
  | Some t => QBad t
  | None =>
      QOk ((f, Params m ((f, macros s) :: i_outputs i) (i_being i)) :: i_results i) (i_visits i)
  end.

(** db.rs:78-144 [_preprocess_file_params_query]; [n] bounds the nesting. *)
Fixpoint params_query (n : nat) (w : world) (f : Z) (m : macros_map) (being : list Z) : qres :=
  match n with
  | O => QBad TooDeep
  | S n =>
      match preprocess (file_env w f (params_inc w (params_query n w) f)) (w_fuel w)
              (Incs [] (f :: being) [] [f] None) m (w_syms w f) with
      | FResult s | FError s => params_finish f m s
      | FPanic => QBad Crash
      | FFuel => QBad Endless
      end
  end.

(** db.rs:152-173: the include callback of the second query. *)
Definition data_inc (w : world) (p : params) (f : Z)
    (i : incs_t) (m : macros_map) (path : string) (quoted : bool) : incs_t * macros_map * bool :=
  match w_resolve w f path quoted with
  | None => (i, m, false)
  | Some inc => (i, mextend m (outputs_of (p_outputs p) inc), true)
  end.

(** db.rs:146-179 [_preprocess_file_data_query] *)
Definition data_query (w : world) (f : Z) (p : params) : final :=
  preprocess (file_env w f (data_inc w p f)) (w_fuel w) no_incs (p_input p) (w_syms w f).

(** db.rs:50-70 [preprocess_file_query]; [root] is the root of the file's project. [PRaw]: the text
    of the file is used as it is. *)
Inductive presult := PRaw | PRun (r : final) | PBad (t : trouble).
Definition preprocess_file (n : nat) (w : world) (root : option Z) (f : Z) : presult :=
  match root with
  | None => PRaw
  | Some r =>
      match params_query n w r [] [] with
      | QBad t => PBad t
      | QOk res _ =>
          match zget res f with
          | None => PRaw
          | Some p => PRun (data_query w f p)
          end
      end
  end.
