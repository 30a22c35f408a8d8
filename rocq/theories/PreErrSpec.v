(** The problems that preprocessing a file finds, event by event. *)
From Coq Require Import List ZArith Bool String.
From Verif Require Import PreTypes MacroModel EvalModel PreModel CondSpec.
Import ListNotations.
Local Open Scope Z_scope.
Local Open Scope list_scope.

(** The condition behind the directive decides something: the #if is in code that is kept, or no branch before the
    #elseif was taken. *)
Definition decides (e : event) : bool :=
  match s_kind (e_sym e) with
  | KDir MIf => kept e
  | KDir MElseif => match conds (e_before e) with NotActivated :: _ => true | _ => false end
  | _ => false
  end.
(** What is wrong with a condition: where it cannot be evaluated, and the macros in it that do not exist. *)
Definition condition_problems (v : env) (fuel : nat) (e : event) : list range * list (string * range) :=
  if decides e then
    match evaluate fuel (v_chk v) (macros (e_before e)) (disabled (e_before e))
            (pline (rstart (s_range (e_sym e)))) (fst (directive_symbols (lex (e_before e)))) with
    | EErr r nf _ _ => ([r], nf)
    | _ => ([], [])
    end
  else ([], []).

(** A path that is not found is a problem of an #include, not of a #tryinclude. *)
Definition missing (v : env) (path : option string) (quoted : bool) (line : Z) (i : incs_t) (m : macros_map) : list (string * Z) :=
  match path with
  | Some p => if snd (v_inc v i m p quoted) then [] else [(p, line)]
  | None => []
  end.
Definition include_problems (v : env) (e : event) : list (string * Z) :=
  let b := e_before e in
  let text := v_trim v (s_inline (e_sym e)) in
  let line := pline (rstart (s_range (e_sym e))) in
  if kept e && kind_eqb (s_kind (e_sym e)) (KDir MInclude) then
    missing v (v_chevron v text) false line (incs b) (macros b) ++
    let (i, m) := match v_chevron v text with
                  | Some p => fst (v_inc v (incs b) (macros b) p false)
                  | None => (incs b, macros b)
                  end in
    missing v (v_quote v text) true line i m
  else [].
