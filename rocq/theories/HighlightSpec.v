(** Which names in a file are uses of macros, and what an editor is to be told about them.

    A use is a name read from the file, in active code or in a condition, for which a macro is known at
    that point.  Nothing here looks at what the preprocessor records about its expansions. *)
From Coq Require Import List ZArith NArith Bool String Ascii.
From Verif Require Import PreTypes MacroModel EvalModel PreModel RangesSpec SemTokensSpec.
Import ListNotations.
Local Open Scope Z_scope.
Local Open Scope list_scope.

(** where the name is, and the macro's number and file *)
Definition use := (range * (Z * Z))%type.
Definition use_of (y : symbol) (m : macro) : use := (s_range y, (m_idx m, m_file m)).

(** Not a name whatever its text, in a condition. *)
Definition wordless (k : kind) : bool :=
  match k with
  | KLParen | KRParen | KDefined | KOp _ | KTrue | KFalse | KLit _ | KComment _ | KNewline | KEof | KDir _ => true
  | _ => false
  end.

(** ** Conditions *)

(** The name looked at in a condition stands for a macro: after [defined], or to be replaced. *)
Definition known_in_cond (macros : macros_map) (s : evst) (y : symbol) : option macro :=
  if wordless (s_kind y) then None
  else match mget macros (s_text y) with
       | Some m => if e_def s then Some m else if dmem m (e_dis s) then None else Some m
       | None => None
       end.

(** The uses in a condition; a name whose replacement failed is none. *)
Fixpoint cond_uses (fuel : nat) (chk : bool) (xf : nat) (macros : macros_map) (s : evst) : list use :=
  match fuel with
  | O => []
  | S fuel =>
      match e_iter1 chk xf macros s with
      | ENext s' =>
          (match e_stack s, lex_next (e_iter s) with
           | [], Some (y, _) => match known_in_cond macros s y with Some m => [use_of y m] | None => [] end
           | _, _ => []
           end) ++ cond_uses fuel chk xf macros s'
      | _ => []
      end
  end.

(** No name that a macro of the condition was replaced by stands for a macro in turn; no line
    continuation is the name of one. *)
Fixpoint cond_settled (fuel : nat) (chk : bool) (xf : nat) (macros : macros_map) (s : evst) : bool :=
  match fuel with
  | O => true
  | S fuel =>
      match e_iter1 chk xf macros s with
      | ENext s' =>
          (match e_stack s with
           | t :: _ => match known_in_cond macros s (t_sym t) with Some _ => false | None => true end
           | [] => match lex_next (e_iter s) with
                   | Some (y, _) => match s_kind y, known_in_cond macros s y with
                                    | KLineCont, Some _ => false
                                    | _, _ => true
                                    end
                   | None => true
                   end
           end) && cond_settled fuel chk xf macros s'
      | _ => true
      end
  end.

(** the state in which a condition is begun *)
Definition cond_start (dis : list macro) (line_nb : Z) (syms : list symbol) : evst :=
  EvSt [] [] true false [] (Lex (map (fun y => (y, false)) syms) false)
       (Rng (Pos line_nb 0) (Pos line_nb 1000)) [] dis.

(** The directive [y] of the state [s] has a condition that is looked at. *)
Definition looks_at_condition (s : st) (y : symbol) : bool :=
  match s_kind y with
  | KDir MIf => negb (skipping s)
  | KDir MElseif => match conds s with NotActivated :: _ => true | _ => false end
  | _ => false
  end.

(** ** Files *)

(** The name stands for a macro that is to be replaced. *)
Definition known_in_code (s : st) (y : symbol) : option macro :=
  match s_kind y with
  | KIdent =>
      if skipping s then None
      else match intr s with
           | Some IDot => None
           | _ => match mget (macros s) (s_text y) with
                  | Some m => if dmem m (disabled s) then None else Some m
                  | None => None
                  end
           end
  | _ => None
  end.

(** The uses found in one iteration that reads [y] from the file and goes on; [l] is what follows. *)
Definition uses_at (v : env) (fuel : nat) (s : st) (y : symbol) (l : lexer) : list use :=
  if looks_at_condition s y
  then cond_uses fuel (v_chk v) fuel (macros s)
         (cond_start (disabled s) (pline (rstart (s_range y))) (fst (directive_symbols l)))
  else match known_in_code s y with Some m => [use_of y m] | None => [] end.

Fixpoint uses (n : nat) (v : env) (fuel : nat) (s : st) : list use :=
  match n with
  | O => []
  | S n =>
      match step v fuel s with
      | Next s' =>
          (match estack s, lex_next (lex s) with
           | [], Some (y, l) => uses_at v fuel s y l
           | _, _ => []
           end) ++ uses n v fuel s'
      | Stop _ => []
      end
  end.

(** Nothing that a macro was replaced by is a macro in turn or a directive (a macro's text is replaced
    as a whole, but for what stands more than five levels deep, what follows the name of a macro
    with parameters which is used without, and what [defined] asks for). *)
Fixpoint settled (n : nat) (v : env) (fuel : nat) (s : st) : bool :=
  match n with
  | O => true
  | S n =>
      (match estack s with
       | t :: _ => match t_kind t, known_in_code s (t_sym t) with
                   | KDir _, _ | _, Some _ => false
                   | _, None => true
                   end
       | [] =>
           match lex_next (lex s) with
           | Some (y, l) =>
               if looks_at_condition s y
               then cond_settled fuel (v_chk v) fuel (macros s)
                      (cond_start (disabled s) (pline (rstart (s_range y))) (fst (directive_symbols l)))
               else true
           | None => true
           end
       end) && match step v fuel s with Next s' => settled n v fuel s' | Stop _ => true end
  end.

(** The last iteration read a symbol from the file (the end of the file, say), not one that a macro was
    replaced by. *)
Fixpoint stops_in_file (n : nat) (v : env) (fuel : nat) (s : st) : bool :=
  match n with
  | O => false
  | S n =>
      match step v fuel s with
      | Next s' => stops_in_file n v fuel s'
      | Stop _ => match estack s, lex_next (lex s) with [], Some _ => true | _, _ => false end
      end
  end.

(** ** Macros without parameters whose text mentions no macro; [name] tells what may be
    the name of a macro *)

Definition inert (macros : macros_map) (k : kind) (text : string) : bool :=
  match k with
  | KDir _ | KDefined => false
  | _ => match mget macros text with Some _ => false | None => true end
  end.
Definition flat (name : string -> bool) (macros : macros_map) : bool :=
  forallb (fun p => name (fst p) &&
                    match m_params (snd p) with None => true | Some _ => false end &&
                    forallb (fun r => inert macros (r_kind r) (r_text r)) (m_body (snd p))) macros.
(** at every point of a run *)
Fixpoint always_flat (name : string -> bool) (n : nat) (v : env) (fuel : nat) (s : st) : bool :=
  match n with
  | O => true
  | S n => flat name (macros s) && match step v fuel s with Next s' => always_flat name n v fuel s' | Stop _ => true end
  end.
(** Only identifiers are names; [defined], operators and so on have no meaning as one. *)
Definition lexed (name : string -> bool) (y : symbol) : Prop :=
  s_kind y = KIdent \/ wordless (s_kind y) = true \/ name (s_text y) = false.

(** ** The symbols of a file *)

(** Names, keywords and punctuation lie on one line. *)
Definition in_line (y : symbol) : Prop :=
  match s_kind y with
  | KComment _ | KDir _ | KLit _ | KNewline | KEof | KLineCont => True
  | _ => pline (rend (s_range y)) = pline (rstart (s_range y)) /\ pcol (rstart (s_range y)) <= pcol (rend (s_range y))
  end.
Definition exists_pos (p : pos) : Prop := 0 <= pline p /\ 0 <= pcol p.
(** The symbols are in the order of the file. *)
Fixpoint ordered (l : list symbol) : Prop :=
  match l with
  | [] => True
  | y :: tl => in_line y /\ exists_pos (rstart (s_range y)) /\
      Forall (fun z => before (rstart (s_range y)) (rstart (s_range z))) tl /\ ordered tl
  end.

(** ** What the editor shows *)

Definition beforeb (p q : pos) : bool := (pline p <? pline q) || ((pline p =? pline q) && (pcol p <=? pcol q)).
(** The ranges have a position in common (both ends belong to a range). *)
Definition touches (a b : range) : bool :=
  beforeb (rstart a) (rend a) && beforeb (rstart b) (rend b) &&
  beforeb (rstart a) (rend b) && beforeb (rstart b) (rend a).

(** A macro name on the screen: the eighth type of the legend, no modifiers. *)
Definition shown (r : range) : abs_token :=
  Abs (Z.to_N (pline (rstart r))) (Z.to_N (pcol (rstart r))) (Z.to_N (pcol (rend r) - pcol (rstart r))) 7 0.
