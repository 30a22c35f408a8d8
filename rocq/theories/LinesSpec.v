(** Line numbers before and after preprocessing. *)
From Coq Require Import List ZArith Bool String Ascii.
From Verif Require Import PreTypes PreModel CondSpec.
Import ListNotations.
Local Open Scope Z_scope.

Fixpoint newlines (s : string) : nat :=
  match s with
  | EmptyString => O
  | String c tl => if Ascii.eqb c "010"%char then S (newlines tl) else newlines tl
  end.

(** Line ends in the text produced so far. *)
Definition written (s : st) : nat := newlines (join_lines (out s ++ [cur_line s])).

(** Line ends in the source: whitespace between symbols has none. *)
Definition source_newlines (syms : list (symbol * bool)) : nat :=
  list_sum (map (fun y => newlines (s_text (fst y))) syms).

(** * What is assumed of the lexer *)

(** Symbols that may be written over several lines. *)
Definition spans (k : kind) : bool :=
  match k with
  | KComment _ | KLineCont | KLit _ | KDir MInclude | KDir MTryinclude | KDir MOther => true
  | _ => false
  end.
Definition fine (y : symbol) : Prop :=
  match s_kind y with
  | KNewline => newlines (s_text y) = 1%nat
  | k =>
      match k with KComment _ => True | _ => newlines (s_inline y) = O end /\
      (newlines (s_text y) = O -> newlines (s_inline y) = O) /\
      (spans k = false -> newlines (s_text y) = O)
  end.

(** The symbols follow each other from line [ln] on, one end of file closes them, and
    [in_preprocessor()] is set by a directive and cleared by the end of its line. *)
Fixpoint lexed (ln : Z) (pp : bool) (syms : list (symbol * bool)) : Prop :=
  match syms with
  | [] => False
  | (y, pp') :: tl =>
      pline (rstart (s_range y)) = ln /\
      pline (rend (s_range y)) = ln + Z.of_nat (newlines (s_text y)) /\
      fine y /\
      match s_kind y with
      | KEof => tl = [] /\ s_text y = EmptyString
      | KNewline => pp' = false /\ lexed (ln + Z.of_nat (newlines (s_text y))) pp' tl
      | KDir _ => pp' = true /\ lexed (ln + Z.of_nat (newlines (s_text y))) pp' tl
      | _ => pp' = pp /\ lexed (ln + Z.of_nat (newlines (s_text y))) pp' tl
      end
  end.

(** * What is assumed of the macros of other files *)

(** Apart from the end of the line of its #define, a body has no line ends. *)
Fixpoint fine_body (b : list rsym) : Prop :=
  match b with
  | [] => True
  | r :: tl =>
      match r_kind r with
      | KNewline => tl = []
      | _ => newlines (r_text r) = O /\ fine_body tl
      end
  end.
Definition fine_macros (m : macros_map) : Prop := Forall (fun p => fine_body (m_body (snd p))) m.
Definition fine_env (v : env) : Prop :=
  (forall i m p q, fine_macros m -> fine_macros (snd (fst (v_inc v i m p q)))) /\
  (forall x, newlines x = O -> newlines (v_trim v x) = O).

(** * Files that keep their line numbers *)

(** The symbols an iteration took from the lexer besides the one it read. *)
Definition taken (e : event) : list symbol :=
  firstn (List.length (lx_rest (lex (e_before e))) - List.length (lx_rest (lex (e_after e))))
         (map fst (lx_rest (lex (e_before e)))).

(** - in inactive code no comment, string or directive goes over several lines;
    - the arguments of a macro use stand on one line: only the last symbol that was looked at may
      end a line;
    - an #undef has a name on its line;
    - a #define has no comment over several lines;
    - directives are read from the file, not from a macro ([fresh]: nothing was left to read of a
      macro before [e]). *)
Definition keeps_lines (fresh : bool) (e : event) : Prop :=
  match s_kind (e_sym e) with KDir _ => fresh = true | _ => True end /\
  if kept e then
    match s_kind (e_sym e) with
    | KDir MUndef => Forall (fun y => s_kind y <> KNewline) (taken e)
    | KDir MDefine => Forall (fun y => s_kind y = KNewline \/ newlines (s_inline y) = O) (taken e)
    | KIdent => Forall (fun y => newlines (s_text y) = O) (removelast (taken e))
    | _ => True
    end
  else s_kind (e_sym e) = KNewline \/ newlines (s_text (e_sym e)) = O.

Definition no_pending (s : st) : bool := match estack s with [] => true | _ => false end.
Fixpoint all_keep_lines (fresh : bool) (tr : list event) : Prop :=
  match tr with
  | [] => True
  | e :: tl => keeps_lines fresh e /\ all_keep_lines (no_pending (e_after e)) tl
  end.
