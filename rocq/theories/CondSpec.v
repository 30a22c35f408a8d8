(** Conditional compilation as a tree: which parts of a file an #if chain selects. *)
From Coq Require Import List ZArith Bool String.
From Verif Require Import PreTypes EvalModel PreModel.
Import ListNotations.
Local Open Scope Z_scope.

(** * What is observed of a run *)

(** One iteration of the main loop: the symbol it read, the state once it was read and the state
    after the iteration. *)
Record event := Ev { e_sym : symbol; e_before : st; e_after : st }.

Inductive reads (v : env) (fuel : nat) : st -> list event -> st -> Prop :=
| reads_nil s : reads v fuel s [] s
| reads_cons s t s1 s2 tr s3 :
    fetch s = Some (t, s1) -> step v fuel s = Next s2 -> reads v fuel s2 tr s3 ->
    reads v fuel s (Ev (t_sym t) s1 s2 :: tr) s3.

(** The symbol was treated as code, not as inactive code. *)
Definition kept (e : event) : bool := negb (skipping (e_before e)).

(** The condition written behind the directive holds with the macros known at this point. A
    condition that cannot be evaluated does not hold. *)
Definition cond_holds (v : env) (fuel : nat) (e : event) : bool :=
  match evaluate fuel (v_chk v) (macros (e_before e)) (disabled (e_before e))
          (pline (rstart (s_range (e_sym e)))) (fst (directive_symbols (lex (e_before e)))) with
  | EOk b _ _ => b
  | _ => false
  end.

(** Nothing was read behind the directive, no error was reported, no macro was used. *)
Definition not_evaluated (e : event) : Prop :=
  lex (e_after e) = lex (e_before e) /\ err_eval (e_after e) = err_eval (e_before e) /\
  err_notfound (e_after e) = err_notfound (e_before e) /\ offsets (e_after e) = offsets (e_before e) /\
  disabled (e_after e) = disabled (e_before e) /\ out (e_after e) = out (e_before e).

(** * Properly nested files *)

(** A file is a sequence of plain symbols and chains; a chain is #if, a part, then any number of
    #elseif or #else each with a part, and #endif. *)
Inductive forest :=
| FNil
| FPlain (e : event) (rest : forest)
| FChain (if_ : event) (parts : chain) (rest : forest)
with chain :=
| CLast (part : forest) (endif : event)
| CMore (part : forest) (alt : event) (others : chain).

Definition conditional (k : kind) : bool :=
  match k with KDir MIf | KDir MElseif | KDir MElse | KDir MEndif => true | _ => false end.

Fixpoint nested (f : forest) : Prop :=
  match f with
  | FNil => True
  | FPlain e rest => conditional (s_kind (e_sym e)) = false /\ nested rest
  | FChain i c rest => s_kind (e_sym i) = KDir MIf /\ nested_chain c /\ nested rest
  end
with nested_chain (c : chain) : Prop :=
  match c with
  | CLast part e => nested part /\ s_kind (e_sym e) = KDir MEndif
  | CMore part e others =>
      nested part /\ (s_kind (e_sym e) = KDir MElseif \/ s_kind (e_sym e) = KDir MElse) /\
      nested_chain others
  end.

(** The symbols in the order of the file. *)
Fixpoint flat (f : forest) : list event :=
  match f with
  | FNil => []
  | FPlain e rest => e :: flat rest
  | FChain i c rest => i :: flat_chain c ++ flat rest
  end
with flat_chain (c : chain) : list event :=
  match c with
  | CLast part e => flat part ++ [e]
  | CMore part e others => flat part ++ e :: flat_chain others
  end.

(** * Which parts are selected *)

Section select.
Variable holds : event -> bool.

(** #else stands for a condition that always holds. *)
Definition branch_condition (e : event) : bool :=
  match s_kind (e_sym e) with KDir MElse => true | _ => holds e end.

(** [selected here f]: the plain symbols of [f] are kept when [here] is true and [f]'s own chains
    select them. In a chain, [earlier] tells that the condition of an earlier part held and [cond]
    is the condition of the present one: a part is selected when its condition is the first that
    holds. *)
Fixpoint selected (here : bool) (f : forest) : Prop :=
  match f with
  | FNil => True
  | FPlain e rest => kept e = here /\ selected here rest
  | FChain i c rest =>
      (here = false -> not_evaluated i) /\
      selected_chain here false (branch_condition i) c /\ selected here rest
  end
with selected_chain (here earlier cond : bool) (c : chain) : Prop :=
  match c with
  | CLast part _ => selected (here && negb earlier && cond) part
  | CMore part e others =>
      selected (here && negb earlier && cond) part /\
      (here && negb (earlier || cond) = false -> not_evaluated e) /\
      selected_chain here (earlier || cond) (branch_condition e) others
  end.
End select.

(** * Counting, for files that are not properly nested *)

(** Open #if after reading [ds], [None] when an #else, #elseif or #endif comes with none open. *)
Fixpoint open_ifs (n : nat) (ks : list kind) : option nat :=
  match ks with
  | [] => Some n
  | KDir MIf :: tl => open_ifs (S n) tl
  | KDir MElse :: tl | KDir MElseif :: tl => match n with O => None | S _ => open_ifs n tl end
  | KDir MEndif :: tl => match n with O => None | S k => open_ifs k tl end
  | _ :: tl => open_ifs n tl
  end.
