(** The text a file preprocesses to when no macro is used outside of conditions: written as a
    relation on the lines of the file. Nothing here uses the preprocessor or the evaluator. *)
From Coq Require Import List ZArith Bool String.
From Verif Require Import PreTypes EvalSpec.
Import ListNotations.
Local Open Scope Z_scope.

(** Symbols with the flag the lexer has after each (see PreTypes). *)
Definition fsym := (symbol * bool)%type.

(** A file, line by line. [nl] is the symbol that ends the line. *)
Inductive file :=
| LEnd
| LLine (ys : list fsym) (nl : fsym) (rest : file)
| LDefine (y name : fsym) (body : list fsym) (nl : fsym) (rest : file)
| LUndef (y name : fsym) (trail : list fsym) (nl : fsym) (rest : file)
| LIf (y : fsym) (cond : list fsym) (nl : fsym) (p : parts) (rest : file)
with parts :=
| PEndif (part : file) (y : fsym) (trail : list fsym) (nl : fsym)
| PElse (part : file) (y : fsym) (trail : list fsym) (nl : fsym) (p : parts)
| PElseif (part : file) (y : fsym) (cond : list fsym) (nl : fsym) (p : parts).

Fixpoint symbols (f : file) : list fsym :=
  match f with
  | LEnd => []
  | LLine ys nl rest => ys ++ nl :: symbols rest
  | LDefine y name body nl rest => y :: name :: body ++ nl :: symbols rest
  | LUndef y name trail nl rest => y :: name :: trail ++ nl :: symbols rest
  | LIf y cond nl p rest => y :: cond ++ nl :: symbols_parts p ++ symbols rest
  end
with symbols_parts (p : parts) : list fsym :=
  match p with
  | PEndif part y trail nl => symbols part ++ y :: trail ++ [nl]
  | PElse part y trail nl p => symbols part ++ y :: trail ++ nl :: symbols_parts p
  | PElseif part y cond nl p => symbols part ++ y :: cond ++ nl :: symbols_parts p
  end.

(** The text of a line: every symbol behind its whitespace. *)
Definition blanks (y : symbol) : string := spaces (Z.to_nat (Z.abs (dcol (s_delta y)))).
Fixpoint line_text (ys : list fsym) : string :=
  match ys with
  | [] => EmptyString
  | (y, _) :: tl => (blanks y ++ s_text y ++ line_text tl)%string
  end.
Definition whole_line (ys : list fsym) (nl : fsym) : string := (line_text ys ++ blanks (fst nl))%string.

Definition fkind (y : fsym) : kind := s_kind (fst y).

(** Names that are defined as macros. *)
Definition names := string -> bool.
Definition add (x : string) (d : names) : names := fun y => if String.eqb x y then true else d y.
Definition del (x : string) (d : names) : names := fun y => if String.eqb x y then false else d y.

(** An ordinary symbol of active code that is not a macro. *)
Definition plain (d : names) (y : fsym) : Prop :=
  match fkind y with
  | KUnknown | KDir _ | KNewline | KUsing | KIntrinsics | KEof => False
  | KIdent => d (s_text (fst y)) = false
  | _ => True
  end.
(** A symbol of inactive code: anything but a conditional directive or the end of the line. *)
Definition skippable (y : fsym) : Prop :=
  match fkind y with
  | KDir MIf | KDir MElseif | KDir MElse | KDir MEndif | KNewline => False
  | _ => True
  end.
Definition newline (y : fsym) : Prop := fkind y = KNewline.

(** The flags of a directive that extends to the end of its line. *)
Definition directive_flags (y : fsym) (ys : list fsym) (nl : fsym) : Prop :=
  snd y = true /\ Forall (fun z => snd z = true) ys /\ snd nl = false.

(** The symbols of a condition have the value [b], and the condition is on one line. *)
Definition condition (d : names) (y : fsym) (ys : list fsym) (nl : fsym) (b : bool) : Prop :=
  directive_flags y ys nl /\ newline nl /\
  pline (rend (s_range (fst nl))) = pline (rstart (s_range (fst y))) + 1 /\
  exists e v, spells e (map fst ys) /\ wf e /\ lits_ok e /\ value d e = Some v /\ b = holds v.

(** The body of an object-like macro: it does not start with a parenthesis attached to the name. *)
Definition object_body (body : list fsym) : Prop :=
  Forall (fun y => fkind y <> KEof /\ fkind y <> KNewline) body /\
  match body with
  | [] => True
  | y :: _ => ~ (fkind y = KLParen /\ dcol (s_delta (fst y)) = 0)
  end.

(** [renders here d f d' ls]: where code is active when [here], the lines of [f] become [ls], and
    the macros [d] become [d']. In a chain, [earlier]: the condition of an earlier part held;
    [c]: the condition of this part holds. *)
Inductive renders : bool -> names -> file -> names -> list string -> Prop :=
| rd_end h d : renders h d LEnd d []
| rd_line d d' ys nl rest ls :
    Forall (plain d) ys -> newline nl -> renders true d rest d' ls ->
    renders true d (LLine ys nl rest) d' (whole_line ys nl :: ls)
| rd_line_off d d' ys nl rest ls :
    Forall skippable ys -> newline nl -> renders false d rest d' ls ->
    renders false d (LLine ys nl rest) d' (EmptyString :: ls)
| rd_define d d' y name body nl rest ls :
    fkind y = KDir MDefine -> directive_flags y (name :: body) nl -> newline nl ->
    fkind name = KIdent -> s_text (fst name) <> EmptyString -> object_body body ->
    renders true (add (s_text (fst name)) d) rest d' ls ->
    renders true d (LDefine y name body nl rest) d' (whole_line (y :: name :: body) nl :: ls)
| rd_define_off d d' y name body nl rest ls :
    Forall skippable (y :: name :: body) -> newline nl -> renders false d rest d' ls ->
    renders false d (LDefine y name body nl rest) d' (EmptyString :: ls)
| rd_undef d d' y name trail nl rest ls :
    fkind y = KDir MUndef -> snd y = true -> fkind name = KIdent ->
    Forall (plain (del (s_text (fst name)) d)) trail -> newline nl ->
    renders true (del (s_text (fst name)) d) rest d' ls ->
    renders true d (LUndef y name trail nl rest) d' (whole_line (y :: name :: trail) nl :: ls)
| rd_undef_off d d' y name trail nl rest ls :
    Forall skippable (y :: name :: trail) -> newline nl -> renders false d rest d' ls ->
    renders false d (LUndef y name trail nl rest) d' (EmptyString :: ls)
| rd_if d d1 d2 y cond nl p rest b ls1 ls2 :
    fkind y = KDir MIf -> condition d y cond nl b ->
    renders_parts true false b d p d1 ls1 -> renders true d1 rest d2 ls2 ->
    renders true d (LIf y cond nl p rest) d2 (EmptyString :: ls1 ++ ls2)
| rd_if_off d d1 d2 y cond nl p rest ls1 ls2 :
    fkind y = KDir MIf -> Forall skippable cond -> newline nl ->
    renders_parts false false false d p d1 ls1 -> renders false d1 rest d2 ls2 ->
    renders false d (LIf y cond nl p rest) d2 (EmptyString :: ls1 ++ ls2)
with renders_parts : bool -> bool -> bool -> names -> parts -> names -> list string -> Prop :=
| rd_endif (h earlier c : bool) d d' part y trail nl ls :
    renders (h && negb earlier && c) d part d' ls ->
    fkind y = KDir MEndif -> newline nl ->
    (if h then Forall (plain d') trail else Forall skippable trail) ->
    renders_parts h earlier c d (PEndif part y trail nl) d'
      (ls ++ [if h then whole_line trail nl else EmptyString])
| rd_else (h earlier c : bool) d d1 d2 part y trail nl p ls1 ls2 :
    renders (h && negb earlier && c) d part d1 ls1 ->
    fkind y = KDir MElse -> newline nl ->
    (if h && negb (earlier || c) then Forall (plain d1) trail else Forall skippable trail) ->
    renders_parts h (earlier || c) true d1 p d2 ls2 ->
    renders_parts h earlier c d (PElse part y trail nl p) d2
      (ls1 ++ (if h && negb (earlier || c) then whole_line trail nl else EmptyString) :: ls2)
| rd_elseif (h earlier c b : bool) d d1 d2 part y cond nl p ls1 ls2 :
    renders (h && negb earlier && c) d part d1 ls1 ->
    fkind y = KDir MElseif -> newline nl ->
    (if h && negb (earlier || c) then condition d1 y cond nl b else Forall skippable cond) ->
    renders_parts h (earlier || c) b d1 p d2 ls2 ->
    renders_parts h earlier c d (PElseif part y cond nl p) d2
      (ls1 ++ EmptyString :: ls2).
