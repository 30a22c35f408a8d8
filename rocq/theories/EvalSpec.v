(** Conditions of #if as a language: syntax trees, their SourcePawn precedence, their value and the
    symbols that spell them. Nothing here uses the evaluator. *)
From Coq Require Import List ZArith Bool String.
From Verif Require Import PreTypes.
Import ListNotations.
Local Open Scope Z_scope.

Inductive unary := UNot | UTilde | UMinus | UPlus.
Inductive binary :=
| BMul | BDiv | BMod | BAdd | BSub | BShl | BShr | BUshr | BAnd | BXor | BOr
| BLt | BLe | BGt | BGe | BEq | BNe | BLAnd | BLOr.

Inductive expr :=
| ELit (z : Z)                          (* an integer or character literal of value z *)
| ETrue | EFalse
| EDefined (name : string)              (* defined X *)
| EDefinedP (name : string)             (* defined (X) *)
| EParen (e : expr)
| EUn (u : unary) (e : expr)
| EBin (b : binary) (l r : expr).

(** The precedence table of SourcePawn, tightest first. *)
Definition level (b : binary) : Z :=
  match b with
  | BMul | BDiv | BMod => 3
  | BAdd | BSub => 4
  | BShl | BShr | BUshr => 5
  | BAnd => 6
  | BXor => 7
  | BOr => 8
  | BLt | BLe | BGt | BGe => 9
  | BEq | BNe => 10
  | BLAnd => 11
  | BLOr => 12
  end.

Definition prec (e : expr) : Z :=
  match e with
  | EUn _ _ => 2
  | EBin b _ _ => level b
  | _ => 1
  end.

(** [e] is the tree the precedences and left associativity give to its spelling. *)
Fixpoint wf (e : expr) : Prop :=
  match e with
  | ELit _ | ETrue | EFalse | EDefined _ | EDefinedP _ => True
  | EParen e => wf e
  | EUn _ e => wf e /\ prec e <= 2
  | EBin b l r => wf l /\ wf r /\ prec l <= level b /\ prec r < level b
  end.

(** Values are 32 bit integers; [None]: the value is not defined (overflow, division by zero, shift
    by a negative or too large amount). There is no short circuit: an undefined operand makes the
    whole condition undefined. *)
Definition fits (z : Z) : option Z :=
  if (-2147483648 <=? z) && (z <=? 2147483647) then Some z else None.
Definition truth (b : bool) : Z := if b then 1 else 0.
Definition holds (z : Z) : bool := negb (z =? 0).

Definition un_value (u : unary) (x : Z) : option Z :=
  match u with
  | UNot => Some (truth (x =? 0))
  | UTilde => Some (- x - 1)
  | UMinus => fits (- x)
  | UPlus => Some x
  end.

(** [x] as an unsigned 32 bit number *)
Definition unsigned (x : Z) : Z := if x <? 0 then x + 4294967296 else x.
(** the 32 bit number with the bits of unsigned [x] *)
Definition signed (x : Z) : Z := if x <=? 2147483647 then x else x - 4294967296.

Definition bin_value (b : binary) (x y : Z) : option Z :=
  match b with
  | BMul => fits (x * y)
  | BDiv => if y =? 0 then None else fits (Z.quot x y)
  | BMod => if y =? 0 then None else if fits (Z.quot x y) then Some (Z.rem x y) else None
  | BAdd => fits (x + y)
  | BSub => fits (x - y)
  | BShl => if (0 <=? y) && (y <? 32) then Some (signed ((x * 2 ^ y) mod 4294967296)) else None
  | BShr => if (0 <=? y) && (y <? 32) then Some (x / 2 ^ y) else None
  | BUshr => if (0 <=? y) && (y <? 32) then Some (signed (unsigned x / 2 ^ y)) else None
  | BAnd => Some (Z.land x y)
  | BXor => Some (Z.lxor x y)
  | BOr => Some (Z.lor x y)
  | BLt => Some (truth (x <? y))
  | BLe => Some (truth (x <=? y))
  | BGt => Some (truth (y <? x))
  | BGe => Some (truth (y <=? x))
  | BEq => Some (truth (x =? y))
  | BNe => Some (truth (negb (x =? y)))
  | BLAnd => Some (truth (holds x && holds y))
  | BLOr => Some (truth (holds x || holds y))
  end.

Definition bind {A B} (x : option A) (f : A -> option B) : option B :=
  match x with Some a => f a | None => None end.

(** [def x]: macro [x] is defined. *)
Fixpoint value (def : string -> bool) (e : expr) : option Z :=
  match e with
  | ELit z => Some z
  | ETrue => Some 1
  | EFalse => Some 0
  | EDefined x | EDefinedP x => Some (truth (def x))
  | EParen e => value def e
  | EUn u e => bind (value def e) (un_value u)
  | EBin b l r => bind (value def l) (fun x => bind (value def r) (bin_value b x))
  end.

(** Release builds do not check for overflow: a result is cut to its lowest 32 bits, and of a shift amount the lowest five
    bits count. Only divisions can then be without a value. *)
Definition cut (z : Z) : Z := signed (z mod 4294967296).
Definition un_cut (u : unary) (x : Z) : option Z :=
  match u with UMinus => Some (cut (- x)) | _ => un_value u x end.
Definition bin_cut (b : binary) (x y : Z) : option Z :=
  match b with
  | BMul => Some (cut (x * y))
  | BAdd => Some (cut (x + y))
  | BSub => Some (cut (x - y))
  | BShl | BShr | BUshr => bin_value b x (y mod 32)
  | _ => bin_value b x y
  end.
Fixpoint value_cut (def : string -> bool) (e : expr) : option Z :=
  match e with
  | EParen e => value_cut def e
  | EUn u e => bind (value_cut def e) (un_cut u)
  | EBin b l r => bind (value_cut def l) (fun x => bind (value_cut def r) (bin_cut b x))
  | _ => value def e
  end.

(** Every literal of the condition is a 32 bit number. *)
Fixpoint lits_ok (e : expr) : Prop :=
  match e with
  | ELit z => -2147483648 <= z <= 2147483647
  | ETrue | EFalse | EDefined _ | EDefinedP _ => True
  | EParen e => lits_ok e
  | EUn _ e => lits_ok e
  | EBin _ l r => lits_ok l /\ lits_ok r
  end.

(** Spelling. *)
Definition un_op (u : unary) : operator :=
  match u with UNot => ONot | UTilde => OTilde | UMinus => OMinus | UPlus => OPlus end.
Definition bin_op (b : binary) : operator :=
  match b with
  | BMul => OStar | BDiv => OSlash | BMod => OPercent | BAdd => OPlus | BSub => OMinus
  | BShl => OShl | BShr => OShr | BUshr => OUshr | BAnd => OAmp | BXor => OXor | BOr => OOr
  | BLt => OLt | BLe => OLe | BGt => OGt | BGe => OGe | BEq => OEq | BNe => ONe
  | BLAnd => OAndAnd | BLOr => OOrOr
  end.

Definition int_kind (k : kind) : Prop :=
  k = KLit LInt \/ k = KLit LBin \/ k = KLit LHex \/ k = KLit LOct \/ k = KLit LChar.

(** Symbols without meaning in a condition. *)
Inductive noise : symbol -> Prop :=
| noise_comment y b : s_kind y = KComment b -> noise y
| noise_newline y : s_kind y = KNewline -> noise y
| noise_eof y : s_kind y = KEof -> noise y.

Inductive spells : expr -> list symbol -> Prop :=
| sp_lit y z : int_kind (s_kind y) -> s_int y = Some z -> spells (ELit z) [y]
| sp_true y : s_kind y = KTrue -> spells ETrue [y]
| sp_false y : s_kind y = KFalse -> spells EFalse [y]
| sp_defined d y : s_kind d = KDefined -> s_kind y = KIdent -> spells (EDefined (s_text y)) [d; y]
| sp_definedp d o y c :
    s_kind d = KDefined -> s_kind o = KLParen -> s_kind y = KIdent -> s_kind c = KRParen ->
    spells (EDefinedP (s_text y)) [d; o; y; c]
| sp_paren o c e ys :
    s_kind o = KLParen -> s_kind c = KRParen -> spells e ys -> spells (EParen e) (o :: ys ++ [c])
| sp_un u o e ys : s_kind o = KOp (un_op u) -> spells e ys -> spells (EUn u e) (o :: ys)
| sp_bin b o l r ys zs :
    s_kind o = KOp (bin_op b) -> spells l ys -> spells r zs -> spells (EBin b l r) (ys ++ o :: zs)
| sp_noise_l n e ys : noise n -> spells e ys -> spells e (n :: ys)
| sp_noise_r n e ys : noise n -> spells e ys -> spells e (ys ++ [n]).
