(** Data types shared by the model of the preprocessor crate.
    Simplifications, valid for every definition of the Pre*, Macro* and Eval* files:
    - the lexer (crate sourcepawn_lexer, not in the repository) is an input: the list of symbols it
      returns, each paired with the value [in_preprocessor()] has once the symbol was returned;
    - u32 line and column numbers are Z without an upper bound;
    - [FxHashMap]/[FxHashSet] values are association lists / lists. *)
From Coq Require Import List ZArith Bool String Ascii.
Import ListNotations.
Local Open Scope Z_scope.

(** lsp_types::Position / Range and sourcepawn_lexer::Delta, used at lib.rs:7, symbol.rs:4-6. *)
Record pos := Pos { pline : Z; pcol : Z }.
Record range := Rng { rstart : pos; rend : pos }.
Record delta := Delta { dline : Z; dcol : Z }.

(** sourcepawn_lexer::PreprocDir: the variants matched at lib.rs:499-617. *)
Inductive dir := MIf | MElseif | MElse | MEndif | MDefine | MUndef | MInclude | MTryinclude | MOther.

(** sourcepawn_lexer::Operator: the variants matched at preprocessor_operator.rs:94-117 and
    macros.rs:374,385; [OpOther] is any other operator. *)
Inductive operator :=
| ONot | OTilde | OStar | OSlash | OPercent | OMinus | OPlus | OShl | OShr | OUshr | OAmp | OXor
| OOr | OLt | OLe | OGt | OGe | OEq | ONe | OAndAnd | OOrOr | OStringize | OpOther.

(** sourcepawn_lexer::Literal, evaluator.rs:154-164. *)
Inductive lit := LInt | LBin | LHex | LOct | LChar | LStr | LOther.

(** sourcepawn_lexer::TokenKind: the variants matched anywhere in the crate; [KOther n] is any
    other kind. *)
Inductive kind :=
| KUnknown | KDir (d : dir) | KNewline | KIdent | KUsing | KIntrinsics | KSemi | KDot | KEof
| KLParen | KRParen | KComma | KDefined | KTrue | KFalse | KOp (o : operator) | KLit (l : lit)
| KComment (block : bool) | KLineCont | KOther (n : Z).

(** sourcepawn_lexer::Symbol: [s_text] is [text()], [s_inline] is [inline_text()], [s_int] is
    [to_int()]. *)
Record symbol := Sym {
  s_kind : kind; s_text : string; s_inline : string; s_int : option Z;
  s_range : range; s_delta : delta }.

(** token.rs:4-8. *)
Record token := Tok { t_sym : symbol; t_orig : option range }.
(** token.rs:10-17. *)
Definition tok (s : symbol) : token := Tok s None.
(** token.rs:19-55. *)
Definition t_kind (t : token) := s_kind (t_sym t).
Definition t_text (t : token) := s_text (t_sym t).
Definition t_inline (t : token) := s_inline (t_sym t).
Definition t_range (t : token) := s_range (t_sym t).
Definition t_delta (t : token) := s_delta (t_sym t).
(** token.rs:36-38. *)
Definition t_set_delta (t : token) (d : delta) : token :=
  let s := t_sym t in
  Tok (Sym (s_kind s) (s_text s) (s_inline s) (s_int s) (s_range s) d) (t_orig t).
(** token.rs:44-46. *)
Definition t_set_orig (t : token) (r : range) : token := Tok (t_sym t) (Some r).

(** symbol.rs:10-14: a symbol without its range. *)
Record rsym := RSym { r_kind : kind; r_text : string; r_int : option Z; r_delta : delta }.
(** symbol.rs:30-38. *)
Definition rsym_of (s : symbol) : rsym := RSym (s_kind s) (s_inline s) (s_int s) (s_delta s).
(** u32::saturating_add_signed (the upper bound is not modelled). *)
Definition sat (a d : Z) : Z := Z.max 0 (a + d).
(** symbol.rs:41-53. *)
Definition to_symbol (r : rsym) (prev : range) : symbol :=
  Sym (r_kind r) (r_text r) (r_text r) (r_int r)
      (Rng (rend prev)
           (Pos (sat (pline (rend prev)) (dline (r_delta r)))
                (sat (pcol (rend prev)) (dcol (r_delta r)))))
      (r_delta r).

(** lib.rs:81-87. *)
Record macro := Macro {
  m_file : Z; m_idx : Z; m_params : option (list Z); m_nb : nat; m_body : list rsym }.

(** Equality of macros, derived at lib.rs:80. *)
Definition dir_eq_dec (a b : dir) : {a = b} + {a <> b}.
Proof. decide equality. Defined.
Definition operator_eq_dec (a b : operator) : {a = b} + {a <> b}.
Proof. decide equality. Defined.
Definition lit_eq_dec (a b : lit) : {a = b} + {a <> b}.
Proof. decide equality. Defined.
Definition kind_eq_dec (a b : kind) : {a = b} + {a <> b}.
Proof. decide equality; auto using dir_eq_dec, operator_eq_dec, lit_eq_dec, bool_dec, Z.eq_dec. Defined.
Definition delta_eq_dec (a b : delta) : {a = b} + {a <> b}.
Proof. decide equality; apply Z.eq_dec. Defined.
Definition optZ_eq_dec (a b : option Z) : {a = b} + {a <> b}.
Proof. decide equality; apply Z.eq_dec. Defined.
Definition rsym_eq_dec (a b : rsym) : {a = b} + {a <> b}.
Proof. decide equality; auto using delta_eq_dec, optZ_eq_dec, kind_eq_dec, string_dec. Defined.
Definition params_eq_dec (a b : option (list Z)) : {a = b} + {a <> b}.
Proof. decide equality. apply (list_eq_dec Z.eq_dec). Defined.
Definition macro_eq_dec (a b : macro) : {a = b} + {a <> b}.
Proof.
  decide equality; auto using Z.eq_dec, params_eq_dec, PeanoNat.Nat.eq_dec.
  apply (list_eq_dec rsym_eq_dec).
Defined.

(** lib.rs:49 MacrosMap. *)
Definition macros_map := list (string * macro).
Fixpoint mget (m : macros_map) (name : string) : option macro :=
  match m with
  | [] => None
  | (n, x) :: tl => if String.eqb n name then Some x else mget tl name
  end.
Definition mdel (m : macros_map) (name : string) : macros_map :=
  filter (fun p => negb (String.eqb (fst p) name)) m.
Definition mset (m : macros_map) (name : string) (x : macro) : macros_map :=
  (name, x) :: mdel m name.
(** [macros.extend(other)]: the entries of [other] win. *)
Definition mextend (m other : macros_map) : macros_map :=
  fold_right (fun p acc => mset acc (fst p) (snd p)) m other.

(** crates/preprocessor/src/db.rs:12-16 PreprocessingParams. *)
Record params := Params {
  p_input : macros_map; p_outputs : list (Z * macros_map); p_being : list Z }.
(** How a nested query failed: it crashed, or it never returns because the preprocessing of a file
    does not end, or the bound on the nesting of queries in the model was reached. *)
Inductive trouble := Crash | Endless | TooDeep.
(** The variables captured and changed by the include callback, db.rs:86-89: [results],
    [being_preprocessed], [output_macros]. Two more belong to the model: [i_visits] lists the files
    preprocessed so far, oldest first, and [i_bad] is set once a nested query has failed. *)
Record incs_t := Incs {
  i_results : list (Z * params); i_being : list Z; i_outputs : list (Z * macros_map);
  i_visits : list Z; i_bad : option trouble }.
Definition no_incs : incs_t := Incs [] [] [] [] None.

(** FxHashSet<Arc<Macro>>: lib.rs:74, 161-171. *)
Definition dmem (x : macro) (l : list macro) : bool :=
  existsb (fun y => if macro_eq_dec x y then true else false) l.
Definition dadd (x : macro) (l : list macro) : list macro := x :: l.
Definition drem (x : macro) (l : list macro) : list macro :=
  filter (fun y => if macro_eq_dec x y then false else true) l.

(** offset.rs:4-28. *)
Record offset := Offset {
  o_range : range; o_diff : Z; o_args_diff : Z; o_idx : Z; o_file : Z }.

(** The lexer: what it will still return, and [in_preprocessor()]. *)
Record lexer := Lex { lx_rest : list (symbol * bool); lx_pp : bool }.
Definition lex_next (l : lexer) : option (symbol * lexer) :=
  match lx_rest l with
  | [] => None
  | (s, pp) :: tl => Some (s, Lex tl pp)
  end.

(** Text of length [n] made of spaces, [" ".repeat(n)]. *)
Fixpoint spaces (n : nat) : string :=
  match n with O => EmptyString | S k => String " "%char (spaces k) end.

Definition kind_eqb (a b : kind) : bool := if kind_eq_dec a b then true else false.
