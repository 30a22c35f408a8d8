(** A small lexer used only to write the examples of the preprocessor files as source text.
    It is not a model of sourcepawn_lexer and no theorem is about it. *)
From Coq Require Import List ZArith Bool String Ascii.
From Verif Require Import PreTypes.
Import ListNotations.
Local Open Scope Z_scope.

Definition in_range (lo hi : ascii) (c : ascii) : bool :=
  ((nat_of_ascii lo <=? nat_of_ascii c) && (nat_of_ascii c <=? nat_of_ascii hi))%nat.
Definition is_alpha (c : ascii) : bool :=
  in_range "a" "z" c || in_range "A" "Z" c || Ascii.eqb c "_".
Definition is_digit (c : ascii) : bool := in_range "0" "9" c.

Fixpoint span (f : ascii -> bool) (s : string) : string * string :=
  match s with
  | EmptyString => (EmptyString, EmptyString)
  | String c tl => if f c then let (a, b) := span f tl in (String c a, b) else (EmptyString, s)
  end.

Fixpoint num (acc : Z) (s : string) : Z :=
  match s with
  | EmptyString => acc
  | String c tl => num (acc * 10 + Z.of_nat (nat_of_ascii c - 48)) tl
  end.

(** up to and including "*/" *)
Fixpoint block_comment (s : string) : string * string :=
  match s with
  | String "*" (String "/" tl) => ("*/"%string, tl)
  | String c tl => let (a, b) := block_comment tl in (String c a, b)
  | EmptyString => (EmptyString, EmptyString)
  end.

Definition nlc : ascii := "010"%char.
Definition dqc : ascii := "034"%char.
Definition bsc : ascii := "092"%char.

Fixpoint string_lit (s : string) : string * string :=
  match s with
  | String c tl =>
      if Ascii.eqb c dqc then (String dqc EmptyString, tl)
      else let (a, b) := string_lit tl in (String c a, b)
  | EmptyString => (EmptyString, EmptyString)
  end.

Definition word_kind (w : string) : kind :=
  if String.eqb w "defined" then KDefined else if String.eqb w "true" then KTrue
  else if String.eqb w "false" then KFalse else if String.eqb w "using" then KUsing
  else if String.eqb w "__intrinsics__" then KIntrinsics
  else if String.eqb w "int" then KOther 1 else if String.eqb w "char" then KOther 2
  else KIdent.

Definition dir_kind (w : string) : option dir :=
  if String.eqb w "if" then Some MIf else if String.eqb w "elseif" then Some MElseif
  else if String.eqb w "else" then Some MElse else if String.eqb w "endif" then Some MEndif
  else if String.eqb w "define" then Some MDefine else if String.eqb w "undef" then Some MUndef
  else if String.eqb w "pragma" then Some MOther else None.

Definition op1 (c : ascii) : option kind :=
  match c with
  | "!" => Some (KOp ONot) | "~" => Some (KOp OTilde) | "*" => Some (KOp OStar)
  | "/" => Some (KOp OSlash) | "%" => Some (KOp OPercent) | "-" => Some (KOp OMinus)
  | "+" => Some (KOp OPlus) | "&" => Some (KOp OAmp) | "^" => Some (KOp OXor)
  | "|" => Some (KOp OOr) | "<" => Some (KOp OLt) | ">" => Some (KOp OGt)
  | "#" => Some (KOp OStringize) | "=" => Some (KOp OpOther)
  | "(" => Some KLParen | ")" => Some KRParen | "," => Some KComma | ";" => Some KSemi
  | "." => Some KDot | "[" => Some (KOther 3) | "]" => Some (KOther 4)
  | "{" => Some (KOther 5) | "}" => Some (KOther 6) | ":" => Some (KOther 7)
  | _ => None
  end%char.

(** kind, text, value and the rest *)
Definition scan (s : string) : option (kind * string * option Z * string) :=
  match s with
  | EmptyString => None
  | String c tl =>
      if Ascii.eqb c nlc then Some (KNewline, String nlc EmptyString, None, tl)
      else if is_alpha c then
        let (a, b) := span (fun c => is_alpha c || is_digit c) s in Some (word_kind a, a, None, b)
      else if is_digit c then let (a, b) := span is_digit s in Some (KLit LInt, a, Some (num 0 a), b)
      else if Ascii.eqb c dqc then let (a, b) := string_lit tl in Some (KLit LStr, String c a, None, b)
      else if Ascii.eqb c bsc then
        match tl with
        | String n tl' => Some (KLineCont, String bsc (String n EmptyString), None, tl')
        | _ => Some (KUnknown, s, None, EmptyString)
        end
      else
        match s with
        | String "#" (String d _ as tl) =>
            if is_alpha d then
              let (a, b) := span is_alpha tl in
              if String.eqb a "include" then
                let (line, rest) := span (fun c => negb (Ascii.eqb c nlc)) s in
                Some (KDir MInclude, line, None, rest)
              else
              match dir_kind a with
              | Some k => Some (KDir k, String "#" a, None, b)
              | None => Some (KOp OStringize, "#"%string, None, tl)
              end
            else Some (KOp OStringize, "#"%string, None, tl)
        | String "/" (String "*" tl) =>
            let (a, b) := block_comment tl in Some (KComment true, ("/*" ++ a)%string, None, b)
        | String "/" (String "/" _) =>
            let (a, b) := span (fun c => negb (Ascii.eqb c nlc)) s in Some (KComment false, a, None, b)
        | String "=" (String "=" tl) => Some (KOp OEq, "=="%string, None, tl)
        | String "!" (String "=" tl) => Some (KOp ONe, "!="%string, None, tl)
        | String "<" (String "=" tl) => Some (KOp OLe, "<="%string, None, tl)
        | String ">" (String "=" tl) => Some (KOp OGe, ">="%string, None, tl)
        | String "<" (String "<" tl) => Some (KOp OShl, "<<"%string, None, tl)
        | String ">" (String ">" tl) => Some (KOp OShr, ">>"%string, None, tl)
        | String "&" (String "&" tl) => Some (KOp OAndAnd, "&&"%string, None, tl)
        | String "|" (String "|" tl) => Some (KOp OOrOr, "||"%string, None, tl)
        | _ =>
            match op1 c with
            | Some k => Some (k, String c EmptyString, None, tl)
            | None => Some (KUnknown, String c EmptyString, None, tl)
            end
        end
  end.

(** line and column after [t] *)
Fixpoint advance (p : pos) (t : string) : pos :=
  match t with
  | EmptyString => p
  | String c tl => advance (if Ascii.eqb c nlc then Pos (pline p + 1) 0 else Pos (pline p) (pcol p + 1)) tl
  end.

(** text without line continuations *)
Fixpoint inline (t : string) : string :=
  match t with
  | EmptyString => EmptyString
  | String b (String n tl as r) =>
      if Ascii.eqb b bsc && Ascii.eqb n nlc then inline tl else String b (inline r)
  | String b EmptyString => t
  end.

Fixpoint lex_loop (fuel : nat) (p : pos) (ws : Z) (pp : bool) (s : string) : list (symbol * bool) :=
  match fuel with
  | O => []
  | S fuel =>
      match s with
      | EmptyString => [(Sym KEof "" "" None (Rng p p) (Delta 0 ws), pp)]
      | String " " tl => lex_loop fuel (Pos (pline p) (pcol p + 1)) (ws + 1) pp tl
      | _ =>
          match scan s with
          | None => []
          | Some (k, t, n, tl) =>
              let p' := advance p t in
              let pp' := match k with KDir _ => true | KNewline => false | _ => pp end in
              (Sym k t (inline t) n (Rng p p') (Delta 0 ws), pp') :: lex_loop fuel p' 0 pp' tl
          end
      end
  end.

Definition lex_source (s : string) : list (symbol * bool) :=
  lex_loop (S (String.length s)) (Pos 0 0) 0 false s.

(** The text between the first [a] and the next [b]. *)
Fixpoint between (a b : ascii) (s : string) : option string :=
  match s with
  | EmptyString => None
  | String c tl => if Ascii.eqb c a then Some (fst (span (fun c => negb (Ascii.eqb c b)) tl)) else between a b tl
  end.
Definition chevron_path : string -> option string := between "<" ">".
Definition quote_path : string -> option string := between dqc dqc.
