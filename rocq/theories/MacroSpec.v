(** What using a macro must produce, for C22 and C23: written from the language's rule (a macro body
    is copied, every %n is replaced by the argument standing where %n stands in the header, #%n by the
    argument in quotes, and the result is scanned again for macros). Nothing of the model of
    macros.rs is used here. *)
From Coq Require Import List ZArith Bool String Ascii.
From Verif Require Import PreTypes.
Import ListNotations.
Local Open Scope Z_scope.

(** What matters of a token: its kind, its text, its text without line continuations, its value if it
    is a number, the number of spaces before it, and the lines on which it begins and ends. *)
Record stok := STok {
  k_ : kind; text_ : string; inline_ : string; val_ : option Z; gap_ : Z; from_ : Z; to_ : Z }.
Definition see (s : symbol) : stok :=
  STok (s_kind s) (s_text s) (s_inline s) (s_int s) (dcol (s_delta s))
       (pline (rstart (s_range s))) (pline (rend (s_range s))).

(** What is written for a token: string and character literals are written without line continuations. *)
Definition shown (t : stok) : kind * string :=
  (k_ t, match k_ t with KLit LStr | KLit LChar => inline_ t | _ => text_ t end).

(** The body of a macro copied behind a name that ends on line [line]. *)
Fixpoint lay (line : Z) (body : list rsym) : list stok :=
  match body with
  | [] => []
  | r :: tl =>
      let l := Z.max 0 (line + dline (r_delta r)) in
      STok (r_kind r) (r_text r) (r_text r) (r_int r) (dcol (r_delta r)) line l :: lay l tl
  end.

Definition is_percent (t : stok) : bool := match k_ t with KOp OPercent => true | _ => false end.
Definition is_hash (t : stok) : bool := match k_ t with KOp OStringize => true | _ => false end.
Definition is_int (t : stok) : bool := match k_ t with KLit LInt => true | _ => false end.
(** A parameter: % with a number right behind it. *)
Definition is_param (p n : stok) : bool := is_percent p && is_int n && (gap_ n =? 0).
(** Tokens that are not code. *)
Definition is_layout (t : stok) : bool :=
  match k_ t with KNewline | KLineCont | KComment _ => true | _ => false end.

(** An argument: parentheses match and no comma stands outside them. *)
Fixpoint one_argument (depth : nat) (l : list stok) : bool :=
  match l with
  | [] => Nat.eqb depth 0
  | t :: tl =>
      match k_ t with
      | KLParen => one_argument (S depth) tl
      | KRParen => match depth with O => false | S d => one_argument d tl end
      | KComma => match depth with O => false | S _ => one_argument depth tl end
      | _ => one_argument depth tl
      end
  end.

(** The text between the parentheses of a call: a first argument, then arguments each with the
    comma before it. *)
Definition joined {A} (more : list (A * list A)) : list A :=
  List.concat (map (fun ca => fst ca :: snd ca) more).
(** The arguments when at most [S extra] are wanted: the last one takes the rest, commas included. *)
Fixpoint shared {A} (extra : nat) (first : list A) (more : list (A * list A)) {struct more}
  : list (list A) :=
  match more with
  | [] => [first]
  | (c, a) :: tl =>
      match extra with
      | O => [first ++ joined more]
      | S e => first :: shared e a tl
      end
  end.

(** Call [name ( first , more ... )] followed by [rest]; comments may stand before the parenthesis,
    which opens on the line where the name ends. *)
Inductive call (name : stok) (first : list stok) (more : list (stok * list stok)) (rest : list stok)
  : list stok -> Prop :=
| Call comments lp rp :
    Forall (fun t => k_ t = KComment true) comments ->
    k_ lp = KLParen -> from_ lp = to_ name -> k_ rp = KRParen ->
    one_argument 0 first = true ->
    Forall (fun ca => k_ (fst ca) = KComma /\ one_argument 0 (snd ca) = true) more ->
    call name first more rest (comments ++ lp :: first ++ joined more ++ rp :: rest).

(** The tokens of %n: [params] lists, for n = 0..9, the place of %n in the header, counted from 0
    (-1: not a parameter). *)
Definition argument (params : list Z) (args : list (list stok)) (n : option Z) : option (list stok) :=
  match n with
  | None => None
  | Some n =>
      if (0 <=? n) && (n <? 10) then
        let a := nth (Z.to_nat n) params (-1) in
        if (0 <=? a) && (a <? 10) then Some (nth (Z.to_nat a) args []) else None
      else None
  end.

(** #%n: the argument in quotes with the spaces between its tokens. [front] tells whether # is the
    first token of the body. *)
Fixpoint spelled (a : list stok) : string :=
  match a with
  | [] => EmptyString
  | t :: tl => (spaces (Z.to_nat (gap_ t)) ++ inline_ t ++ spelled tl)%string
  end.
Definition in_quotes (a : list stok) : string :=
  let q := String "034"%char EmptyString in
  (q ++ match a with [] => EmptyString | t :: tl => inline_ t ++ spelled tl end ++ q)%string.
Definition quoted (name hash : stok) (front : bool) (a : list stok) : stok :=
  STok (KLit LStr) (in_quotes a) (in_quotes a) None (if front then gap_ name else gap_ hash)
       (from_ name) (from_ name).

(** The body with the arguments put in. *)
Fixpoint filled (arg : option Z -> option (list stok)) (name : stok) (front : bool)
    (body : list stok) : option (list stok) :=
  match body with
  | [] => Some []
  | a :: tl =>
      let keep := option_map (cons a) (filled arg name false tl) in
      if is_hash a then
        match tl with
        | p :: n :: tl' =>
            if is_param p n then
              match arg (val_ n), filled arg name false tl' with
              | Some x, Some r => Some (quoted name a front x :: r)
              | _, _ => None
              end
            else keep
        | _ => keep
        end
      else if is_percent a then
        match tl with
        | n :: tl' =>
            if is_param a n then
              match arg (val_ n), filled arg name false tl' with
              | Some x, Some r => Some (x ++ r)
              | _, _ => None
              end
            else keep
        | _ => keep
        end
      else keep
  end.

(** Bodies for which the rule is proved: # stands before %n only, and a % that is no parameter is not
    followed by another %, by # or by a number. *)
Fixpoint regular (body : list stok) : bool :=
  match body with
  | [] => true
  | a :: tl =>
      (if is_hash a then
         match tl with p :: n :: _ => is_param p n | _ => false end
       else if is_percent a then
         match tl with
         | b :: _ => is_param a b || negb (is_percent b || is_hash b || is_int b)
         | [] => true
         end
       else true) && regular tl
  end.

(** [expands macros allow depth l out]: the text [l] gives the tokens [out], macros used in it being
    replaced, with at most [depth] macros inside one another. Names that are no macros are kept if
    [allow]. *)
Inductive expands (macros : macros_map) (allow : bool)
  : nat -> list stok -> list (kind * string) -> Prop :=
| ex_end d : expands macros allow d [] []
| ex_layout d t tl out : is_layout t = true -> expands macros allow d tl out ->
    expands macros allow d (t :: tl) out
| ex_token d t tl out : is_layout t = false -> k_ t <> KIdent -> expands macros allow d tl out ->
    expands macros allow d (t :: tl) (shown t :: out)
| ex_name d t tl out : k_ t = KIdent -> mget macros (text_ t) = None -> allow = true ->
    expands macros allow d tl out -> expands macros allow d (t :: tl) (shown t :: out)
| ex_object d t tl m o1 o2 : k_ t = KIdent -> mget macros (text_ t) = Some m -> m_params m = None ->
    expands macros allow d (lay (to_ t) (m_body m)) o1 -> expands macros allow (S d) tl o2 ->
    expands macros allow (S d) (t :: tl) (o1 ++ o2)
| ex_call d t tl m params first more rest body o1 o2 :
    k_ t = KIdent -> mget macros (text_ t) = Some m -> m_params m = Some params ->
    call t first more rest tl ->
    regular (lay (to_ t) (m_body m)) = true ->
    filled (argument params (shared (pred (m_nb m)) first more)) t true (lay (to_ t) (m_body m)) = Some body ->
    expands macros allow d body o1 -> expands macros allow (S d) rest o2 ->
    expands macros allow (S d) (t :: tl) (o1 ++ o2).

(** A text made of the given tokens in this order, with any number of spaces before each. *)
Inductive made_of : list (kind * string) -> string -> Prop :=
| mo_nil : made_of [] EmptyString
| mo_cons k x l n w : made_of l w -> made_of ((k, x) :: l) (spaces n ++ x ++ w)%string.

(** Tokens which the preprocessor copies when it meets them in code. *)
Definition copied (k : kind) : bool :=
  match k with KUnknown | KDir _ | KNewline | KUsing | KIntrinsics | KEof => false | _ => true end.

(** For C23: the tokens of a body in which all macros used are object-like, with at most [depth]
    macros inside one another; None if there is another use. *)
Section unfold.
Variable macros : macros_map.
Fixpoint unfolded (depth : nat) (body : list rsym) {struct depth} : option (list (kind * string)) :=
  (fix go (body : list rsym) : option (list (kind * string)) :=
    match body with
    | [] => Some []
    | r :: tl =>
        match r_kind r with
        | KNewline | KLineCont | KComment _ => go tl
        | KIdent =>
            match mget macros (r_text r) with
            | None => option_map (cons (KIdent, r_text r)) (go tl)
            | Some m =>
                match m_params m, depth with
                | None, S d =>
                    match unfolded d (m_body m), go tl with
                    | Some a, Some b => Some (a ++ b)
                    | _, _ => None
                    end
                | _, _ => None
                end
            end
        | k => option_map (cons (k, r_text r)) (go tl)
        end
    end) body.
End unfold.

(** The parameters in the header of a #define: %n, %n, ... without spaces. *)
Inductive header : list Z -> list symbol -> Prop :=
| h_one p n v : s_kind p = KOp OPercent -> dcol (s_delta p) = 0 -> s_kind n = KLit LInt -> dcol (s_delta n) = 0 ->
    s_int n = Some v -> 0 <= v < 10 -> header [v] [p; n]
| h_more p n v c vs tl : s_kind p = KOp OPercent -> dcol (s_delta p) = 0 -> s_kind n = KLit LInt -> dcol (s_delta n) = 0 ->
    s_int n = Some v -> 0 <= v < 10 -> s_kind c = KComma -> dcol (s_delta c) = 0 -> header vs tl ->
    header (v :: vs) (p :: n :: c :: tl).
(** The place of %n in such a header, counted from 0, or -1. *)
Fixpoint place (at_ : Z) (vs : list Z) (n : Z) : Z :=
  match vs with [] => -1 | v :: tl => if v =? n then at_ else place (at_ + 1) tl n end.
Definition places (vs : list Z) : list Z := map (place 0 vs) [0; 1; 2; 3; 4; 5; 6; 7; 8; 9].
