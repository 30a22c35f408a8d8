(** Model of Documentation::to_markdown, crates/ide-db/src/documentation.rs:91-114. The regular expressions are written out
    as functions that say, for the text from one place on, what is put there and what is left; none of them matches the empty
    text. Each takes white space, letters and names as far as they go: what must follow cannot be white space, a letter or a
    part of a name, so a shorter match would not succeed. \s and \w are taken as ASCII. *)
From Coq Require Import List Bool Arith String Ascii.
From Verif Require Import DocModel.
Import ListNotations.
Local Open Scope string_scope.

Definition nl : string := String "010" EmptyString.
Definition is_letter (c : ascii) : bool :=
  let n := nat_of_ascii c in ((65 <=? n)%nat && (n <=? 90)%nat) || ((97 <=? n)%nat && (n <=? 122)%nat).
Definition is_digit (c : ascii) : bool := let n := nat_of_ascii c in (48 <=? n)%nat && (n <=? 57)%nat.
Definition is_word (c : ascii) : bool := is_letter c || is_digit c || Ascii.eqb c "_".

(** The longest beginning whose characters satisfy [f], and the rest *)
Fixpoint span (f : ascii -> bool) (s : string) : string * string :=
  match s with
  | EmptyString => ("", "")
  | String c s' => if f c then let (a, b) := span f s' in (String c a, b) else ("", s)
  end.
Fixpoint has (f : ascii -> bool) (s : string) : bool :=
  match s with EmptyString => false | String c s' => f c || has f s' end.
Definition empty (s : string) : bool := match s with EmptyString => true | _ => false end.

(** Regex::replace_all: from left to right, going on behind each replaced part *)
Definition matcher := string -> option (string * string).
Fixpoint replace (m : matcher) (fuel : nat) (s : string) : string :=
  match fuel with
  | 0 => s
  | S fuel' =>
      match m s with
      | Some (r, rest) => r ++ replace m fuel' rest
      | None => match s with EmptyString => "" | String c s' => String c (replace m fuel' s') end
      end
  end.
Definition replace_all (m : matcher) (s : string) : string := replace m (String.length s) s.

(** [ch] at the start *)
Definition eat (ch : ascii) (s : string) : option string :=
  match s with String c s' => if Ascii.eqb c ch then Some s' else None | EmptyString => None end.

(** documentation.rs:93 and 103: a star and a bracket at the start *)
Definition md1 (s : string) : string :=
  match eat "*" s with
  | Some s1 => match eat "<" s1 with Some rest => rest | None => s end
  | None => s
  end.
(** 94 and 104: a star, white space with a line end, a star *)
Definition m2 : matcher := fun s =>
  match eat "*" s with
  | Some s1 =>
      let (ws, r) := span is_space s1 in
      if has (Ascii.eqb "010") ws then
        match eat "*" r with Some rest => Some (nl ++ nl, rest) | None => None end
      else None
  | None => None
  end.
(** 95 and 105: a line end, white space, a star *)
Definition m3 : matcher := fun s =>
  match eat "010" (match eat "013" s with Some s1 => s1 | None => s end) with
  | Some s2 => match eat "*" (skip_spaces s2) with Some rest => Some ("", rest) | None => None end
  | None => None
  end.
(** 96 and 106: a star at the start *)
Definition md4 (s : string) : string := match eat "*" s with Some rest => rest | None => s end.
(** 97-98 and 107-108 are [escape]. *)
(** 99 and 110: white space, @ and letters, white space *)
Definition m7 : matcher := fun s =>
  match eat "@" (skip_spaces s) with
  | Some s1 =>
      let (name, s2) := span is_letter s1 in
      let (ws, rest) := span is_space s2 in
      if empty name || empty ws then None else Some (nl ++ nl ++ "_@" ++ name ++ "_ ", rest)
  | None => None
  end.
(** 100 and 111: the marked tag of a parameter, a space, a name, white space. The dash is three bytes. *)
Definition is_param (c : ascii) : bool := is_word c || Ascii.eqb c ".".
Definition dash : string := String "226" (String "128" (String "148" EmptyString)).
Definition strip (p s : string) : option string :=
  if prefix p s then Some (substring (String.length p) (String.length s - String.length p)%nat s) else None.
Definition m8 : matcher := fun s =>
  match strip "_@param_ " s with
  | Some s1 =>
      let (name, s2) := span is_param s1 in
      if empty name then None else Some ("_@param_ `" ++ name ++ "` " ++ dash ++ " >", skip_spaces s2)
  | None => None
  end.
(** 101 and 112: a name and arguments in parentheses *)
Definition is_arg (c : ascii) : bool := is_word c || Ascii.eqb c " " || Ascii.eqb c ":".
Definition m9 : matcher := fun s =>
  let (name, s1) := span is_word s in
  if empty name then None
  else match eat "(" s1 with
       | Some s2 =>
           let (args, s3) := span is_arg s2 in
           match eat ")" s3 with Some rest => Some ("`" ++ name ++ "(" ++ args ++ ")" ++ "`", rest) | None => None end
       | None => None
       end.
(** 113: str::replace *)
Definition m10 : matcher := fun s =>
  match strip "DEPRECATED" s with Some r => Some (nl ++ nl ++ "**DEPRECATED**", r) | None => None end.

(** documentation.rs:103-111: the text laid out anew, before calls and deprecations are marked *)
Definition laid_out (s : string) : string :=
  replace_all m8 (replace_all m7 (escape (md4 (replace_all m3 (replace_all m2 (md1 s)))))).
(** documentation.rs:91-114 *)
Definition to_markdown (s : string) : string := replace_all m10 (replace_all m9 (laid_out s)).

Example to_markdown_example :
  to_markdown (comment_to_doc ("/**" ++ nl ++ " * Adds two." ++ nl ++ " * Calls add(a)." ++ nl ++ " *" ++ nl ++
                               " * @param a  First <b>." ++ nl ++ " * @return Sum." ++ nl ++ " */"))
  = " Adds two. Calls `add(a)`." ++ nl ++ nl ++ "_@param_ `a` " ++ dash ++ " >First \<b\>." ++ nl ++ nl ++ "_@return_ Sum."
    ++ nl ++ " ".
Proof. vm_compute. reflexivity. Qed.
