(** What the documentation of a declaration should look like in the editor, for C54: nothing of what the comment says is lost,
    and a comment laid out as is usual, line by line behind stars, is shown as paragraphs. *)
From Coq Require Import List Bool Arith String Ascii.
From Verif Require Import DocModel.
Import ListNotations.
Local Open Scope string_scope.

(** ** What is said: the text without white space, brackets and the signs that Markdown uses for marking (and the dash that is
    put after the name of a parameter) *)
Definition marking (c : ascii) : bool :=
  is_space c || existsb (Ascii.eqb c) ["*"; "_"; "`"; "\"; "<"; ">"; "226"; "128"; "148"]%char.
Fixpoint said (s : string) : list ascii :=
  match s with
  | EmptyString => []
  | String c s' => if marking c then said s' else c :: said s'
  end.

(** ** Comments laid out line by line *)
Inductive line :=
  | Text (indent : nat) (t : string)                                  (*  * text        *)
  | Tag (indent : nat) (name : string) (gap : nat) (t : string)       (*  * @name text  *)
  | Param (indent : nat) (gap : nat) (name : string) (gap' : nat) (t : string)   (*  * @param name text *)
  | Blank.                                                            (*  *             *)

Definition end_of_line : string := String "010" EmptyString.
Fixpoint blanks (n : nat) : string := match n with 0 => "" | S n' => String " " (blanks n') end.

(** A line behind its star *)
Definition behind (l : line) : string :=
  match l with
  | Text i t => blanks (S i) ++ t
  | Tag i n g t => blanks (S i) ++ "@" ++ n ++ blanks (S g) ++ t
  | Param i g n g' t => blanks (S i) ++ "@param" ++ blanks (S g) ++ n ++ blanks (S g') ++ t
  | Blank => ""
  end.
Fixpoint behind_stars (ls : list line) : string :=
  match ls with
  | [] => ""
  | [l] => behind l ++ end_of_line ++ " "
  | l :: ls' => behind l ++ end_of_line ++ " *" ++ behind_stars ls'
  end.
(** The comment: /**, a line for each of [ls], and the line that closes it *)
Definition comment_of (ls : list line) : string := "/**" ++ end_of_line ++ " *" ++ behind_stars ls ++ "*/".

(** A text of one line: not empty, without stars and @, without white space but single spaces and none at the end *)
Definition usual (c : ascii) : Prop :=
  c <> "*"%char /\ c <> "@"%char /\ (is_space c = true -> c = " "%char).
Fixpoint solid (t : string) : Prop :=
  match t with
  | EmptyString => False
  | String c t' => usual c /\ match t' with EmptyString => is_space c = false | _ => solid t' end
  end.
Definition fine (t : string) : Prop := solid t /\ match t with String c _ => is_space c = false | _ => True end.
Definition letter (c : ascii) : Prop :=
  let n := nat_of_ascii c in 65 <= n <= 90 \/ 97 <= n <= 122.
Definition name_char (c : ascii) : Prop :=
  let n := nat_of_ascii c in letter c \/ 48 <= n <= 57 \/ c = "_"%char \/ c = "."%char.
Fixpoint all (P : ascii -> Prop) (s : string) : Prop :=
  match s with EmptyString => True | String c s' => P c /\ all P s' end.
Definition fine_line (l : line) : Prop :=
  match l with
  | Text _ t => fine t
  | Tag _ n _ t => n <> "" /\ all letter n /\ n <> "param" /\ fine t
  | Param _ _ n _ t => n <> "" /\ all name_char n /\ fine t
  | Blank => True
  end.
(** Free lines only between others, and one at a time *)
Fixpoint spaced (before : bool) (ls : list line) : Prop :=
  match ls with
  | [] => before = true
  | Blank :: ls' => before = true /\ spaced false ls'
  | _ :: ls' => spaced true ls'
  end.
Definition usual_layout (ls : list line) : Prop := spaced false ls /\ Forall fine_line ls.

(** How it is shown: a line goes on where the line before ended; a free line begins a new paragraph, and so does a tag, which
    is set in italics, and the name of a parameter as code. [sep] is what stands between the last line and the next text. *)
Definition long_dash : string := String "226" (String "128" (String "148" EmptyString)).
Definition paragraph : string := end_of_line ++ end_of_line.
Fixpoint shown (sep : string) (ls : list line) : string :=
  match ls with
  | [] => end_of_line ++ " "
  | Text i t :: ls' => sep ++ blanks (S i) ++ escape t ++ shown "" ls'
  | Tag _ n _ t :: ls' => paragraph ++ "_@" ++ n ++ "_ " ++ escape t ++ shown "" ls'
  | Param _ _ n _ t :: ls' => paragraph ++ "_@param_ `" ++ n ++ "` " ++ long_dash ++ " >" ++ escape t ++ shown "" ls'
  | Blank :: ls' => shown (end_of_line ++ " " ++ paragraph) ls'
  end.

(** ** Calls: a name and arguments in parentheses, which are words, spaces and colons. From left to right each is marked as
    code, and nothing else is changed. *)
Definition word_char (c : ascii) : Prop := let n := nat_of_ascii c in letter c \/ 48 <= n <= 57 \/ c = "_"%char.
Definition arg_char (c : ascii) : Prop := word_char c \/ c = " "%char \/ c = ":"%char.
Definition call_at (s name args rest : string) : Prop :=
  s = name ++ "(" ++ args ++ ")" ++ rest /\ name <> "" /\ all word_char name /\ all arg_char args.
Inductive calls_marked : string -> string -> Prop :=
| marked_end : calls_marked "" ""
| marked_call s name args rest r : call_at s name args rest -> calls_marked rest r ->
    calls_marked s ("`" ++ name ++ "(" ++ args ++ ")" ++ "`" ++ r)
| marked_char c s r : (forall name args rest, ~ call_at (String c s) name args rest) -> calls_marked s r -> calls_marked (String c s) (String c r).
