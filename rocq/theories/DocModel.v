(** Model of crates/ide-db/src/documentation.rs: Documentation::from_node (24-89) and comment_to_doc (117-128).
    - A node is given by its kind, the rows it begins and ends in and its text; [prev_sibling] by the list of the siblings
      before it, the nearest first.
    - utf8_text does not fail: the source is a String.
    - The three regular expressions are written out as functions; they are anchored, so each replaces once. \s is taken
      as the ASCII white space. *)
From Coq Require Import List Bool Arith String Ascii.
Import ListNotations.
Local Open Scope string_scope.
Local Open Scope nat_scope.
Local Open Scope list_scope.

Inductive kind := Comment | Pragma | Declaration | Other.   (* Declaration: the kinds of lines 28-49 *)
Record node := Node { k : kind; start_row : nat; end_row : nat; text : string }.

Definition kind_eqb (a b : kind) : bool :=
  match a, b with Comment, Comment | Pragma, Pragma | Declaration, Declaration | Other, Other => true | _, _ => false end.

Definition is_space (c : ascii) : bool :=
  let n := nat_of_ascii c in (n =? 32) || ((9 <=? n) && (n <=? 13)).
Fixpoint skip_spaces (s : string) : string :=
  match s with String c s' => if is_space c then skip_spaces s' else s | EmptyString => s end.
Fixpoint skip_stars (s : string) : string :=
  match s with String c s' => if Ascii.eqb c "*" then skip_stars s' else s | EmptyString => s end.

(** RE1: at the start, white space, a slash, one or more stars, white space *)
Definition re1 (s : string) : string :=
  match skip_spaces s with
  | String "/" (String "*" rest) => skip_spaces (skip_stars rest)
  | _ => s
  end.
(** RE2: a star and a slash at the end *)
Fixpoint re2 (s : string) : string :=
  match s with
  | EmptyString => s
  | String "*" (String "/" EmptyString) => EmptyString
  | String c s' => String c (re2 s')
  end.
(** RE3: at the start, white space, two slashes, white space *)
Definition re3 (s : string) : string :=
  match skip_spaces s with
  | String "/" (String "/" rest) => skip_spaces rest
  | _ => s
  end.
(** documentation.rs:117-128 *)
Definition comment_to_doc (s : string) : string := re3 (re2 (re1 s)).

(** documentation.rs:50-83: [row] is the row [node] starts in, [pragma] whether one was seen *)
Fixpoint climb (row : nat) (pragma : bool) (prevs : list node) : list string :=
  match prevs with
  | [] => []
  | p :: prevs' =>
      if negb (row - end_row p =? 1) then []
      else if kind_eqb (k p) Pragma then
        if pragma then [] else climb (start_row p) true prevs'
      else if negb (kind_eqb (k p) Comment) then []
      else comment_to_doc (text p) ::
           (if negb (start_row p =? end_row p) then [] else climb (start_row p) pragma prevs')
  end.
(** documentation.rs:24-89; the result is never None *)
Definition from_node (n : node) (prevs : list node) : string :=
  let docs := match k n with Declaration => climb (start_row n) false prevs | _ => [] end in
  String.concat (String "010" EmptyString) (rev docs).

(** documentation.rs:107-108: the replacements of to_markdown (91-114, DocMarkdown) that escape the angle brackets. The replacements
    before them remove stars at the start of lines; the ones after them put marks around tags, parameters and calls and
    match neither brackets nor backslashes. *)
Fixpoint escape_char (ch : ascii) (s : string) : string :=
  match s with
  | EmptyString => EmptyString
  | String c s' => if Ascii.eqb c ch then String "\" (String c (escape_char ch s')) else String c (escape_char ch s')
  end.
Definition escape (s : string) : string := escape_char ">" (escape_char "<" s).
