(** What the directives of a file say about a macro name, read off the directives themselves. *)
From Coq Require Import List ZArith Bool String.
From Verif Require Import PreTypes PreModel CondSpec.
Import ListNotations.
Local Open Scope Z_scope.

(** The symbols behind a directive, up to the end of its line. *)
Definition line_of (e : event) : list symbol := fst (directive_symbols (lex (e_before e))).

(** The name a #define gives to its macro: the identifier right behind the directive; without one the
    macro gets the empty name. (A lexer returns no identifier with an empty text; the spec skips
    them.) *)
Fixpoint define_name (ys : list symbol) : string :=
  match ys with
  | [] => EmptyString
  | y :: tl =>
      match s_kind y with
      | KIdent => if String.eqb (s_text y) EmptyString then define_name tl else s_text y
      | _ => EmptyString
      end
  end.

(** The name an #undef removes: the first identifier behind it. *)
Definition undef_name (ys : list symbol) : option string :=
  option_map s_text (find (fun y => kind_eqb (s_kind y) KIdent) ys).

Definition is_dir (d : dir) (e : event) : bool := kept e && kind_eqb (s_kind (e_sym e)) (KDir d).
Definition is_include (e : event) : bool := is_dir MInclude e || is_dir MTryinclude e.

(** The active #define directives of a file, in order: their number is their place in this list. *)
Definition defines (tr : list event) : list event := filter (is_dir MDefine) tr.
Definition define_names (tr : list event) : list string :=
  map (fun e => define_name (line_of e)) (defines tr).

(** What an include adds: [exports e x] is the macro that the include at [e] brings for [x]. The
    include callback only ever adds to the table (both callbacks of PreDbModel do). *)
Definition only_adds (v : env)
    (table : incs_t -> macros_map -> string -> bool -> macros_map) : Prop :=
  forall i m p q, snd (fst (v_inc v i m p q)) = mextend m (table i m p q).

(** How the latest directive that concerns [x] leaves it: [Bound n] by the [n]-th active #define of
    this file, [Removed] by #undef, [Brought m] by an include. [None]: no directive concerns it. *)
Inductive origin := Bound (n : Z) | Removed | Brought (m : macro).

Section latest.
Variable exports : event -> string -> option macro.

Fixpoint latest (n : Z) (tr : list event) (x : string) (sofar : option origin) : option origin :=
  match tr with
  | [] => sofar
  | e :: tl =>
      let n' := if is_dir MDefine e then n + 1 else n in
      let now :=
        if is_dir MDefine e then
          if String.eqb (define_name (line_of e)) x then Some (Bound n) else sofar
        else if is_dir MUndef e then
          match undef_name (line_of e) with
          | Some y => if String.eqb y x then Some Removed else sofar
          | None => sofar
          end
        else if is_include e then
          match exports e x with Some m => Some (Brought m) | None => sofar end
        else sofar in
      latest n' tl x now
  end.
End latest.
