(** The messages of the SourcePawn compiler: PATH(LINE) : SEVERITY CODE: TEXT *)
From Coq Require Import List NArith Bool String Ascii.
From Verif Require Import SpCompModel.
Import ListNotations.
Local Open Scope N_scope.

Definition severity_text (s : severity) : list N :=
  match s with Warning => str "warning" | Error => str "error" | FatalError => str "fatal error" end.

(** The number a string of ASCII digits denotes *)
Definition decimal (l : list N) : Prop := l <> [] /\ Forall (fun c => 48 <= c <= 57) l.
Definition value (l : list N) : N := fold_left (fun a c => a * 10 + (c - 48)) l 0.

(** the text of a message, with [gap] between the colon and the text *)
Definition message_line (path line : list N) (s : severity) (code gap text : list N) : list N :=
  (path ++ str "(" ++ line ++ str ") : " ++ severity_text s ++ str " " ++ code ++ str ":" ++ gap ++ text)%list.

(** The characters file names may have: ASCII letters, digits, and : / \ - _ . and space *)
Definition path_char (c : N) : Prop :=
  In c (str ":/\-_. 0123456789abcdefghijklmnopqrstuvwxyzABCDEFGHIJKLMNOPQRSTUVWXYZ").
Definition absolute (p : list N) : Prop := exists tl, p = 47 :: tl.

(** the text of a message is on one line and does not begin with a space *)
Definition one_line (t : list N) : Prop := ~ In 10 t.
Definition trimmed (t : list N) : Prop := match t with c :: _ => is_space c = false | [] => True end.

(** The directories searched for included files, in order, on a command line *)
Definition include_dirs (args : list (list N)) : list (list N) :=
  flat_map (fun a => match a with 45 :: 105 :: d => [d] | _ => [] end) args.

(** How the editor shows a message about (one-based) line [n]: on that line only, from its beginning to at
    least its thousandth column, as an error unless it is a warning (the protocol's 1 and 2) *)
Definition shown_as (n : N) (s : severity) (code text : list N) (d : lsp_diagnostic) : Prop :=
  start_line d + 1 = n /\ end_line d + 1 = n /\ start_char d = 0 /\ 1000 <= end_char d /\
  (lsp_sev d = 2 <-> s = Warning) /\ (lsp_sev d = 1 <-> s <> Warning) /\
  lsp_code d = code /\ lsp_message d = text /\ source d = str "spcomp".
