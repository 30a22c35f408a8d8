(** What an LSP client means by positions and by a list of content changes. Independent of the line
    index and of the server's loop. *)
From Coq Require Import List NArith.
From Verif Require Import TextModel.
Import ListNotations.
Local Open Scope N_scope.

Definition newline : char := 10.

(** Width of a text in units of the encoding. *)
Definition unit (enc : encoding) (c : char) : N :=
  match enc with Utf8 => len8 c | Wide Utf16 => len16 c | Wide Utf32 => 1 end.
Definition width (enc : encoding) (t : list char) : N := fold_right (fun c n => unit enc c + n) 0 t.
Definition bytes (t : list char) : N := width Utf8 t.

(** [pos] names the place after the prefix [p] of a document: as many lines as [p] has line breaks,
    and the width of what follows the last one. *)
Definition names (enc : encoding) (p : list char) (pos : position) : Prop :=
  line pos = N.of_nat (count_occ N.eq_dec p newline) /\
  exists a b, p = a ++ b /\ (a = [] \/ exists a', a = a' ++ [newline]) /\ ~ In newline b /\
              character pos = width enc b.

(** One change, as LSP prescribes. *)
Inductive client_change (enc : encoding) : list char -> change -> list char -> Prop :=
| cc_full t new : client_change enc t (Change None new) new
| cc_range p m s r new :
    names enc p (r_start r) -> names enc (p ++ m) (r_end r) ->
    client_change enc (p ++ m ++ s) (Change (Some r) new) (p ++ new ++ s).

(** A list of changes, each relative to the result of the previous one. *)
Inductive client (enc : encoding) : list char -> list change -> list char -> Prop :=
| cl_nil t : client enc t [] t
| cl_cons t c t' cs t'' : client_change enc t c t' -> client enc t' cs t'' -> client enc t (c :: cs) t''.
