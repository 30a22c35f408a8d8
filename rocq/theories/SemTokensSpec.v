(** What an LSP client does with semantic tokens (LSP 3.17, textDocument/semanticTokens).  Written
    from the protocol text, independent of the server's code. *)
From Coq Require Import List NArith.
From Verif Require Import SemTokensModel.
Import ListNotations.
Local Open Scope N_scope.

(** The integers on the wire: five per token. *)
Definition flatten (ts : list token) : list N :=
  flat_map (fun t => [delta_line t; delta_start t; length_ t; token_type t; token_modifiers t]) ts.

(** One SemanticTokensEdit: delete [delete_count] integers at [start], insert the data there. *)
Definition apply_edit (arr : list N) (e : edit) : list N :=
  firstn (start e) arr ++ flatten (edit_data e) ++ skipn (start e + delete_count e) arr.

(** All edits of a delta refer to the same previous array, so a client applies them from the last
    one to the first one. *)
Definition apply_edits (arr : list N) (es : list edit) : list N :=
  fold_right (fun e a => apply_edit a e) arr es.

(** An absolute token. *)
Record abs_token := Abs { a_line : N; a_char : N; a_len : N; a_type : N; a_mods : N }.

(** Decoding: line is relative to the previous token, the start character is relative to the
    previous token's start when both are on the same line, absolute otherwise. *)
Fixpoint decode_from (line char : N) (ts : list token) : list abs_token :=
  match ts with
  | [] => []
  | t :: tl =>
      let l := line + delta_line t in
      let c := if delta_line t =? 0 then char + delta_start t else delta_start t in
      Abs l c (length_ t) (token_type t) (token_modifiers t) :: decode_from l c tl
  end.

Definition decode (ts : list token) : list abs_token := decode_from 0 0 ts.

(** The token a highlighted range stands for. *)
Definition abs_of (h : hl) : abs_token :=
  Abs (s_line (hl_range h)) (s_char (hl_range h))
      (e_char (hl_range h) - s_char (hl_range h)) (hl_type h) (hl_mods h).

(** Ranges that lie on one line and do not end before they start. *)
Definition forward_line (h : hl) : Prop := s_char (hl_range h) <= e_char (hl_range h).

(** Document order of range starts. *)
Definition starts_le (a b : hl) : Prop :=
  s_line (hl_range a) < s_line (hl_range b) \/
  (s_line (hl_range a) = s_line (hl_range b) /\ s_char (hl_range a) <= s_char (hl_range b)).

Fixpoint in_order (hs : list hl) : Prop :=
  match hs with
  | a :: ((b :: _) as tl) => starts_le a b /\ in_order tl
  | _ => True
  end.
