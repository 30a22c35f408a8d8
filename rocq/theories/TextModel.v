(** Model of document synchronisation: crates/sourcepawn_lsp/src/lsp/utils.rs (56-115),
    lsp/from_proto.rs (25-63) and lsp/ext.rs (6-22), on top of the line index.
    Simplifications:
    - a Rust String is the list of its chars (code points); byte offsets are sums of UTF-8 lengths;
    - [ide::LineIndex] is the external crate line-index 0.1; [build], [start_offset] and [to_utf8]
      are written from its documented behaviour (trusted);
    - TextSize and u32 additions do not overflow. *)
From Coq Require Import List NArith Bool.
Import ListNotations.
Local Open Scope N_scope.

Definition char := N.

(** char::len_utf8, char::len_utf16 *)
Definition len8 (c : char) : N :=
  if c <? 128 then 1 else if c <? 2048 then 2 else if c <? 65536 then 3 else 4.
Definition len16 (c : char) : N := if c <? 65536 then 1 else 2.

(** line_index::WideEncoding, line_index.rs:13-17 PositionEncoding *)
Inductive wide_enc := Utf16 | Utf32.
Inductive encoding := Utf8 | Wide (w : wide_enc).
Definition wide_len (w : wide_enc) (c : char) : N := match w with Utf16 => len16 c | Utf32 => 1 end.

(** A non-ASCII char of a line: byte columns of start and end, as the crate stores it.
    WideChar::wide_len is computed from the byte length there: 4 bytes are 2 UTF-16 units. *)
Record wide_char := WChar { w_start : N; w_end : N }.
Definition wc_len (c : wide_char) : N := w_end c - w_start c.
Definition wc_wide_len (w : wide_enc) (c : wide_char) : N :=
  match w with Utf16 => if wc_len c =? 4 then 2 else 1 | Utf32 => 1 end.

Record line_index := Index { newlines : list N; wide_chars : list (list wide_char) }.

(** LineIndex::new *)
Fixpoint build_newlines (off : N) (t : list char) : list N :=
  match t with
  | [] => []
  | c :: tl =>
      let off := off + len8 c in
      if c =? 10 then off :: build_newlines off tl else build_newlines off tl
  end.
Fixpoint build_wide (col : N) (cur : list wide_char) (t : list char) : list (list wide_char) :=
  match t with
  | [] => [cur]
  | c :: tl =>
      if c =? 10 then cur :: build_wide 0 [] tl
      else if c <? 128 then build_wide (col + 1) cur tl
      else build_wide (col + len8 c) (cur ++ [WChar col (col + len8 c)]) tl
  end.
Definition build (t : list char) : line_index := Index (build_newlines 0 t) (build_wide 0 [] t).

(** LineIndex::start_offset *)
Definition start_offset (ix : line_index) (line : N) : option N :=
  if line =? 0 then Some 0 else nth_error (newlines ix) (N.to_nat (line - 1)).

(** LineIndex::to_utf8 (the column) *)
Fixpoint to_utf8 (w : wide_enc) (col : N) (cs : list wide_char) : N :=
  match cs with
  | [] => col
  | c :: tl => if w_start c <? col then to_utf8 w (col + wc_len c - wc_wide_len w c) tl else col
  end.

(** lsp_types::Position, Range *)
Record position := Position { line : N; character : N }.
Record lsp_range := Range { r_start : position; r_end : position }.

(** from_proto.rs:25-50; None is the error *)
Definition offset (enc : encoding) (ix : line_index) (p : position) : option N :=
  let col := match enc with
             | Utf8 => character p
             | Wide w => to_utf8 w (character p) (nth (N.to_nat (line p)) (wide_chars ix) [])
             end in
  option_map (fun start => start + col) (start_offset ix (line p)).

(** from_proto.rs:52-63 *)
Definition text_range (enc : encoding) (ix : line_index) (r : lsp_range) : option (N * N) :=
  match offset enc ix (r_start r), offset enc ix (r_end r) with
  | Some s, Some e => if e <? s then None else Some (s, e)
  | _, _ => None
  end.

(** The text before and after byte offset [off]; None when [off] is out of bounds or not on a char
    boundary. *)
Fixpoint split_bytes (off : N) (t : list char) : option (list char * list char) :=
  if off =? 0 then Some ([], t)
  else match t with
       | [] => None
       | c :: tl =>
           if off <? len8 c then None
           else match split_bytes (off - len8 c) tl with
                | Some (a, b) => Some (c :: a, b)
                | None => None
                end
       end.

(** String::replace_range; None is a panic. *)
Definition replace_range (s e : N) (new : list char) (t : list char) : option (list char) :=
  match split_bytes s t, split_bytes e t with
  | Some (a, _), Some (_, b) => Some (a ++ new ++ b)
  | _, _ => None
  end.

(** lsp_types::TextDocumentContentChangeEvent *)
Record change := Change { c_range : option lsp_range; c_text : list char }.

(** !0u32 *)
Definition u32_max : N := 4294967295.

(** The loop of utils.rs:101-113; None is a panic. *)
Fixpoint apply_loop (enc : encoding) (ix : line_index) (valid : N) (t : list char)
    (cs : list change) : option (list char) :=
  match cs with
  | [] => Some t
  | c :: tl =>
      match c_range c with
      | None => apply_loop enc ix valid t tl
      | Some r =>
          let ix := if valid <=? line (r_end r) then build t else ix in
          let valid := line (r_start r) in
          match text_range enc ix r with
          | None => apply_loop enc ix valid t tl
          | Some (s, e) =>
              match replace_range s e (c_text c) t with
              | Some t' => apply_loop enc ix valid t' tl
              | None => None
              end
          end
      end
  end.

Definition is_full (c : change) : bool := match c_range c with None => true | Some _ => false end.

(** [iter().rev().position(..)]: the distance of the last full change from the end *)
Fixpoint position_of {A} (f : A -> bool) (l : list A) : option nat :=
  match l with
  | [] => None
  | x :: tl => if f x then Some 0%nat else option_map S (position_of f tl)
  end.

(** utils.rs:62-67 *)
Definition last_full (cs : list change) : nat :=
  match position_of is_full (rev cs) with
  | Some i => (List.length cs - i - 1)%nat
  | None => 0
  end.

(** utils.rs:56-115. The loop at the end goes over all the changes, as in the code. *)
Definition apply_document_changes (enc : encoding) (contents : list char) (cs : list change)
  : option (list char) :=
  let start := last_full cs in
  match nth_error cs start with
  | None => Some contents
  | Some c =>
      match c_range c with
      | None => if Nat.eqb (S start) (List.length cs) then Some (c_text c)
                else apply_loop enc (build (c_text c)) u32_max (c_text c) cs
      | Some _ => apply_loop enc (build contents) u32_max contents cs
      end
  end.

(** lsp_types::PositionEncodingKind: a string; [EOther] is any other name. *)
Inductive enc_kind := EUtf8 | EUtf16 | EUtf32 | EOther (n : N).

(** lsp/ext.rs:12-22; the argument is [caps.general.position_encodings], [] when absent *)
Fixpoint negotiated (offered : list enc_kind) : encoding :=
  match offered with
  | [] => Wide Utf16
  | EUtf8 :: _ => Utf8
  | EUtf32 :: _ => Wide Utf32
  | _ :: tl => negotiated tl
  end.

(** capabilities.rs:16-23: the encoding announced to the client; [Wide] encodings other than UTF-16
    and UTF-32 do not exist in the model. *)
Definition announced (offered : list enc_kind) : option enc_kind :=
  match negotiated offered with
  | Utf8 => Some EUtf8
  | Wide Utf16 => Some EUtf16
  | Wide Utf32 => Some EUtf32
  end.
(** config.rs:135-137: the encoding used by the handlers *)
Definition position_encoding (offered : list enc_kind) : encoding := negotiated offered.
