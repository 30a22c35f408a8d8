(** Model of crates/sourcepawn_lsp/src/lsp/semantic_tokens.rs (lines 177-270) and of the loop that
    feeds it in lsp/to_proto.rs (lines 74-93).

    [u32] values are [N].  An unsigned subtraction that would underflow (a panic in debug builds, a
    wrap-around in release builds) is the explicit error value [None].  Overflow of [5 * len as u32]
    (more than 858 million tokens) is not modelled. *)
From Coq Require Import List NArith Bool.
Import ListNotations.
Local Open Scope N_scope.

(** lsp_types::SemanticToken, built at semantic_tokens.rs:212-218. *)
Record token := Token {
  delta_line : N;
  delta_start : N;
  length_ : N;
  token_type : N;
  token_modifiers : N }.

(** Derived [PartialEq] on SemanticToken, used by diff_tokens (semantic_tokens.rs:238, 248). *)
Definition token_eqb (a b : token) : bool :=
  (delta_line a =? delta_line b) && (delta_start a =? delta_start b) &&
  (length_ a =? length_ b) && (token_type a =? token_type b) &&
  (token_modifiers a =? token_modifiers b).

(** lsp_types::Range with lsp_types::Position fields. *)
Record range := Range { s_line : N; s_char : N; e_line : N; e_char : N }.

(** SemanticTokensBuilder, semantic_tokens.rs:180-185 (the result id is kept separately, see
    SemCacheModel). *)
Record builder := Builder { prev_line : N; prev_char : N; data : list token }.

(** SemanticTokensBuilder::new, semantic_tokens.rs:188-195. *)
Definition builder_new : builder := Builder 0 0 [].

(** [a - b] on u32; [None] is the underflow panic. *)
Definition checked_sub (a b : N) : option N := if a <? b then None else Some (a - b).

(** SemanticTokensBuilder::push, semantic_tokens.rs:198-224. *)
Definition push (b : builder) (r : range) (ty mods : N) : option builder :=
  let deltas :=
    match data b with
    | [] => Some (s_line r, s_char r)
    | _ :: _ =>
        match checked_sub (s_line r) (prev_line b) with
        | None => None
        | Some dl =>
            if dl =? 0 then
              match checked_sub (s_char r) (prev_char b) with
              | None => None
              | Some dc => Some (dl, dc)
              end
            else Some (dl, s_char r)
        end
    end in
  match deltas with
  | None => None
  | Some (dl, dc) =>
      match checked_sub (e_char r) (s_char r) with
      | None => None
      | Some len => Some (Builder (s_line r) (s_char r) (data b ++ [Token dl dc len ty mods]))
      end
  end.

(** One highlighted range with its type index and modifier bitset: what to_proto.rs:85-89 passes to
    [push]. *)
Record hl := Hl { hl_range : range; hl_type : N; hl_mods : N }.

(** The loop of to_proto.rs:80-92 over the non-empty highlights, followed by [build]
    (semantic_tokens.rs:226-231).  The [is_empty] filter of to_proto.rs:81-83 is applied by the
    caller of the model. *)
Fixpoint push_all (b : builder) (hs : list hl) : option builder :=
  match hs with
  | [] => Some b
  | h :: tl =>
      match push b (hl_range h) (hl_type h) (hl_mods h) with
      | None => None
      | Some b' => push_all b' tl
      end
  end.

Definition semantic_tokens (hs : list hl) : option (list token) :=
  option_map data (push_all builder_new hs).

(** lsp_types::SemanticTokensEdit; [start] and [delete_count] count integers, not tokens. *)
Record edit := Edit { start : nat; delete_count : nat; edit_data : list token }.

(** [zip(..).take_while(|(n, p)| n == p).count()], semantic_tokens.rs:235-239 and 244-249. *)
Fixpoint common_prefix (a b : list token) : nat :=
  match a, b with
  | x :: a', y :: b' => if token_eqb x y then S (common_prefix a' b') else 0%nat
  | _, _ => 0%nat
  end.

(** diff_tokens, semantic_tokens.rs:234-266. *)
Definition diff_tokens (old new : list token) : list edit :=
  let offset := common_prefix new old in
  let old1 := skipn offset old in
  let new1 := skipn offset new in
  let offset_from_end := common_prefix (rev new1) (rev old1) in
  let old2 := firstn (length old1 - offset_from_end) old1 in
  let new2 := firstn (length new1 - offset_from_end) new1 in
  match old2, new2 with
  | [], [] => []
  | _, _ => [Edit (5 * offset) (5 * length old2) new2]
  end.
