(** Model of the highlighting of macro uses: crates/ide/src/syntax_highlighting.rs:104-150 and the part
    of crates/sourcepawn_lsp/src/lsp/to_proto.rs:74-93, 104-123 that turns the highlights into what is
    pushed to the builder of SemTokensModel.

    The macro uses are the entries which the preprocessor recorded (PreModel.offsets: the key of the
    FxHashMap<u32, Vec<Offset>> paired with the entry, in the order they were pushed; the Vec of a key is
    [on_line], PosModel).  The syntax tree is used only for the range of its root, which is an input. *)
From Coq Require Import List ZArith NArith Bool.
From Verif Require Import PreTypes PosModel RangesModel SemTokensModel.
Import ListNotations.
Local Open Scope Z_scope.

(** The keys of the map, each once: what [offsets().iter()] yields, in any order. *)
Fixpoint keys {A} (l : list (Z * A)) : list Z :=
  match l with
  | [] => []
  | (k, _) :: tl => if existsb (Z.eqb k) (keys tl) then keys tl else k :: keys tl
  end.

(** [sorted_by_key(|(k, _)| *k)], syntax_highlighting.rs:131 *)
Fixpoint insert (k : Z) (l : list Z) : list Z :=
  match l with
  | [] => [k]
  | x :: tl => if k <=? x then k :: x :: tl else x :: insert k tl
  end.
Fixpoint sort (l : list Z) : list Z :=
  match l with [] => [] | x :: tl => insert x (sort tl) end.

(** [intersect(..).is_some()], syntax_highlighting.rs:135 *)
Definition intersects (r : PreTypes.range) (o : offset) : bool :=
  match intersect (o_range o) r with Some _ => true | None => false end.

(** highlight, syntax_highlighting.rs:104-150.  [asked] is range_to_highlight, [root] the range of the
    root node (lines 112-125); every highlight has the tag Symbol(Macro) and no modifier. *)
Definition highlight (offs : list (Z * offset)) (asked : option PreTypes.range) (root : PreTypes.range)
  : list PreTypes.range :=
  let r := match asked with Some r => r | None => root end in
  flat_map (fun k => map o_range (filter (intersects r) (on_line offs k))) (sort (keys offs)).

(** type_index(MACRO), lsp/semantic_tokens.rs:42-50, 268-270 *)
Definition macro_type : N := 7.

(** to_proto.rs:80-90: a highlight with the tag Symbol(Macro) is not empty, its modifiers are none. *)
Definition to_hl (r : PreTypes.range) : hl :=
  Hl (SemTokensModel.Range (Z.to_N (pline (rstart r))) (Z.to_N (pcol (rstart r)))
            (Z.to_N (pline (rend r))) (Z.to_N (pcol (rend r)))) macro_type 0.

(** to_proto::semantic_tokens, to_proto.rs:74-93; None is the underflow of the builder. *)
Definition tokens_of (hs : list PreTypes.range) : option (list SemTokensModel.token) :=
  semantic_tokens (map to_hl hs).

(** handle_semantic_tokens_full and handle_semantic_tokens_range, handlers/request.rs:63-79, 122-133 *)
Definition macro_tokens (offs : list (Z * offset)) (asked : option PreTypes.range) (root : PreTypes.range) :=
  tokens_of (highlight offs asked root).
