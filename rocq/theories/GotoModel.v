(** What is answered to "go to definition" and "hover": crates/ide/src/goto_definition.rs,
    crates/ide/src/hover.rs, crates/ide/src/markup.rs, and the answers sent
    (crates/sourcepawn_lsp/src/handlers/request.rs:18-62, lsp/to_proto.rs:17-52).

    A node's place in lines and columns is computed from its bytes and the text, as tree-sitter does. Columns are bytes; the
    editor's are the same where the line is ASCII (C53_utf16_refuted says what happens elsewhere). *)
From Coq Require Import List ZArith Bool String Ascii Arith.
From Verif Require Import PreTypes PosModel AstIdModel TypeRefModel ItemTreeModel FindDefModel.
Import ListNotations.
Local Open Scope string_scope.
Local Open Scope Z_scope.
Local Open Scope list_scope.

Notation range := PreTypes.range.
Definition newline : ascii := ascii_of_nat 10.

(** The line and column of a byte: tree-sitter counts the line ends before it and the bytes since the last one. *)
Fixpoint point_from (text : string) (b : nat) (p : pos) : pos :=
  match b, text with
  | S b', String c r => point_from r b' (if Ascii.eqb c newline then Pos (pline p + 1) 0 else Pos (pline p) (pcol p + 1))
  | _, _ => p
  end.
Definition point (text : string) (b : nat) : pos := point_from text b (Pos 0 0).
(** [node.range()] and [ts_range_to_lsp_range] (syntax/src/utils.rs:8-12, 31-33) *)
Definition node_range (text : string) (n : syn) : range := Rng (point text (start_of (plain n))) (point text (stop_of (plain n))).

Definition pos_ltb (a b : pos) : bool := (pline a <? pline b) || ((pline a =? pline b) && (pcol a <? pcol b)).
Definition pos_leb (a b : pos) : bool := negb (pos_ltb b a).

(** [Node::descendant_for_point_range] of tree-sitter for an empty range: down into the first child that ends behind the
    place, if it starts at it or before. *)
Fixpoint innermost (text : string) (p : pos) (n : syn) (up : list (syn * nat)) {struct n} : spot :=
  match n with
  | Syn _ _ _ _ cs =>
      (fix first (i : nat) (l : list (string * syn)) : spot :=
         match l with
         | [] => Spot n up
         | (_, c) :: r =>
             if pos_ltb p (rend (node_range text c))
             then if pos_leb (rstart (node_range text c)) p then innermost text p c ((n, i) :: up) else Spot n up
             else first (S i) r
         end) 0%nat cs
  end.

(** What is known of a file: the preprocessed text, the tree, the places of macro uses and of their arguments. *)
Record source := Source { so_text : string; so_root : syn; so_offsets : list (Z * offset); so_args : list (Z * (range * range)) }.

(** goto_definition.rs:75-98 [find_inner_name_range] *)
Fixpoint find_map {A B} (f : A -> option B) (l : list A) : option B :=
  match l with [] => None | a :: r => match f a with Some b => Some b | None => find_map f r end end.
Definition inner_name (n : syn) : syn :=
  match (if (s_kind n =? k_methodmap_property_native)%nat || (s_kind n =? k_methodmap_property_method)%nat
         then find_map (fun c => if (s_kind c =? k_methodmap_property_getter)%nat || (s_kind c =? k_methodmap_property_setter)%nat
                                 then child_by_field_name "name" c else None) (children n)
         else child_by_field_name "name" n)
  with Some c => c | None => n end.
Definition find_inner_name_range (text : string) (n : syn) : range := node_range text (inner_name n).

(** goto_definition.rs:14-18 [NavigationTarget]; ide [RangeInfo] *)
Record target := Target { tg_file : nat; tg_full : range; tg_focus : option range }.
Record answer (A : Type) := Answer { an_range : range; an_info : A }.
Arguments Answer {A} an_range an_info. Arguments an_range {A} a. Arguments an_info {A} a.

(** hir-def/src/src.rs:23-32 [ItemTreeId::source]: the node of an item of the file *)
Definition item_source (root : syn) (t : itree) (x : file_item) : res syn :=
  try a := must (item_ast t x) in try p := must (get_raw (plain root) a) in
  try s := must (locate p root []) in Val (sp_node s).

Section world.
Variable D : Type.
Variable sources : nat -> source.
(** [Semantics::find_def] (FindDefModel), [Semantics::find_macro_def], [DefResolution::file_id], [DefResolution::source] *)
Variable find_def : nat -> spot -> res D.
Variable macro_def : Z -> Z -> option D.
Variable def_file : D -> nat.
Variable def_source : D -> res syn.

(** goto_definition.rs:100-116 [find_macro_def] *)
Definition find_macro_def (offs : list (Z * offset)) (p : pos) : option (offset * D) :=
  match find_use offs p with
  | Some o => match macro_def (o_file o) (o_idx o) with Some d => Some (o, d) | None => None end
  | None => None
  end.

(** goto_definition.rs:47-63, hover.rs:71-86: the range in the editor of what is asked about, and the definition *)
Definition ask_code (f : nat) (p : pos) : res (range * D) :=
  let s := sources f in
  let '(mapped, q) := u_pos_to_s_pos (so_args s) (so_offsets s) p in
  let sp := innermost (so_text s) q (so_root s) [] in
  try d := find_def f sp in
  Val (match mapped with Some u => u | None => s_range_to_u_range (so_offsets s) (node_range (so_text s) (sp_node sp)) end, d).

(** goto_definition.rs:20-71 [goto_definition] *)
Definition goto_definition (f : nat) (p : pos) : res (answer (list target)) :=
  match find_macro_def (so_offsets (sources f)) p with
  | Some (o, d) =>
      try n := def_source d in
      let text := so_text (sources (def_file d)) in
      Val (Answer (o_range o) [Target (def_file d) (node_range text n) (Some (find_inner_name_range text n))])
  | None =>
      try (u, d) := ask_code f p in
      let s := sources (def_file d) in
      try n := def_source d in
      Val (Answer u [Target (def_file d) (s_range_to_u_range (so_offsets s) (node_range (so_text s) n))
                            (Some (s_range_to_u_range (so_offsets s) (find_inner_name_range (so_text s) n)))])
  end.

(** to_proto.rs:17-52, request.rs:18-39 [handle_goto_definition]: the links sent *)
Record link := Link { li_origin : option range; li_file : nat; li_range : range; li_selection : range }.
Definition location_link (src : option range) (t : target) : link :=
  Link src (tg_file t) (tg_full t) (match tg_focus t with Some r => r | None => tg_full t end).
Definition handle_goto_definition (f : nat) (p : pos) : res (list link) :=
  try a := goto_definition f p in Val (map (location_link (Some (an_range a))) (an_info a)).

(** markup.rs:36-38 [fenced_block] *)
Definition nl : string := String newline "".
Definition fence : string := "```".
Definition fenced_block (s : string) : string := (fence ++ "sourcepawn" ++ nl ++ s ++ nl ++ fence)%string.

(** [str::get] on an ASCII line: the text between two columns, if they are in order and in the line *)
Definition slice (s : string) (a b : Z) : option string :=
  if (a <=? b) && (b <=? Z.of_nat (String.length s)) then Some (substring (Z.to_nat a) (Z.to_nat (b - a)) s) else None.
(** [str::lines].nth; a carriage return before the line end does not occur in preprocessed text *)
Fixpoint line_from (s : string) (l : nat) : option string :=
  match s, l with
  | EmptyString, _ => None
  | String c r, 0%nat =>
      if Ascii.eqb c newline then Some "" else Some (String c (match line_from r 0 with Some x => x | None => "" end))
  | String c r, S l' => if Ascii.eqb c newline then line_from r l' else line_from r l
  end.
(** [str::trim]: the ASCII white space at both ends *)
Definition white (c : ascii) : bool := let n := nat_of_ascii c in ((9 <=? n)%nat && (n <=? 13)%nat) || (n =? 32)%nat.
Fixpoint trim_start (s : string) : string :=
  match s with EmptyString => "" | String c r => if white c then trim_start r else s end.
Fixpoint trim_end (s : string) : string :=
  match s with
  | EmptyString => ""
  | String c r => match trim_end r with EmptyString => if white c then "" else String c "" | r' => String c r' end
  end.
Definition trim (s : string) : string := trim_end (trim_start s).

(** [node.utf8_text(preprocessed_text)] *)
Definition text_of (text : string) (n : syn) : string :=
  substring (start_of (plain n)) (stop_of (plain n) - start_of (plain n)) text.

(** hover.rs:119-186 [find_macro_hover] *)
Definition find_macro_hover (f : nat) (p : pos) : res (answer string) :=
  let s := sources f in
  try (o, d) := ask (find_macro_def (so_offsets s) p) in
  try n := def_source d in
  let source_text := text_of (so_text (sources (def_file d))) n in
  let '(a, b) := hover_slice (so_offsets s) (pline p) o in
  let shown := match line_from (so_text s) (Z.to_nat (pline p)) with Some l => slice l a b | None => None end in
  Val (Answer (o_range o)
    match shown with
    | Some x => (fenced_block source_text ++ nl ++ "Expands to:" ++ nl ++ fenced_block (trim x))%string
    | None => fenced_block source_text
    end).

(** [Documentation::from_node(..).to_markdown()] (C54); it gives a text for every node. *)
Variable docs : nat -> syn -> string.
(** hover.rs:58-117 [hover] with [config.documentation] *)
Definition hover (documentation : bool) (f : nat) (p : pos) : res (answer string) :=
  match find_macro_hover f p with
  | Val a => Val a
  | Panic => Panic
  | Nothing =>
      try (u, d) := ask_code f p in
      try n := def_source d in
      let source_text := text_of (so_text (sources (def_file d))) n in
      Val (Answer u
        (if documentation then (fenced_block source_text ++ nl ++ nl ++ "---" ++ nl ++ nl ++ docs (def_file d) n)%string
         else fenced_block source_text))
  end.
End world.
