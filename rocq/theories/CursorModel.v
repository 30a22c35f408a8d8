(** From the cursor on a name in a function to the declaration in the editor: the parts of the other models put
    together. The function that contains the name is found (FindDefModel), the body of its definition is lowered
    (LowerModel), the name is asked about in it (OffsetModel), and what is found is shown (GotoModel).

    The parts have different ways to write a syntax tree. All of them are made here from one tree. *)
From Coq Require Import List String Bool Arith.
From Verif Require Import AstIdModel TypeRefModel ItemTreeModel FindDefModel MethodModel GotoModel HirModel OffsetModel LowerModel LowerHir.
From Verif Require HirNames.
Import ListNotations.
Local Open Scope string_scope.
Local Open Scope nat_scope.
Local Open Scope list_scope.

Notation ptr := AstIdModel.ptr.
Notation bind := FindDefModel.bind.
Notation "'try' x := a 'in' b" := (FindDefModel.bind a (fun x => b)) (at level 200, x pattern, b at level 200).
Notation "'let*' x := a 'in' b" := (match a with Some x => b | None => None end) (at level 200, x pattern, b at level 200).

(** ** One tree *)
(** crates/syntax/src/generated.rs:1: the numbers of the kinds that the lowering tells apart *)
Definition kinds : list (nat * kind) :=
  [(1, identifier); (2, anon_LPAREN); (3, anon_RPAREN); (29, anon_COMMA); (68, anon_LBRACE); (69, anon_RBRACE); (81, anon_LBRACK);
   (82, anon_RBRACK); (95, anon_break); (96, anon_continue); (103, anon_return); (104, anon_delete); (115, int_literal);
   (116, float_literal); (122, bool_literal); (123, null); (124, this); (126, comment); (147, parameter_declarations);
   (148, parameter_declaration); (153, variable_declaration_statement); (156, variable_declaration); (159, new_expression);
   (161, old_variable_declaration_statement); (162, old_variable_declaration); (201, block); (202, for_statement);
   (203, while_statement); (204, do_while_statement); (205, break_statement); (206, continue_statement);
   (207, condition_statement); (208, switch_statement); (209, switch_case); (210, expression_statement); (211, return_statement);
   (212, delete_statement); (216, assignment_expression); (217, call_expression); (219, named_arg); (221, array_indexed_access);
   (222, parenthesized_expression); (223, comma_expression); (224, ternary_expression); (225, field_access); (226, scope_access);
   (227, unary_expression); (229, binary_expression); (231, update_expression); (233, array_scope_access); (234, sizeof_expression);
   (235, view_as); (236, old_type_cast); (237, array_literal); (239, char_literal); (240, string_literal)].
Definition kind_no (n : nat) : kind :=
  match find (fun x => fst x =? n) kinds with Some (_, k) => k | None => other n end.

(** Where the lowering has a number for a [NodePtr], it is the first place of the pointer in the list of those of all nodes. *)
Fixpoint pointers (n : syn) : list ptr :=
  let 'Syn _ _ _ _ cs := n in pointer n :: flat_map (fun c => pointers (snd c)) cs.
Fixpoint index (p : ptr) (l : list ptr) : nat :=
  match l with [] => 0 | q :: r => if ptr_eqb q p then 0 else S (index p r) end.

Section file.
Variable root : syn.
Definition number (p : ptr) : nat := index p (pointers root).
Definition pointer_no (i : nat) : option ptr := nth_error (pointers root) i.
Definition span_no (i : nat) : span := match pointer_no i with Some (_, s, e) => (s, e) | None => (0, 0) end.
Fixpoint ts_of (n : syn) : ts :=
  let 'Syn k _ _ x cs := n in
  T (kind_no k) (number (pointer n)) x (map (fun c => (if String.eqb (fst c) "" then None else Some (fst c), ts_of (snd c))) cs).

(** ** Bodies *)
Variable t : itree.
(** [f64::from_str]. The node of a member of a typeset or a funcenum. *)
Variable parse_f64 : string -> option nat.
Variable member_node : def -> FindDefModel.res syn.

(** lower.rs:163-170 (the id of a block), hir/type_ref.rs:66-89 *)
Definition environment : env := Env parse_f64
  (fun i => let* p := pointer_no i in insert_all 0 (arena (plain root)) p None)
  (fun i => let* p := pointer_no i in let* s := locate p root [] in type_in "type" (sp_node s)).
(** body.rs:63-69: the node of a function, a method or a function type *)
Definition def_node (d : def) : FindDefModel.res syn :=
  match d with
  | Top x => item_source root t x
  | InEnumStruct _ j | InMethodmap _ j => method_source t root j
  | InTypeset _ _ | InFuncenum _ _ => member_node d
  end.
(** body.rs:70-84 *)
Definition params_list (n : syn) : option syn :=
  if one_of (s_kind n) [k_methodmap_property_native; k_methodmap_property_method]
  then let* c := find (has_kind k_methodmap_property_setter) (children n) in child_by_field_name "parameter" c
  else find (has_kind k_parameter_declarations) (children n).
(** body.rs:57-93 [body_with_source_map_query] of a function *)
Definition body_of (d : def) : FindDefModel.res (option nat * state) :=
  try n := def_node d in
  match lower environment (option_map ts_of (params_list n)) (option_map ts_of (child_by_field_name "body" n)) with
  | Ret i s => Val (i, s)
  | LowerModel.Panic => FindDefModel.Panic
  end.
(** [BodySourceMap::node_ptr_expr] *)
Definition ptr_expr (d : def) (p : ptr) : option nat :=
  match body_of d with Val (_, s) => node_expr s (number p) | _ => None end.

(** ** Names in a function *)
(** The ids of functions, interned; the definitions and the object of the file; what is found but is no local variable. *)
Variable owner : def -> nat.
Variable def_of : nat -> def.
Variable maps : list HirModel.def_map.
Variable object : def -> option (bool * nat).
Variable db : database.
Variable other_def : found_def -> FindDefModel.res resolution.

(** semantics.rs:380-434; base-db/src/lib.rs:59-64 [is_field_receiver_node]. The name behind a dot is the first child in the
    field "field". *)
Definition is_field_receiver_node (s : spot) : bool :=
  match sp_up s with
  | [] => false
  | (n, i) :: _ => match field_index "field" 0 (s_kids n) with Some j => i =? j | None => false end
  end.
Definition place_at (s : spot) : place :=
  match sp_up s with
  | [] => POther
  | (p, _) :: r =>
      if (s_kind p =? 225) && is_field_receiver_node s
      then PMember (match r with (g, _) :: _ => s_kind g =? 217 | [] => false end)
      else if s_kind p =? 159 then PNew
      else if s_kind p =? 219 then PNamedArg
      else POther
  end.
Definition resolution_of (r : option found_def) : FindDefModel.res resolution :=
  match r with
  | Some (FLocal o e) => Val (RLocal (def_of o) e)
  | Some x => other_def x
  | None => Nothing
  end.
(** semantics.rs:362-434 [function_node_to_def_] *)
Definition in_function (d : def) (c s : spot) : FindDefModel.res resolution :=
  let text := s_text (sp_node s) in
  let base := HirNames.owner_resolver maps (object d) in
  let start := start_of (plain (sp_node s)) in
  match child_by_field_name "body" (sp_node c) with
  | None =>
      resolution_of (OffsetModel.function_node_to_def
        (FnInput (owner d) maps base (Body [] None) (fun _ => None) db) false (place_at s) text start None)
  | Some b =>
      if s_kind b =? 201 then
        try (i, st) := body_of d in
        resolution_of (OffsetModel.function_node_to_def
          (FnInput (owner d) maps base (to_body st i) (fun j => option_map span_no (expr_source st j)) db)
          true (place_at s) text start (node_expr st (number (pointer (sp_node s)))))
      else FindDefModel.Panic
  end.

(** ** Showing a definition *)
(** hir/src/lib.rs:80-104 [DefResolution::source], 505-517 [Local::source] *)
Definition def_source (r : resolution) : FindDefModel.res syn :=
  match r with
  | RDef d => def_node d
  | RLocal d j =>
      try (_, st) := body_of d in
      try i := ask (expr_source st j) in
      try p := must (pointer_no i) in
      try s := must (locate p root []) in Val (sp_node s)
  | RFile _ => Val root
  end.
End file.
