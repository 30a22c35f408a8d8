(** Model of the reports of the server's own analysis, from what the analysis found to what the editor is sent:
    crates/ide-diagnostics/src/lib.rs and handlers/*.rs, crates/hir/src/lib.rs:139-190, 220-386 (File::diagnostics,
    FileDef::diagnostics, DefWithBody::diagnostics), crates/syntax/src/utils.rs:8-33,
    crates/sourcepawn_lsp/src/diagnostics.rs:144-178, lsp/to_proto.rs:125-131.
    - Input: what the preprocessor, the parser and the inference found. The tree is the one of the preprocessed text.
    - A message is kept as what it says, not as its English words.
    - Whether a parser error has a list of expected tokens is an attribute of its node.
    - The settings given to [diagnostics] are constant and not read (config.rs:158-164, ide-diagnostics lib.rs:101). *)
From Coq Require Import List Bool Arith NArith String.
From Verif Require Import TextModel.
Import ListNotations.
Local Open Scope string_scope.
Local Open Scope list_scope.

(** ** Trees *)
Record point := Point { row : N; column : N }.                   (* tree_sitter::Point, columns in bytes *)
Record ts_range := TsRange { start_point : point; end_point : point }.
Inductive tnode := TNode (kind : string) (missing : bool) (expected : option (list string)) (sexp : string)
                         (range : ts_range) (children : list tnode).
Definition t_kind (n : tnode) := match n with TNode k _ _ _ _ _ => k end.
Definition t_missing (n : tnode) := match n with TNode _ m _ _ _ _ => m end.
Definition t_expected (n : tnode) := match n with TNode _ _ e _ _ _ => e end.
Definition t_sexp (n : tnode) := match n with TNode _ _ _ s _ _ => s end.
Definition t_range (n : tnode) := match n with TNode _ _ _ _ r _ => r end.

(** syntax/src/utils.rs:8-12, 31-33 *)
Definition point_to_lsp_position (p : point) : position := Position (row p) (column p).
Definition ts_range_to_lsp_range (r : ts_range) : lsp_range :=
  Range (point_to_lsp_position (start_point r)) (point_to_lsp_position (end_point r)).

(** ** Reports *)
Inductive severity := Error | Warning | WeakWarning.
Inductive code := SpCompError (c : string) | SpCompWarning (c : string) | Lint (c : string) (s : severity).
Inductive message :=
  | MExpected (names : list string)               (* expected ".." *)
  | MSexp (s : string)
  | MMissing (kind : string)                      (* expected `..` *)
  | MText (s : string)
  | MFileNotFound (path : string)
  | MNoMacro (name : string)
  | MInactive
  | MNoField (name receiver : string) (but_method : bool)
  | MNoMethod (name receiver : string) (but_field : bool)
  | MNoConstructor (name : string) | MEnumStructConstructed (name : string) | MNoMethodmap (name : string)
  | MNoParameter (name callee : string)
  | MAtLeast (expected : nat) (name : string) (actual : nat)
  | MAtMost (expected : nat) (name : string) (actual : nat)
  | MNotMethodmap (name : string).
Record diagnostic := Diagnostic {
  d_code : code; d_message : message; d_range : lsp_range; d_severity : severity; d_unused : bool }.

(** lib.rs:44-62 *)
Definition new (c : code) (m : message) (r : lsp_range) : diagnostic :=
  Diagnostic c m r (match c with SpCompError _ => Error | SpCompWarning _ => Warning | Lint _ s => s end) false.
(** lib.rs:87-90 *)
Definition with_unused (d : diagnostic) (u : bool) : diagnostic :=
  Diagnostic (d_code d) (d_message d) (d_range d) (d_severity d) u.
(** lib.rs:64-74: the node of a pointer is found by its range *)
Definition new_with_syntax_node_ptr (c : code) (m : message) (ptr : ts_range) : diagnostic :=
  new c m (ts_range_to_lsp_range ptr).

(** lib.rs:205-219, with the fallback of 169-174 *)
Definition syntax_error (n : tnode) : diagnostic :=
  match t_expected n with
  | Some names => new (SpCompError "syntax-error") (MExpected names) (ts_range_to_lsp_range (t_range n))
  | None => new (SpCompError "syntax-error") (MSexp (t_sexp n)) (ts_range_to_lsp_range (t_range n))
  end.
(** The captures of (ERROR) @error: every node of that kind, in the order of the text *)
Fixpoint errors_in (n : tnode) : list tnode :=
  match n with
  | TNode k _ _ _ _ children =>
      (if String.eqb k "ERROR" then [n] else []) ++ flat_map errors_in children
  end.
(** lib.rs:188-201 *)
Fixpoint missing_nodes (n : tnode) : list diagnostic :=
  match n with
  | TNode k m _ _ r children =>
      (if m then [new (SpCompError "missing-node") (MMissing k) (ts_range_to_lsp_range r)] else [])
      ++ flat_map missing_nodes children
  end.
(** lib.rs:162-181 *)
Definition syntax_error_diagnostics (tree : tnode) : list diagnostic :=
  map syntax_error (errors_in tree) ++ missing_nodes tree.

(** ** What the analysis found *)
Inductive constructor_kind := KMethodmap | KEnumStruct | KExists.   (* hir_def::ConstructorDiagnosticKind *)
Inductive inference_diagnostic :=
  | UnresolvedField (expr : nat) (receiver name : string) (method_with_same_name_exists : bool)
  | UnresolvedMethodCall (expr : nat) (receiver name : string) (field_with_same_name_exists : bool)
  | UnresolvedConstructor (expr : nat) (methodmap : string) (exists_ : option constructor_kind)
  | UnresolvedNamedArg (expr : nat) (name callee : string)
  | IncorrectNumberOfArguments (expr : nat) (name : string) (expected actual : nat).
(** a body: where each expression stands, and what the inference found *)
Record body := Body { expr_source : nat -> option ts_range; infer : list inference_diagnostic }.
(** DefDiagnostic::UnresolvedInherit; the range of the node in field "inherits", if there is one *)
Record inherit_problem := Inherit { inherits_node : option ts_range; inherit_name : string; exists_ : bool }.
Inductive file_def :=
  | Function (b : body) | Typedef (b : body) | Functag (b : body)
  | EnumStruct (methods : list body)
  | Methodmap (problems : list inherit_problem) (methods : list body)
  | OtherDef.                                    (* Global, Macro, Enum, Variant, Typeset, Funcenum *)
Record analysis := Analysis {
  tree : tnode;
  evaluation_errors : list (lsp_range * string);
  unresolved_include_errors : list (lsp_range * string);
  macro_not_found_errors : list (lsp_range * string);
  inactive_ranges : list lsp_range;
  declarations : list file_def }.

(** ** Reports of a body. None is the panic "no matching source". *)
Fixpoint collect {A B} (f : A -> option B) (l : list A) : option (list B) :=
  match l with
  | [] => Some []
  | x :: tl => match f x, collect f tl with Some y, Some ys => Some (y :: ys) | _, _ => None end
  end.

(** hir lib.rs:308-384 with the handlers; hir maps an unknown kind of constructor to None (343-351) *)
Definition infer_report (b : body) (d : inference_diagnostic) : option diagnostic :=
  let at_ e m := option_map (new_with_syntax_node_ptr (SpCompError "E0000") m) (expr_source b e) in
  match d with
  | UnresolvedField e r n s => at_ e (MNoField n r s)
  | UnresolvedMethodCall e r n s => at_ e (MNoMethod n r s)
  | UnresolvedConstructor e n x =>
      at_ e (match x with
             | Some KMethodmap => MNoConstructor n
             | Some KEnumStruct => MEnumStructConstructed n
             | _ => MNoMethodmap n
             end)
  | UnresolvedNamedArg e n c => at_ e (MNoParameter n c)
  | IncorrectNumberOfArguments e n expected actual =>
      at_ e (if Nat.ltb actual expected then MAtLeast expected n actual else MAtMost expected n actual)
  end.
Definition body_diagnostics (b : body) : option (list diagnostic) := collect (infer_report b) (infer b).

(** hir lib.rs:230-256 with handlers/unresolved_inherit.rs *)
Definition inherit_report (p : inherit_problem) : list diagnostic :=
  match inherits_node p with
  | Some r => [new_with_syntax_node_ptr (SpCompError "E0000")
                 (if exists_ p then MNotMethodmap (inherit_name p) else MNoMethodmap (inherit_name p)) r]
  | None => []
  end.
(** hir lib.rs:221-282 *)
Definition def_diagnostics (d : file_def) : option (list diagnostic) :=
  match d with
  | Function b | Typedef b | Functag b => body_diagnostics b
  | Methodmap ps _ => Some (flat_map inherit_report ps)
  | EnumStruct _ | OtherDef => Some []
  end.

(** hir lib.rs:150-189 with the handlers of the preprocessor's reports *)
Definition file_diagnostics (a : analysis) : option (list diagnostic) :=
  let e0 m (x : lsp_range * string) := new (SpCompError "E0000") (m (snd x)) (fst x) in
  match collect def_diagnostics (declarations a) with
  | None => None
  | Some ds =>
      Some (map (e0 MText) (evaluation_errors a)
            ++ map (e0 MFileNotFound) (unresolved_include_errors a)
            ++ map (e0 MNoMacro) (macro_not_found_errors a)
            ++ map (fun r => with_unused (new (Lint "inactive-code" WeakWarning) MInactive r) true) (inactive_ranges a)
            ++ List.concat ds)
  end.
(** ide-diagnostics lib.rs:113-153 *)
Definition diagnostics (a : analysis) : option (list diagnostic) :=
  option_map (fun ds => syntax_error_diagnostics (tree a) ++ ds) (file_diagnostics a).

(** ** What is sent: diagnostics.rs:148-178 *)
Inductive lsp_severity := LError | LWarning | LInformation | LHint.
(** to_proto.rs:125-131 *)
Definition diagnostic_severity (s : severity) : lsp_severity :=
  match s with Error => LError | Warning => LWarning | WeakWarning => LHint end.
Record lsp_diagnostic := LspDiagnostic {
  l_range : lsp_range; l_severity : lsp_severity; l_code : string; l_message : message; l_unnecessary : bool }.
Definition code_str (c : code) : string := match c with SpCompError s | SpCompWarning s | Lint s _ => s end.
Definition to_lsp (d : diagnostic) : lsp_diagnostic :=
  LspDiagnostic (d_range d) (diagnostic_severity (d_severity d)) (code_str (d_code d)) (d_message d) (d_unused d).
(** None: the task panicked *)
Definition published (a : analysis) : option (list lsp_diagnostic) := option_map (map to_lsp) (diagnostics a).
