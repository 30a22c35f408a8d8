(** Model of what client and server agree on when they start: crates/sourcepawn_lsp/src/capabilities.rs,
    config.rs:98-128, 192-201, 236-262 (what is kept and read of the client's capabilities), main_loop.rs:92-208
    (initialize), the places that send something to the client, and the legend of the semantic tokens,
    lsp/semantic_tokens.rs:11-175, 268-270, to_proto.rs:74-123, ide/src/syntax_highlighting.rs:31-99.
    Of the capabilities of the client only the parts read are kept, of those of the server the providers that
    are set and those commented out (capabilities.rs:42-72); all others are absent. A failing
    [current_dir] (main_loop.rs:112) is not modelled. The encoding of positions is C44. *)
From Coq Require Import List String Ascii Bool NArith.
From Verif Require Import TextModel.
From Verif Require LoopModel.
Import ListNotations.
Local Open Scope string_scope.
Local Open Scope list_scope.

(** ** Capabilities of the client *)
Inductive markup_kind := PlainText | Markdown.
Record workspace_caps := WorkspaceCaps { w_configuration : option bool; w_tokens : option (option bool) }.
Record text_caps := TextCaps {
  t_definition : option (option bool) (* link_support *);
  t_hover : option (option (list markup_kind)) (* content_format *) }.
Record client_caps := ClientCaps {
  c_workspace : option workspace_caps; c_text : option text_caps;
  c_window : option (option bool) (* work_done_progress *); c_encodings : list enc_kind }.

Definition and_then {A B} (o : option A) (f : A -> option B) : option B := match o with Some x => f x | None => None end.
Definition is_true (o : option bool) : bool := match o with Some true => true | _ => false end.

(** capabilities.rs:94-100 *)
Definition has_definition_link_support (c : client_caps) : bool :=
  is_true (and_then (c_text c) (fun t => and_then (t_definition t) (fun x => x))).
(** capabilities.rs:110-112 *)
Definition has_work_done_progress_support (c : client_caps) : bool := is_true (and_then (c_window c) (fun x => x)).
(** capabilities.rs:123-125 *)
Definition has_pull_configuration_support (c : client_caps) : bool := is_true (and_then (c_workspace c) w_configuration).
(** config.rs:192-201 [semantic_tokens_refresh]; the default of a missing value is false. *)
Definition semantic_tokens_refresh (c : client_caps) : bool :=
  match and_then (c_workspace c) (fun w => and_then (w_tokens w) (fun x => x)) with Some b => b | None => false end.
(** config.rs:243-259, the format of hovers; the default of a missing list is the empty one. *)
Definition kind_eqb (a b : markup_kind) : bool := match a, b with PlainText, PlainText | Markdown, Markdown => true | _, _ => false end.
Definition hover_format (c : client_caps) : markup_kind :=
  let formats := match and_then (c_text c) (fun t => and_then (t_hover t) (fun x => x)) with Some l => l | None => [] end in
  if existsb (kind_eqb Markdown) formats then Markdown else PlainText.

(** ** The answer to the handshake *)
Inductive sync_kind := SyncNone | SyncFull | SyncIncremental.
Record tokens_caps := TokensCaps { legend_types : list string; legend_modifiers : list string; s_full : bool; s_delta : bool; s_range : bool }.
Record server_caps := ServerCaps {
  s_encoding : option enc_kind; s_sync : option sync_kind; s_hover : bool; s_definition : bool; s_tokens : option tokens_caps;
  s_completion : bool; s_references : bool; s_symbols : bool; s_rename : bool; s_signature : bool; s_call_hierarchy : bool }.

(** semantic_tokens.rs:41-100: the names of lsp_types' constants, then the others. *)
Definition standard_types : list string :=
  ["comment"; "decorator"; "enumMember"; "enum"; "function"; "interface"; "keyword"; "macro"; "method"; "namespace"; "number";
   "operator"; "parameter"; "property"; "string"; "struct"; "typeParameter"; "variable"].
Definition custom_types : list string :=
  ["angle"; "arithmetic"; "attribute"; "attributeBracket"; "bitwise"; "boolean"; "brace"; "bracket"; "builtinAttribute"; "builtinType";
   "character"; "colon"; "comma"; "comparison"; "constParameter"; "derive"; "deriveHelper"; "dot"; "escapeSequence";
   "invalidEscapeSequence"; "formatSpecifier"; "generic"; "label"; "lifetime"; "logical"; "macroBang"; "parenthesis"; "punctuation";
   "selfKeyword"; "selfTypeKeyword"; "semicolon"; "typeAlias"; "toolModule"; "union"; "unresolvedReference"].
Definition supported_types : list string := standard_types ++ custom_types.
(** semantic_tokens.rs:129-154 *)
Definition standard_modifiers : list string := ["documentation"; "declaration"; "static"; "defaultLibrary"].
Definition custom_modifiers : list string :=
  ["async"; "attribute"; "callable"; "constant"; "consuming"; "controlFlow"; "crateRoot"; "injected"; "intraDocLink"; "library";
   "macro"; "mutable"; "public"; "reference"; "trait"; "unsafe"].
Definition supported_modifiers : list string := standard_modifiers ++ custom_modifiers.

(** capabilities.rs:14-75 *)
Definition server_capabilities (c : client_caps) : server_caps :=
  ServerCaps (announced (c_encodings c)) (Some SyncIncremental) true true
    (Some (TokensCaps supported_types supported_modifiers true true true)) false false false false false false.

(** ** Semantic tokens *)
(** syntax_highlighting.rs:45-47, 50-99; [mods] is the u32 of [HlMods] *)
Inductive hl_tag := TagMacro | TagNone.
Definition macro_mask : N := 1.
Definition hl_mods (mods : N) : list string := if N.eqb (N.land mods macro_mask) macro_mask then ["macro"] else [].

Fixpoint position (x : string) (l : list string) : option nat :=
  match l with [] => None | y :: tl => if String.eqb y x then Some 0 else option_map S (position x tl) end.
(** semantic_tokens.rs:268-270; [None] is the panic of [unwrap]. *)
Definition type_index (ty : string) : option nat := position ty supported_types.
(** semantic_tokens.rs:167-175; [None] is the panic of [unwrap] *)
Definition or_modifier (set : option N) (m : string) : option N :=
  match set, position m supported_modifiers with
  | Some s, Some i => Some (N.lor s (N.shiftl 1 (N.of_nat i)))
  | _, _ => None
  end.
(** syntax_highlighting.rs:45-47 *)
Definition highlight_is_empty (tag : hl_tag) (mods : N) : bool := match tag with TagNone => N.eqb mods 0 | TagMacro => false end.
(** to_proto.rs:85-88, 104-123: the two numbers pushed for a highlight *)
Definition type_and_modifiers (tag : hl_tag) (mods : N) : option (nat * N) :=
  let ty := match tag with TagMacro => "macro" | TagNone => "generic" end in
  match type_index ty, fold_left or_modifier (hl_mods mods) (Some 0%N) with
  | Some i, Some b => Some (i, b)
  | _, _ => None
  end.
(** to_proto.rs:80-90: what is pushed for the highlights, each with its place; [None] is a panic *)
Fixpoint tokens {R} (l : list (R * hl_tag * N)) : option (list (R * nat * N)) :=
  match l with
  | [] => Some []
  | (r, t, m) :: tl =>
      if highlight_is_empty t m then tokens tl
      else match type_and_modifiers t m, tokens tl with
           | Some (i, b), Some out => Some ((r, i, b) :: out)
           | _, _ => None
           end
  end.

(** ** What is sent to the client *)
(** config.rs:98-128: the settings are the capabilities, which no update changes, and what [Config::update]
    replaces. The loop of LoopModel asks the three questions of the capabilities that were given. *)
Definition connect (E : LoopModel.env) : LoopModel.env :=
  LoopModel.Env (LoopModel.json E) (LoopModel.uri E) (client_caps * LoopModel.config E)
    (LoopModel.parse_error E) (LoopModel.null E) (LoopModel.open_params E) (LoopModel.change_params E)
    (LoopModel.close_params E) (LoopModel.save_params E) (LoopModel.config_params E) (LoopModel.watched_params E)
    (LoopModel.cancel_params E) (LoopModel.vfs_path E) (LoopModel.first_setting E)
    (fun c j => let (d, e) := LoopModel.update_config E (snd c) j in ((fst c, d), e))
    (fun c => LoopModel.cfg_roots E (snd c))
    (fun c d => LoopModel.compiler_differs E (snd c) (snd d))
    (fun c => LoopModel.has_compiler E (snd c))
    (fun c => has_pull_configuration_support (fst c))
    (fun c => semantic_tokens_refresh (fst c))
    (fun c => LoopModel.prefills E (snd c))
    (LoopModel.project_roots E) (LoopModel.enc E).

(** main_loop.rs:183-184, 215-219: the settings asked for before the loop starts, by their section *)
Definition asked_at_start (amxxpawn_mode : bool) (c : client_caps) : option string :=
  if has_pull_configuration_support c then Some "SourcePawnLanguageServer" else None.
(** handlers/notification.rs:176-193: the settings asked for when the client says that they changed *)
Definition asked_on_change (amxxpawn_mode : bool) (c : client_caps) : option string :=
  if has_pull_configuration_support c
  then Some (if amxxpawn_mode then "AMXXPawnLanguageServer" else "SourcePawnLanguageServer") else None.
(** to_proto.rs:17-27: whether definitions are answered with links instead of locations *)
Definition answers_links (c : client_caps) : bool := true.
(** handlers/request.rs:52-56, to_proto.rs:55-66: the kind of a hover; its text does not depend on it *)
Definition hover_content (c : client_caps) (markup : string) : markup_kind * string := (hover_format c, markup).

(** ** The directories *)
(** A URI of the client: the path it has as a file, if any (url's [to_file_path], an input). *)
Record handshake := Handshake { root_uri : option (option string); folders : option (list (option string)); cwd : string }.
Definition absolute (p : string) : bool := match p with String c _ => Ascii.eqb c "/"%char | EmptyString => false end.
(** main_loop.rs:104-115 on Unix, where [patch_path_prefix] (lines 760-790) changes nothing *)
Definition root_path (h : handshake) : string :=
  match and_then (root_uri h) (fun x => x) with
  | Some p => if absolute p then p else cwd h
  | None => cwd h
  end.
(** main_loop.rs:127-135 *)
Definition workspace_roots (h : handshake) : list string :=
  match option_map (flat_map (fun x => match x with Some p => [p] | None => [] end)) (folders h) with
  | Some (x :: l) => x :: l
  | _ => [root_path h]
  end.
(** reload.rs:38-63: the source roots, and the directories loaded. [workspace_roots] is kept in the settings
    (config.rs:68) and read nowhere. *)
Definition source_roots (h : handshake) (include_directories : list string) : list string := root_path h :: include_directories.
Definition loaded (h : handshake) (include_directories : list string) : list string := include_directories ++ [root_path h].
