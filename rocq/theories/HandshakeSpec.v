(** What the Language Server Protocol says about the handshake: which requests the capabilities of a server
    invite, which capabilities of a client a server has to see before it sends something, and how a client
    reads semantic tokens through the legend it was given. *)
From Coq Require Import List String Bool NArith.
From Verif Require Import HandshakeModel.
Import ListNotations.
Local Open Scope string_scope.
Local Open Scope list_scope.

(** ** Requests of the client *)
(** The methods a client may use, given what the server announced. *)
Inductive invites (s : server_caps) : string -> Prop :=
| i_hover : s_hover s = true -> invites s "textDocument/hover"
| i_definition : s_definition s = true -> invites s "textDocument/definition"
| i_full t : s_tokens s = Some t -> s_full t = true -> invites s "textDocument/semanticTokens/full"
| i_delta t : s_tokens s = Some t -> s_full t = true -> s_delta t = true -> invites s "textDocument/semanticTokens/full/delta"
| i_range t : s_tokens s = Some t -> s_range t = true -> invites s "textDocument/semanticTokens/range"
| i_completion : s_completion s = true -> invites s "textDocument/completion"
| i_references : s_references s = true -> invites s "textDocument/references"
| i_symbols : s_symbols s = true -> invites s "textDocument/documentSymbol"
| i_rename : s_rename s = true -> invites s "textDocument/rename"
| i_signature : s_signature s = true -> invites s "textDocument/signatureHelp"
| i_calls : s_call_hierarchy s = true -> invites s "textDocument/prepareCallHierarchy".

(** The requests that are not part of the protocol, lsp_ext.rs; the editor's extension sends them. *)
Definition own_requests : list string :=
  ["sourcepawn-lsp/analyzerStatus"; "sourcepawn-lsp/itemTree"; "sourcepawn-lsp/preprocessedDocument";
   "sourcepawn-lsp/projectMainPath"; "sourcepawn-lsp/projectsGraphviz"; "sourcepawn-lsp/syntaxTree"].
Definition expected (c : client_caps) (m : string) : Prop := invites (server_capabilities c) m \/ In m own_requests.

(** ** Requests of the server *)
(** What the client has to have said before a request of the server. *)
Inductive consents (c : client_caps) : string -> Prop :=
| c_configuration w : c_workspace c = Some w -> w_configuration w = Some true -> consents c "workspace/configuration"
| c_refresh w : c_workspace c = Some w -> w_tokens w = Some (Some true) -> consents c "workspace/semanticTokens/refresh"
| c_progress : c_window c = Some (Some true) -> consents c "window/workDoneProgress/create".
(** Links may be sent as definitions. *)
Definition accepts_links (c : client_caps) : Prop := exists t, c_text c = Some t /\ t_definition t = Some (Some true).
(** The formats of hovers listed by the client, in order of preference. *)
Definition formats (c : client_caps) (l : list markup_kind) : Prop := exists t, c_text c = Some t /\ t_hover t = Some (Some l).

(** ** Semantic tokens *)
(** The name of the type and those of the modifiers that a client reads. *)
Definition reads_type (s : server_caps) (i : nat) (name : string) : Prop :=
  exists t, s_tokens s = Some t /\ nth_error (legend_types t) i = Some name.
Definition reads_modifier (s : server_caps) (bits : N) (name : string) : Prop :=
  exists t k, s_tokens s = Some t /\ N.testbit bits (N.of_nat k) = true /\ nth_error (legend_modifiers t) k = Some name.

(** The names of what is highlighted. *)
Definition type_name (t : hl_tag) : string := match t with TagMacro => "macro" | TagNone => "generic" end.
Definition is_macro (mods : N) : Prop := N.odd mods = true.
Definition modifier_name (mods : N) (name : string) : Prop := is_macro mods /\ name = "macro".

(** ** Directories *)
Definition is_absolute (p : string) : Prop := exists q, p = ("/" ++ q)%string.
