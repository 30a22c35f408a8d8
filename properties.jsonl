{"id": "C01", "title": "Semantic token deltas reconstruct the new token array", "statement": "For every previous and current token list, applying the edits returned by textDocument/semanticTokens/full/delta to the flattened integer array of the previous list yields exactly the flattened array of the current list; no edit is sent exactly when the lists are equal.", "quantifier": "all pairs of token lists of any lengths", "why_tests_cant": "Prefix/suffix overlap bugs only show for particular repetitions; the claim is over all pairs of lists.", "anchors": ["crates/sourcepawn_lsp/src/lsp/semantic_tokens.rs: diff_tokens", "crates/sourcepawn_lsp/src/lsp/semantic_tokens.rs: SemanticTokensBuilder"]}
{"id": "C02", "title": "Semantic tokens decode to the highlighted ranges", "statement": "A client decoding the relative encoding built from a sequence of position-ordered single-line ranges recovers exactly the absolute line, column, length, type and modifiers of each pushed range, in order. Ranges pushed out of order make the unsigned subtraction fail.", "quantifier": "all finite sequences of (range, type, modifiers)", "why_tests_cant": "Relative encodings fail only on particular line/column transitions; need induction over sequences of any length.", "anchors": ["crates/sourcepawn_lsp/src/lsp/semantic_tokens.rs: SemanticTokensBuilder::push/build"]}
{"id": "C03", "title": "Delta replies are relative to the result the client named", "statement": "Over any history of full, delta and range requests and cache clears for any documents, every delta reply is computed against the exact token list that was sent to the client under the previous_result_id it names; otherwise a full token list is sent.", "quantifier": "all request histories over all documents", "why_tests_cant": "Depends on arbitrarily long histories interleaving documents, cache clears and stale ids.", "anchors": ["crates/sourcepawn_lsp/src/handlers/request.rs: handle_semantic_tokens_full, handle_semantic_tokens_full_delta", "crates/sourcepawn_lsp/src/handlers/notification.rs: handle_did_close_text_document"]}
{"id": "C04", "title": "Incremental didChange keeps the server text equal to the client text", "statement": "For every text and every list of content changes that the client applies one after another as LSP prescribes, the server's resulting text equals the client's resulting text (after a whole-document change the earlier ranged changes of the same notification have no effect).", "quantifier": "all texts and all lists of ranged and whole-document changes", "why_tests_cant": "The line-index invalidation shortcut is only wrong for particular orders of edit positions; arbitrary change lists needed.", "anchors": ["crates/sourcepawn_lsp/src/lsp/utils.rs: apply_document_changes"]}
{"id": "C05", "title": "Positions convert to exactly the offset they name", "statement": "For every text and every character boundary, the (line, column) position that LSP assigns to it in the negotiated encoding (UTF-8, UTF-16, UTF-32) is converted to exactly its byte offset; every boundary has one position and positions are strictly monotone. A column past the end of its line means the end of the line.", "quantifier": "all texts, all character boundaries, all three encodings", "why_tests_cant": "Errors appear only with particular mixes of multi-byte characters and line breaks.", "anchors": ["crates/sourcepawn_lsp/src/lsp/from_proto.rs: offset", "crates/sourcepawn_lsp/src/lsp/to_proto.rs: position", "crates/sourcepawn_lsp/src/line_index.rs: LineIndex, PositionEncoding"]}
{"id": "C06", "title": "Line-ending normalisation", "statement": "Loading a text replaces every CR LF pair by LF and changes nothing else, reporting DOS endings exactly when there was such a pair; lone CRs are kept, the number of lines is kept.", "quantifier": "all texts", "why_tests_cant": "In-place gap moving is index-sensitive; holds for every placement of CR and LF.", "anchors": ["crates/sourcepawn_lsp/src/line_index.rs: LineEndings::normalize"]}
{"id": "C07", "title": "The virtual file system is a path-to-contents map with a faithful change log", "statement": "After any history of content updates, reading a path's file returns the last contents set for that path (nothing if it was last removed), the update reports a change exactly when the contents differ from before, one change record with the right kind is logged per reported change, and distinct paths never share a file id nor does a path's id ever change.", "quantifier": "all histories of set/remove operations on all paths", "why_tests_cant": "Unbounded operation histories including delete/recreate cycles.", "anchors": ["crates/vfs/src/lib.rs: Vfs::set_file_contents, file_id, take_changes", "crates/vfs/src/path_interner.rs: PathInterner"]}
{"id": "C08", "title": "Draining file changes brings the analysis inputs up to date", "statement": "Whenever pending file changes are processed, afterwards the analysis holds for every file the text the virtual file system has, with LF line ends (empty for removed or non-UTF-8 files), knows exactly the existing SourcePawn files and has up-to-date source roots, and the server does not crash, whatever create/modify/delete sequence happened in the batch.", "quantifier": "all batches of file operations, all prior states", "why_tests_cant": "Only certain interleavings of create and delete in one batch lose information.", "anchors": ["crates/sourcepawn_lsp/src/global_state.rs: GlobalState::process_changes"]}
{"id": "C09", "title": "Open documents win over disk", "statement": "While a document is open in the editor, no directory load and no file watcher event changes the text the server uses for it; it is always the text the editor last sent.", "quantifier": "all interleavings of open/change/close notifications, loads and watcher events", "why_tests_cant": "Requires every interleaving of editor and watcher events.", "anchors": ["crates/sourcepawn_lsp/src/main_loop.rs: handle_vfs_msg", "crates/sourcepawn_lsp/src/handlers/notification.rs: handle_did_open_text_document, handle_did_change_text_document, handle_did_close_text_document, handle_did_change_watched_files", "crates/sourcepawn_lsp/src/mem_docs.rs: MemDocs"]}
{"id": "C10", "title": "Every request gets exactly one response", "statement": "For every history of incoming requests, cancellations, worker completions, retries and shutdown, the server sends at most one response per request id, and a request whose handler returned, panicked, failed to parse, was unknown or arrived after shutdown has received exactly one response of the right kind.", "quantifier": "all event histories", "why_tests_cant": "Schedules of completions, cancellations and retries are unbounded.", "anchors": ["crates/sourcepawn_lsp/src/dispatch.rs: RequestDispatcher", "crates/sourcepawn_lsp/src/global_state.rs: register_request, respond, cancel, is_completed", "crates/sourcepawn_lsp/src/main_loop.rs: on_request, handle_task"]}
{"id": "C11", "title": "Messages received while waiting for the configuration are replayed in order", "statement": "All messages that arrive while the server waits for the client's configuration response are later processed, each once, in arrival order, and before any newer message, provided the client answers with a usable configuration.", "quantifier": "all message sequences around the configuration response", "why_tests_cant": "Any number and order of messages.", "anchors": ["crates/sourcepawn_lsp/src/main_loop.rs: pull_config_sync, next_event"]}
{"id": "C12", "title": "Background operations are serialised and never lost", "statement": "Under any history of requests, starts and completions at most one run of a background operation is in progress, and whenever an operation was requested and not started since, the next start attempt made while none is running starts it, with the most recent cause and arguments.", "quantifier": "all histories of request/start/complete", "why_tests_cant": "Unbounded histories.", "anchors": ["crates/sourcepawn_lsp/src/op_queue.rs: OpQueue"]}
{"id": "C13", "title": "The editor shows the server's current diagnostics", "statement": "After any history of native diagnostic updates, compiler diagnostics, clears and publications, the diagnostics last published for each file are those the server currently holds for it (native ones followed by each compiler run's).", "quantifier": "all histories of diagnostic operations over all files and checkers", "why_tests_cant": "Change tracking errors need particular orders of set/clear/publish.", "anchors": ["crates/sourcepawn_lsp/src/diagnostics.rs: DiagnosticCollection", "crates/sourcepawn_lsp/src/main_loop.rs: handle_event publication loop"]}
{"id": "C14", "title": "Compiler check lifecycle events are well bracketed", "statement": "For every schedule of restart and cancel requests and compiler output, each DidStart is followed by exactly one DidFinish or DidCancel before the next DidStart, diagnostics are only reported between a start and its end, and nothing is left running when the worker exits.", "quantifier": "all schedules of requests, compiler output and termination", "why_tests_cant": "Races between restart, cancel and process exit are unbounded.", "anchors": ["crates/flycheck/src/lib.rs: FlycheckActor::run, next_event, cancel_check_process"]}
{"id": "C15", "title": "Compiler output lines are mapped to the right diagnostics", "statement": "Every well-formed compiler message line is mapped to exactly one diagnostic with its path, zero-based line, severity, code and text; other lines give none; and the compiler is invoked with the plugin file first followed by include directories and the user's extra arguments.", "quantifier": "all output lines and all configurations", "why_tests_cant": "All strings.", "anchors": ["crates/flycheck/src/spcomp.rs: SpCompDiagnostic::try_from_line, build_args", "crates/flycheck/src/lib.rs: check_command"]}
{"id": "C16", "title": "Exactly the active preprocessor branches are kept", "statement": "For every file whose conditional directives are properly nested, a source line is kept exactly when, in each enclosing #if/#elseif/#else/#endif chain, it lies in the first branch whose condition holds (or in the #else when none holds); at most one branch per chain is kept and the conditions of branches that are not reached are not evaluated.", "quantifier": "all properly nested conditional structures of any depth and any condition outcomes", "why_tests_cant": "Nesting depth and chain length are unbounded.", "anchors": ["crates/preprocessor/src/lib.rs: preprocess_input, process_if_directive, process_else_directive, process_endif_directive, process_negative_condition, ConditionState"]}
{"id": "C17", "title": "Preprocessing keeps line numbers", "statement": "The preprocessed text has the same number of lines as the source for every input, so every line-based position stays valid.", "quantifier": "all token sequences produced by the lexer", "why_tests_cant": "Line continuations, multi-line macro arguments and skipped regions in any combination.", "anchors": ["crates/preprocessor/src/lib.rs: preprocess_input, push_current_line, push_ws, process_negative_condition"]}
{"id": "C18", "title": "Unbalanced conditionals are rejected without altering the text", "statement": "If an #else, #elseif or #endif has no open #if, preprocessing reports failure and analysis uses the original text unchanged; otherwise preprocessing of any conditional structure succeeds.", "quantifier": "all directive sequences", "why_tests_cant": "All sequences.", "anchors": ["crates/preprocessor/src/lib.rs: process_else_directive, process_endif_directive, error_result"]}
{"id": "C19", "title": "#if conditions follow operator precedence", "statement": "Every well-formed #if expression over integers, defined(X), parentheses, unary and binary operators evaluates to the value that the language's precedence and left associativity assign to it.", "quantifier": "all expressions of any size and depth", "why_tests_cant": "Expression trees are unbounded; precedence errors need specific operator combinations.", "anchors": ["crates/preprocessor/src/evaluator.rs: IfCondition::evaluate", "crates/preprocessor/src/preprocessor_operator.rs: PreOperator"]}
{"id": "C20", "title": "#if evaluation never crashes the server", "statement": "Evaluating the condition of an #if never panics: malformed expressions are reported as evaluation errors.", "quantifier": "all condition token sequences", "why_tests_cant": "All token sequences and operand values.", "anchors": ["crates/preprocessor/src/evaluator.rs: IfCondition::evaluate", "crates/preprocessor/src/preprocessor_operator.rs: PreOperator::process_op"]}
{"id": "C21", "title": "Macro expansion terminates", "statement": "Preprocessing terminates for every set of macro definitions, including self-referential and mutually recursive ones.", "quantifier": "all macro definition sets and uses", "why_tests_cant": "Termination for all inputs cannot be tested.", "anchors": ["crates/preprocessor/src/macros.rs: expand_identifier, expand_macro", "crates/preprocessor/src/lib.rs: preprocess_input"]}
{"id": "C22", "title": "Function-like macro arguments are substituted exactly", "statement": "Using a function-like macro replaces every %n of its body by exactly the tokens of the n-th top-level comma-separated argument, in order, leaving all other body tokens unchanged; commas nested in parentheses, brackets or braces do not separate arguments.", "quantifier": "all macro bodies and argument lists", "why_tests_cant": "All argument nesting and bodies.", "anchors": ["crates/preprocessor/src/macros.rs: collect_arguments, expand_macro, expand_non_macro_define"]}
{"id": "C23", "title": "Object-like macros expand to their fully expanded bodies", "statement": "For macro sets without recursion and nesting below the depth limit, using an object-like macro yields the tokens of its body with every nested object-like macro replaced recursively, in source order, nothing lost, nothing added.", "quantifier": "all acyclic macro environments", "why_tests_cant": "All nestings.", "anchors": ["crates/preprocessor/src/macros.rs: expand_identifier"]}
{"id": "C24", "title": "Macros are visible from their #define to their #undef", "statement": "At every point of a file a name expands with its most recent active #define before that point (in the file or an earlier include), and not at all if it was #undef-ed since; definitions inside inactive branches have no effect.", "quantifier": "all directive sequences", "why_tests_cant": "All histories of define/undef/include.", "anchors": ["crates/preprocessor/src/lib.rs: process_directive, insert_macro", "crates/preprocessor/src/db.rs: _preprocess_file_data_query, _preprocess_file_params_query"]}
{"id": "C25", "title": "Include processing terminates and visits each file once", "statement": "For every include graph, including cyclic ones, collecting a project's macro environment terminates, preprocesses every reachable file once, and no unreachable file.", "quantifier": "all finite include graphs", "why_tests_cant": "All graphs.", "anchors": ["crates/preprocessor/src/db.rs: _preprocess_file_params_query", "crates/preprocessor/src/lib.rs: process_include_directive"]}
{"id": "C26", "title": "Inactive code is reported exactly", "statement": "The ranges reported as inactive code cover exactly the lines skipped by the preprocessor; they are disjoint, ordered and maximal.", "quantifier": "all sets of skipped lines", "why_tests_cant": "Merging errors need particular adjacency.", "anchors": ["crates/preprocessor/src/lib.rs: get_inactive_ranges"]}
{"id": "C27", "title": "Editor positions and preprocessed positions correspond", "statement": "For every line and every set of macro uses on it, mapping an editor position outside macro uses to the preprocessed text and back returns the same position, and the mapping is monotone.", "quantifier": "all lines, macro uses and positions", "why_tests_cant": "All combinations of expansions lengths.", "anchors": ["crates/ide/src/lib.rs: u_pos_to_s_pos, s_range_to_u_range", "crates/preprocessor/src/offset.rs: Offset"]}
{"id": "C28", "title": "Every known file belongs to a project", "statement": "The include graph covers all known files; every file belongs to the subgraph of at least one project root, each subgraph is exactly the set of files reachable from its root, and no other file.", "quantifier": "all include graphs", "why_tests_cant": "All finite graphs, with cycles.", "anchors": ["crates/base-db/src/graph.rs: Graph, find_roots, find_subgraphs, dfs, project_subgraph_query"]}
{"id": "C29", "title": "A name refers to the innermost declaration in scope", "statement": "An identifier in a function body resolves to the variable declared in the innermost enclosing block (or loop header) whose declaration precedes it, else to the parameter, else to the global of that name.", "quantifier": "all function bodies", "why_tests_cant": "All nestings of blocks, loops and shadowing.", "anchors": ["crates/hir-def/src/body/scope.rs: ExprScopes, compute_expr_scopes", "crates/hir-def/src/resolver.rs: Resolver::resolve_ident, resolver_for_scope"]}
{"id": "C30", "title": "Resolver scope changes are properly undone", "statement": "Entering an inner scope and leaving it restores exactly the earlier resolution behaviour, for any nesting.", "quantifier": "all nestings of scope enter/leave", "why_tests_cant": "All nestings.", "anchors": ["crates/hir-def/src/resolver.rs: update_to_inner_scope, reset_to_guard", "crates/hir-def/src/infer.rs: infer_expr Block"]}
{"id": "C31", "title": "Methodmap members are inherited and overridden", "statement": "Looking up a member of a methodmap finds its own member if it declares one with that name, else that of the nearest ancestor declaring it; 'new M()' finds M's own constructor if declared.", "quantifier": "all inheritance chains and member sets", "why_tests_cant": "All chains.", "anchors": ["crates/hir-def/src/data.rs: MethodmapData::methodmap_data_query, constructor, items"]}
{"id": "C32", "title": "Argument-count diagnostics are exact", "statement": "A call is reported as having a wrong number of arguments exactly when the function it calls cannot accept that number (fewer than its mandatory parameters, or more than its parameters when not variadic), and the report names the called function.", "quantifier": "all calls and signatures, arbitrarily nested", "why_tests_cant": "Nested calls and callee resolution states.", "anchors": ["crates/hir-def/src/infer.rs: infer_expr Call, current_call_data", "crates/hir-def/src/data.rs: FunctionData"]}
{"id": "C33", "title": "Indexing an array n times gives its element type", "statement": "For an array type with n dimensions, n indexings give the element type, fewer give an array with the remaining dimensions.", "quantifier": "all types and dimension counts", "why_tests_cant": "All dimensions.", "anchors": ["crates/hir-def/src/hir/type_ref.rs: TypeRef::to_lower_dim"]}
{"id": "C34", "title": "Path normalisation", "statement": "Normalising a path removes all '.' and '..' components, is idempotent, never escapes the root, and denotes the same location when no component is a symbolic link.", "quantifier": "all component sequences", "why_tests_cant": "All component sequences.", "anchors": ["crates/paths/src/lib.rs: normalize_path", "crates/vfs/src/vfs_path.rs: VfsPath"]}
{"id": "C35", "title": "Include resolution picks the right file", "statement": "An #include is resolved to the first matching candidate in the documented search order, appending the .inc extension exactly when the written path has no SourcePawn extension, for every file set.", "quantifier": "all include strings and file sets", "why_tests_cant": "All combinations of candidates.", "anchors": ["crates/base-db/src/include.rs: file_includes_query, infer_include_ext", "crates/hir-def/src/db.rs: resolve_include"]}
{"id": "C36", "title": "Each file belongs to the nearest configured root", "statement": "After pending changes are processed, every existing file belongs to exactly one source root: that of the nearest configured directory (workspace or include directory) containing it, as documented for source roots.", "quantifier": "all root configurations and paths", "why_tests_cant": "All nestings of roots.", "anchors": ["crates/vfs/src/file_set.rs: FileSetConfig::partition", "crates/base-db/src/change.rs: Change::apply"]}
{"id": "C37", "title": "Configuration errors are reported and other settings survive", "statement": "When the client sends a configuration, every well-typed field takes its value, every missing or ill-typed one its default independently of the others, ill-typed ones are reported, and an empty configuration changes nothing.", "quantifier": "all JSON configurations", "why_tests_cant": "All combinations of valid and invalid fields.", "anchors": ["crates/sourcepawn_lsp/src/config.rs: Config::update, get_field"]}
{"id": "C38", "title": "Subprocess output is split into lines independently of chunking", "statement": "However the operating system splits the compiler's output into chunks, the lines delivered, concatenated, are the output; every complete line is delivered once, in order.", "quantifier": "all outputs and all chunkings", "why_tests_cant": "All schedules of reads.", "anchors": ["crates/stdx/src/process.rs: streaming_output"]}
{"id": "C39", "title": "Cache priming covers every project", "statement": "Cache priming reports completion only when every project has been indexed, and the progress never exceeds the total.", "quantifier": "all worker schedules", "why_tests_cant": "All schedules.", "anchors": ["crates/ide/src/prime_caches.rs: parallel_prime_caches", "crates/sourcepawn_lsp/src/main_loop.rs: handle_task PrimeCaches"]}
{"id": "C40", "title": "Item identifiers survive a round trip", "statement": "The id given to a syntax item maps back to that item's syntax node and distinct items have distinct ids, for every syntax tree; adding or editing function bodies' nested blocks does not change top-level ids.", "quantifier": "all syntax trees", "why_tests_cant": "All trees.", "anchors": ["crates/hir-def/src/ast_id_map.rs: AstIdMap::from_source, ast_id_of, get, bdfs"]}
{"id": "C41", "title": "Equal maps hash equally", "statement": "Two macro/file maps that are equal as maps hash to the same value whatever their insertion order, so that caching keyed by them is sound.", "quantifier": "all maps and insertion orders", "why_tests_cant": "All insertion orders.", "anchors": ["crates/stdx/src/hashable_hash_map.rs: HashableHashMap"]}
{"id": "C42", "title": "Quiescence is reported truthfully and only on change", "statement": "The server reports itself ready exactly when every load of the current configuration has finished, sends a status notification only when the status changed, and the last notification sent equals the current status.", "quantifier": "all histories of configuration changes and load progress messages", "why_tests_cant": "Stale progress of older configurations can interleave arbitrarily.", "anchors": ["crates/sourcepawn_lsp/src/reload.rs: is_quiescent, current_status, update_configuration", "crates/sourcepawn_lsp/src/main_loop.rs: update_status_or_notify, handle_vfs_msg"]}
{"id": "C43", "title": "Range intersection is exact", "statement": "The intersection of two line/column ranges contains exactly the positions that both contain, and is absent exactly when they share none.", "quantifier": "all ranges", "why_tests_cant": "All relative placements.", "anchors": ["crates/syntax/src/utils.rs: intersect"]}
{"id": "C44", "title": "Position encoding negotiation", "statement": "The encoding used is the first of UTF-8 and UTF-32 the client offers, else UTF-16, and is the one announced in the server's capabilities.", "quantifier": "all client capability lists", "why_tests_cant": "All lists.", "anchors": ["crates/sourcepawn_lsp/src/lsp/ext.rs: negotiated_encoding", "crates/sourcepawn_lsp/src/capabilities.rs: server_capabilities"]}
{"id": "C45", "title": "Macro jumps reach the right #define", "statement": "The macro identified by the preprocessor for a use (file and running number) is the same #define that the item tree lists under that number, so go-to-definition lands on it.", "quantifier": "all files, with any conditional structure", "why_tests_cant": "Numbering agreement across two independent passes over all inputs.", "anchors": ["crates/preprocessor/src/lib.rs: insert_macro", "crates/hir-def/src/db.rs: file_def_map_query", "crates/hir-def/src/item_tree/lower.rs"]}
{"id": "C46", "title": "Going to a member of an enum struct leads to that member", "statement": "For every enum struct, a use x.f of a field or method f stands for the last member declared with that name, has its type, and go-to-definition on it leads to that member's declaration; go-to-definition on the name in a member's own declaration leads to that declaration.", "quantifier": "all enum structs (any number and order of fields, methods and other children), all member names", "why_tests_cant": "Fields are numbered in two ways (among all members, and among fields only); whether the numberings agree depends on the order of the declarations, of which there are unboundedly many.", "anchors": ["crates/hir-def/src/data.rs: EnumStructData::enum_struct_data_query, EnumStructId::child_source", "crates/hir-def/src/child_by_source.rs: EnumStructId::child_by_source_to", "crates/hir/src/has_source.rs: Field::source", "crates/hir-def/src/item_tree/lower.rs: lower_enum_struct"]}
{"id": "C47", "title": "The declaration of a methodmap's member leads to the member", "statement": "For every methodmap, whatever it inherits and from whichever file, asking what is declared at the node of one of its methods, constructors, destructors, properties or accessors gives exactly that function or property, and never crashes.", "quantifier": "all sets of methodmaps over all files, all inheritance chains, all hash map iteration orders, all syntax item numberings", "why_tests_cant": "The inherited members are looked up in the node table of the inheriting file; whether that works depends on the sizes of both files and on all ancestors.", "anchors": ["crates/hir-def/src/child_by_source.rs: MethodmapId::child_by_source_to", "crates/hir-def/src/data.rs: methodmap_data_with_diagnostics_query", "crates/hir/src/source_to_def.rs: fn_to_def, property_to_def, find_container"]}
{"id": "C48", "title": "Function bodies are analysed as they are written", "statement": "The analysed body of a function contains every statement and expression of its source, in their places, and each call has exactly the arguments written; every analysed expression has a place in the source, so that a report about it can be shown, and analysing a body never crashes the server.", "quantifier": "for all syntax trees of parameter lists and bodies", "why_tests_cant": "Syntax trees are of any shape and depth; a dropped argument or statement shows only as a wrong or a missing report far away, for the constructs a test happens to use.", "anchors": ["crates/hir-def/src/body/lower.rs: ExprCollector::collect, maybe_collect_expr, alloc_expr", "crates/hir-def/src/body.rs: BodySourceMap", "crates/hir-def/src/infer.rs: IncorrectNumberOfArguments"]}
{"id": "C49", "title": "A file's item tree lists its declarations", "statement": "The item tree of a file, read through its tables and index ranges, contains each declaration of the file exactly once, in the order of the text, with its name, kind, visibility, type, parameters, members and place, and building it never crashes.", "quantifier": "for all syntax trees of files", "why_tests_cant": "Entries of all kinds share fourteen growing tables addressed by index ranges; an off-by-one in a range shows only for files that mix particular declarations in a particular order.", "anchors": ["crates/hir-def/src/item_tree/lower.rs: Ctx::lower and the lower_ functions", "crates/hir-def/src/item_tree.rs: ItemTreeData, RawVisibilityId, FunctionKind", "crates/hir-def/src/hir/type_ref.rs: TypeRef::from_node, from_returntype_node"]}
{"id": "C50", "title": "The name in a declaration leads to the declaration", "statement": "Asking what is meant by the name in a declaration of a file gives the entry of exactly this declaration, of the right kind, and asking about the name of a parameter or local variable gives that variable in the body of the function, typedef, functag or member of a typeset or funcenum around it; the question never crashes.", "quantifier": "for all syntax trees of files and all places in them", "why_tests_cant": "The answer goes through ancestors, a table per container from places to entries and a search from the root by range; two declarations with the same name or an unusual container give a wrong entry only for particular files.", "anchors": ["crates/hir/src/semantics.rs: find_name_def", "crates/hir/src/source_to_def.rs: find_container, to_def, local_to_def", "crates/hir-def/src/child_by_source.rs", "crates/hir-def/src/db.rs: DefMap::file_def_map_query", "crates/base-db/src/lib.rs: is_name_node"]}
{"id": "C51", "title": "A name is looked up in the scope it stands in", "statement": "Asking what a name means that is not the name of a declaration looks it up in the function, method, accessor or typedef around it, and in the file if there is none; the question never crashes.", "quantifier": "for all syntax trees of files, all places in them, and all meanings of names in the scopes", "why_tests_cant": "The function around a place is found again by its name among the declarations of the file, so the answer depends on all declarations before it.", "anchors": ["crates/hir/src/semantics.rs: find_def, function_node_to_def, method_node_to_def, property_method_node_to_def, typedef_node_to_def, source_node_to_def", "crates/hir-def/src/db.rs: DefMap::get_first_from_str"]}
{"id": "C52", "title": "The files known are the source files on disk", "statement": "After a configuration is set, the files known to the server are exactly the .sp and .inc files below the configured directories, at any depth except in their .git directory, with the contents they have on disk; and after any sequence of changes to the disk that are reported by the editor or by the watcher, they still are.", "quantifier": "for all disks, all configurations, and all sequences of changes and reports", "why_tests_cant": "The walk, the test applied to reports and the directories watched are three separate computations that have to agree for every shape of disk and every order of events.", "anchors": ["crates/vfs/src/loader.rs", "crates/vfs-notify/src/lib.rs: NotifyActor::run, load_entry", "crates/sourcepawn_lsp/src/reload.rs: update_configuration", "crates/sourcepawn_lsp/src/main_loop.rs: handle_vfs_msg", "crates/sourcepawn_lsp/src/handlers/notification.rs: handle_did_change_watched_files"]}
{"id": "C53", "title": "Every problem found is shown once, where it is", "statement": "The reports sent to the editor for a file are exactly the problems that its preprocessing, parsing and inference found, each once, with the message and severity that belong to it, and each at the columns where the code in question is in the editor; producing them never crashes.", "quantifier": "for all results of the analysis of a file, all trees, all lines with macro uses, and all position encodings", "why_tests_cant": "There are sixteen kinds of reports from four sources, the conversion of places depends on the macros used before them on the line and on the characters, and the tests check messages on lines without either.", "anchors": ["crates/ide-diagnostics/src/lib.rs", "crates/ide-diagnostics/src/handlers", "crates/hir/src/lib.rs: File::diagnostics, FileDef::diagnostics, DefWithBody::diagnostics", "crates/sourcepawn_lsp/src/diagnostics.rs: fetch_native_diagnostics", "crates/syntax/src/utils.rs: ts_range_to_lsp_range"]}
{"id": "C54", "title": "The documentation shown is the comment block above the declaration", "statement": "The documentation shown for a declaration consists of the comments of the longest unbroken block of rows directly above it, in the order of the file, each with its comment marks removed and nothing else lost, and no text of a comment is read by the editor as an HTML tag.", "quantifier": "for all declarations, all lists of siblings before them with any rows, and all comment texts", "why_tests_cant": "The block depends on the rows and kinds of arbitrarily many siblings, on pragmas and comments of several rows, and the text passes through a chain of regular expressions.", "anchors": ["crates/ide-db/src/documentation.rs: Documentation::from_node, comment_to_doc, to_markdown", "crates/ide/src/hover.rs: hover"]}
{"id": "C55", "title": "Members and constructors used refer to those of the receiver's type, and exactly the missing ones are reported", "statement": "In every function body, a member access or method call on an expression of a known type is bound to the field, property or method of that name of that type; new T() is bound to T's constructor; and exactly those uses for which the type has no such member or constructor are reported, once each, with the right hint about a member of the other sort.", "quantifier": "for all function bodies with arbitrarily nested statements and expressions, all type, member and variable declarations of the files seen", "why_tests_cant": "The type of a receiver depends on an arbitrarily long chain of accesses, calls, operators and scopes, and the report must be exact in both directions.", "anchors": ["crates/hir-def/src/infer.rs: infer_expr, infer_constructor, infer_field_access, infer_method_call", "crates/hir-def/src/hir/type_ref.rs: to_lower_dim"]}
{"id": "C56", "title": "The thread pool runs every task once, in order, and survives them", "statement": "Every task given to the thread pool is begun in the order given, exactly once, on a thread of the priority class it asks for; its result is sent once; the pool counts the tasks that run; when the threads come to rest or the pool is dropped every task has been run; and a task that panics costs no other task its run and does not crash the server.", "quantifier": "for all numbers of threads, all sequences of tasks, all interleavings of the steps of the threads, and all choices of tasks that panic", "why_tests_cant": "Interleavings of several threads and the rare panics decide which tasks are run; a test sees one schedule.", "anchors": ["crates/stdx/src/thread/pool.rs: Pool::new, Pool::spawn, Pool::len", "crates/stdx/src/thread/intent.rs: apply_to_current_thread, assert_is_used_on_current_thread", "crates/sourcepawn_lsp/src/task_pool.rs: TaskPool::spawn", "crates/sourcepawn_lsp/src/main_loop.rs: prime_caches, update_diagnostics"]}
{"id": "C57", "title": "Saving a file compiles the projects that contain it", "statement": "When a file is saved and compiling on save is on, the compiler is run once for each project that contains the file, with the current settings, and for no other project; cancelling a check's progress cancels that check.", "quantifier": "all sessions: known files, includes, settings, saves, changes and schedules of the tasks", "why_tests_cant": "All interleavings of saves, changes of files or settings and background tasks, over all include graphs.", "anchors": ["crates/sourcepawn_lsp/src/handlers/notification.rs: handle_did_save_text_document, run_flycheck, handle_work_done_progress_cancel", "crates/sourcepawn_lsp/src/reload.rs: update_configuration, reload_flycheck", "crates/ide/src/lib.rs: projects_for_file"]}
{"id": "C58", "title": "Macro uses are highlighted exactly, in document order", "statement": "The semantic tokens answered for a file or a part of it are, in document order, exactly the names in active code and in the conditions looked at for which a macro is known at that point, each once and at its place in the editor; and the answer is always produced.", "quantifier": "for all token streams of a file, all macros known at the start and defined, undefined or included on the way, all conditions, and all ranges asked for", "why_tests_cant": "The names depend on all directives before them and on what macros are replaced by, also in conditions; the tests highlight a handful of fixed files.", "anchors": ["crates/ide/src/syntax_highlighting.rs: highlight", "crates/sourcepawn_lsp/src/lsp/to_proto.rs: semantic_tokens, semantic_token_type_and_modifiers", "crates/sourcepawn_lsp/src/handlers/request.rs: handle_semantic_tokens_full, handle_semantic_tokens_range", "crates/preprocessor/src/lib.rs: preprocess_impl (offsets)", "crates/preprocessor/src/evaluator.rs: evaluate (offsets)"]}
{"id": "C59", "title": "Nothing the editor sends stops the server, except exit", "statement": "Whatever messages arrive, in whatever order, the main loop handles every one of them without crashing, and it returns only when the editor sends exit or closes the connection.", "quantifier": "for all settings, all messages ignored during initialisation and all histories of turns: requests, notifications and answers of the editor with any parameters, files reported by the loader, tasks of the pool and messages of the compiler", "why_tests_cant": "A crash depends on the whole history: which files are known, which documents are open with which text, which requests of the server are unanswered; the tests send one short well-formed session each.", "anchors": ["crates/sourcepawn_lsp/src/main_loop.rs: run, handle_event, on_notification, update_diagnostics, handle_vfs_msg, handle_flycheck_msg, handle_task", "crates/sourcepawn_lsp/src/dispatch.rs: NotificationDispatcher", "crates/sourcepawn_lsp/src/handlers/notification.rs", "crates/sourcepawn_lsp/src/global_state.rs: send_request, complete_request, process_changes", "crates/sourcepawn_lsp/src/reload.rs: update_configuration, reload_flycheck", "crates/sourcepawn_lsp/src/progress.rs: report_progress, Progress::fraction"]}
{"id": "C60", "title": "Go to definition and hover show the definition of what is under the cursor, where it is written", "statement": "With the cursor in code, go to definition sends one link: its origin is the editor's range of the smallest syntax node under the cursor and contains the cursor; its target is the editor's range of the node of the definition found for that node, in the definition's file; its selection is the editor's range of the name in the definition, and lies within the target. With the cursor on the name of a macro use or right behind it, the origin is the name and the target the macro's #define. With the cursor on an argument of a macro use, what is asked about is the node where the argument went. On the name in a declaration of the file, the target is that declaration and the selection the name itself. Hovering answers at the same places, for the same range, with the text of the definition, and for a macro use with what the use is replaced by.", "quantifier": "every file, syntax tree, distribution of macro uses over lines, cursor position, and every outcome of the search for the definition", "why_tests_cant": "The answer combines three coordinate mappings (cursor to preprocessed text, node back to the editor, definition to its own file's editor text) with a search in the tree; the existing tests look at one file with a handful of positions and few definitions over several lines, so that a wrong column at the end of a range, or a mapping done with the wrong file's or line's offsets, is not seen.", "anchors": ["crates/ide/src/goto_definition.rs", "crates/ide/src/hover.rs", "crates/ide/src/lib.rs:221-297", "crates/ide/src/markup.rs", "crates/sourcepawn_lsp/src/lsp/to_proto.rs:17-52", "crates/sourcepawn_lsp/src/handlers/request.rs:18-62", "crates/hir-def/src/src.rs:23-32"]}
{"id": "C61", "title": "Progress is shown to the user properly and taken away again", "statement": "For each kind of work (scanning the folders, indexing, the compiler's check of a project) the messages sent to the client follow the protocol: the client is asked to create the token, then there is one begin, any number of reports, and one end, before anything else is said about that token. Scanning does not go backwards and is ended once the loader has done its work and was heard; indexing is not shown when no operation is in progress; a project's check is shown exactly while the compiler runs for it, once the messages have been delivered, and the client is told that the compiler is busy exactly while it is. Different work has different tokens, different projects different titles, only checks can be cancelled, and no assertion about fractions fails.", "quantifier": "every interleaving of the loader, indexing jobs, any number of compiler workers over any number of reloads, and turns of the main loop", "why_tests_cant": "What the client hears is made of messages from three groups of threads over channels; that no begin is doubled and no end is missing depends on how cancellations, restarts, reloads and failures interleave, which a test runs in one order.", "anchors": ["crates/sourcepawn_lsp/src/progress.rs", "crates/sourcepawn_lsp/src/main_loop.rs:451-554", "crates/sourcepawn_lsp/src/main_loop.rs:567-646", "crates/sourcepawn_lsp/src/reload.rs:78-115", "crates/flycheck/src/lib.rs:217-299"]}
{"id": "C62", "title": "A name in a function body leads to what it means at that place", "statement": "Go to definition, references, renaming and hover find what a name in a function body refers to by its place in the text. Wherever a name stands in a body, the scope found is that of the innermost block around it, so the name leads to the declaration that its meaning says: the last declaration in the innermost block that has one, then a parameter, then the file. Outside of the body, and in a function without one, it means what it means in the file. A member behind a dot leads to the member of the type before the dot, the class behind new to its constructor, and to nothing else.", "quantifier": "every function body, every layout of its statements in the text, every place in it and every name", "why_tests_cant": "The scope is chosen as the smallest recorded node that covers a position, ends included; whether that is the right block depends on how nodes of different statements touch, nest and compare in length, over unbounded bodies and layouts.", "anchors": ["crates/hir/src/source_analyzer.rs:28-83", "crates/hir/src/source_analyzer.rs:173-193", "crates/hir/src/semantics.rs:362-453", "crates/hir/src/lib.rs:30-77", "crates/hir-def/src/body/scope.rs:64-66"]}
{"id": "C63", "title": "A named argument refers to the parameter of that name of the function called", "statement": "In a call with a named argument .n = v the name n is bound to the parameter n of the function that the call calls, and go to definition on it leads there; if the function has no such parameter this is reported, once, with the names of the argument and of the function. Nothing else is bound or reported, and the value behind the sign is a name like any other.", "quantifier": "every function body, any nesting of calls of functions and of methods of enum structs, every function with any parameters, with or without a body", "why_tests_cant": "The callee is kept on a stack that every name in an argument or target may change while the arguments are walked; whether the right function's parameters are used depends on how calls, targets and arguments nest, without bound.", "anchors": ["crates/hir-def/src/infer.rs:238-265", "crates/hir-def/src/infer.rs:137-161", "crates/hir-def/src/infer.rs:385-425", "crates/hir-def/src/infer.rs:573-653", "crates/hir/src/semantics.rs:429-443", "crates/hir-def/src/resolver.rs"]}
{"id": "C64", "title": "Paths of files name places, on disk and in memory alike", "statement": "For every absolute string the path made from it names the one place its pieces lead to from the root (empty pieces and \".\" stay, \"..\" goes up, a name goes down). For every path that names a place: joining it with any relative path names the place its pieces lead to from there, nothing if a path in memory would go above the root; leaving it gives the place around it, and only the root cannot be left; starts_with and strip_prefix hold exactly for places in or below the other one, and what is stripped joined again gives the path back; its name and extension are the last name on the way, cut at the last dot that is not its first character; two paths are equal, and encoded alike, exactly if they are of one kind and name one place.", "quantifier": "all strings of any bytes, all places of any depth, both kinds of paths, all relative paths", "why_tests_cant": "the repository tests seven names of virtual paths; the claim is about every string, with any number of pieces and dots", "anchors": ["crates/vfs/src/vfs_path.rs:24-168", "crates/vfs/src/vfs_path.rs:283-287", "crates/vfs/src/vfs_path.rs:317-415", "crates/paths/src/lib.rs:191-206"]}
{"id": "C65", "title": "Client and server keep to what they agreed on in the handshake", "statement": "A request is worked on exactly if the capabilities announced by the server invite it or it is one of the server's own requests; with parameters that cannot be read it is answered with InvalidParams, and any other request with MethodNotFound. Over every run of the main loop, with any settings received on the way, every request the server sends is one the client's capabilities allow. The settings are asked for exactly if the client can be asked. Hovers have a format the client listed. The type and modifier numbers of every semantic token stand in the announced legend for the type and the modifiers of the highlight, and no highlight panics. The root given by the client is loaded, or the working directory if it gives none.", "quantifier": "all capabilities of the client, all requests, all runs of the main loop with any events and settings, all highlights, all roots", "why_tests_cant": "the repository tests six questions about single capabilities; the claim is about everything sent and answered during any session", "anchors": ["crates/sourcepawn_lsp/src/capabilities.rs:14-142", "crates/sourcepawn_lsp/src/config.rs:98-128", "crates/sourcepawn_lsp/src/config.rs:192-201", "crates/sourcepawn_lsp/src/config.rs:236-262", "crates/sourcepawn_lsp/src/main_loop.rs:92-232", "crates/sourcepawn_lsp/src/lsp/semantic_tokens.rs:11-175", "crates/sourcepawn_lsp/src/lsp/to_proto.rs:17-123", "crates/sourcepawn_lsp/src/progress.rs:17-70", "crates/sourcepawn_lsp/src/handlers/notification.rs:168-193"]}
{"id": "C66", "title": "A name in a function leads to its declaration in the text", "statement": "For every function whose body is a syntax tree that stands in its text (children in their parent, one behind the other, braces and keywords in front of what they introduce) and that lacks no condition, iteration or body: a name at a place of the text leads to the declaration node of the innermost block around the place that declares the name outside of nested blocks, the last one if there are several, else to the parameter of the name, and to what the file means by the name if there is neither, unless a block declaring the name ends directly at the place. The statements and expressions of the analysed body have different ids and stand in the text where their nodes do, for any tree, complete or not. The analysed body is the function as it is written (each node the expression or statement its kind and parts say). A name behind a dot leads to the field or property of that name of the type of what is written in front of the dot, a name of a called member to the method, and a name behind new to the constructor of the methodmap, where the names in front of the dot are read as declared around it.", "quantifier": "all syntax trees, all spans of their nodes, all parameter lists, all places, all names, all functions and file scopes", "why_tests_cant": "the repository tests single cursor positions in fixed sources; the claim is about every place of every function, from the syntax tree through lowering, scopes and the search by offset", "anchors": ["crates/hir-def/src/body/lower.rs:50-477", "crates/hir-def/src/body/scope.rs:60-219", "crates/hir/src/source_analyzer.rs:1-193", "crates/hir/src/semantics.rs:362-453", "crates/hir-ty/src/infer.rs:62-540"]}
{"id": "C67", "title": "The picture of the projects shows each project as a tree of its files", "statement": "The text the server answers with for a picture of the projects can be read back: it is one group of its own name and title for each root that is a plugin, with its arrows, and one diamond for each of these roots. Every arrow of a project is an include; every file the root reaches other than the root itself is the head of exactly one arrow, and is joined to the root by arrows. There is no answer exactly if a file reached from a plugin that is a root has no name.", "quantifier": "all sets of documents and includes, all names of files, all orders in which hash tables iterate", "why_tests_cant": "the repository has one picture of one graph; the claim is about every graph, with cycles, shared includes and any iteration order", "anchors": ["crates/base-db/src/graph.rs:228-389", "crates/sourcepawn_lsp/src/handlers/request.rs:151-164"]}
{"id": "C68", "title": "The printed item tree shows what the file declares", "statement": "For every file whose item tree can be made, printing it never panics (no index out of range, no indentation below zero), and the text is exactly the lines that show the declarations of the file from top to bottom: each with the number of its node above it, its words, types and members, indented by its depth. The numbers in the comments of the text are those of the declarations shown, each above its parts, in the order of the file.", "quantifier": "all syntax trees", "why_tests_cant": "the repository has snapshots of a few files; the claim is about every file, with any nesting of members and parameters", "anchors": ["crates/hir-def/src/item_tree/pretty.rs:11-362", "crates/sourcepawn_lsp/src/handlers/request.rs:182-195", "crates/hir-def/src/item_tree.rs:73-87", "crates/hir-def/src/ast_id_map.rs:73-77"]}
{"id": "C69", "title": "An address names one file and a file's address leads back to it", "statement": "For every history of the virtual file system and every address a client may send, turning the address into a file never panics and answers with a file exactly when the address is one of this computer and its path, with escapes decoded and . and .. followed from the root, leads to the place of that file, and the file has not been removed. The address made for a file leads to the file's place and is answered with that very file; two files never have addresses with the same text; the text can be read in one way only.", "quantifier": "all histories of the file system, all addresses, all names of files", "why_tests_cant": "names are arbitrary bytes and an address can be spelled in endlessly many ways; the tests use plain names only", "anchors": ["crates/sourcepawn_lsp/src/lsp/from_proto.rs:14-23", "crates/sourcepawn_lsp/src/lsp/to_proto.rs:120-166", "crates/sourcepawn_lsp/src/global_state.rs:385-416"]}
{"id": "C70", "title": "The main file of a project", "statement": "For all files with their includes and all orders in which hash tables iterate: asked for the main file of a document, the server refuses an address that leads to no file and a file outside the graph of includes, and otherwise answers with the address of a file that starts a project the document belongs to. If only one file starts such a project, it is the answer; a plugin that no file includes is its own main file.", "quantifier": "all sets of files and includes (circles too), all iteration orders, all addresses", "why_tests_cant": "the answer depends on the iteration order of hash tables and on the whole graph of includes; the request has no test", "anchors": ["crates/sourcepawn_lsp/src/handlers/request.rs:250-265", "crates/ide/src/lib.rs:127-143", "crates/base-db/src/graph.rs:200-217"]}
{"id": "C71", "title": "Included files are found while files and settings change", "statement": "For every history of file changes, drains and changed include directories: after a drain the analysis holds the texts of all files; and once the settings are taken over, an include written in a file of the configured directories is found where it should be (next to the file when written with quotes, else in the first directory that has it, subject to the files existing now), and searching never crashes.", "quantifier": "all histories of file updates, drains and configured directories of any length; all files, written paths and both kinds of includes", "why_tests_cant": "the result depends on the interleaving of settings, file events and drains, and on numbers of source roots that survive from earlier settings; the tests never change the settings of a running server", "anchors": ["crates/sourcepawn_lsp/src/reload.rs:38-66", "crates/sourcepawn_lsp/src/global_state.rs:234-362", "crates/base-db/src/change.rs:48-70", "crates/base-db/src/lib.rs:149-170", "crates/vfs/src/file_set.rs:33-56"]}
{"id": "C72", "title": "From the cursor on a name in a function or method to the declaration the editor opens", "statement": "When the cursor is on a name used in a function, method, getter or setter of a file, go-to-definition sends exactly one link, to the declaration of the function that counts for that name at that place by the blocks of the text, with the range of that declaration and of its name as the editor shows them (macro expansions included), the origin range holding the cursor; hovering shows the text of that declaration; the cursor on the name in a declaration leads to that declaration itself; and a name the function does not declare is taken to mean what it means in the file; a name behind a dot is the field, property or method of that name of the type of what is in front of the dot, and one behind new the constructor.", "quantifier": "all source texts, syntax trees, expansions of macros on lines, cursor positions in code, functions, nestings of blocks and declarations", "why_tests_cant": "the answer goes through the position maps of the preprocessor, the walk over the tree, the lowering of the body, the scopes and the source maps; a test checks one place of one file, while shadowing, expansions and equal names combine freely", "anchors": ["crates/hir/src/semantics.rs:362-434", "crates/hir-def/src/body.rs:57-93", "crates/hir-def/src/body/lower.rs", "crates/hir/src/source_analyzer.rs", "crates/hir/src/lib.rs:505-517", "crates/ide/src/goto_definition.rs", "crates/ide/src/hover.rs"]}
{"id": "C73", "title": "The words of a diagnostic tell the problem, its names and its numbers", "statement": "Two diagnostics composed by the server with the same words are about the same problem, the same names and the same numbers; every name a diagnostic is about stands in its words between backticks; and a diagnostic about the number of arguments of a call is true: fewer were given than the function accepts at least, or more than it accepts at most, and the number named is one the function accepts.", "quantifier": "all kinds of diagnostics, all names without backticks, all numbers, all functions and calls", "why_tests_cant": "each test compares one message with one string; that no two problems share their words and that the comparison of the two numbers picks the right wording needs all names and numbers at once", "anchors": ["crates/ide-diagnostics/src/handlers/incorrect_number_of_arguments.rs:10-24", "crates/ide-diagnostics/src/handlers/unresolved_field.rs:8-28", "crates/ide-diagnostics/src/handlers/unresolved_constructor.rs:10-26", "crates/ide-diagnostics/src/lib.rs:188-219"]}
{"id": "C74", "title": "Preprocessing lists exactly the problems of the directives it reads", "statement": "After preprocessing a file, the conditions that could not be evaluated, the macros not found in conditions and the includes that were missing are listed once each in the order of the file; conditions and includes in inactive code, conditions behind a branch already taken and #tryinclude contribute nothing; when preprocessing gives up, at most the macro it failed at is added.", "quantifier": "all files, macro environments, include lookups and nestings of conditionals", "why_tests_cant": "which condition is evaluated depends on all directives before it and on the macros known there; tests look at single directives", "anchors": ["crates/preprocessor/src/lib.rs:422-461", "crates/preprocessor/src/lib.rs:498-512", "crates/preprocessor/src/lib.rs:623-693", "crates/preprocessor/src/lib.rs:326-416"]}
{"id": "C75", "title": "The intrinsics line becomes the Handle declaration and nothing else is touched", "statement": "Preprocessing replaces `using __intrinsics__.Handle;` by the built-in declaration of Handle and changes nothing else of its state; as long as the word `using` is not read in active code, every dot, every semicolon and every name that is no macro is copied to the preprocessed line at its distance; and positions behind the line correspond to the preprocessed text.", "quantifier": "all token sequences, macro tables, include callbacks, preprocessor states and runs of any length", "why_tests_cant": "the status is carried from token to token through macros, directives and inactive code, so a stray status could only be seen in some combination of them; the test has the one line of handles.inc", "anchors": ["crates/preprocessor/src/lib.rs:112-121", "crates/preprocessor/src/lib.rs:338-348", "crates/preprocessor/src/lib.rs:389-411"]}
{"id": "C76", "title": "The profiler prints the spans as they were nested", "statement": "However a program nests its profiling spans, recording them never panics and the links of the arena read back as the nesting; for every outermost span that the filter keeps and that took more milliseconds than the limit the profiler prints its line, below it the long inner spans in order, then the short ones summed up by name in the order of names, then the time none of them accounts for; nothing of one outermost span is left over for the next, and a filter is read as it was written.", "quantifier": "all nestings of spans of any depth and width, all durations that do not exceed those around them, all filters and all ways of writing them", "why_tests_cant": "the tree is threaded through sibling links that each later span extends, and there is no test of the crate; a wrong link shows only for particular shapes of nesting, and the panics only for particular sequences", "anchors": ["crates/profile/src/tree.rs:14-91", "crates/profile/src/hprof.rs:155-191", "crates/profile/src/hprof.rs:220-286", "crates/profile/src/hprof.rs:298-363"]}
{"id": "C77", "title": "The status shows what the tables hold", "statement": "The text of the status request has one line for each table in a fixed order; every number in it is the number of entries, of entries that are kept, of macros, of offsets or of files being preprocessed in that table, whatever order the table is read in; every size is the sum of the sizes of what it speaks of, shown in bytes, kilobytes or megabytes with less than one unit cut off and the sign kept; a file that is not known is named, and a cancelled analysis is said to be cancelled.", "quantifier": "all contents and orders of the tables, all sizes (also negative ones), all requests", "why_tests_cant": "the tables are hash tables of the query engine, whose order and contents differ from run to run; the limits between the units are at single values", "anchors": ["crates/profile/src/memory_usage.rs:111-126", "crates/ide/src/status.rs:35-76", "crates/ide/src/status.rs:147-276", "crates/sourcepawn_lsp/src/handlers/request.rs:197-249"]}
{"id": "C78", "title": "The map from nodes to definitions keeps the kinds apart", "statement": "Whatever definitions are put into the map from nodes to definitions, under whatever keys and in whatever order, no box in it is read as a type it does not hold, asking for a node under a key gives the last definition put in for that node under that key and nothing if there is none, and a key is empty exactly if nothing was put in under it.", "quantifier": "all sequences of insertions, all keys and nodes", "why_tests_cant": "the map finds its parts by type and reads them without a check, so a confusion of two kinds is undefined behaviour that a test may not notice, and needs particular kinds at the same node", "anchors": ["crates/hir-def/src/dyn_map.rs:64-91", "crates/hir-def/src/dyn_map/keys.rs:10-22", "crates/stdx/src/anymap.rs:126-198"]}
{"id": "C79", "title": "A panic is reported with the contexts open around it", "statement": "However the threads of the server are interleaved and wherever they panic and catch panics, the assertion in the guard of the panic context never fails, a panic is reported with exactly the contexts written around it on its own thread, outermost first, and with no report of contexts if there are none, and a thread that has ended has no context left over; a panic in a request handled by a worker is reported with the context of that request and does not leave the worker.", "quantifier": "all programs of all threads, all interleavings, also unfinished ones", "why_tests_cant": "a failing assertion in a guard dropped by a panic aborts the process, and depends on where the panic happens and on the order of calls of several threads", "anchors": ["crates/stdx/src/panic_context.rs:7-49", "crates/sourcepawn_lsp/src/dispatch.rs:99-103"]}
