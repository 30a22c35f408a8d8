# Design of the Rocq model of sourcepawn-vscode (Rust crates)

The code in /repo is read as text; it is neither built nor run.  The model is in
`rocq/theories`; every definition cites the file and lines it models.

## Plan per property

* **C01** Semantic token deltas reconstruct the new token array -- module `SemTokens`: list model of diff_tokens; client-side edit application as spec; induction on common prefix/suffix.
* **C02** Semantic tokens decode to the highlighted ranges -- module `SemTokens`: builder as fold with checked u32 subtraction; spec = the LSP decoder; induction on the pushed list.
* **C03** Delta replies are relative to the result the client named -- module `SemCache`: transition system of atomic cache steps; history variable of issued results; invariant over all step sequences.
* **C04** Incremental didChange keeps the server text equal to the client text -- module `TextSync`: text as list of characters, external line index as a function of the text; refinement to LSP's sequential edits; counterexample for ranged+full+ranged.
* **C05** Position to offset conversion is exact and invertible -- module `TextSync`: positions computed from per-character widths; round trip by induction on the text.
* **C06** Line-ending normalisation -- module `LineEndings`: byte-buffer model of the in-place gap algorithm with loop invariant; spec = one-pass replacement function.
* **C07** The virtual file system is a path-to-contents map with a faithful change log -- module `Vfs`: interner + data vector model; refinement to a finite map; invariant over op lists.
* **C08** Draining file changes brings the analysis inputs up to date -- module `VfsSync`: merge table of process_changes folded over batches produced by the VFS model; refinement to VFS contents; counterexample Delete,Create,Delete.
* **C09** Open documents win over disk -- module `OpenDocs`: event system over (client buffers, mem_docs, vfs); invariant over all event lists.
* **C10** Every request gets exactly one response -- module `Requests`: event system of ReqQueue + dispatcher + task results; invariant on counts of responses per id.
* **C11** Messages received while waiting for the configuration are replayed in order -- module `ConfigPull`: queue model; equality of processed sequences for all inputs.
* **C12** Background operations are serialised and never lost -- module `OpQueue`: state machine, invariant plus 'next start' theorem.
* **C13** The editor shows the server's current diagnostics -- module `DiagColl`: collection model with change set; invariant 'published = current unless marked changed'.
* **C14** Compiler check lifecycle events are well bracketed -- module `Flycheck`: actor state machine over arbitrary event schedules; trace grammar.
* **C15** Compiler output lines are mapped to the right diagnostics -- module `SpComp`: argument vector model and line parser model over the regex structure.
* **C16** Exactly the active preprocessor branches are kept -- module `CondStack`: token/line-level machine; spec = recursive semantics over properly nested trees; simulation by induction over trees.
* **C17** Preprocessing keeps line numbers -- module `CondStack/PreprocLines`: line counter invariants over the main loop.
* **C18** Unbalanced conditionals are rejected without altering the text -- module `CondStack`: error branch characterised exactly by depth function.
* **C19** #if conditions follow operator precedence -- module `Evaluator`: shunting-yard model; spec = expression trees with precedence-correct printing; induction.
* **C20** #if evaluation never crashes the server -- module `Evaluator`: panic as explicit value; refutation witnesses and the exact guard under which no panic occurs.
* **C21** Macro expansion terminates -- module `Macros`: fuelled model of expansion loop; termination measure for expand_identifier; non-termination witness for the main loop.
* **C22** Function-like macro arguments are substituted exactly -- module `Macros`: collect_arguments/expand_macro models; spec = split at top-level commas + substitution.
* **C23** Object-like macros expand to their fully expanded bodies -- module `Macros`: spec = recursive substitution; induction on nesting rank.
* **C24** Macros are visible from their #define to their #undef -- module `Defines`: macro store history; includes.
* **C25** Include processing terminates and visits each file once -- module `Includes`: fuel-free termination by visited-set measure.
* **C26** Inactive code is reported exactly -- module `Inactive`: interval merging; spec = set of lines.
* **C27** Editor positions and preprocessed positions correspond -- module `PosMap`: arithmetic over sorted offsets; round trip; counterexample for empty expansions.
* **C28** Every known file belongs to a project -- module `Graph`: finite graphs as edge lists; DFS with visited set; reachability spec.
* **C29** A name refers to the innermost declaration in scope -- module `Scopes`: arena scopes; spec = lexical environment lookup; counterexamples.
* **C30** Resolver scope changes are properly undone -- module `Scopes`: stack discipline.
* **C31** Methodmap members are inherited and overridden -- module `Methodmap`: recursive data query with inheritance chain; spec = nearest declaration.
* **C32** Argument-count diagnostics are exact -- module `Infer`: call stack model of inference over expression trees; counterexample.
* **C33** Indexing an array n times gives its element type -- module `TypeRefs`: dimension arithmetic; refutation.
* **C34** Path normalisation -- module `Paths`: component lists; spec = denotation as stack walk.
* **C35** Include resolution picks the right file -- module `IncludeResolve`: string model of extension inference, candidate order.
* **C36** Each file belongs to the deepest configured root -- module `FileSets`: prefix matching; spec = longest prefix.
* **C37** Configuration errors are reported and other settings survive -- module `ConfigData`: JSON tree model; per-field lookup; refutation of error reporting.
* **C38** Subprocess output is split into lines independently of chunking -- module `Streaming`: chunked reader state machine.
* **C39** Cache priming covers every project -- module `PrimeCaches`: worker schedule model; refutation.
* **C40** Item identifiers survive a round trip -- module `AstIds`: tree traversal + arena.
* **C41** Equal maps hash equally -- module `HashMapHash`: sorted-keys hash of association maps; permutation invariance.
* **C42** Quiescence is reported truthfully and only on change -- module `Status`: config version / progress state machine.
* **C43** Range intersection is exact -- module `Ranges`: lexicographic positions.
* **C44** Position encoding negotiation -- module `Encoding`: list scan.
* **C45** Macro jumps reach the right #define -- module `MacroIdx`: running index of two passes.

* **C46** Members of enum structs -- module `EnumStruct`: numbering of members by the item tree, by the data query and by the
  source queries, over the list of a declaration's children; agreement of the three numberings; refutation when methods come first.
* **C47** From a declaration inside a methodmap to its member -- module `MapSource`: the table built by child_by_source;
  refutation for ids of two files.
* **C48** Function bodies as lowered from the syntax tree -- module `Lower`: the lowering of every statement and expression
  kind over abstract syntax nodes; spec = an independent grammar of what each node means; refutations for the forms that are lost.
* **C49** Item trees -- module `ItemTree`: the lowering of every kind of file-level declaration into the fourteen tables, and
  the reading of an entry through its indices, ranges and id; the specification reads the declarations off the syntax tree
  directly, nested, without tables.
* **C50** From the name in a declaration to the declaration -- module `FindDef`: places as nodes with their ancestors, the
  tables of a file, a typeset and a funcenum, the search for the container. The specification says which declaration of the
  outline (C49) stands around a place. The tables of enum structs and methodmaps are those of C46 and C47 and are parameters.
* **C51** From a name in a body to the scope it is looked up in -- module `FindDef`: the climb to the function, the search
  for its entry by name. The lookup inside a body is that of C29 and C30 and is a parameter.
* **C52** Files known -- module `Loader`: the disk as a tree, the walk with its filter, the test of loader.rs, the actor's
  three kinds of messages; spec = the documented rule on paths; invariant over all sequences of changes and reports.
* **C53** Reports -- module `Report`: the chain from what was found to what is sent; spec = problems as a relation, lines cut
  into corresponding pieces; count by a sum over the tree.
* **C54** Documentation -- module `Doc`: the climb over the siblings before a declaration and the removal of comment marks;
  spec = the longest stack of rows that may document it, and how Markdown reads backslashes. `DocMarkdown`: the replacements
  of to_markdown; spec = what is said apart from marks, and lines of a comment shown as paragraphs.
* **C55** Members -- module `Member` over `HirModel`: spec = an inductive typing of expressions and what is found at each
  place; the walk is shown equal to a pure function of the expression, and that to the spec. That an operator has the type of
  its right operand is the assumption the code states (infer.rs, "Assume the type"), and the spec takes it over.
* **C56** Thread pool -- module `Pool`: threads as phases of the worker loop, advanced in any order by a schedule that also
  chooses who panics; one invariant over all runs relates tasks given, begun, ended, died and in hand; a measure gives rest.
* **C57** Checks on save -- module `Save`: the session as events (a save, a task run by the pool, new settings, a change of files,
  a cancelled progress) over the graph of C28; checkers keep the settings they were made with. Spec: the projects that reach
  the file, and what it means that checkers are up to date. Proof: the checks run over any history without changes are a
  permutation of those asked for; when the checkers are up to date that is exactly the projects containing the file.

* **C58** Highlighting of macro uses -- module `Highlight`: the uses of a file are defined by following the run and looking at each
  symbol read from the file (not one that a macro was replaced by), in code and in conditions: a use is a name for which the
  table has a macro then. The model groups the recorded entries by line, keeps those that intersect the part asked for and
  encodes them (C02). Proved: if nothing that comes out of a macro is a macro in turn ([settled]), what the editor decodes is
  the uses in the order of the file; [settled] follows for files whose macros have no parameters and mention no macro.

* **C59** What stops the server -- modules `LoopModel`, `LoopSpec`, `LoopDrain`, `LoopProofs`, `LoopProps`: the main loop is put
  together from the models of its parts (files, documents, changes, requests, diagnostics, queue), every unwrap, assert and index of
  its thread being a crash. The specification follows a world of files, open documents, settings and answers, says which turns are
  fatal in it and what the others do to it; the theorem is that the fate of the server and of the world are the same.

* **C60** Go to definition and hover, from the cursor to the link -- modules `GotoModel`, `GotoSpec`, `GotoProofs`, `GotoProps`, `GotoMarkup`: the
  request is put together from the mapping of positions (C27), the smallest node of the tree at a place, the search for the
  definition (an input; that of C50 for the name in a declaration), the node of the definition, and the mapping back with the
  entries of the definition's file. Spec: the editor's and the preprocessed lines are cut into corresponding pieces; a range is
  shown where its two ends are the same places of the code. A node's line and column are computed from its bytes.
  `GotoMarkup` reads the answer back as a reader of markdown does and says what the cutting into lines and trimming gives.

- C61 progress. `ProgressModel` joins the loader (StatusModel), the queue of indexing (OpQueueModel) and any number of compiler
  workers (FlycheckModel) with what the main loop reports of them. `ProgressSpec` says what the protocol allows to be said about
  a token and when a worker is busy. Texts of progress messages are left out; percentages are kept as fractions.

- C62 a name in a body by its place. `OffsetModel`: the smallest recorded node that covers a place gives the scope
  (`scope_for_offset`), and what `function_node_to_def_` makes of the name. `OffsetSpec`: a body laid out in the text, and the
  blocks around a place. Positions are byte offsets; tree-sitter's points are ordered like them. C29_definition is about the other
  branch of `SourceAnalyzer::new_for_body`, which finds the scope by the node and which no caller uses; C62_scope says when the two
  agree.

- C63 named arguments. The walk is that of `HirModel`; `NamedSpec` says which function a call calls and which parameter a name is.
  `NamedProofs` lifts a statement about expressions to bodies for anything kept of the record ([walk_stmt]).
- C64 paths of the virtual file system. Model `vfs_path.rs` on top of `PathsModel`, with the string operations of paths in memory. The
  specification gives the place a path names as the list of names from the root, and the walk along the pieces of a relative path.
* C65 (handshake): HandshakeModel has the capabilities read of the client, those announced, the legend and the two numbers of a token, the root directory, and puts the client's capabilities into the settings of the main loop of LoopModel (`connect`). HandshakeSpec states LSP's rules: which methods an announced capability invites, which capability a request of the server needs, how a client reads a token. C65_served goes through the dispatcher of RequestsModel, C65_consent_partial is an invariant of every run of LoopModel.
- C66 a name in a function, from its syntax tree on. `WrittenSpec` says what a tree in its text is (`tidy`), which blocks are around a place and what
  they declare (`around`, `declares`, `declaration`), without the analysed body. `WrittenLower` and `WrittenArena` go through the lowering of LowerModel and
  show which part of the arena each node fills and where its expressions come from; `WrittenProofs` lays the body out in the text, which is the
  assumption `laid` of C62, and relates the blocks of the text to those of the body. `WrittenProps` has the theorems.
  Members: `SaidSpec` says which expression a node is (`says`, `tells`), which nodes are expressions in a statement and what the blocks around them declare (`under`), and
  what names mean there (`reads`). `SaidProofs` proves that the lowered body is the one that is said, `SaidPaths` that a node of the tree has its expression at the place of the
  body with the same declarations, `SaidOnce` that the pointer of a member name leads back to its expression (a later record at the same pointer would hide it: operands of
  `-`, `return` and `delete` are recorded at the pointer of the operand, which is why this is to be proved), and `SaidProps` puts them together with C62.
* **C67 the picture of the projects** — the text is modelled as it is joined from its lines; the specification is a reader of that text, written without looking at how it is made. What the arrows are is stated with the includes of the files (GraphSpec), for every order of the sets.
* **C68 the printed item tree** — the printer is modelled as a state machine (buffer and indentation, with the subtraction that may panic) that follows indices into the tables; the specification lists lines with their depth, straight from the nested declarations of C49. A reader of the comments gives the numbers back.
* **C69 addresses** — the url crate's two conversions are modelled on bytes; the specification says what an escape stands for as a relation, and where a path leads with the walk of C64. Both directions are composed with the file system of C07.
* **C70 the main file of a project** — the handler is composed from the graph (C28), the projects of a file (C57) and addresses (C69); the specification only speaks of includes.
* **C71 included files while settings change** — histories gain an event that sets the directories (SyncModel's drains unchanged); the search of an include by components over the database. The specification takes the existing files and the directories configured last, and looks in the candidate places in order. Proof: one invariant without the directories, one that the source roots fit them, re-established by every drain that recomputes them.
* **C72 from the cursor to the declaration** — `CursorModel` joins what was modelled apart: the node under the cursor (C60), the function around it (C50, C51), the body made from its tree (C66; the trees of ItemTreeModel are turned into those of LowerModel by a table of kinds), the scopes and the source map, and back to a node for the link. The specification only speaks of positions in the editor, the smallest node there, the blocks around it in the text and the declarations in them. Behind a dot or `new`, the theorems of C66 about members are carried to the same node (`C72_member_partial`, `C72_method_partial`, `C72_new_partial`; the case is in `CursorDots`).
* **C73 the words of diagnostics** — `WordsModel.words` gives the English text of each message of ReportModel, with the debug form of strings. The specification lists the names of a message and when a message about arguments is true of a signature (`HirSpec.accepts`). Proof: texts are cut at the first backtick or blank; the debug form is a prefix code that can be read back.
* **C74 problems found by preprocessing** — on the trace of a run (`CondSpec.reads`) the specification says for each event whether its condition decides something and which of its include paths are missing; the lists kept by the preprocessor are the concatenations of these. Proof: one step adds exactly the problems of its event; the ways a run stops are listed.
* **C75 the intrinsics line** — from any state outside it, the five symbols of the line are read to a state that differs only in the text written and the place in the file; and by induction over runs the status stays empty as long as `using` is not read, so that dots, semicolons and names are copied.
* **C72 in methods** — `MethodModel` adds the lookup of the method or accessor around a name: the parent item is found by its name, its members are kept in a map by name (so the last of a name stays), and the source of a member is found through its syntax pointer. `in_definition` in `CursorSpec` says what the text must be like: the container is the first declaration of its name and the method is the last member of its name. `CursorMethods` has the concrete cases, and `C72_destructor_refuted` shows that the condition is needed: a constructor and a destructor share their name.
* **C50/C72 names of methods** — `MethodTable` adds the tables that lead from the node of a method, getter or setter to its number (child_by_source); the rows of fields and of inherited members stay parameters (C46, C47). `method_in` in `MethodTableSpec` says that a method stands in an enum struct or methodmap of the file; no condition on names is needed, since the tables go by place. `CursorOwn` carries this to the editor: the cursor on the name of any declaration, and on a name declared in a method, stays on that declaration.
* **C72 names of the file** — `CursorNames` turns the definitions of the file (FindDefModel) into those the resolver has (HirModel) by interned ids, and a found id back into a definition. `CursorNamesSpec` says which of several declarations of a name counts: the only one, else the first methodmap, else the first function. `C72_global_partial` carries this to the editor, with the range of the declaration; `C72_undeclared_partial` says when nothing is answered. Interning is an input that must be undone by the lookup.
* **C76** `ProfileModel` models the arena of `tree.rs` with its sibling links and the assertion in `start`, the stack of `hprof.rs` with its filter, `print` with the ordered map of short children, and `from_spec`. `ProfileSpec` has spans as trees, the events of opening and closing them, and the report of a span as a relation (sorted names, sums and counts by filtering). `C76_tree` shows that the arena holds the spans in preorder and that printing yields the report, `C76_run` lifts this to runs of calls through the filter, `C76_off`, `C76_depth` and `C76_filter` are about the filter. Trusted: durations are given with each call and are additive (`punctual`); `Duration` does not overflow.
* **C77** `UsageModel` models the display of sizes, the four collectors of `status.rs` as folds over what they read of each entry, the text with its trimming, and the request around it. `UsageSpec` gives the unit of a size by its value and the lines by counting, filtering and adding up. `C77_size` is about the display, `C77_status` about the text, `C77_order` says that the order of the tables does not matter, `C77_answer` is the answer of the request. Trusted: the contents of the tables; sizes of macros as given by `deep_size_of`.
* **C78** `DynMapModel` models `DynMap` over `anymap::Map`: hash maps by the number of their type, each in a box that carries the type of its contents; the unchecked cast is `Undefined` for another type. `latest` in `DynMapProps` gives the answer by splitting the insertions at the last one for the node and key. `C78_map` (no undefined cast, the latest definition, the same as `find_row` of C50), `C78_empty` (emptiness), `C78_unique` (only one answer is the latest).
* **C79** `PanicContextModel` models the stack of contexts of each thread, the guard with its assertion, the text of the hook and the calls a thread makes, with guards dropped while a panic goes by. `panics` in `PanicContextProps` gives the contexts of a panic by the blocks written around it, without a stack, and `report` gives the text by `concat`. `C79_report` (any mix of the calls of all threads), `C79_always` (also before the end), `C79_unique` (the specification has one answer), `C79_request` (a request in a worker).

## Conventions

* Panics (`unwrap` on `None`, unsigned underflow in debug builds, `unreachable!`, index errors)
  are explicit error values of the model.
* Loops are folds or structural recursion; where the Rust loop has no structural measure the model
  uses fuel and returns an explicit out-of-fuel value.
* External code (sourcepawn_lexer, tree-sitter, salsa, line-index, crossbeam channels, the operating
  system) enters as plain inputs, Section variables or nondeterministic events, never as axioms.

## Trusted base

* Coq 8.16.1's kernel (coqc; no plugins beyond those that come with it, no native_compute; vm_compute is used for
  examples and refutation witnesses, so the virtual machine of the kernel is trusted too).
* `Print Assumptions` stands beneath every property theorem. It prints "Closed under the global context" for
  all of them: no axiom is used, neither of the standard library nor of our own.  (A listing of a whole compiled
  file also names the parameters of the standard library's own module `Coq.ssr.ssrunder.Under_rel`, which comes with `Lia`'s
  tactics; no theorem uses them.)  No functor, module type, admitted proof
  or open obligation is defined.  `Section` variables are all discharged: they become universally quantified parameters of the theorems.
* That the definitions say what the Rust code does.  Each definition cites the lines it was written from; the files that have a
  header list the simplifications made.  Nothing was run: correspondence is by reading.  The preprocessor model is also
  checked against the expectations of the repository's own snapshot tests (`PreSnapshots.v`, `C19`'s evaluator tests).
* What external code does, where a model needs it: it enters as an input (a quantified function, list of events or tree),
  or is written out from its documentation: `lsp_server`'s request queue (C10), `line-index` (C04, C05), `std::path` on
  Unix (C34, C35), `str::lines` and `from_utf8_lossy` (C38), the regular expressions of include.rs and spcomp.rs (C35, C15),
  salsa inputs (C08), the file paths of the `url` crate (C69), crossbeam's FIFO channels (C12, C14, C39, C42, C56), FxHashMap/IndexMap (maps as lists, iteration order
  an input where it matters).  The lexer (sourcepawn_lexer) and the grammar (tree-sitter-sourcepawn) are outside this
  repository: token lists and syntax trees are inputs.

## What is modelled

| code | model files | properties |
|---|---|---|
| sourcepawn_lsp/src/lsp/semantic_tokens.rs 177-270, to_proto.rs 72-102 | SemTokensModel | C01 C02 |
| handlers/request.rs 63-133 and the cache clears | SemCacheModel | C03 |
| lsp/utils.rs, lsp/from_proto.rs, lsp/ext.rs | TextModel | C04 C05 C44 |
| line_index.rs 31-77 | LineEndModel | C06 |
| vfs/src/lib.rs, path_interner.rs | VfsModel | C07 |
| global_state.rs 234-362, vfs/file_set.rs, base-db input.rs, change.rs | SyncModel, IncludeModel | C08 C35 C36 |
| mem_docs.rs, handlers/notification.rs 20-122, main_loop.rs 451-461 | OpenDocsModel | C09 |
| dispatch.rs, global_state.rs 179-231, main_loop.rs (requests) | RequestsModel | C10 |
| main_loop.rs 54-274 (session, pull of the configuration) | SessionModel | C11 |
| op_queue.rs and main_loop.rs (cache priming) | OpQueueModel | C12 |
| diagnostics.rs, main_loop.rs 704-744 | DiagModel | C13 |
| flycheck/src/lib.rs, spcomp.rs, diagnostics/to_proto.rs | FlycheckModel, SpCompModel | C14 C15 |
| preprocessor/src/lib.rs (all directives), evaluator.rs, preprocessor_operator.rs, macros.rs, offset.rs, db.rs | PreTypes, PreLex, PreModel, EvalModel, MacroModel, PreDbModel, PosModel | C16-C27 C45 |
| base-db/src/graph.rs, include.rs | GraphModel, IncludeModel | C28 C35 |
| hir-def body/scope.rs, resolver.rs, infer.rs, body.rs | HirModel | C29 C30 C32 C55 |
| hir-def data.rs, hir/type_ref.rs, child_by_source.rs, ast_id_map.rs, body/lower.rs, src of members | MethodmapModel, TypeRefModel, MapSourceModel, EnumStructModel, AstIdModel, LowerModel | C31 C33 C40 C46 C47 C48 |
| hir-def item_tree.rs, item_tree/lower.rs | ItemTreeModel | C49 |
| hir semantics.rs, source_to_def.rs; hir-def child_by_source.rs, db.rs (DefMap) | FindDefModel | C50 C51 |
| vfs loader.rs, vfs-notify/src/lib.rs, reload.rs 50-66 | LoaderModel | C52 |
| ide-diagnostics, hir lib.rs 139-386, diagnostics.rs 144-178, syntax utils.rs 8-33 | ReportModel | C53 |
| ide-db/src/documentation.rs 24-89, 117-128 | DocModel | C54 |
| ide-db/src/documentation.rs 91-114 | DocMarkdown | C54 |
| stdx thread/pool.rs, thread/intent.rs 22-32, task_pool.rs | PoolModel | C56 |
| sourcepawn_lsp handlers/notification.rs 118-166, 222-267, reload.rs 38-115, ide/src/lib.rs 127-143 | SaveModel | C57 |
| ide/src/syntax_highlighting.rs 104-150, lsp/to_proto.rs 74-93, 104-123 | HighlightModel | C58 |
| sourcepawn_lsp main_loop.rs 54-89, 340-344, 399-757, dispatch.rs 216-255, handlers/notification.rs, global_state.rs 177-196, 234-362, reload.rs 16-122 | LoopModel | C59 |
| ide goto_definition.rs, hover.rs, markup.rs; sourcepawn_lsp to_proto.rs 17-52, request.rs 18-62; hir-def src.rs 23-32; tree-sitter's descendant_for_point_range | GotoModel | C60 |
| sourcepawn_lsp progress.rs, main_loop.rs 451-554, 567-646, reload.rs 78-115 | ProgressModel | C61 |
| hir source_analyzer.rs, semantics.rs 362-453, lib.rs 30-77 | OffsetModel | C62 |
| vfs/src/vfs_path.rs (Unix) | VfsPathModel | C64 |
| sourcepawn_lsp/src/capabilities.rs, main_loop.rs 92-232, lsp/semantic_tokens.rs 11-175, 268-270, config.rs 98-128, 192-201, 236-262 | HandshakeModel | C65 |
| hir-def body/lower.rs with hir source_analyzer.rs, from the tree to the definition | LowerModel, OffsetModel | C66 |
| base-db/src/graph.rs 228-389, handlers/request.rs 151-164 | GraphvizModel | C67 |
| hir-def/src/item_tree/pretty.rs | PrettyModel | C68 |
| sourcepawn_lsp/src/lsp/from_proto.rs, to_proto.rs, global_state.rs (addresses) | UrlModel | C69 |
| sourcepawn_lsp/src/handlers/request.rs (handle_project_main_path) | MainPathModel | C70 |
| sourcepawn_lsp/src/reload.rs (update_configuration), base-db/src/lib.rs (FileLoaderDelegate), vfs/src/file_set.rs (lookups) | LifeModel | C71 |
| hir/src/semantics.rs (find_name_def in functions), hir-def/src/body.rs (body_with_source_map), hir/src/lib.rs (Local::source) | CursorModel | C72 |
| ide-diagnostics/src/handlers (the words), lib.rs:188-219 | WordsModel | C73 |
| preprocessor/src/lib.rs:422-693 (problems) | PreModel | C74 |
| preprocessor/src/lib.rs (intrinsics status) | PreModel | C75 |
| hir/src/semantics.rs (methods and accessors), hir-def/src/data.rs (method and property maps), hir-def/src/src.rs | MethodModel | C72 |
| hir-def/src/child_by_source.rs (methods and accessors) | MethodTable | C50, C72 |
| hir-def/src/db.rs (ids of definitions), hir/src/lib.rs (DefResolution) | CursorNames | C72 |
| profile/src/tree.rs, profile/src/hprof.rs | ProfileModel | C76 |
| profile/src/memory_usage.rs, ide/src/status.rs, handlers/request.rs (status) | UsageModel | C77 |
| hir-def/src/dyn_map.rs, dyn_map/keys.rs, stdx/src/anymap.rs | DynMapModel | C78 |
| stdx/src/panic_context.rs, dispatch.rs (catch in the worker) | PanicContextModel | C79 |
| paths/src/lib.rs | PathsModel | C34 |
| config.rs (reading of settings) | ConfigModel | C37 |
| stdx process.rs, hashable_hash_map.rs | StreamModel, HashMapModel | C38 C41 |
| ide/src/prime_caches.rs | PrimeModel | C39 |
| reload.rs 16-72, main_loop.rs 276-302, vfs-notify 96-135 | StatusModel | C42 |
| syntax/src/utils.rs 35-64 | RangesModel | C43 |

## What is not modelled

* sourcepawn_lsp: the command line and logging, the wire format of LSP messages, the handlers that only convert
  results, the AMXXPawn client (TypeScript) and the extension itself.
* ide: rendering of hovers and syntax tree pages, status text; completion is not in this commit.
* preprocessor: error texts; the lexer; windows line ends inside the lexer.
* hir-def: pretty printing, the crates profile, stdx (the system calls behind QoS classes, panic contexts), anymap, test fixtures.
* salsa's incremental computation, durabilities, cancellation (except as an event in C10 and C12) and memory management.
* Windows paths; watching of files by `notify`; everything of the operating system beyond the events named above.

## Findings

Properties that fail in the model are stated as theorems with the suffix `_refuted`, each with its witness:

* C04_text_in_sync_refuted : C04 refuted: a ranged change before a whole-document change of the same notification is applied again to the new text.
* C05_past_line_end_refuted : C05 refuted for columns past the end of a line: LSP says they mean the end of the line; the conversion gives a place on the next line.
* C06_idempotent_refuted : The result of a normalisation may itself contain CR LF ("\r\r\n" becomes "\r\n"): a second normalisation changes it again.
* C08_outside_roots_crash_refuted : C08 refuted: opening a file outside the workspace and the include directories crashes the server when the change is processed (its source root was never set).
* C08_recreated_crash_refuted : C08 refuted: so does a file of the workspace that appears, disappears and appears again between two drains: the merge turns its creation into a modification.
* C08_removal_lost_refuted : C08 refuted: a file that is removed, re-created and removed again between two drains stays in the analysis with its old text.
* C11_no_settings_refuted : Finding: if the client answers the request with an error, or with something that is not a list, the server handles nothing: whatever the client sends afterwards, only a usable reply would help.
* C12_panicked_job_refuted : Finding: if indexing panics (rather than being cancelled), its job never reports the end and no later request starts indexing again, whatever happens.
* C13_code_refuted : Finding: a new set of native diagnostics that differs from the old one only in the diagnostic codes or tags is not shown: the editor keeps the old ones.
* C14_reader_panic_refuted : Finding: if the thread reading the compiler's output panics, the worker dies: the check never ends and later requests have no effect. (In debug builds a message for line 0 makes it panic, see C15.)
* C15_command_refuted : Finding: outside macos on aarch64 the compiler receives, before these arguments, the argument "-x86_64" and its own file name as the first file to compile.
* C15_line_zero_refuted : Finding: a message about line 0 makes debug builds panic, and gives the largest line number in others.
* C15_path_refuted : Finding: a file name with any other character gives a diagnostic for another file: here the message is about /home/c++/a.sp and the diagnostic about /a.sp.
* C16_refuted : C16 as stated is false: directives inside the arguments of a macro use. The #if has lost its condition when it is processed, and its #else is taken.
* C17_arguments_refuted : The arguments of a macro use on two lines become one line: all that follows is one line off.
* C17_comment_refuted : A comment over two lines in inactive code is left out with its line end.
* C17_open_chain_refuted : Inactive code at the end of the file: the last line is left out.
* C17_stringize_refuted : An argument over two lines used twice as a string: one line too many.
* C17_undef_refuted : #undef without a name: the end of the line is lost.
* C20_debug_overflow_refuted : C20 refuted for debug builds: any condition whose value overflows panics.
* C20_division_by_zero_refuted : C20 refuted: a division by zero panics in every build.
* C20_separator_hangs_refuted : C20 and C21 refuted: after a literal, a symbol such as `;` or `,` is handed back by the expansion for ever, in every build and with every macro table that does not define it.
* C20_unclosed_paren_refuted : C20 refuted: an opening parenthesis left open reaches [unreachable!()] in every build.
* C21_preprocessing_ends_refuted : C21 refuted: there is a three line file on which preprocessing never ends.
* C22_brackets_refuted : A comma inside square brackets separates arguments.
* C22_merged_refuted : In an argument the first token of the body takes the distance of the macro's name: tokens merge.
* C22_modulo_refuted : % as an operator before a number: the expansion fails and the whole file is left as it is.
* C22_no_parameters_refuted : A macro with an empty list of parameters leaves the parentheses of its call.
* C22_uncalled_refuted : A macro's name that is not called: tokens looked at in search of a parenthesis come back in another order, or not at all.
* C23_comment_refuted : A comment between two names goes away and so does the space it stands for.
* C23_depth_refuted : The fifth level is dropped without a message.
* C23_merged_refuted : The first token of a nested macro's body takes the distance of the macro's name, not of its use.
* C24_second_include_refuted : A second include of a file that has nothing to do with [X] brings back an older definition of [X]: the table of the file was recorded when it was first included and holds the macros of the includer of that time. The most recent #define says 2, the use is replaced by 1.
* C24_self_include_refuted : The file "sourcemod" includes itself, implicitly; its text is made with its final macros known from the start. Its guard is inactive in the text that is analysed, and [B] is replaced before its #define.
* C24_undef_in_include_refuted : Not true across files: an #undef in an included file does not reach the includer, whose table is only added to (db.rs:118-124, 163-170). After the include [X] should be unknown; it is replaced by 1.
* C26_comment_refuted : Inside a comment over several lines there is no line end to be read: line 1 is inactive and not reported.
* C26_overlap_refuted : The #endif of a nested chain (line 4) is recorded besides the end of its line: the two ranges reported overlap in that line.
* C27_argument_line_refuted : The lines left for #if and #endif are not counted for arguments: b, in line 3, is mapped to line 2.
* C27_empty_refuted : A macro that expands to nothing takes the space before its name with it: x, in column 6 of the editor and 4 of the text, is mapped to column 5, which is the semicolon.
* C27_indirect_refuted : Arguments taken by a macro that comes out of another one are not counted: x, in column 8 of the editor and 5 of the text, stays in column 8.
* C27_monotone_refuted : Within a use the mapping is not monotone: the parenthesis comes out before the name.
* C27_space_refuted : A space between the macro's name and the parenthesis is not counted: x, in column 9 of the editor and 5 of the text, is mapped to column 6.
* C28_choice_refuted : Which of several projects a file is given depends on the order in which a hash table iterates: 2.sp is included by 1.sp and includes 3.inc itself; the project of 3 starts at 1 or at 2.
* C29_early_use_refuted : A name used before the block declares it again is taken for the later variable.
* C29_late_use_refuted : The variable of a loop is still found behind the loop.
* C29_two_globals_refuted : Two variables of the same name are an empty list of functions.
* C29_two_loops_refuted : The variable of the second loop is taken for that of the first.
* C31_own_constructor_refuted : [methodmap Base { public Base(); } methodmap Derived < Base { public Derived(); }]: 'new Derived()' is taken to call [Base].
* C31_self_inheritance_refuted : A methodmap that names itself as its parent: a panic.
* C32_argument_refuted : unknown(f): the function that is an argument is taken for the called one.
* C32_method_refuted : t.m(1): the method is found, and its arguments are not counted.
* C32_named_refuted : t.m(.x = f()): the call in the named argument is not looked at.
* C33_refuted : C33 is false as stated: with any element type, the last indexing does nothing, and n indexings of an array with n dimensions give an array.
* C34_same_location_converse_refuted : The other direction does not hold: "/a/../b" normalises to "/b", which may exist without "/a".
* C35_comment_refuted : A quote elsewhere in the text of the directive, in a comment say, changes the path.
* C36_nearest_refuted : C36 refuted for the nearest enclosing directory (as documented for SourceRoot): when an outer include directory is configured after an inner one, the file belongs to the outer one.
* C37_reported_refuted : So a setting of the wrong type is not reported.
* C39_workers_refuted : Finding: with two workers or more this is false: projects are queued again on each iteration, and finishing the same project twice counts twice. The job then ends with the other project not indexed, and for good: workers stop when the job has ended.
* C40_empty_nodes_refuted : Without "solid" both halves fail. An empty node (what the parser inserts for something missing) standing right behind another node is not found again, and two of them at one place share an id.
* C40_macro_depth_refuted : The item tree asks for the id of every macro definition in the tree (crates/hir-def/src/item_tree/lower.rs:64-88), at whatever depth it stands. One that stands in a node that is not opened, such as an old style [struct], has no id, and the question crashes.
* C40_member_ids_refuted : The ids of members do move when a body before them changes: only the top level is stable.
* C42_first_turn_refuted : Finding: after the first turn this can be false. If that turn finds everything loaded, the client is told that the server is not ready although it is; no indexing is requested then, nor at any later turn before something else makes the server busy.
* C45_failed_preprocessing_refuted : When the preprocessing fails the text is the source itself, in which the parser finds the #define directives of inactive code as well: number 0 was recorded for [B], the item tree lists [A] under it. (The last #endif has no #if.)
* C45_nameless_define_refuted : A #define without a name, or with a comment before the name, takes a number in the preprocessor; the item tree passes over a node without a name. Number 1 was recorded for [A]; the item tree has only number 0.
* C45_second_include_refuted : Including a file twice makes the two passes over "main" differ: the first pass sees [X] as 2 and numbers [A], [B] 2 and 3; the text is made with [X] as 1, so that [A] is not in it and [B] is number 2. The file "use" was given number 3 for [B].
* C46_reference_refuted : With a method first, going to [p.x] leads to [y], and going to [p.y] crashes the request.
* C47_declaration_refuted : The plugin has four syntax items, the methodmap's members among them, and the include file eight: any question about a declaration inside the methodmap crashes.
* C48_crash_refuted : [a[0]()]: a call of something that is neither a name nor a member crashes.
* C48_for_refuted : [for (;;) f();]: the loop has a body, but the analysed function has none, so the wrong call is not reported.
* C48_hex_refuted : [f(0x10)]: the source means a call with one argument, which is what [f] takes; the argument is lost and the call is reported. So are [f(1_000)] and, without a report of its own, [f(_)].
* C48_operator_refuted : [!-x]: the operator recorded for [-x] is none, that for [!-x] is [-].
* C49_struct_variable_refuted : [public Plugin myinfo = {...};] is a variable of the file but has no entry in the item tree.
* C49_macro_crash_refuted : a [#define] inside an old style [struct] crashes the analysis of the whole file.
* C50_local_define_crash_refuted : asking about the name in a [#define] that stands inside a function crashes.
* C50_struct_name_crash_refuted : asking about the name of a structure such as [myinfo] crashes.
* C50_alias_parameter_crash_refuted : asking about the name of a parameter of an operator declaration crashes.
* C51_forward_refuted : the function around a name is found by its name, first come first served; with a [forward] before
  the function, names in its body are looked up in the [forward].
* C51_clash_crash_refuted : if something else of that name comes before the function, asking about any name in its body crashes.
* C51_statement_body_crash_refuted : so does asking about a name in a function whose body is a statement without braces.
* C51_file_scope_refuted : at file level the names of typedefs, typesets, functags and funcenums, and those of functions of
  other files, lead nowhere.
* C52_deleted_refuted : a file deleted in an include directory stays known: the watcher's report is dropped because the
  path is no longer there (vfs-notify lib.rs:152).
* C52_new_directory_refuted : the files of a directory that is moved into an include directory are not loaded.
* C52_dropped_directory_refuted : the files of an include directory stay known after it is taken out of the configuration.
* C52_walk_refuted : the walk and the documented rule differ when an exclude path is an include path or a file; no
  configuration the server sends has this.
* C53_macro_refuted : a report about code after a macro use on the same line is shown at the wrong columns; places of the
  preprocessed tree are sent as they are, though ide has [s_range_to_u_range] for hovers.
* C53_utf16_refuted : columns of the tree are bytes and are sent as they are, so after [é] they are wrong unless the editor
  counts bytes. Requests use the same conversion the other way round.
* C53_methods_refuted : problems in methods of methodmaps and enum structs are never reported.
* C54_trailing_refuted : a comment at the end of the line above ([int a; // about a]) is shown as documentation of the next
  declaration; only its row is looked at.
* C54_text_refuted : [// see sound/*/] loses its end, [/**/] is shown as a slash, and a comment on the line of the
  declaration hides the ones above it.
* C54_pragma_refuted : two pragmas between comment and declaration hide the comment, though one of any kind does not.
* C54_calls_refuted : a call with several arguments or with an array access in them is not marked as code ([add(a, b)]).
* C54_layout_refuted : lines written directly behind their stars are joined without a space; [me@home] is taken for a tag;
  a star at the end of a line disappears.
* C54_escape_refuted : a backslash before [<] in a comment is not escaped itself, so the tag after it is read as one.
* C55_hidden_type_refuted : after [S S;] the field in [S.x] is reported as missing: the type is looked up where the variable
  hides it.
* C55_index_refuted : [a[0]] of [S[] a] keeps the type [S[]], so its members are neither bound nor reported; [to_lower_dim]
  stops at one dimension.
* C55_named_refuted : the value of a named argument in a call of a methodmap's method is not looked at, as the callee is only
  set for functions by name and methods of enum structs. C55_exact_partial leaves out named arguments of all method calls.
* C56_lost_refuted : a panic in a task that is not wrapped into catch_unwind (indexing, fetching diagnostics; C53_total says
  when the latter panics) ends its thread. After as many panics as threads, waiting requests are never answered and the next
  task crashes the server at [send(job).unwrap()].
* C56_len_refuted : the pool counts a task that panicked as running for ever.
* C57_start_refuted : the checkers are made once at the start, when the loader has not read any file: nothing is compiled on
  save until a setting of the compiler changes (documents opened before the settings arrived aside).
* C57_new_project_refuted : a project that appears later has no checker, and saving one of its files compiles all the others.
* C57_no_compiler_refuted : taking the compiler out of the settings leaves the checkers that use it.
* C57_cancelled_refuted : a save is forgotten if a file changes before its task has looked up the projects: [Cancelled] is
  dropped.
* C57_replaced_refuted : a save overtaken by new settings restarts the old checkers, which are then dropped.
* C57_include_refuted : an include file that includes another counts as a project root and is compiled as a plugin.
* C58_condition_refuted, C58_code_refuted : a name that the expansion gives back (a macro with parameters, used without, in the
  text of another macro; `defined FOO` in a macro) is recorded again, with a place made up from the widths in the macro's text.
  If that is behind the next use on the line, encoding the tokens underflows and the request for the whole file fails.
* C58_twice_refuted : with other widths the use is not shown and the next one is shown twice.
* C58_argument_refuted : a macro in the arguments of a macro is not highlighted.
* C58_open_refuted : a use whose parenthesis is not closed at the end of the file is not highlighted; a name that is not
  replaced since its arguments are missing is.
* The tokens of a whole file are cut to the range of the root of the tree of the preprocessed text, whose positions are not
  those of the editor; `sort_offsets` (result.rs) would put the entries of a line in order, but nothing calls it.
* C59_parameters_refuted : a notification whose parameters cannot be read stops the server (a request is answered with an error).
* C59_answer_refuted : so does an answer to a request it did not send, or a second answer.
* C59_outside_refuted : so does opening a file that is neither under the workspace nor under an include directory.
* C59_column_refuted : so does a change whose column is after the end of the last line, which LSP takes for its end.
* C59_replaced_refuted : so does a change of a part, then of the whole text, then of a part again, in one notification: the first is
  applied to the new text.
* C59_flicker_refuted : so does a file that appears, disappears and appears again between two turns of the loop, as when a tool
  rewrites it; if it was there before, nothing happens.
* C60_lines_refuted : the end of a definition over several lines is moved by the macros used in its first line: the target sent
  for a function can end in the wrong column (`s_range_to_u_range` takes the entries of the first line for both ends).
* C60_inside_refuted : for a function whose name comes out of a macro the selection sent may lie before the target.
* C60_word_end_refuted : with the cursor right behind a name nothing is answered, unless the name is a macro's.
* C60_fence_refuted : a definition with a line of three backquotes in a comment ends its block early, so the rest of it is
  shown as text.
* C61_overlap_refuted : a checker that outlives a reload, because a request still holds the old map, shares its token with its
  successor: the client is told to begin what is begun.
* C61_reused_refuted : every check of a project asks the client to create the same token; the protocol lets it be used once.
* C61_status_refuted : with two projects checked at once the client is told that the compiler is done while it still runs.
* C61_left_shown_refuted : the progress stays for ever when an indexing job panics or the thread that reads the compiler's output.
* Progress is reported whether or not the client said it can show it (the TODO in `report_progress`).
* C62_brace_refuted : in `{int a;{int a;}a=1000000;}` the last `a` leads to the variable of the block that ends in front of it: the
  ends of nodes count as inside, and that block is shorter than the statement.
* C62_for_refuted : the names in the body of `for (;;) {int a; a;}` lead nowhere, as the body is not lowered.
* C63_unknown_refuted : in `f(.y = 1)` with no parameter `y` in `f`, the name is reported and also leads to a variable `y` of the file.
* C63_methodmap_refuted : named arguments of a methodmap's method lead nowhere and unknown ones are not reported.
* C64_join_virtual_refuted : paths in memory keep `..` behind a name, at the end or behind `./` in their text, an empty path adds a slash, and joining `a` to `/` gives `//a`.
* C64_prefix_refuted : the path in memory `/foobar` starts with `/foo`.
* C64_strip_refuted : a path in memory stripped of the root `""` (what leaving `/a` gives) is the whole absolute path.
* C65_progress_refuted : progress tokens are created (`window/workDoneProgress/create`) at clients that did not say they support them.
* C65_shutdown_refuted : a second `shutdown` is carried out and answered instead of being refused.
* C65_section_refuted : in the mode for AMX Mod X the settings first asked for are those of the section SourcePawnLanguageServer, later ones those of AMXXPawnLanguageServer.
* C65_links_refuted : definitions are answered with links to clients without linkSupport.
* C65_preference_refuted : the order of the hover formats, the client's preference, is not followed.
* C65_plain_refuted : a client that only shows plain text is given the Markdown text under the name of plain text.
* C65_folders_refuted : the folders of the workspace beyond the root are not loaded.
* C66_brace_refuted : the witness of C62_brace_refuted from its syntax tree on: `{int a;{int a;}a=1000000;}` is complete and in place, and the last `a` leads to the inner declaration.
* C67: a picture of the projects does not show all includes: a file that is included twice in a project has one arrow only, and which one depends on the iteration order of a hash set (`C67_arrows_refuted`). Files of the same name in different folders are drawn as one (`C67_names_refuted`). Names are not escaped (`C67_quote_refuted`).
* C68: the printed item tree of a typeset or funcenum closes a brace that was never opened (`C68_braces_refuted`); parameters without a type are not shown and no parameter is shown with its name, so different functions have the same text (`C68_params_refuted`); the closing brace of enums and properties is indented like the members (`C68_indent_refuted`).
* C69: the scheme of an address is not looked at, so an untitled document or an old version shown by a version control system is taken for the file on disk with the same path (`C69_scheme_refuted`).
* C70: the main file of an include can be another include, and changes with the iteration order of a hash table, though the server itself analyses the file as part of the plugin; the editor then refuses to compile it (`C70_main_refuted`).
* C71: adding an include directory whose files are already loaded (inside the workspace) has no effect until some file is created or deleted: the source roots are only recomputed then (`C71_added_refuted`).
* C71: files of an include directory that is taken out of the settings stay known, and after the next created or deleted file their source root number belongs to another directory; resolving a quoted include of such a file indexes a missing key and panics (`C71_removed_refuted`).
* C71: the same panic without changed settings, for a removed file that appears, goes and appears again between two drains: it counts as modified, so the sets of files are not recomputed (`C71_to_and_fro_refuted`).
* C66/C72: joining the two tree models showed that `WrittenSpec.tidy` asked for a keyword in front of every statement, which no declaration statement has; it now asks only for those with a keyword (`has_keyword`), so the C66 theorems cover more trees.
* C04_inside_character_refuted: a UTF-8 position inside a character of more than one byte (and, as the example beside it shows, a UTF-16 position between the halves of a surrogate pair) is turned into an offset that is no character boundary; `String::replace_range` panics there and takes the server down.
* C73_escaped_refuted: the list of expected tokens is printed with `{:?}`, so the whole list stands in double quotes and a token `\\` or `"` is shown with an extra backslash.
* `skip_line_start_col` (preprocessor/src/lib.rs) has no effect: the start column of every inactive range is set to 0 when the ranges are merged.
* C75: the text put in for `using __intrinsics__.Handle;` is 56 characters wider than the line and no offset is recorded, so positions behind it on the line are wrong; the words `using` and `__intrinsics__` are dropped anywhere, and after `using __intrinsics__` the name behind the next dot of any expression and the next semicolon are dropped too.
* C72 (`C72_destructor_refuted`): a methodmap with a constructor and a destructor keeps only one of them, because members are kept in a map by name and both have the name of the methodmap. A name in the constructor is then asked about in the body of the destructor: its parameters and local variables are not found, or others of the same name are.
* C76: a depth of n in the filter keeps n+1 levels of spans (`push` refuses only when more than `depth` frames are open), so `*@3` prints four levels (`C76_depth`, `C76_nontrivial` shows three levels for depth 2).
* C77: the room of the macros of the parameters is their average size, cut down to whole bytes, times the capacity of their table, so it can be less than what the macros take (`table_size`); the name of an unknown file is followed by one line end only, so no empty line separates it from the rest (`C77_answer`).
* C79: `on_sync` parses the context of the request and drops it (dispatch.rs:45), so a panic in a request handled on the main thread is reported without its request
