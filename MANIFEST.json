{
 "claims": [
  {
   "property": "C01",
   "status": "proved",
   "theorems": [
    "C01_delta_reconstructs",
    "C01_delta_in_bounds",
    "C01_delta_empty_iff"
   ],
   "note": "u32 overflow of 5*len not modelled"
  },
  {
   "property": "C02",
   "status": "proved",
   "theorems": [
    "C02_tokens_decode",
    "C02_tokens_fail_iff"
   ],
   "note": "also characterises exactly when the unsigned subtraction underflows"
  },
  {
   "property": "C03",
   "status": "proved",
   "theorems": [
    "C03_delta_base",
    "C03_id_unique",
    "C03_client_array_right",
    "C03_honest_client_up_to_date"
   ],
   "note": "interleaving model of handler threads, cache and counter"
  },
  {
   "property": "C04",
   "status": "partial",
   "theorems": [
    "C04_text_in_sync_partial",
    "C04_text_in_sync_refuted",
    "C04_reversed_ignored",
    "C04_inside_character_refuted"
   ],
   "note": "false as stated: a ranged change sent before a whole-document change of the same notification is applied again to the new text (refuted theorem); proved for all other notifications"
  },
  {
   "property": "C05",
   "status": "proved",
   "theorems": [
    "C05_offset_exact",
    "C05_one_position",
    "C05_monotone",
    "C05_past_line_end_refuted"
   ],
   "note": "positions LSP assigns to places convert to exactly that byte offset, are unique and monotone; columns past the end of a line are not clamped (refuted theorem)"
  },
  {
   "property": "C06",
   "status": "proved",
   "theorems": [
    "C06_normalize",
    "C06_one_result",
    "C06_lines_kept",
    "C06_idempotent_refuted"
   ],
   "note": "idempotence is refuted"
  },
  {
   "property": "C07",
   "status": "proved",
   "theorems": [
    "C07_reads_last_write",
    "C07_reports_changes",
    "C07_change_log",
    "C07_ids",
    "C07_exists"
   ],
   "note": ""
  },
  {
   "property": "C08",
   "status": "partial",
   "theorems": [
    "C08_text_partial",
    "C08_known_files",
    "C08_source_roots_partial",
    "C08_no_crash_partial",
    "C08_removal_lost_refuted",
    "C08_outside_roots_crash_refuted",
    "C08_recreated_crash_refuted",
    "C08_root_kinds"
   ],
   "note": "false as stated (three refuted theorems): a removal is lost when a file is removed, re-created and removed again in one batch; a file outside all roots, or one that appears, disappears and appears again in one batch, crashes the server. Proved for all other histories; known files proved without condition. Changed settings between drains: see C71"
  },
  {
   "property": "C09",
   "status": "proved",
   "theorems": [
    "C09_open_documents_win",
    "C09_loads_ignored"
   ],
   "note": "for editors whose change notifications satisfy the condition of C04"
  },
  {
   "property": "C10",
   "status": "proved",
   "theorems": [
    "C10_at_most_one",
    "C10_exactly_one",
    "C10_right_answers",
    "C10_all_answered"
   ],
   "note": "for clients that do not reuse the id of an unanswered request; at most one answer is unconditional. The server ignores cancellation requests"
  },
  {
   "property": "C11",
   "status": "proved",
   "theorems": [
    "C11_replayed_in_order",
    "C11_in_order_without_pull",
    "C11_no_settings_refuted"
   ],
   "note": "for clients that send a usable configuration; otherwise refuted: nothing is ever handled after an error reply to the configuration request"
  },
  {
   "property": "C12",
   "status": "proved",
   "theorems": [
    "C12_start",
    "C12_one_at_a_time",
    "C12_completion",
    "C12_indexing",
    "C12_not_lost",
    "C12_panicked_job_refuted"
   ],
   "note": "finding: an indexing job that panics is never restarted (refuted theorem)"
  },
  {
   "property": "C13",
   "status": "partial",
   "theorems": [
    "C13_shown_partial",
    "C13_reported_unique",
    "C13_code_refuted"
   ],
   "note": "false as stated: an update that differs only in code or tags is not shown (refuted theorem); proved: what the client shows agrees with the latest results up to code and tags, at every point where no update is pending"
  },
  {
   "property": "C14",
   "status": "partial",
   "theorems": [
    "C14_bracketed_partial",
    "C14_exit",
    "C14_reader_panic_refuted"
   ],
   "note": "false as stated if the thread reading the compiler's output panics: the check never ends (refuted theorem); proved for all schedules without that, and the end of the worker without condition"
  },
  {
   "property": "C15",
   "status": "partial",
   "theorems": [
    "C15_message_partial",
    "C15_only_messages",
    "C15_stream",
    "C15_path_refuted",
    "C15_line_zero_refuted",
    "C15_arguments_partial",
    "C15_command_refuted",
    "C15_shown"
   ],
   "note": "false as stated (three refuted theorems): a path with other characters than [:/\\\\A-Za-z-_0-9. ] is cut, line 0 underflows, and the compiler gets two wrong leading arguments on most platforms; proved for the messages and arguments otherwise"
  },
  {
   "property": "C16",
   "status": "partial",
   "theorems": [
    "C16_first_branch_partial",
    "C16_at_most_one",
    "C16_inactive_code_ignored",
    "C16_text_partial",
    "C16_refuted"
   ],
   "note": "proved for the symbols the main loop reads, and from source lines to output lines for files without macro uses; false as stated for directives inside the arguments of a macro use (refuted theorem)"
  },
  {
   "property": "C17",
   "status": "partial",
   "theorems": [
    "C17_lines_kept_partial",
    "C17_same_line_count_partial",
    "C17_arguments_refuted",
    "C17_comment_refuted",
    "C17_undef_refuted",
    "C17_open_chain_refuted",
    "C17_stringize_refuted"
   ],
   "note": "Proved: at every moment the next symbol is written on the line it had in the source, and at the end the line counts agree, for runs in which inactive code has no symbol over several lines, macro arguments stay on one line, #undef has its name on its line, #define has no comment over several lines and directives come from the file, and which end in active code or in a #define. The lexer's contract (lexed), fine macro bodies and a fine include callback are assumptions. Without these conditions the property is false: the _refuted theorems give one witness for each."
  },
  {
   "property": "C18",
   "status": "partial",
   "theorems": [
    "C18_unbalanced_rejected",
    "C18_balanced_accepted_partial",
    "C18_failures"
   ],
   "note": "rejection proved without condition; a balanced directive never fails, but its condition may crash or hang the evaluation (C20)"
  },
  {
   "property": "C19",
   "status": "proved",
   "theorems": [
    "C19_condition_value",
    "C19_release",
    "C19_builds_agree"
   ],
   "note": "all operators, both builds; conditions whose value overflows are excluded here and treated under C20"
  },
  {
   "property": "C20",
   "status": "partial",
   "theorems": [
    "C20_no_crash_partial",
    "C20_division_by_zero_refuted",
    "C20_unclosed_paren_refuted",
    "C20_debug_overflow_refuted",
    "C20_separator_hangs_refuted"
   ],
   "note": "false as stated: division by zero, an unclosed parenthesis and stray separators crash or hang every build (refuted theorems); proved for release builds on conditions without those, with object-like macros"
  },
  {
   "property": "C21",
   "status": "partial",
   "theorems": [
    "C21_expansion_ends_partial",
    "C21_preprocessing_ends_refuted"
   ],
   "note": "each expansion ends (proved for all inputs); the loop around it does not always end (refuted theorem)"
  },
  {
   "property": "C22",
   "status": "partial",
   "theorems": [
    "C22_arguments_substituted_partial",
    "C22_tables_fit",
    "C22_header_recorded",
    "C22_merged_refuted",
    "C22_brackets_refuted",
    "C22_modulo_refuted",
    "C22_no_parameters_refuted",
    "C22_uncalled_refuted"
   ],
   "note": "Proved: a #define header records each parameter's place and the body; a call writes, in order, exactly the tokens of the body with arguments (split at top-level commas, rest to the last) put in for %n and quoted for #%n, nested macros expanded (up to 3 more levels), for bodies that are regular (# only before %n; a % that is no parameter not followed by %, # or a number); spacing only up to any number of spaces. Refuted: merged tokens, commas in brackets, % before a number, empty parameter lists, uncalled names."
  },
  {
   "property": "C23",
   "status": "partial",
   "theorems": [
    "C23_object_expanded_partial",
    "C23_body_recorded",
    "C23_merged_refuted",
    "C23_comment_refuted",
    "C23_depth_refuted"
   ],
   "note": "Proved: #define NAME body records the body, and a use of NAME writes in order exactly the body's tokens with object-like macros in it expanded (at most 3 inside one another), spacing up to any number of spaces. Refuted: tokens may merge (missing space), a fifth level is dropped."
  },
  {
   "property": "C24",
   "status": "partial",
   "theorems": [
    "C24_latest_directive_wins",
    "C24_use_follows_latest",
    "C24_queries_only_add",
    "C24_first_include",
    "C24_passes_agree",
    "C24_undef_in_include_refuted",
    "C24_second_include_refuted",
    "C24_self_include_refuted"
   ],
   "note": "Within a file: for every sequence of symbols the latest active #define/#undef/include about a name decides what it stands for, and every use in active code follows it; both include callbacks only add to the table; the two passes over a file agree when no file is included twice under it. False across files in three ways, each with a witness: #undef in an included file is lost, a second include of a file restores older definitions of the includer, a file that includes itself (sourcemod.inc, implicitly) starts with its final macros."
  },
  {
   "property": "C25",
   "status": "proved",
   "theorems": [
    "C25_each_reachable_file_once",
    "C25_visits_are_the_reachable_files",
    "C25_terminates",
    "C25_file_of_project"
   ],
   "note": "For every include graph the files preprocessed by the macro-collecting query are exactly those reachable through active includes, each once; the nesting is bounded by the number of files, so it ends unless the preprocessing of one single file crashes or loops (C20, C21)."
  },
  {
   "property": "C26",
   "status": "partial",
   "theorems": [
    "C26_report_exact_partial",
    "C26_cover_exact",
    "C26_disjoint_ordered_maximal",
    "C26_report_covers",
    "C26_overlap_refuted",
    "C26_comment_refuted",
    "C26_ends"
   ],
   "note": "proved: for every run the ranges cover exactly the recorded lines (merging is exact for any recorded list); for runs that read line ends in increasing order and meet no #endif of a chain nested in inactive code the ranges cover exactly the lines whose end was read in inactive code and are whole-line, disjoint, ordered and maximal, and the u32 subtraction does not underflow. False as stated: nested #endif gives two overlapping ranges (C26_overlap_refuted), comments over several lines leave gaps (C26_comment_refuted)."
  },
  {
   "property": "C27",
   "status": "partial",
   "theorems": [
    "C27_forward",
    "C27_back_partial",
    "C27_round_trip_partial",
    "C27_monotone_partial",
    "C27_hover_shows_expansion",
    "C27_line_mapped_partial",
    "C27_argument_recorded",
    "C27_empty_refuted",
    "C27_space_refuted",
    "C27_indirect_refuted",
    "C27_argument_line_refuted",
    "C27_monotone_refuted"
   ],
   "note": "Proved for every line cut into corresponding pieces (code, macro uses): forward mapping, mapping back, round trip, monotonicity on code, and the hover slice; and that a line read by the preprocessor model is such a line, so each copied symbol is found at its mapped column and mapped back to its range, for lines of one-line ASCII symbols whose uses expand to something and take their arguments at once. Refuted for empty macros, a space before the parenthesis, arguments taken indirectly, argument lines after #if, and positions within a use."
  },
  {
   "property": "C28",
   "status": "proved",
   "theorems": [
    "C28_graph_covers",
    "C28_subgraphs",
    "C28_every_file_has_a_project",
    "C28_unknown_file_has_no_project",
    "C28_prefers_plugins",
    "C28_subgraph_ids",
    "C28_choice_refuted"
   ],
   "note": "graph.rs; hash sets iterate in any order; extension mix-ups excluded by hypothesis only for the preference of plugins. Roots are files that include something or are not included. Which project a shared file gets depends on hash order (C28_choice_refuted)."
  },
  {
   "property": "C29",
   "status": "partial",
   "theorems": [
    "C29_infer",
    "C29_definition",
    "C29_scoping_partial",
    "C29_two_loops_refuted",
    "C29_early_use_refuted",
    "C29_late_use_refuted",
    "C29_global",
    "C29_global_none",
    "C29_two_globals_refuted",
    "C29_global_meaning",
    "C29_this"
   ],
   "note": "C29_infer and C29_definition give the exact meaning the code assigns to every use: last declaration of the innermost block that declares the name anywhere, else a parameter, else the file. C29_scoping_partial: this is the language's answer when each block around the use has at most one declaration of the name and it is in scope at the use. False otherwise: variables of a second loop, uses before a declaration and uses behind a loop (three refuted theorems), and two globals of one name (C29_two_globals_refuted)."
  },
  {
   "property": "C30",
   "status": "proved",
   "theorems": [
    "C30_nesting",
    "C30_restored",
    "C30_resolution"
   ],
   "note": "Any nesting of entering and leaving scopes gives back the same scopes (C30_nesting); the inference of any statement leaves the resolver as it was (C30_restored, C30_resolution)."
  },
  {
   "property": "C31",
   "status": "partial",
   "theorems": [
    "C31_lookup",
    "C31_defined",
    "C31_constructor_partial",
    "C31_own_constructor_refuted",
    "C31_self_inheritance_refuted"
   ],
   "note": "Member lookup: proved in full (own member, else nearest ancestor's), for every hash iteration order; also when the computation is defined (chain of parents ends; a cycle panics). False: 'new M()' finds the own constructor; an ancestor's constructor always wins (C31_own_constructor_refuted, exact rule in C31_constructor_partial)."
  },
  {
   "property": "C32",
   "status": "partial",
   "theorems": [
    "C32_exact_partial",
    "C32_call",
    "C32_report",
    "C32_names",
    "C32_argument_refuted",
    "C32_method_refuted",
    "C32_named_refuted"
   ],
   "note": "C32_exact_partial: over whole bodies the reports are exactly the wrong calls of functions by name, with the function's name, provided calls that are not calls of a known function do not mention functions and named arguments stand only in calls of functions. C32_call: a call by name is checked exactly whatever its arguments. False in general: a function passed to an unknown function is taken for the callee, method calls are not checked, calls within some named arguments are skipped (refuted theorems)."
  },
  {
   "property": "C33",
   "status": "partial",
   "theorems": [
    "C33_remaining_dimensions_partial",
    "C33_refuted",
    "C33_scalar_unchanged",
    "C33_declared_type",
    "C33_shown"
   ],
   "note": "Missing, because the code does otherwise: indexing a one-dimensional array leaves its type unchanged (C33_refuted). Proved: n+1 dimensions become n for n>0, and what the type shows."
  },
  {
   "property": "C34",
   "status": "proved",
   "theorems": [
    "C34_normal_form",
    "C34_clean_unchanged",
    "C34_idempotent",
    "C34_same_location",
    "C34_same_location_converse_refuted",
    "C34_absolutize",
    "C34_parent",
    "C34_starts_with",
    "C34_components"
   ],
   "note": "std::path on Unix as list of bytes (Windows prefixes not modelled). Same location: whenever the written path leads somewhere, the normalised path leads there; the converse is false where a directory left by '..' does not exist (C34_same_location_converse_refuted)."
  },
  {
   "property": "C35",
   "status": "proved",
   "theorems": [
    "C35_extension",
    "C35_search_order",
    "C35_users_agree",
    "C35_written_path",
    "C35_comment_refuted",
    "C35_captured"
   ],
   "note": "For every file set whose recorded paths are clean absolute paths (no . .. or empty parts) and every list of roots, the preprocessor's include, the include list of a file and go to definition all pick the first candidate that exists (directory of the including file for quotes, then each root in order), with .inc appended exactly when neither .sp nor .inc ends the path. The captured path is the written one if the directive holds no further quote (C35_comment_refuted shows a comment with quotes changes it)."
  },
  {
   "property": "C36",
   "status": "partial",
   "theorems": [
    "C36_last_root_partial",
    "C36_nearest_partial",
    "C36_nearest_refuted"
   ],
   "note": "refuted for the nearest directory; proved: it is the last configured one containing the file, hence the nearest one when directories are configured before their subdirectories"
  },
  {
   "property": "C37",
   "status": "partial",
   "theorems": [
    "C37_settings",
    "C37_determined",
    "C37_no_errors",
    "C37_reported_refuted",
    "C37_derived"
   ],
   "note": "Proved: each setting takes its value if present with the right type, else its default, independently of the others; an empty document changes nothing; nothing panics. False: an ill-typed setting is never reported (C37_no_errors, C37_reported_refuted: find(Result::is_ok) discards the error before it is recorded)."
  },
  {
   "property": "C38",
   "status": "proved",
   "theorems": [
    "C38_chunks",
    "C38_lines",
    "C38_prompt"
   ],
   "note": "unix reader; I/O errors not modelled"
  },
  {
   "property": "C39",
   "status": "partial",
   "theorems": [
    "C39_progress",
    "C39_one_worker_partial",
    "C39_workers_refuted",
    "C39_reports"
   ],
   "note": "false as stated with two workers or more (refuted theorem); proved for one worker, and the progress bound for any number"
  },
  {
   "property": "C40",
   "status": "partial",
   "theorems": [
    "C40_found",
    "C40_registered",
    "C40_crash_iff",
    "C40_round_trip",
    "C40_distinct",
    "C40_top_level_stable",
    "C40_globals_stable",
    "C40_member_ids_refuted",
    "C40_empty_nodes_refuted",
    "C40_macro_depth_refuted"
   ],
   "note": "Round trip, distinctness and top-level stability are proved for all trees whose ranges nest, for items that are not empty and are the only node of their kind at their place; for empty nodes both fail (C40_empty_nodes_refuted). Asking for an id crashes exactly for nodes that are no item (C40_crash_iff), which macros below unopened nodes are (C40_macro_depth_refuted)."
  },
  {
   "property": "C41",
   "status": "proved",
   "theorems": [
    "C41_equal_maps_hash_equally",
    "C41_equal_sets_hash_equally",
    "C41_hash_defined",
    "C41_map_contents"
   ],
   "note": "hashable_hash_map.rs: maps and sets over any iteration order, any hasher, any key type satisfying the laws of Eq and Ord; the sort is any sorted rearrangement. FxHashMap itself is taken as a list of distinct keys in arbitrary order."
  },
  {
   "property": "C42",
   "status": "partial",
   "theorems": [
    "C42_ready_is_loaded",
    "C42_loaded_is_ready",
    "C42_only_changes",
    "C42_current_partial",
    "C42_first_turn_refuted",
    "C42_indexing_partial",
    "C42_settles"
   ],
   "note": "false as stated after the first turn of the main loop (refuted theorem); proved for all later turns, other parts without condition"
  },
  {
   "property": "C43",
   "status": "proved",
   "theorems": [
    "C43_intersection_exact",
    "C43_intersection_absent",
    "C43_intersection_absent_u32",
    "C43_intersection_symmetric"
   ],
   "note": "Ranges over line/column positions; emptiness is decided both over all naturals and over u32 positions."
  },
  {
   "property": "C44",
   "status": "proved",
   "theorems": [
    "C44_choice",
    "C44_announced"
   ],
   "note": ""
  },
  {
   "property": "C45",
   "status": "partial",
   "theorems": [
    "C45_number_is_position",
    "C45_jump_reaches_define",
    "C45_define_written",
    "C45_other_file_partial",
    "C45_failed_preprocessing_refuted",
    "C45_nameless_define_refuted",
    "C45_second_include_refuted"
   ],
   "note": "The number recorded for a use is the position of its #define among the active #define directives of its file, each of which is written to the text; so the item tree's number agrees provided the parser finds the written directives with their names (the parser is an input). For macros of other files the number is that of the first pass. False, with witnesses: failed preprocessing, a #define without a name, and a file included twice."
  },
  {
   "property": "C46",
   "status": "partial",
   "theorems": [
    "C46_member",
    "C46_no_member",
    "C46_reference_exact",
    "C46_reference_iff",
    "C46_reference_partial",
    "C46_reference_refuted",
    "C46_declaration",
    "C46_crash_iff"
   ],
   "note": "Member and type of a use: proved for all structs. Go-to-definition on a use: exact answer proved (C46_reference_exact); it is right exactly if no method stands before the field (C46_reference_iff), otherwise it leads to a later field or crashes (C46_reference_refuted). Own declarations: proved. Crashes exactly for fields without name or type (C46_crash_iff)."
  },
  {
   "property": "C47",
   "status": "partial",
   "theorems": [
    "C47_crash_iff",
    "C47_declaration_partial",
    "C47_same_file",
    "C47_declaration_refuted"
   ],
   "note": "Proved for all worlds in which no inherited member is numbered, in its own file, beyond the nodes of the inheriting file (in particular if all ancestors are in the same file); otherwise the question crashes (C47_crash_iff, C47_declaration_refuted)."
  },
  {
   "property": "C48",
   "status": "partial",
   "theorems": [
    "C48_body_partial",
    "C48_arguments",
    "C48_no_crash",
    "C48_sources",
    "C48_hex_refuted",
    "C48_for_refuted",
    "C48_operator_refuted",
    "C48_crash_refuted"
   ],
   "note": "False as stated: literals that are not decimal, _ and other arguments are dropped, so correct calls are reported (C48_hex_refuted); a for without condition or iteration is dropped with its body (C48_for_refuted); a call of something other than a name or a member crashes (C48_crash_refuted); the recorded operator of a unary expression is that of its operand (C48_operator_refuted, unused). Proved for all other bodies: the arena reads back as the source (C48_body_partial); the exact number of arguments for all calls (C48_arguments); no crash otherwise (C48_no_crash); sources of all expressions, without condition (C48_sources)."
  },
  {
   "property": "C49",
   "status": "partial",
   "theorems": [
    "C49_items",
    "C49_types",
    "C49_crash_iff",
    "C49_struct_variable_refuted",
    "C49_macro_crash_refuted"
   ],
   "note": "C49_items, C49_types and C49_crash_iff hold for every tree. Missing from the full claim because the code does not have it: structure variables such as myinfo have no entry (C49_struct_variable_refuted), and a macro definition in a place without ids crashes the whole file (C49_macro_crash_refuted)."
  },
  {
   "property": "C50",
   "status": "partial",
   "theorems": [
    "C50_def_map",
    "C50_own_name",
    "C50_local",
    "C50_method_name",
    "C50_method_local",
    "C50_local_define_crash_refuted",
    "C50_struct_name_crash_refuted",
    "C50_alias_parameter_crash_refuted",
    "C50_functions",
    "C50_only_functions"
   ],
   "note": "Proved for every declaration of a file that is not inside a function or other owner (C50_own_name), for methods of enum structs and methodmaps, getters and setters (C50_method_name; members of the same name are kept apart), for parameters and locals of functions, functags, typedefs and members of typesets and funcenums (C50_local) and of methods and accessors (C50_method_local), given that no two nodes of a kind have the same range, and for members that the fields of the enum struct can be read and the members a methodmap inherits can be looked up (C46, C47 say when). False as stated: a #define inside a function, the name of a structure such as myinfo and parameters of operator declarations crash the question (the three refuted theorems). Fields and properties: C46, C47."
  },
  {
   "property": "C51",
   "status": "partial",
   "theorems": [
    "C51_owner",
    "C51_file_scope",
    "C51_forward_refuted",
    "C51_clash_crash_refuted",
    "C51_statement_body_crash_refuted",
    "C51_file_scope_refuted"
   ],
   "note": "C51_owner: the scope is the right one whenever no earlier declaration of the file has the name of the function (or methodmap, enum struct, typedef) around the place and the body is a block. False as stated otherwise: C51_forward_refuted, C51_clash_crash_refuted, C51_statement_body_crash_refuted; at file level C51_file_scope and C51_file_scope_refuted. The lookup inside a body is a parameter (C29, C30)."
  },
  {
   "property": "C52",
   "status": "partial",
   "theorems": [
    "C52_contains",
    "C52_walk",
    "C52_once",
    "C52_configure",
    "C52_start",
    "C52_watching",
    "C52_editor",
    "C52_watcher",
    "C52_in_step",
    "C52_deleted_refuted",
    "C52_new_directory_refuted",
    "C52_dropped_directory_refuted",
    "C52_walk_refuted"
   ],
   "note": "The rule, the walk, the watched directories, both kinds of reports and the invariant over all sequences of reported changes are proved. False as stated for deletions and new directories reported by the watcher, and for directories taken out of the configuration: refuted with witnesses. Open documents are C09."
  },
  {
   "property": "C53",
   "status": "partial",
   "theorems": [
    "C53_total",
    "C53_shown",
    "C53_once",
    "C53_place",
    "C53_place_partial",
    "C53_macro_refuted",
    "C53_utf16_refuted",
    "C53_methods_refuted"
   ],
   "note": "Exactness and count of the reports outside methods, totality, and the exact condition under which the column is right are proved. False as stated for bodies of methods, after a macro use on the line, and after non-ASCII text unless the editor counts bytes: refuted. The words of the messages are kept as constructors."
  },
  {
   "property": "C54",
   "status": "partial",
   "theorems": [
    "C54_block",
    "C54_others",
    "C54_line_comment",
    "C54_block_comment",
    "C54_escape",
    "C54_trailing_refuted",
    "C54_text_refuted",
    "C54_pragma_refuted",
    "C54_escape_refuted",
    "C54_said",
    "C54_layout",
    "C54_paragraphs",
    "C54_layout_refuted",
    "C54_calls",
    "C54_calls_refuted"
   ],
   "note": "C54_block characterises exactly which comments are taken (the longest stack of comments with at most one pragma, a comment of several rows only as the first); C54_line_comment and C54_block_comment what they say; C54_escape the brackets. False as stated in the refuted cases: the comment at the end of the line above is taken, a line comment ending in */ and an empty block comment are cut wrongly, a second pragma hides the comments, a backslash before a bracket lets a tag through, lines without a space behind the star are run together. C54_said: to_markdown keeps all that is said, for every text; C54_layout: a comment laid out line by line behind stars is shown in paragraphs (up to the marks of calls and deprecations, C54_paragraphs without them). C54_calls: exactly the calls whose arguments are words, spaces and colons are marked, from left to right; C54_calls_refuted: a call with several arguments is not."
  },
  {
   "property": "C55",
   "status": "partial",
   "theorems": [
    "C55_exact_partial",
    "C55_once",
    "C55_one_meaning",
    "C55_hidden_type_refuted",
    "C55_index_refuted",
    "C55_named_refuted"
   ],
   "note": "Exact in both directions for bodies in which no local variable hides a needed type, no array of one dimension written before the name is indexed and named arguments stand only in calls of functions by name; each exception is refuted with a witness. Operators have the type of the right operand, the assumption written in the code. Distinct expression ids are assumed for once; C66_once proves them for every lowered body."
  },
  {
   "property": "C56",
   "status": "partial",
   "theorems": [
    "C56_order",
    "C56_answers",
    "C56_intent",
    "C56_debug",
    "C56_len",
    "C56_crash",
    "C56_guarded",
    "C56_rest",
    "C56_done",
    "C56_all",
    "C56_never_empty",
    "C56_lost_refuted",
    "C56_len_refuted"
   ],
   "note": "Order, exactly once, classes, answers, termination and completeness are proved for all schedules; the claims about panics hold for guarded tasks (catch_unwind) and are refuted for the others (indexing, diagnostics): each panic costs a thread, the counter is never taken back, and after as many panics as threads the waiting tasks are lost and the next one crashes the server."
  },
  {
   "property": "C57",
   "status": "partial",
   "theorems": [
    "C57_restarts",
    "C57_compiled",
    "C57_up_to_date",
    "C57_off",
    "C57_cancel",
    "C57_start_refuted",
    "C57_new_project_refuted",
    "C57_no_compiler_refuted",
    "C57_cancelled_refuted",
    "C57_replaced_refuted",
    "C57_include_refuted"
   ],
   "note": "Proved: over every history that changes neither files nor settings the checks run are exactly those asked for by the saves (C57_restarts); when the checkers are up to date a save compiles exactly the projects containing the file, once, with the current settings (C57_compiled); when they are up to date (C57_up_to_date); cancelling a progress (C57_cancel). False as stated, with witnesses: no checkers before the first change of settings (C57_start_refuted), projects that appear later, a compiler removed from the settings, a save overtaken by a change of files or settings, include files compiled as plugins."
  },
  {
   "property": "C58",
   "status": "partial",
   "theorems": [
    "C58_exact_partial",
    "C58_flat",
    "C58_recorded",
    "C58_sent_iff",
    "C58_condition_refuted",
    "C58_code_refuted",
    "C58_twice_refuted",
    "C58_argument_refuted",
    "C58_open_refuted"
   ],
   "note": "Proved for every run in which nothing a macro was replaced by is a macro in turn, in particular for all files whose macros have no parameters and mention no macro; at most the last use is missing, and only if the file ends inside a replacement. False otherwise: a name given back by the expansion is recorded in place of the use or out of order, which makes the request fail; names in arguments and unclosed calls at the end are not shown."
  },
  {
   "property": "C59",
   "status": "partial",
   "theorems": [
    "C59_exact_partial",
    "C59_polite_partial",
    "C59_refuted",
    "C59_parameters_refuted",
    "C59_answer_refuted",
    "C59_outside_refuted",
    "C59_column_refuted",
    "C59_replaced_refuted",
    "C59_flicker_refuted"
   ],
   "note": "The property is false as it stands. C59_exact_partial says exactly when the server crashes, returns or goes on, for every history: it crashes at the first turn that is fatal for the files, open documents, settings and unanswered requests of that moment, and the other theorems give one witness for each kind of fatal turn. C59_polite_partial gives conditions on the editor and on the files under which it never crashes. Missing: deserialising, URIs, channels and the other threads are inputs; the other threads are assumed to count their progress properly, to end a job once and to name existing files, and the analysis to name known files as project roots."
  },
  {
   "property": "C60",
   "status": "partial",
   "theorems": [
    "C60_code_partial",
    "C60_nothing",
    "C60_macro",
    "C60_macro_hover",
    "C60_argument_partial",
    "C60_agree",
    "C60_one_link",
    "C60_own_name_partial",
    "C60_lines_refuted",
    "C60_inside_refuted",
    "C60_word_end_refuted",
    "C60_point",
    "C60_line",
    "C60_trim",
    "C60_text",
    "C60_block",
    "C60_blocks",
    "C60_fence_refuted"
   ],
   "note": "Proved for ranges that are in one line of the preprocessed text, or whose first and last line use no macro, with ends that do not come out of a macro. False otherwise: see C60_lines_refuted (end of a definition over several lines whose first line uses a macro), C60_inside_refuted (name that comes out of a macro). C60_word_end_refuted: nothing is answered with the cursor right behind a name. The search for the definition is an input, except in C60_own_name_partial, where it is the model of C50; columns are bytes."
  },
  {
   "property": "C61",
   "status": "partial",
   "theorems": [
    "C61_no_crash",
    "C61_roots",
    "C61_indexing",
    "C61_check_partial",
    "C61_status_partial",
    "C61_tokens",
    "C61_apart",
    "C61_titles",
    "C61_overlap_refuted",
    "C61_reused_refuted",
    "C61_status_refuted",
    "C61_left_shown_refuted"
   ],
   "note": "Scanning and indexing in full. For checks it is assumed that two workers of one project (for the status: of any projects) do not run the compiler at the same time and that the thread reading its output does not panic; the refuted theorems show what happens otherwise. A token is created anew for every check although the protocol lets it be used once."
  },
  {
   "property": "C62",
   "status": "partial",
   "theorems": [
    "C62_scope",
    "C62_place",
    "C62_definition",
    "C62_outside",
    "C62_no_body",
    "C62_member_partial",
    "C62_brace_refuted",
    "C62_for_refuted"
   ],
   "note": "For a body laid out in its text (statements inside each other or apart, blocks with their braces), C62_scope, C62_place and C62_definition give the scope and the meaning at every place and every use; the one exception is a block that ends just at the name and declares it, which C62_brace_refuted shows to mislead. C62_outside and C62_no_body: the names of the file. C62_member_partial carries C55's conditions. C62_for_refuted: the body of a for loop without condition and iteration is not lowered, its variables lead nowhere. That the lowered tree is laid out so follows from the syntax tree: C66_laid."
  },
  {
   "property": "C63",
   "status": "partial",
   "theorems": [
    "C63_exact_partial",
    "C63_link_partial",
    "C63_unknown_refuted",
    "C63_methodmap_refuted"
   ],
   "note": "C63_exact_partial is exact in both directions for bodies whose named arguments stand in calls of functions by name or of methods of an enum struct, on targets whose type C55 is about; functions without a body are covered. C63_link_partial: the name leads to the parameter, the value is looked up like any name. False: an unknown name leads to a variable of the same name (C63_unknown_refuted), named arguments of a methodmap's method are neither bound nor checked (C63_methodmap_refuted)."
  },
  {
   "property": "C64",
   "status": "partial",
   "theorems": [
    "C64_made",
    "C64_join",
    "C64_join_absolute",
    "C64_join_virtual_partial",
    "C64_join_agree_partial",
    "C64_join_virtual_refuted",
    "C64_pop",
    "C64_parent",
    "C64_prefix",
    "C64_prefix_refuted",
    "C64_strip_partial",
    "C64_strip_refuted",
    "C64_strip_join_partial",
    "C64_name",
    "C64_name_total",
    "C64_equal"
   ],
   "note": "Paths on disk: everything, for all inputs. Paths in memory: join for paths that go up, then stay, then name places; strip_prefix unless the other path is the root; starts_with is characterised exactly. False as stated otherwise, each with a witness: .. behind a name, at the end or behind ./ is not understood, nor an empty path, and joins from the path / itself give another path (C64_join_virtual_refuted); /foobar starts with /foo (C64_prefix_refuted); stripping the root leaves the slash (C64_strip_refuted). Unix; names are valid UTF-8."
  },
  {
   "property": "C65",
   "status": "partial",
   "theorems": [
    "C65_served",
    "C65_announced",
    "C65_consent_partial",
    "C65_settings",
    "C65_format",
    "C65_legend",
    "C65_legend_names",
    "C65_tokens",
    "C65_macro",
    "C65_root",
    "C65_shutdown_refuted",
    "C65_section_refuted",
    "C65_progress_refuted",
    "C65_links_refuted",
    "C65_preference_refuted",
    "C65_plain_refuted",
    "C65_folders_refuted"
   ],
   "note": "All parts proved except one: progress tokens are created without asking whether the client supports them (C65_progress_refuted). Further findings: a second shutdown is carried out, the initial settings of the AMX Mod X mode are asked for under the wrong section, links are sent without linkSupport, the order of hover formats is ignored and plain-text hovers carry Markdown, workspace folders are not loaded."
  },
  {
   "property": "C66",
   "status": "partial",
   "theorems": [
    "C66_place",
    "C66_laid",
    "C66_once",
    "C66_somewhere",
    "C66_brace_refuted",
    "C66_body",
    "C66_member_partial",
    "C66_method_partial",
    "C66_new_partial"
   ],
   "note": "Proved from the syntax tree on: C66_place (the declaration a name leads to), C66_laid and C66_once (the analysed body stands in the text as the tree does, each node once; this gives the assumptions of C62 and the distinct ids assumed by C55 and C62_member), C66_somewhere (C66_place speaks about every place at which no block begins). A name directly behind the closing brace of a block that declares it is excluded: C66_brace_refuted. A for without condition or iteration is excluded: C62_for_refuted, C48_for_refuted. C66_body: the analysed body is the function as written. C66_member_partial, C66_method_partial, C66_new_partial: a member name leads to the member of the type of what is written in front of it; the missing part is a body with named arguments outside calls by name, a local variable hiding a type, or T[] a indexed (regular: refuted for these by C55_named_refuted, C55_hidden_type_refuted, C55_index_refuted), and two nodes with the same span and kind as the member name."
  },
  {
   "property": "C67",
   "status": "proved",
   "theorems": [
    "C67_read",
    "C67_projects",
    "C67_tree",
    "C67_error",
    "C67_arrows_refuted",
    "C67_names_refuted",
    "C67_quote_refuted"
   ],
   "note": "read back for names without quotation marks and line ends; refuted: not every include is an arrow and which ones are depends on the iteration order; files of the same name are drawn as one; a quotation mark in a name breaks the text"
  },
  {
   "property": "C68",
   "status": "proved",
   "theorems": [
    "C68_text",
    "C68_number",
    "C68_ids",
    "C68_braces_refuted",
    "C68_params_refuted",
    "C68_indent_refuted"
   ],
   "note": "exact text for all item trees of files; the numbers read back for names without slashes and line ends; refuted: typesets and funcenums close a brace never opened, parameters without type and all parameter names are left out, the closing brace of enums and properties is indented like the members"
  },
  {
   "property": "C69",
   "status": "proved",
   "theorems": [
    "C69_paths",
    "C69_finds",
    "C69_spellings",
    "C69_back",
    "C69_apart",
    "C69_text",
    "C69_scheme_refuted"
   ],
   "note": "On Unix. The url crate is not in the repository: its parser is an input, its from_file_path and to_file_path are modelled from their description (trusted). C69_text needs names without a backslash if the crate's version does not escape it. C69_scheme_refuted: the scheme of an address is not looked at."
  },
  {
   "property": "C70",
   "status": "proved",
   "theorems": [
    "C70_main",
    "C70_one",
    "C70_self",
    "C70_main_refuted"
   ],
   "note": "Cancelled queries are not modelled. C70_main_refuted: the statement stronger than the claim, that the main file is a plugin and the same every time, is false."
  },
  {
   "property": "C71",
   "status": "partial",
   "theorems": [
    "C71_text_partial",
    "C71_known",
    "C71_found_partial",
    "C71_no_crash_partial",
    "C71_added_refuted",
    "C71_removed_refuted",
    "C71_to_and_fro_refuted"
   ],
   "note": "Proved for all histories: texts (unless a file flickers), known files, and, once the settings are taken over and no file goes to and fro between two drains, that includes in files of the configured directories are found where the specification says, without a crash; no crash at any time while every drain finds all files in configured directories. False otherwise: an added directory whose files are loaded already is ignored until a file comes or goes (C71_added_refuted), files of a directory taken out of the settings crash the search (C71_removed_refuted), so does a file that goes to and fro (C71_to_and_fro_refuted)."
  },
  {
   "property": "C72",
   "status": "partial",
   "theorems": [
    "C72_local_partial",
    "C72_declaration_partial",
    "C72_method_declaration_partial",
    "C72_own_name_partial",
    "C72_file_partial",
    "C72_member_partial",
    "C72_method_partial",
    "C72_new_partial",
    "C72_destructor_refuted",
    "C72_global_partial",
    "C72_undeclared_partial",
    "C72_hidden",
    "C72_parameters"
   ],
   "note": "Functions of the file, methods of enum structs and methodmaps (constructors, destructors, static and native ones alike), getters and setters; names that are not in named arguments; the cursor on a name in its own declaration, of functions, methods, parameters and locals (C72_own_name_partial, C72_declaration_partial, C72_method_declaration_partial). Missing: uses in a function, method or property with the name of an earlier function, or of a later member of the same container, since the tree looks them up by name (false there: C72_destructor_refuted shows a name in a constructor asked about in the destructor); places right behind a block that declares the name (false there, C66_brace_refuted); for names declared in several files, members, methods and constructors only what they mean, not the range of the target (names that only this file declares: C72_global_partial, C72_undeclared_partial); functions in which a local variable hides a needed type."
  },
  {
   "property": "C73",
   "status": "partial",
   "theorems": [
    "C73_distinct",
    "C73_names",
    "C73_true",
    "C73_escaped_refuted",
    "C73_counts"
   ],
   "note": "Messages with words of their own; evaluation errors and the trees of unreadable errors are passed on as they are. Names among the expected tokens are shown in the debug form of a string (C73_escaped_refuted)."
  },
  {
   "property": "C74",
   "status": "proved",
   "theorems": [
    "C74_problems"
   ],
   "note": "The trace of directives read is that of the run; the evaluation of a condition and the include lookup are the model's own functions (C19, C25)."
  },
  {
   "property": "C75",
   "status": "partial",
   "theorems": [
    "C75_declared",
    "C75_untouched",
    "C75_position_refuted",
    "C75_words_refuted"
   ],
   "note": "Proved as stated but for positions, which are false: the inserted declaration is not recorded (C75_position_refuted). The words count wherever they are read, also outside that line (C75_words_refuted)."
  },
  {
   "property": "C76",
   "status": "proved",
   "theorems": [
    "C76_tree",
    "C76_run",
    "C76_off",
    "C76_depth",
    "C76_filter"
   ],
   "note": "The durations are inputs of which no inner ones add up to more than the outer one (a monotonic clock); heartbeats are off and the filter does not change within a run. The server itself does not yet open spans: this is the library as it stands."
  },
  {
   "property": "C77",
   "status": "proved",
   "theorems": [
    "C77_size",
    "C77_status",
    "C77_order",
    "C77_answer",
    "C77_number"
   ],
   "note": "The tables are given; that every text is there (an input of the database) is assumed where the text is stated, and a missing one makes the request panic (second part of C77_status). Sizes do not overflow."
  },
  {
   "property": "C78",
   "status": "proved",
   "theorems": [
    "C78_map",
    "C78_empty",
    "C78_unique"
   ],
   "note": "Puts rows into the model of DynMap over anymap; reading a box as another type is an explicit outcome that is shown never to happen. The answer is also shown to be that of find_row, which C50 uses for the tables. Hash maps are lists; KeyMap's transmute to a transparent wrapper is not modelled."
  },
  {
   "property": "C79",
   "status": "proved",
   "theorems": [
    "C79_report",
    "C79_always",
    "C79_unique",
    "C79_request"
   ],
   "note": "Threads are reduced to scopes, panics and catches; their calls are mixed in any order over one stack per thread. Guards that are leaked or outlive their block, and the default hook, are not modelled."
  }
 ]
}