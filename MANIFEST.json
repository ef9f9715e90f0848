{
 "claims": [
  {
   "property": "C01",
   "status": "proved",
   "theorems": [
    "C01_tokens_tile_source"
   ],
   "note": ""
  },
  {
   "property": "C02",
   "status": "proved",
   "theorems": [
    "C02_maximal_munch",
    "C02_error_tokens"
   ],
   "note": ""
  },
  {
   "property": "C03",
   "status": "proved",
   "theorems": [
    "C03_mode_discipline",
    "C03_unique_stream"
   ],
   "note": ""
  },
  {
   "property": "C04",
   "status": "proved",
   "theorems": [
    "C04_normalised_collect"
   ],
   "note": ""
  },
  {
   "property": "C05",
   "status": "proved",
   "theorems": [
    "C05_compile_terminates",
    "C05_entry_points_terminate"
   ],
   "note": ""
  },
  {
   "property": "C07",
   "status": "partial",
   "theorems": [
    "C07_spans_valid_partial",
    "C07_link_label_refuted",
    "C07_branch_close_refuted"
   ],
   "note": "all spans except link label/title and the close span of else branches; those two are refuted by concrete templates (bugs in the code)"
  },
  {
   "property": "C08",
   "status": "proved",
   "theorems": [
    "C08_block_tags_agree",
    "C08_raw_block_tags_agree"
   ],
   "note": ""
  },
  {
   "property": "C09",
   "status": "proved",
   "theorems": [
    "C09_conditional_structure",
    "C09_raw_block_content"
   ],
   "note": ""
  },
  {
   "property": "C10",
   "status": "partial",
   "theorems": [
    "C10_panic_reasons_partial",
    "C10_lint_panics_partial",
    "C10_no_panic_refuted",
    "C10_reportable_partial",
    "C10_reportable_lint_partial",
    "C10_single_line_partial",
    "C10_registry_partial",
    "C10_conditions_needed"
   ],
   "note": "compilation does panic (nine witnesses). Proved: the only possible reasons, and that compile, lint and insert never panic on the sources of Spec_Report.reportable (ASCII; no newline or end of source right after an opening token; no newline in a link; an unclosed comment, escaped statement or raw block is not cut off by a newline; JSON numbers; at most 255 parent references)"
  },
  {
   "property": "C11",
   "status": "partial",
   "theorems": [
    "C11_report_position",
    "C11_report_text_partial",
    "C11_leading_newline_refuted"
   ],
   "note": "excludes positions on a newline or at end of input (the code panics there) and the line after a newline at byte 0"
  },
  {
   "property": "C12",
   "status": "proved",
   "theorems": [
    "C12_lint_agrees_with_compile",
    "C12_lint_clean_iff_compiles"
   ],
   "note": "when compilation fails lint may also panic while formatting a later error report"
  },
  {
   "property": "C15",
   "status": "partial",
   "theorems": [
    "C15_nodes_tile_source_partial",
    "C15_nothing_dropped_refuted"
   ],
   "note": "the parser silently stops at unclosed blocks, stray raw closers and unterminated tags"
  },
  {
   "property": "C17",
   "status": "partial",
   "theorems": [
    "C17_node_lines_partial",
    "C17_final_line_partial",
    "C17_link_newline_refuted"
   ],
   "note": "for sources without newlines in links or hidden in paths; text nodes that begin with newlines may start one line late"
  },
  {
   "property": "C18",
   "status": "proved",
   "theorems": [
    "C18_escape_safe_and_lossless"
   ],
   "note": ""
  },
  {
   "property": "C24",
   "status": "proved",
   "theorems": [
    "C24_innermost_scope_wins"
   ],
   "note": ""
  },
  {
   "property": "C25",
   "status": "proved",
   "theorems": [
    "C25_parent_levels",
    "C25_too_many_levels"
   ],
   "note": ""
  },
  {
   "property": "C26",
   "status": "proved",
   "theorems": [
    "C26_root_path",
    "C26_this_path",
    "C26_local_path"
   ],
   "note": ""
  },
  {
   "property": "C27",
   "status": "proved",
   "theorems": [
    "C27_truthiness",
    "C27_falsy_values"
   ],
   "note": ""
  },
  {
   "property": "C33",
   "status": "proved",
   "theorems": [
    "C33_and",
    "C33_or",
    "C33_not",
    "C51_arity"
   ],
   "note": ""
  },
  {
   "property": "C34",
   "status": "proved",
   "theorems": [
    "C34_trichotomy",
    "C34_exact_order",
    "C34_integers",
    "C34_large_integers_refuted"
   ],
   "note": "the last theorem shows that the 53 bit bound in the claim is needed"
  },
  {
   "property": "C35",
   "status": "partial",
   "theorems": [
    "C35_lookup_partial",
    "C35_never_panics_refuted"
   ],
   "note": "lookup with a non-string field panics in the code"
  },
  {
   "property": "C36",
   "status": "proved",
   "theorems": [
    "C36_json_round_trip",
    "C36_json_written",
    "C36_json_in_html"
   ],
   "note": "relative to the float printing/reading oracle (floats are read back by the same oracle that wrote them)"
  },
  {
   "property": "C37",
   "status": "proved",
   "theorems": [
    "C37_log_writes_nothing",
    "C37_records",
    "C37_lines_unique",
    "C37_level_panics_refuted"
   ],
   "note": "log never writes; with a string level (or none) it emits one record per line of its space-joined arguments at that level; a level parameter that is not a string makes it panic"
  },
  {
   "property": "C51",
   "status": "partial",
   "theorems": [
    "C51_arity",
    "C51_builtins_listed",
    "C51_numeric_operands",
    "C51_assert_one_kind_partial",
    "C51_assert_all_kinds_partial",
    "C51_assert_any_kind_refuted"
   ],
   "note": "context.assert with several kinds requires all of them at once (bug), so only the one-kind case holds"
  },
  {
   "property": "C38",
   "status": "partial",
   "theorems": [
    "C38_scopes_restored_partial",
    "C38_builtins_balanced",
    "C38_caught_error_refuted"
   ],
   "note": "for helpers that do not return normally after an inner render failed; a helper that catches such an error leaves the failed scopes behind (witness)"
  },
  {
   "property": "C39",
   "status": "proved",
   "theorems": [
    "C39_rendering_terminates",
    "C39_entry_points_terminate"
   ],
   "note": "helpers may register local helpers only under names from a finite list; helpers themselves are terminating programs by construction"
  },
  {
   "property": "C40",
   "status": "partial",
   "theorems": [
    "C40_limits_never_exceeded",
    "C40_active_partial_fails",
    "C40_cyclic_partials_fail",
    "C64_self_partial",
    "C40_no_false_alarm_refuted"
   ],
   "note": "the third part (no false alarms) is false: 33 nested ifs are rejected"
  },
  {
   "property": "C47",
   "status": "proved",
   "theorems": [
    "C47_append_only",
    "C47_independent_of_output",
    "C47_failed_render_prefix"
   ],
   "note": ""
  },
  {
   "property": "C48",
   "status": "partial",
   "theorems": [
    "C48_io_errors_stop",
    "C48_builtins_pass_io",
    "C48_short_writes_refuted"
   ],
   "note": "the writer is called with write, not write_all: short writes are silently lost"
  },
  {
   "property": "C49",
   "status": "partial",
   "theorems": [
    "C49_registry_is_a_map",
    "C49_render_looks_up",
    "C49_render_to_write_agrees",
    "C49_once_after_insert_partial",
    "C49_once_is_insert_then_render_refuted"
   ],
   "note": "once does not insert its template, so a template that includes its own name differs"
  },
  {
   "property": "C50",
   "status": "proved",
   "theorems": [
    "C50_hash_order_irrelevant",
    "C50_builtins_order_blind"
   ],
   "note": ""
  },
  {
   "property": "C52",
   "status": "proved",
   "theorems": [
    "C52_buffer_isolated",
    "C52_buffer_text"
   ],
   "note": ""
  },
  {
   "property": "C28",
   "status": "proved",
   "theorems": [
    "C28_if_unless"
   ],
   "note": "runs_body/runs_else (Spec_Blocks.v) say what the helper does with its block; calling the helper with its evaluated arguments is C43"
  },
  {
   "property": "C29",
   "status": "partial",
   "theorems": [
    "C29_else_chain",
    "C29_selection_unique",
    "C29_if_condition",
    "C29_else_unless_refuted"
   ],
   "note": "selection is the first holding condition, else the last plain branch, with the conditions before it evaluated in order and none after; REFUTED for {{else unless x}}: unless called without a block yields no value, so the branch is never selected"
  },
  {
   "property": "C30",
   "status": "proved",
   "theorems": [
    "C30_each_array",
    "C30_iteration_variables",
    "C30_each_nothing"
   ],
   "note": "for registries whose helpers pop the scopes they push (all built-ins: C38_builtins_balanced)"
  },
  {
   "property": "C31",
   "status": "proved",
   "theorems": [
    "C31_each_object",
    "C31_iteration_variables",
    "C31_key_order"
   ],
   "note": "as C30"
  },
  {
   "property": "C32",
   "status": "proved",
   "theorems": [
    "C32_with"
   ],
   "note": "as C30; null renders nothing"
  },
  {
   "property": "C41",
   "status": "partial",
   "theorems": [
    "C41_strict_variable_partial",
    "C41_strict_statement_partial",
    "C41_strict_block_partial",
    "C64_strict_variable",
    "C41_silent_refuted"
   ],
   "note": "holds for statements that are not explicit paths (this.x, ./x) and for blocks; REFUTED for explicit paths and for arguments of helpers"
  },
  {
   "property": "C42",
   "status": "proved",
   "theorems": [
    "C42_missing_is_silent"
   ],
   "note": ""
  },
  {
   "property": "C43",
   "status": "proved",
   "theorems": [
    "C43_helper_call",
    "C43_variable",
    "C43_helper_missing",
    "C43_path",
    "C43_block_helper",
    "C43_block_missing",
    "C43_block_nothing",
    "C43_argument_error"
   ],
   "note": ""
  },
  {
   "property": "C44",
   "status": "partial",
   "theorems": [
    "C44_registered_partial",
    "C44_unregistered_partial",
    "C44_removed_refuted"
   ],
   "note": "REFUTED: a local helper stays registered until the end of the render or an explicit unregister"
  },
  {
   "property": "C45",
   "status": "partial",
   "theorems": [
    "C45_partial_call",
    "C45_not_found",
    "C64_unknown_partial",
    "C45_partial_block",
    "C45_restored_partial",
    "C45_name_in_partial",
    "C45_name_outside",
    "C45_current_context_refuted",
    "C45_partial_block_stays_refuted",
    "C45_name_restored_refuted"
   ],
   "note": "the call is characterised completely; REFUTED: the current context as this, removal of @partial-block, the current name after rendering @partial-block"
  },
  {
   "property": "C13",
   "status": "partial",
   "theorems": [
    "C13_string_literal_partial",
    "C13_bracket_literal",
    "C13_final_escape_refuted"
   ],
   "note": "every literal body whose last element is not an escape, anywhere in any document of the grammar; REFUTED for an escaped quote right before the closing quote (it is dropped); text in brackets denotes exactly the text between them"
  },
  {
   "property": "C14",
   "status": "proved",
   "theorems": [
    "C14_path",
    "C14_target"
   ],
   "note": "names, bracket and quoted segments, . and / delimiters, this, ./, up to 255 ../, @locals; absolute paths as arguments"
  },
  {
   "property": "C16",
   "status": "proved",
   "theorems": [
    "C16_integers",
    "C16_integers_accepted"
   ],
   "note": ""
  },
  {
   "property": "C54",
   "status": "proved",
   "theorems": [
    "C54_layout",
    "C54_parse_print",
    "C54_printed_is_written"
   ],
   "note": "for any white space inside the tags; the only layouts left out: a blank between ~ and a statement (there ~ is ignored, DESIGN.md section 5)"
  },
  {
   "property": "C55",
   "status": "proved",
   "theorems": [
    "C55_semantics",
    "C55_once",
    "C55_render",
    "C55_unique"
   ],
   "note": "source-level big-step semantics (Spec_Sem) for all items of the grammar (incl. partial blocks and @partial-block, raw block helpers, block helpers, link, missing-variable and missing-block handlers, user helpers that return or write); helpers that both write and return, or call back, are outside it; ~ only where the code gets it right (regular)"
  },
  {
   "property": "C06",
   "status": "proved",
   "theorems": [
    "C06_plain_text_compiles",
    "C06_plain_text_renders"
   ],
   "note": ""
  },
  {
   "property": "C19",
   "status": "proved",
   "theorems": [
    "C19_double_stash_escapes",
    "C19_triple_stash_verbatim"
   ],
   "note": "empty text is not passed to the escape function (nothing is written)"
  },
  {
   "property": "C20",
   "status": "proved",
   "theorems": [
    "C20_comments",
    "C20_no_effect"
   ],
   "note": "between any two documents of the source semantics; C20_no_effect: any comment node in any renderer state"
  },
  {
   "property": "C21",
   "status": "proved",
   "theorems": [
    "C21_escaped_statement",
    "C21_verbatim",
    "C21_strip_nothing"
   ],
   "note": ""
  },
  {
   "property": "C22",
   "status": "proved",
   "theorems": [
    "C22_raw_block",
    "C22_verbatim"
   ],
   "note": "content of any tags that themselves lex and parse (a raw block is still parsed: finding 17), without {{{{; ~ of the raw tags strips the content"
  },
  {
   "property": "C23",
   "status": "proved",
   "theorems": [
    "C23_verbatim",
    "C23_handler",
    "C23_handler_called_once"
   ],
   "note": "one to three parts with the escapes \\n, \\| and \\], further pipes in the title, an empty href, and an empty label before a title; a part that is a line feed alone and an empty last part are excluded (the code reports or panics there: C07_link_label_refuted)"
  },
  {
   "property": "C46",
   "status": "partial",
   "theorems": [
    "C46_whitespace_partial",
    "C46_no_tilde",
    "C46_stripped_unique",
    "C46_refuted"
   ],
   "note": "text items next to tags, in regular documents; REFUTED elsewhere: C46_refuted lists one input per class of irregular ~, and values next to ~ are stripped too"
  },
  {
   "property": "C56",
   "status": "proved",
   "theorems": [
    "C56_shown_total",
    "C56_shown_unique",
    "C56_value_text"
   ],
   "note": "numbers in serde_json form (NegInt is negative); text of floats is the platform oracle"
  },
  {
   "property": "C53",
   "status": "partial",
   "theorems": [
    "C53_render_panics",
    "C53_no_panic_partial",
    "C53_registry_render_partial",
    "C53_once_partial",
    "C53_registered_sources",
    "C53_builtins",
    "C53_builtin_registry",
    "C53_no_panic_refuted"
   ],
   "note": "proved for templates compiled from ASCII text (without [[ if a link handler is set) or from any document of the source grammar, and for any compiled template whose closing tags are readable; REFUTED in general: six inputs that panic while rendering"
  },
  {
   "property": "C59",
   "status": "partial",
   "theorems": [
    "C59_arguments",
    "C59_raw_never_panics",
    "C59_raw_is_source_partial",
    "C59_raw_printed_partial",
    "C59_raw_bracket_refuted",
    "C59_try_get",
    "C59_try_param",
    "C59_assert_block"
   ],
   "note": "raw texts: for documents of the source grammar, except paths ending in a bracket, where the text is cut (C59_raw_bracket_refuted)"
  },
  {
   "property": "C60",
   "status": "proved",
   "theorems": [
    "C60_add",
    "C60_load",
    "C60_like_insert",
    "C60_read_dir",
    "C60_read_dir_unreadable",
    "C60_all_loaded"
   ],
   "note": "the file system is an arbitrary function from paths to contents or error kinds, a directory an arbitrary list of entries"
  },
  {
   "property": "C61",
   "status": "proved",
   "theorems": [
    "C61_file_name",
    "C61_renders_the_same"
   ],
   "note": ""
  },
  {
   "property": "C62",
   "status": "proved",
   "theorems": [
    "C62_helpers",
    "C62_settings",
    "C62_escape"
   ],
   "note": ""
  },
  {
   "property": "C57",
   "status": "partial",
   "theorems": [
    "C57_equality",
    "C57_symmetric",
    "C57_transitive",
    "C57_equal_same_text",
    "C57_reflexive_refuted"
   ],
   "note": "REFUTED: reflexivity - a render error other than a missing partial at the top never equals itself; the rest is proved"
  },
  {
   "property": "C58",
   "status": "proved",
   "theorems": [
    "C58_wrapping_invisible",
    "C58_syntax_prefix",
    "C58_syntax_distinct",
    "C58_syntax_debug",
    "C58_quotes_names",
    "C58_distinct",
    "C58_once_message"
   ],
   "note": "texts of I/O errors are an oracle; names with apostrophes can make two messages coincide (C58_apostrophe_needed)"
  },
  {
   "property": "C63",
   "status": "partial",
   "theorems": [
    "C63_template",
    "C63_nodes_are_pieces",
    "C63_display",
    "C63_layout",
    "C63_block_free_display_partial",
    "C63_block_display_refuted"
   ],
   "note": "REFUTED for blocks: they display only their bodies; the other nodes display their source"
  },
  {
   "property": "C64",
   "status": "proved",
   "theorems": [
    "C64_semantics",
    "C64_once",
    "C64_render",
    "C64_render_to_write",
    "C64_exclusive",
    "C64_unique",
    "C64_in_place",
    "C64_strict_variable",
    "C64_unknown_partial",
    "C64_self_partial",
    "C64_arity",
    "C64_panics",
    "C64_lookup_panics"
   ],
   "note": "for the documents of C54 (regular in the use of ~); with several failing hash arguments the error depends on the hash table order, no statement is made then"
  },
  {
   "property": "C65",
   "status": "proved",
   "theorems": [
    "C65_total",
    "C65_once",
    "C65_render",
    "C65_standard_pure",
    "C65_standard_block",
    "C65_standard_tame",
    "C65_standard"
   ],
   "note": "helpers that render templates themselves, other than if/unless/with/each, or that write and then fail, are outside (C75_simple: which helpers are covered); hash arguments with two sub-expressions are excluded since the order in which they fail is that of a hash table"
  },
  {
   "property": "C66",
   "status": "proved",
   "theorems": [
    "C66_reformatting",
    "C66_canonical"
   ],
   "note": "for the documents and registries of C65; white space = space, tab, newline inside tags"
  },
  {
   "property": "C67",
   "status": "proved",
   "theorems": [
    "C67_concatenation"
   ],
   "note": "for the documents and registries of C65"
  },
  {
   "property": "C68",
   "status": "proved",
   "theorems": [
    "C68_unused_template",
    "C68_insert",
    "C68_remove",
    "C68_builtins_forward"
   ],
   "note": "helpers that swallow a partial-not-found error or render text of their own with once are outside"
  },
  {
   "property": "C69",
   "status": "proved",
   "theorems": [
    "C69_strict_refuses",
    "C69_once",
    "C69_render"
   ],
   "note": "the registry in strict mode has no handler for missing helpers; helpers that swallow the strict errors are outside"
  },
  {
   "property": "C70",
   "status": "proved",
   "theorems": [
    "C70_first_mistake",
    "C70_bad_tag",
    "C70_registry",
    "C70_reported",
    "C70_silent_mistakes"
   ],
   "note": "up to a panic while the report is formatted (C10), which C70_reported excludes on reportable sources; C70_silent_mistakes lists mistakes outside the described kinds that the parser accepts without an error"
  },
  {
   "property": "C71",
   "status": "proved",
   "theorems": [
    "C71_lint",
    "C71_registry_lint",
    "C71_reported"
   ],
   "note": "up to a panic while a report is formatted (C10), which C71_reported excludes on reportable sources"
  },
  {
   "property": "C72",
   "status": "partial",
   "theorems": [
    "C72_evaluate",
    "C72_try_evaluate",
    "C72_any_text",
    "C72_not_a_path_refuted"
   ],
   "note": "the last sentence is false of the code: text before the first word and after the path is skipped (C72_not_a_path_refuted); with several types try_evaluate demands all of them, as in C51"
  },
  {
   "property": "C73",
   "status": "proved",
   "theorems": [
    "C73_exchange",
    "C73_in_template"
   ],
   "note": "meaning the same is defined by the semantics of C55/C64 in all scopes, calls in progress and partial block contents; for the documents and registries C65 covers; the registered templates may be exchanged as well"
  },
  {
   "property": "C74",
   "status": "proved",
   "theorems": [
    "C74_comments",
    "C74_named_argument_order",
    "C74_computed_statement",
    "C74_triple_partial",
    "C74_triple_unescaped",
    "C74_unused_branches",
    "C74_computed_partial"
   ],
   "note": "each pair means the same in the sense of C73, so it can be exchanged anywhere; the computed partial name at the top level of a template"
  },
  {
   "property": "C75",
   "status": "proved",
   "theorems": [
    "C75_session",
    "C75_amounts",
    "C75_statement",
    "C75_simple"
   ],
   "note": "rendering templates from a helper (rc.template, render, buffer, once, inverse) is in C39, C40, C43, C45, C52; evaluate of texts that are no paths in C72"
  },
  {
   "property": "C76",
   "status": "partial",
   "theorems": [
    "C76_compile_partial",
    "C76_lint_partial",
    "C76_report_partial",
    "C76_report_lint_partial",
    "C76_registry_partial",
    "C76_registry_lint_partial",
    "C76_line_refuted",
    "C76_first_newline_refuted"
   ],
   "note": "that the byte is inside the faulty tag has no condition. The line number is false of the code for a tag with a newline in it and (lint) for the mistakes after it (C76_line_refuted), and after a newline at the very start the shown line is wrong (C76_first_newline_refuted), so the text of the report is proved for ASCII sources that do not start with a newline, whose newlines the line counter counts (C17) and whose faulty tag is on one line; formatting may panic unless the source is one of C10_reportable_partial"
  },
  {
   "property": "C77",
   "status": "partial",
   "theorems": [
    "C77_line_offset",
    "C77_byte_offset_partial",
    "C77_byte_offset_refuted",
    "C77_renders_the_same"
   ],
   "note": "the line offset and the rendering are proved in full. The byte offset does not change the template nor the kind of error, but the text of a report depends on it and formatting may panic (C77_byte_offset_refuted), so that part of the claim is false of the code"
  },
  {
   "property": "C78",
   "status": "proved",
   "theorems": [
    "C78_woven",
    "C78_html",
    "C78_plain",
    "C78_standard"
   ],
   "note": "for the documents and registries C65 covers; a render in which a helper panics is excluded (nothing is returned)"
  },
  {
   "property": "C79",
   "status": "proved",
   "theorems": [
    "C79_unused_helper",
    "C79_once"
   ],
   "note": "for the documents and registries C65 covers; the new helper is arbitrary"
  },
  {
   "property": "C80",
   "status": "proved",
   "theorems": [
    "C80_own_block",
    "C80_wrap",
    "C80_loop",
    "C80_choose",
    "C80_fails",
    "C80_agrees",
    "C80_stripped_refuted"
   ],
   "note": "for the documents and registries C55/C64/C65 cover, which now include such helpers; texts the helper writes between renderings must not begin or end with white space (C80_stripped_refuted shows why)"
  },
  {
   "property": "C81",
   "status": "proved",
   "theorems": [
    "C81_unreached_data",
    "C81_once",
    "C81_extra_field"
   ],
   "note": "for the documents and registries C55/C64/C65 cover; the check on paths is syntactic: a name read anywhere counts as read from the data, even where a scope hides it"
  },
  {
   "property": "C82",
   "status": "proved",
   "theorems": [
    "C82_unclosed",
    "C82_raw_name",
    "C82_registry",
    "C82_empty_refuted"
   ],
   "note": "up to a panic while the report is formatted (C10), which C82_registry excludes on reportable sources; C82_empty_refuted: nothing after the opening marker, and tags or blocks that are never closed"
  },
  {
   "property": "C83",
   "status": "proved",
   "theorems": [
    "C83_standard_unaware",
    "C83_extract",
    "C83_once",
    "C83_inside",
    "C83_inside_once"
   ],
   "note": "for runs of items at the top level, or at any depth inside blocks (C83_inside), of the documents and registries C55/C64/C65 cover; no partial block before the part or in the partials; C83_conditions shows why this, local variables and parent paths must stay within the part"
  },
  {
   "property": "C84",
   "status": "proved",
   "theorems": [
    "C84_once",
    "C84_once_fails",
    "C84_once_syntax",
    "C84_buffer",
    "C84_buffer_fails",
    "C84_template",
    "C84_template_fails",
    "C84_render"
   ],
   "note": "for the documents and registries C55/C64 cover, from any state of the renderer; rc.template and rc.render where no local helper and no partial block is in force"
  },
  {
   "property": "C85",
   "status": "proved",
   "theorems": [
    "C85_given_this",
    "C85_once"
   ],
   "note": "for the documents and registries C55/C64/C65 cover; names that start with @ (the local variables, written in brackets) are excluded; C85_nonvacuous shows that @index is not handed over"
  }
 ]
}