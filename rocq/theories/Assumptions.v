(** * Assumptions: what every property theorem rests on. Generated by tools/assumptions.py; the build log shows the answers. *)
From Verif Require Import Props_Bad Props_Blocks Props_Calls Props_Context Props_Data Props_Display Props_Eval Props_Exchange Props_Extract Props_Fail Props_Files Props_Inject Props_Inside Props_Laws Props_Lexer Props_Messages Props_Nested Props_Offset Props_Own Props_Panic Props_Parser Props_Render Props_Report Props_Sem Props_Session Props_Source Props_Total Props_Unclosed Props_Unused Props_Values Props_Where.
Print Assumptions Props_Bad.C70_first_mistake.
Print Assumptions Props_Bad.C70_bad_tag.
Print Assumptions Props_Bad.C70_registry.
Print Assumptions Props_Bad.C71_lint.
Print Assumptions Props_Bad.C71_registry_lint.
Print Assumptions Props_Bad.C70_silent_mistakes.
Print Assumptions Props_Blocks.C28_if_unless.
Print Assumptions Props_Blocks.C29_else_chain.
Print Assumptions Props_Blocks.C29_selection_unique.
Print Assumptions Props_Blocks.C29_if_condition.
Print Assumptions Props_Blocks.C29_else_unless_refuted.
Print Assumptions Props_Blocks.C30_each_array.
Print Assumptions Props_Blocks.C31_each_object.
Print Assumptions Props_Blocks.C32_with.
Print Assumptions Props_Blocks.C30_iteration_variables.
Print Assumptions Props_Blocks.C31_iteration_variables.
Print Assumptions Props_Blocks.C31_key_order.
Print Assumptions Props_Blocks.C30_each_nothing.
Print Assumptions Props_Calls.C43_helper_call.
Print Assumptions Props_Calls.C43_variable.
Print Assumptions Props_Calls.C43_helper_missing.
Print Assumptions Props_Calls.C43_path.
Print Assumptions Props_Calls.C43_block_helper.
Print Assumptions Props_Calls.C43_block_missing.
Print Assumptions Props_Calls.C43_block_nothing.
Print Assumptions Props_Calls.C43_argument_error.
Print Assumptions Props_Calls.C41_strict_variable_partial.
Print Assumptions Props_Calls.C41_strict_statement_partial.
Print Assumptions Props_Calls.C41_strict_block_partial.
Print Assumptions Props_Calls.C41_silent_refuted.
Print Assumptions Props_Calls.C42_missing_is_silent.
Print Assumptions Props_Calls.C44_registered_partial.
Print Assumptions Props_Calls.C44_unregistered_partial.
Print Assumptions Props_Calls.C44_removed_refuted.
Print Assumptions Props_Calls.C45_partial_call.
Print Assumptions Props_Calls.C45_not_found.
Print Assumptions Props_Calls.C45_partial_block.
Print Assumptions Props_Calls.C45_restored_partial.
Print Assumptions Props_Calls.C45_name_in_partial.
Print Assumptions Props_Calls.C45_name_outside.
Print Assumptions Props_Calls.C45_current_context_refuted.
Print Assumptions Props_Calls.C45_partial_block_stays_refuted.
Print Assumptions Props_Calls.C45_name_restored_refuted.
Print Assumptions Props_Context.C59_arguments.
Print Assumptions Props_Context.C59_raw_never_panics.
Print Assumptions Props_Context.C59_raw_is_source_partial.
Print Assumptions Props_Context.C59_raw_printed_partial.
Print Assumptions Props_Context.C59_raw_bracket_refuted.
Print Assumptions Props_Context.C59_try_get.
Print Assumptions Props_Context.C59_try_param.
Print Assumptions Props_Context.C59_assert_block.
Print Assumptions Props_Data.C81_unreached_data.
Print Assumptions Props_Data.C81_once.
Print Assumptions Props_Data.C81_extra_field.
Print Assumptions Props_Display.C63_template.
Print Assumptions Props_Display.C63_nodes_are_pieces.
Print Assumptions Props_Display.C63_display.
Print Assumptions Props_Display.C63_layout.
Print Assumptions Props_Display.C63_block_free_display_partial.
Print Assumptions Props_Display.C63_block_display_refuted.
Print Assumptions Props_Eval.C72_evaluate.
Print Assumptions Props_Eval.C72_try_evaluate.
Print Assumptions Props_Eval.C72_any_text.
Print Assumptions Props_Eval.C72_not_a_path_refuted.
Print Assumptions Props_Exchange.C73_exchange.
Print Assumptions Props_Exchange.C73_in_template.
Print Assumptions Props_Exchange.C74_comments.
Print Assumptions Props_Exchange.C74_named_argument_order.
Print Assumptions Props_Exchange.C74_computed_statement.
Print Assumptions Props_Exchange.C74_triple_partial.
Print Assumptions Props_Exchange.C74_triple_unescaped.
Print Assumptions Props_Exchange.C74_unused_branches.
Print Assumptions Props_Exchange.C74_computed_partial.
Print Assumptions Props_Extract.C83_standard_unaware.
Print Assumptions Props_Extract.C83_extract.
Print Assumptions Props_Extract.C83_once.
Print Assumptions Props_Fail.C64_semantics.
Print Assumptions Props_Fail.C64_panics.
Print Assumptions Props_Fail.C64_once.
Print Assumptions Props_Fail.C64_render.
Print Assumptions Props_Fail.C64_render_to_write.
Print Assumptions Props_Fail.C64_exclusive.
Print Assumptions Props_Fail.C64_unique.
Print Assumptions Props_Fail.C64_in_place.
Print Assumptions Props_Fail.C64_strict_variable.
Print Assumptions Props_Fail.C64_unknown_partial.
Print Assumptions Props_Fail.C64_self_partial.
Print Assumptions Props_Fail.C64_arity.
Print Assumptions Props_Fail.C64_lookup_panics.
Print Assumptions Props_Files.C61_file_name.
Print Assumptions Props_Files.C61_renders_the_same.
Print Assumptions Props_Files.C60_add.
Print Assumptions Props_Files.C60_load.
Print Assumptions Props_Files.C60_like_insert.
Print Assumptions Props_Files.C60_read_dir.
Print Assumptions Props_Files.C60_read_dir_unreadable.
Print Assumptions Props_Files.C60_all_loaded.
Print Assumptions Props_Files.C62_helpers.
Print Assumptions Props_Files.C62_settings.
Print Assumptions Props_Files.C62_escape.
Print Assumptions Props_Inject.C78_woven.
Print Assumptions Props_Inject.C78_html.
Print Assumptions Props_Inject.C78_plain.
Print Assumptions Props_Inject.C78_standard.
Print Assumptions Props_Inside.C83_inside.
Print Assumptions Props_Inside.C83_inside_once.
Print Assumptions Props_Inside.C85_given_this.
Print Assumptions Props_Inside.C85_once.
Print Assumptions Props_Laws.C36_json_written.
Print Assumptions Props_Laws.C36_json_in_html.
Print Assumptions Props_Laws.C66_reformatting.
Print Assumptions Props_Laws.C66_canonical.
Print Assumptions Props_Laws.C67_concatenation.
Print Assumptions Props_Laws.C68_unused_template.
Print Assumptions Props_Laws.C68_insert.
Print Assumptions Props_Laws.C68_remove.
Print Assumptions Props_Laws.C69_strict_refuses.
Print Assumptions Props_Laws.C69_once.
Print Assumptions Props_Laws.C69_render.
Print Assumptions Props_Laws.C68_builtins_forward.
Print Assumptions Props_Lexer.C01_tokens_tile_source.
Print Assumptions Props_Lexer.C02_maximal_munch.
Print Assumptions Props_Lexer.C02_error_tokens.
Print Assumptions Props_Lexer.C03_mode_discipline.
Print Assumptions Props_Lexer.C03_unique_stream.
Print Assumptions Props_Lexer.C04_normalised_collect.
Print Assumptions Props_Messages.C57_equality.
Print Assumptions Props_Messages.C57_symmetric.
Print Assumptions Props_Messages.C57_transitive.
Print Assumptions Props_Messages.C57_equal_same_text.
Print Assumptions Props_Messages.C57_reflexive_refuted.
Print Assumptions Props_Messages.C58_wrapping_invisible.
Print Assumptions Props_Messages.C58_syntax_prefix.
Print Assumptions Props_Messages.C58_syntax_distinct.
Print Assumptions Props_Messages.C58_syntax_debug.
Print Assumptions Props_Messages.C58_quotes_names.
Print Assumptions Props_Messages.C58_distinct.
Print Assumptions Props_Messages.C58_once_message.
Print Assumptions Props_Nested.C84_once.
Print Assumptions Props_Nested.C84_once_fails.
Print Assumptions Props_Nested.C84_once_syntax.
Print Assumptions Props_Nested.C84_buffer.
Print Assumptions Props_Nested.C84_buffer_fails.
Print Assumptions Props_Nested.C84_template.
Print Assumptions Props_Nested.C84_template_fails.
Print Assumptions Props_Nested.C84_render.
Print Assumptions Props_Offset.C77_line_offset.
Print Assumptions Props_Offset.C77_byte_offset_partial.
Print Assumptions Props_Offset.C77_byte_offset_refuted.
Print Assumptions Props_Offset.C77_renders_the_same.
Print Assumptions Props_Own.C80_own_block.
Print Assumptions Props_Own.C80_wrap.
Print Assumptions Props_Own.C80_loop.
Print Assumptions Props_Own.C80_choose.
Print Assumptions Props_Own.C80_fails.
Print Assumptions Props_Own.C80_agrees.
Print Assumptions Props_Own.C80_stripped_refuted.
Print Assumptions Props_Panic.C53_render_panics.
Print Assumptions Props_Panic.C53_no_panic_partial.
Print Assumptions Props_Panic.C53_registry_render_partial.
Print Assumptions Props_Panic.C53_once_partial.
Print Assumptions Props_Panic.C53_registered_sources.
Print Assumptions Props_Panic.C53_builtins.
Print Assumptions Props_Panic.C53_builtin_registry.
Print Assumptions Props_Panic.C53_no_panic_refuted.
Print Assumptions Props_Parser.C05_compile_terminates.
Print Assumptions Props_Parser.C05_entry_points_terminate.
Print Assumptions Props_Parser.C07_spans_valid_partial.
Print Assumptions Props_Parser.C07_link_label_refuted.
Print Assumptions Props_Parser.C07_branch_close_refuted.
Print Assumptions Props_Parser.C08_block_tags_agree.
Print Assumptions Props_Parser.C08_raw_block_tags_agree.
Print Assumptions Props_Parser.C09_conditional_structure.
Print Assumptions Props_Parser.C09_raw_block_content.
Print Assumptions Props_Parser.C10_panic_reasons_partial.
Print Assumptions Props_Parser.C10_lint_panics_partial.
Print Assumptions Props_Parser.C10_no_panic_refuted.
Print Assumptions Props_Parser.C11_report_position.
Print Assumptions Props_Parser.C11_report_text_partial.
Print Assumptions Props_Parser.C11_leading_newline_refuted.
Print Assumptions Props_Parser.C12_lint_agrees_with_compile.
Print Assumptions Props_Parser.C12_lint_clean_iff_compiles.
Print Assumptions Props_Parser.C15_nodes_tile_source_partial.
Print Assumptions Props_Parser.C15_nothing_dropped_refuted.
Print Assumptions Props_Parser.C17_node_lines_partial.
Print Assumptions Props_Parser.C17_final_line_partial.
Print Assumptions Props_Parser.C17_link_newline_refuted.
Print Assumptions Props_Render.C38_scopes_restored_partial.
Print Assumptions Props_Render.C38_builtins_balanced.
Print Assumptions Props_Render.C38_caught_error_refuted.
Print Assumptions Props_Render.C39_rendering_terminates.
Print Assumptions Props_Render.C39_entry_points_terminate.
Print Assumptions Props_Render.C40_limits_never_exceeded.
Print Assumptions Props_Render.C40_active_partial_fails.
Print Assumptions Props_Render.C40_cyclic_partials_fail.
Print Assumptions Props_Render.C40_no_false_alarm_refuted.
Print Assumptions Props_Render.C47_append_only.
Print Assumptions Props_Render.C47_independent_of_output.
Print Assumptions Props_Render.C47_failed_render_prefix.
Print Assumptions Props_Render.C48_io_errors_stop.
Print Assumptions Props_Render.C48_builtins_pass_io.
Print Assumptions Props_Render.C48_short_writes_refuted.
Print Assumptions Props_Render.C49_registry_is_a_map.
Print Assumptions Props_Render.C49_render_looks_up.
Print Assumptions Props_Render.C49_render_to_write_agrees.
Print Assumptions Props_Render.C49_once_after_insert_partial.
Print Assumptions Props_Render.C49_once_is_insert_then_render_refuted.
Print Assumptions Props_Render.C50_hash_order_irrelevant.
Print Assumptions Props_Render.C50_builtins_order_blind.
Print Assumptions Props_Render.C52_buffer_isolated.
Print Assumptions Props_Render.C52_buffer_text.
Print Assumptions Props_Report.C10_reportable_partial.
Print Assumptions Props_Report.C10_reportable_lint_partial.
Print Assumptions Props_Report.C10_single_line_partial.
Print Assumptions Props_Report.C70_reported.
Print Assumptions Props_Report.C71_reported.
Print Assumptions Props_Report.C10_registry_partial.
Print Assumptions Props_Report.C10_conditions_needed.
Print Assumptions Props_Sem.C55_semantics.
Print Assumptions Props_Sem.C55_once.
Print Assumptions Props_Sem.C55_render.
Print Assumptions Props_Sem.C55_unique.
Print Assumptions Props_Sem.C06_plain_text_compiles.
Print Assumptions Props_Sem.C06_plain_text_renders.
Print Assumptions Props_Sem.C19_double_stash_escapes.
Print Assumptions Props_Sem.C19_triple_stash_verbatim.
Print Assumptions Props_Sem.C20_comments.
Print Assumptions Props_Sem.C20_no_effect.
Print Assumptions Props_Sem.C21_escaped_statement.
Print Assumptions Props_Sem.C21_verbatim.
Print Assumptions Props_Sem.C21_strip_nothing.
Print Assumptions Props_Sem.C22_raw_block.
Print Assumptions Props_Sem.C22_verbatim.
Print Assumptions Props_Sem.C23_verbatim.
Print Assumptions Props_Sem.C23_handler.
Print Assumptions Props_Sem.C23_handler_called_once.
Print Assumptions Props_Sem.C46_whitespace_partial.
Print Assumptions Props_Sem.C46_no_tilde.
Print Assumptions Props_Sem.C46_stripped_unique.
Print Assumptions Props_Sem.C46_refuted.
Print Assumptions Props_Sem.C56_shown_total.
Print Assumptions Props_Sem.C56_shown_unique.
Print Assumptions Props_Sem.C56_value_text.
Print Assumptions Props_Session.C75_session.
Print Assumptions Props_Session.C75_amounts.
Print Assumptions Props_Session.C75_statement.
Print Assumptions Props_Session.C75_simple.
Print Assumptions Props_Source.C54_layout.
Print Assumptions Props_Source.C54_parse_print.
Print Assumptions Props_Source.C54_printed_is_written.
Print Assumptions Props_Source.C13_string_literal_partial.
Print Assumptions Props_Source.C13_bracket_literal.
Print Assumptions Props_Source.C13_final_escape_refuted.
Print Assumptions Props_Source.C14_path.
Print Assumptions Props_Source.C14_target.
Print Assumptions Props_Source.C16_integers.
Print Assumptions Props_Source.C16_integers_accepted.
Print Assumptions Props_Total.C65_total.
Print Assumptions Props_Total.C65_once.
Print Assumptions Props_Total.C65_render.
Print Assumptions Props_Total.C65_standard_pure.
Print Assumptions Props_Total.C65_standard_block.
Print Assumptions Props_Total.C65_standard_tame.
Print Assumptions Props_Total.C65_standard.
Print Assumptions Props_Unclosed.C82_unclosed.
Print Assumptions Props_Unclosed.C82_raw_name.
Print Assumptions Props_Unclosed.C82_registry.
Print Assumptions Props_Unclosed.C82_empty_refuted.
Print Assumptions Props_Unused.C79_unused_helper.
Print Assumptions Props_Unused.C79_once.
Print Assumptions Props_Values.C18_escape_safe_and_lossless.
Print Assumptions Props_Values.C24_innermost_scope_wins.
Print Assumptions Props_Values.C25_parent_levels.
Print Assumptions Props_Values.C25_too_many_levels.
Print Assumptions Props_Values.C26_root_path.
Print Assumptions Props_Values.C26_this_path.
Print Assumptions Props_Values.C26_local_path.
Print Assumptions Props_Values.C27_truthiness.
Print Assumptions Props_Values.C27_falsy_values.
Print Assumptions Props_Values.C33_and.
Print Assumptions Props_Values.C33_or.
Print Assumptions Props_Values.C33_not.
Print Assumptions Props_Values.C34_trichotomy.
Print Assumptions Props_Values.C34_exact_order.
Print Assumptions Props_Values.C34_integers.
Print Assumptions Props_Values.C34_large_integers_refuted.
Print Assumptions Props_Values.C35_lookup_partial.
Print Assumptions Props_Values.C35_never_panics_refuted.
Print Assumptions Props_Values.C36_json_round_trip.
Print Assumptions Props_Values.C37_log_writes_nothing.
Print Assumptions Props_Values.C37_level_panics_refuted.
Print Assumptions Props_Values.C37_records.
Print Assumptions Props_Values.C37_lines_unique.
Print Assumptions Props_Values.C51_arity.
Print Assumptions Props_Values.C51_builtins_listed.
Print Assumptions Props_Values.C51_numeric_operands.
Print Assumptions Props_Values.C51_assert_one_kind_partial.
Print Assumptions Props_Values.C51_assert_all_kinds_partial.
Print Assumptions Props_Values.C51_assert_any_kind_refuted.
Print Assumptions Props_Where.C76_compile_partial.
Print Assumptions Props_Where.C76_lint_partial.
Print Assumptions Props_Where.C76_report_partial.
Print Assumptions Props_Where.C76_report_lint_partial.
Print Assumptions Props_Where.C76_registry_partial.
Print Assumptions Props_Where.C76_registry_lint_partial.
Print Assumptions Props_Where.C76_line_refuted.
Print Assumptions Props_Where.C76_first_newline_refuted.
