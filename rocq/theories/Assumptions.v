(** Generated by tools/mkassumptions.py: the assumptions of every theorem of MANIFEST.json.
    Each line of the output reads "Closed under the global context". *)
From Verif Require T_AddFonts T_AddNode T_Alias T_AllTags T_AsICU T_AsICU2 T_AsSimple T_AutoNames T_BreakText T_CharClasses T_ClashComments T_CldrComments T_CollEscape T_Collation T_Collation2 T_Coverage T_CoverageData T_Difference T_Difflib T_Drafts T_Dtd T_Ensure T_ExemplarIO T_Exemplars T_Exemplars2 T_Exemplars3 T_Files T_FirstOp T_FixRun T_FixSldr T_FlatColl T_Flatten T_FlattenAll T_FlattenGroups T_FontRules T_Fonts T_HackAttribs T_Hunspell T_Iana T_IanaTags T_IcuPretty T_Import T_IterDict T_IterParse T_IterTree T_KbdTest T_KeyOmit T_KeyText T_Keyboard T_Keyboard2 T_Keyboard3 T_Keymans T_LangTags T_LangTags2 T_LangTags3 T_LdmlBase T_LdmlHash T_Likely T_Merge3 T_Merge4 T_MergeScript T_Minimise T_Multigraphs T_Multigraphs2 T_NormOrder T_Normalise T_NormalizeAll T_Overlay T_Parents T_PathText T_Paths T_Promote T_Publish T_Reader T_Reload T_Reorder T_Serialize T_Sheet T_SheetMain T_SheetProc T_Simple T_Simple2 T_Tailor T_Tailor2 T_Tailor3 T_Tailor4 T_Tailor5 T_Template T_TmplFun T_TreeBuilder T_UnicodeSets T_UsEscapes T_UsOperators T_WriteDrafts T_WriteDrafts2 T_Writer T_XPath T_ZoneTab.
Print Assumptions T_UnicodeSets.C01_exemplar_list_roundtrip.
Print Assumptions T_UnicodeSets.C01_exemplar_list_roundtrip_no_backslash.
Print Assumptions T_UnicodeSets.C01_space_refuted.
Print Assumptions T_UnicodeSets.C01_hex_text_refuted.
Print Assumptions T_UnicodeSets.C01_trailing_backslash_refuted.
Print Assumptions T_UnicodeSets.C01_bracket_after_backslash_refuted.
Print Assumptions T_UnicodeSets.C01_bracket_in_string_refuted.
Print Assumptions T_UnicodeSets.C01_empty_string_refuted.
Print Assumptions T_UnicodeSets.C02_range.
Print Assumptions T_UnicodeSets.C02_second_range_refuted.
Print Assumptions T_UnicodeSets.C02_second_operator_refuted.
Print Assumptions T_UnicodeSets.C03_parse_terminates.
Print Assumptions T_UnicodeSets.C03_item_progress.
Print Assumptions T_UnicodeSets.C04_flatten_enumerates.
Print Assumptions T_UnicodeSets.C04_first_missing_refuted.
Print Assumptions T_FlattenGroups.C04_backslash_refuted.
Print Assumptions T_Collation.C05_unescape_escape.
Print Assumptions T_Collation.C05_allchars_no_marks.
Print Assumptions T_Collation.C05_allchars_lower_case_digit_refuted.
Print Assumptions T_Collation.C05_allchars_third_mark_refuted.
Print Assumptions T_CollEscape.C05_allchars_escapes.
Print Assumptions T_Collation.C06_difference_level.
Print Assumptions T_Collation.C06_difference_sign.
Print Assumptions T_Collation.C06_less_than.
Print Assumptions T_Collation.C06_strict_weak_order.
Print Assumptions T_Collation.C06_sorting.
Print Assumptions T_Collation.C07_equality_operators.
Print Assumptions T_Collation.C07_equal_to_none.
Print Assumptions T_Collation.C07_cmpKey.
Print Assumptions T_Collation.C07_cmpKey_equivalence.
Print Assumptions T_Collation.C08_itemise.
Print Assumptions T_Collation.C08_items_known.
Print Assumptions T_Collation.C09_sort_key.
Print Assumptions T_Collation.C09_segmentation_unique.
Print Assumptions T_Collation.C09_prefix_key.
Print Assumptions T_Collation.C10_parse.
Print Assumptions T_Collation.C10_one_entry_per_relation.
Print Assumptions T_Collation.C10_assignment.
Print Assumptions T_Collation.C10_history.
Print Assumptions T_Collation.C10_operators.
Print Assumptions T_Collation2.C10_operator_level.
Print Assumptions T_Collation2.C10_element.
Print Assumptions T_Collation2.C10_escaped_element.
Print Assumptions T_Collation2.C10_reset.
Print Assumptions T_Collation2.C10_reset_before.
Print Assumptions T_Collation2.C10_relation_texts.
Print Assumptions T_UsOperators.C100_nested_refuted.
Print Assumptions T_UsOperators.C100_negated_refuted.
Print Assumptions T_UsOperators.C100_characters.
Print Assumptions T_UsOperators.C100_sets.
Print Assumptions T_UsOperators.C100_or_negated_refuted.
Print Assumptions T_UsOperators.C100_minus_refuted.
Print Assumptions T_Publish.C101_commands.
Print Assumptions T_Publish.C101_help.
Print Assumptions T_Publish.C101_clusters.
Print Assumptions T_Publish.C101_dry_run.
Print Assumptions T_Publish.C101_dry_run_refuted.
Print Assumptions T_Publish.C101_skip.
Print Assumptions T_Publish.C101_failures_refuted.
Print Assumptions T_Publish.C101_target_refuted.
Print Assumptions T_Publish.C101_empty_refuted.
Print Assumptions T_Publish.C101_environment_refuted.
Print Assumptions T_Writer.C102_add_namespace.
Print Assumptions T_Writer.C102_declared.
Print Assumptions T_Writer.C102_shared_prefix_refuted.
Print Assumptions T_Writer.C102_etwrite_refuted.
Print Assumptions T_Writer.C102_fails_refuted.
Print Assumptions T_Writer.C102_addnode.
Print Assumptions T_Writer.C102_silidentity.
Print Assumptions T_Writer.C102_silidentity_new.
Print Assumptions T_FixRun.C103_files.
Print Assumptions T_FixRun.C103_names.
Print Assumptions T_FixRun.C103_pool.
Print Assumptions T_FixRun.C103_single.
Print Assumptions T_FixRun.C103_same_name_refuted.
Print Assumptions T_FixRun.C103_silent_refuted.
Print Assumptions T_FixRun.C103_locale_refuted.
Print Assumptions T_FixRun.C103_outdir_refuted.
Print Assumptions T_SheetMain.C104_rows.
Print Assumptions T_SheetMain.C104_sheets.
Print Assumptions T_SheetMain.C104_spill_refuted.
Print Assumptions T_SheetMain.C104_filled.
Print Assumptions T_SheetMain.C104_files.
Print Assumptions T_SheetMain.C104_both.
Print Assumptions T_SheetMain.C104_fresh.
Print Assumptions T_SheetMain.C104_output.
Print Assumptions T_SheetMain.C104_made.
Print Assumptions T_SheetMain.C104_row_error.
Print Assumptions T_SheetMain.C104_empty_output_refuted.
Print Assumptions T_SheetMain.C104_missing_refuted.
Print Assumptions T_SheetMain.C104_no_sheet.
Print Assumptions T_Collation.C11_antisymmetric.
Print Assumptions T_Collation.C11_known_order.
Print Assumptions T_Collation.C11_empty_string_refuted.
Print Assumptions T_Collation.C12_line.
Print Assumptions T_Collation.C12_bmp_characters.
Print Assumptions T_Collation.C12_supplementary_refuted.
Print Assumptions T_LangTags.C13_separators.
Print Assumptions T_LangTags.C14_full_form_round_trip.
Print Assumptions T_LangTags.C14_sorted_exact.
Print Assumptions T_LangTags.C14_case_normalised.
Print Assumptions T_LangTags.C14_four_character_variant_refuted.
Print Assumptions T_LangTags.C14_region_variant_refuted.
Print Assumptions T_LangTags.C14_extlang_script_raises.
Print Assumptions T_LangTags3.C14_private_use.
Print Assumptions T_LangTags3.C14_late_script.
Print Assumptions T_LangTags.C15_len_counts_subtags.
Print Assumptions T_LangTags.C16_merge_true.
Print Assumptions T_LangTags.C16_merge_false.
Print Assumptions T_LangTags.C16_merge_iff.
Print Assumptions T_LangTags.C16_hidden_stays.
Print Assumptions T_LangTags.C16_hide_flags.
Print Assumptions T_LangTags.C16_failed_merge_changes_hidescript.
Print Assumptions T_LangTags2.C17_add_spec.
Print Assumptions T_LangTags2.C17_history_keeps_keys.
Print Assumptions T_LangTags2.C17_result_registered.
Print Assumptions T_Iana.C18_records.
Print Assumptions T_Iana.C18_subtag_without_type.
Print Assumptions T_Iana.C18_tag_record_leaks.
Print Assumptions T_Iana.C18_folded_repeat_refuted.
Print Assumptions T_LdmlBase.C19_attribute.
Print Assumptions T_LdmlBase.C19_element.
Print Assumptions T_LdmlBase.C19_no_markup.
Print Assumptions T_LdmlBase.C19_injective.
Print Assumptions T_LdmlBase.C20_declared.
Print Assumptions T_LdmlBase.C20_undeclared.
Print Assumptions T_LdmlBase.C20_no_prefix.
Print Assumptions T_LdmlBase.C20_undeclared_uri.
Print Assumptions T_LdmlBase.C20_plain_name.
Print Assumptions T_LdmlBase.C20_writer.
Print Assumptions T_LdmlBase.C20_writer_undeclared_refuted.
Print Assumptions T_Normalise.C21_reorders.
Print Assumptions T_Normalise.C21_stable.
Print Assumptions T_Normalise.C21_idempotent.
Print Assumptions T_Normalise.C21_canonical.
Print Assumptions T_Normalise.C21_text.
Print Assumptions T_NormOrder.C21_attribute_order.
Print Assumptions T_LdmlHash.C22_order.
Print Assumptions T_LdmlHash.C22_64_bits.
Print Assumptions T_LdmlHash.C22_key_only.
Print Assumptions T_LdmlHash.C22_key_noticed.
Print Assumptions T_LdmlHash.C22_line_noticed.
Print Assumptions T_LdmlHash.C22_child_noticed.
Print Assumptions T_LdmlHash.C22_text_attribute_collision.
Print Assumptions T_Drafts.C23_packing.
Print Assumptions T_Drafts.C23_one_per_key.
Print Assumptions T_Drafts.C23_nothing_lost.
Print Assumptions T_Drafts.C23_hashes.
Print Assumptions T_LdmlBase.C24_known.
Print Assumptions T_LdmlBase.C24_unknown.
Print Assumptions T_LdmlBase.C24_missing_known_default.
Print Assumptions T_LdmlBase.C24_missing.
Print Assumptions T_LdmlBase.C24_bounds.
Print Assumptions T_LdmlBase.C24_unknown_document_default_refuted.
Print Assumptions T_Promote.C25_primary_best.
Print Assumptions T_Promote.C25_nothing_lost.
Print Assumptions T_Promote.C25_nothing_lost_same_name.
Print Assumptions T_Promote.C25_nothing_lost_refuted.
Print Assumptions T_Promote.C25_loaded_well_filed.
Print Assumptions T_Paths.C26_found.
Print Assumptions T_Paths.C26_find.
Print Assumptions T_Paths.C26_never_changes.
Print Assumptions T_Paths.C26_total.
Print Assumptions T_Paths.C26_matchdraft.
Print Assumptions T_PathText.C26_read_back.
Print Assumptions T_PathText.C26_slash_refuted.
Print Assumptions T_Ensure.C27_found.
Print Assumptions T_Ensure.C27_found_text.
Print Assumptions T_Ensure.C27_created.
Print Assumptions T_Ensure.C27_still_found.
Print Assumptions T_Ensure.C27_text_draft_raises.
Print Assumptions T_Ensure.C27_nonkey_refuted.
Print Assumptions T_Ensure.C27_overwrites_refuted.
Print Assumptions T_Serialize.C28_round_trip.
Print Assumptions T_Serialize.C28_attribute_newline_refuted.
Print Assumptions T_Serialize.C28_cdata_end_refuted.
Print Assumptions T_Serialize.C28_mixed_text_refuted.
Print Assumptions T_Serialize.C28_undeclared_refuted.
Print Assumptions T_TreeBuilder.C29_builds.
Print Assumptions T_TreeBuilder.C29_only_documents.
Print Assumptions T_TreeBuilder.C29_missing_end.
Print Assumptions T_LdmlBase.C30_ldml.
Print Assumptions T_LdmlBase.C30_merge.
Print Assumptions T_LdmlBase.C30_orders_differ.
Print Assumptions T_LdmlBase.C30_empty.
Print Assumptions T_Overlay.C31_kept.
Print Assumptions T_Overlay.C31_inherited.
Print Assumptions T_Overlay.C31_added.
Print Assumptions T_Overlay.C31_union.
Print Assumptions T_Overlay.C31_no_fonts_raises.
Print Assumptions T_Overlay.C32_idempotent.
Print Assumptions T_Difference.C33_removed.
Print Assumptions T_Difference.C33_remaining.
Print Assumptions T_Difference.C33_covered.
Print Assumptions T_Difference.C33_untouched.
Print Assumptions T_Difference.C33_root.
Print Assumptions T_Difference.C33_self.
Print Assumptions T_Difference.C33_alternates_refuted.
Print Assumptions T_Difference.C34_round_trip.
Print Assumptions T_Difference.C34_blocked_refuted.
Print Assumptions T_Difference.C34_attributes_refuted.
Print Assumptions T_Flatten.C35_fallbacks.
Print Assumptions T_Flatten.C35_flatten.
Print Assumptions T_Flatten.C35_unflatten.
Print Assumptions T_Flatten.C35_copy.
Print Assumptions T_Flatten.C35_kept.
Print Assumptions T_Flatten.C35_again.
Print Assumptions T_Flatten.C35_not_transitive.
Print Assumptions T_Flatten.C35_changed.
Print Assumptions T_Flatten.C35_fallback_element.
Print Assumptions T_Flatten.C35_parents.
Print Assumptions T_Flatten.C35_stubs.
Print Assumptions T_Merge3.C36_merge.
Print Assumptions T_Merge3.C36_other_unchanged.
Print Assumptions T_Merge3.C36_this_unchanged.
Print Assumptions T_Merge3.C36_unchanged.
Print Assumptions T_Merge3.C37_lost.
Print Assumptions T_Merge3.C37_taken.
Print Assumptions T_Merge3.C37_no_default.
Print Assumptions T_Merge3.C37_no_other.
Print Assumptions T_Merge4.C37_both_new.
Print Assumptions T_Merge4.C37_own_change.
Print Assumptions T_Parents.C38_terminates.
Print Assumptions T_Parents.C38_path.
Print Assumptions T_Parents.C38_truncations.
Print Assumptions T_Parents.C38_parents.
Print Assumptions T_Parents.C38_all.
Print Assumptions T_Parents.C38_leading_hyphen_refuted.
Print Assumptions T_Parents.C38_unknown_raises.
Print Assumptions T_Parents.chain_spec.
Print Assumptions T_Parents.remove_private_spec.
Print Assumptions T_Exemplars.C39_segments.
Print Assumptions T_Exemplars.C39_faithful.
Print Assumptions T_Exemplars.C39_case.
Print Assumptions T_Exemplars.C39_scripts.
Print Assumptions T_Exemplars.C39_characters.
Print Assumptions T_Exemplars.C39_given_refuted.
Print Assumptions T_Exemplars.C39_given_mark_refuted.
Print Assumptions T_Exemplars.C39_capital_refuted.
Print Assumptions T_Exemplars.C39_nukta_refuted.
Print Assumptions T_Exemplars2.C40_terminates.
Print Assumptions T_Exemplars2.C40_settled.
Print Assumptions T_Exemplars2.C40_keeps.
Print Assumptions T_Exemplars2.C40_counts_refuted.
Print Assumptions T_Exemplars3.C41_ok.
Print Assumptions T_Exemplars3.C41_punctuation.
Print Assumptions T_Exemplars3.C41_digits.
Print Assumptions T_Exemplars3.C41_graphemes.
Print Assumptions T_Exemplars3.C41_frequency.
Print Assumptions T_Exemplars3.C41_sound.
Print Assumptions T_Exemplars3.C41_complete.
Print Assumptions T_Exemplars3.C41_disjoint.
Print Assumptions T_Exemplars3.C41_index.
Print Assumptions T_Exemplars3.C41_text.
Print Assumptions T_Exemplars3.C41_casing.
Print Assumptions T_Exemplars3.C41_again_refuted.
Print Assumptions T_Exemplars3.C41_ignorable_refuted.
Print Assumptions T_Keyboard.C42_key.
Print Assumptions T_Keyboard.C42_text.
Print Assumptions T_Keyboard.C42_concatenation.
Print Assumptions T_Keyboard.C42_omit.
Print Assumptions T_KeyText.C42_written.
Print Assumptions T_Keyboard2.C43_match.
Print Assumptions T_Keyboard2.C43_partial.
Print Assumptions T_Keyboard2.C43_total.
Print Assumptions T_Keyboard2.C43_before_never.
Print Assumptions T_Keyboard2.C44_rewrites.
Print Assumptions T_Keyboard2.C44_determined.
Print Assumptions T_Keyboard2.C44_terminates.
Print Assumptions T_Keyboard2.C44_total.
Print Assumptions T_KeyOmit.C44_settings.
Print Assumptions T_KeyOmit.C44_omit_refuted.
Print Assumptions T_Keyboard3.C44_shown.
Print Assumptions T_Keyboard3.C44_history.
Print Assumptions T_Sheet.C45_divides.
Print Assumptions T_Sheet.C45_write.
Print Assumptions T_Sheet.C45_sequence.
Print Assumptions T_Sheet.C45_repeated_refuted.
Print Assumptions T_Sheet.C45_beyond.
Print Assumptions T_IterDict.C46_once.
Print Assumptions T_IterDict.C46_lists.
Print Assumptions T_IterDict.C46_not_product.
Print Assumptions T_FlatColl.C47_statement.
Print Assumptions T_FlatColl.C47_sound.
Print Assumptions T_FlatColl.C47_complete.
Print Assumptions T_FlatColl.C47_unique.
Print Assumptions T_FlatColl.C47_no_import.
Print Assumptions T_FlatColl.C47_founded.
Print Assumptions T_FlatColl.C47_terminates.
Print Assumptions T_FlatColl.C47_diverges.
Print Assumptions T_FlatColl.C47_cycle.
Print Assumptions T_LangTags2.C48_forms.
Print Assumptions T_LangTags2.C48_full_form.
Print Assumptions T_LangTags2.C48_str_form.
Print Assumptions T_LangTags2.C48_forms_match.
Print Assumptions T_LangTags2.C48_str_form_refuted.
Print Assumptions T_LangTags2.C48_variant_order_refuted.
Print Assumptions T_LangTags3.C48_matches.
Print Assumptions T_LangTags2.C49_analyse_terminates.
Print Assumptions T_LangTags2.C49_analyse_fuel.
Print Assumptions T_LangTags2.C49_analyse_result.
Print Assumptions T_LangTags2.C49_from_parent.
Print Assumptions T_LangTags2.C49_phonetic.
Print Assumptions T_Reader.C50_reading_keeps.
Print Assumptions T_Reader.C50_all_inherited.
Print Assumptions T_Reader.C50_kept_unique.
Print Assumptions T_Reader.C50_uparrows.
Print Assumptions T_Reader.C50_text_after_comment_refuted.
Print Assumptions T_Serialize.C51_history_independent.
Print Assumptions T_Serialize.C51_topns_off_refuted.
Print Assumptions T_AddNode.C52_addnode.
Print Assumptions T_Fonts.C53_fonts.
Print Assumptions T_Fonts.C53_default_dropped.
Print Assumptions T_Keyboard.C54_append.
Print Assumptions T_Keyboard.C54_load.
Print Assumptions T_Keyboard.C54_optional.
Print Assumptions T_Keyboard.C54_backspace.
Print Assumptions T_Keyboard2.C55_typing.
Print Assumptions T_Keyboard2.C55_pasting.
Print Assumptions T_Keyboard2.C55_shown_refuted.
Print Assumptions T_Keyboard2.C56_permutes.
Print Assumptions T_Keyboard2.C56_terminates.
Print Assumptions T_Reorder.C56_sorted.
Print Assumptions T_Reorder.C56_adjacent_bases_refuted.
Print Assumptions T_Reorder.C56_codes.
Print Assumptions T_Reorder.C56_leading.
Print Assumptions T_Sheet.C57_read.
Print Assumptions T_Sheet.C57_read_tail.
Print Assumptions T_Sheet.C57_roundtrip.
Print Assumptions T_Sheet.C57_shows.
Print Assumptions T_Sheet.C57_refuted.
Print Assumptions T_Tailor.C58_key.
Print Assumptions T_Tailor.C58_relation.
Print Assumptions T_Tailor.C58_succeeds.
Print Assumptions T_Tailor4.C58_sortKey.
Print Assumptions T_Tailor4.C58_untouched.
Print Assumptions T_Tailor4.C58_element.
Print Assumptions T_Tailor4.C58_two_resets_refuted.
Print Assumptions T_Tailor4.C58_self_reset_refuted.
Print Assumptions T_Tailor4.C58_empty_base_refuted.
Print Assumptions T_Tailor4.C58_forward_expansion_refuted.
Print Assumptions T_Tailor4.C58_expansion_place_refuted.
Print Assumptions T_Tailor4.C58_unset_key_refuted.
Print Assumptions T_Tailor5.C58_expansion.
Print Assumptions T_Tailor3.C59_bounds.
Print Assumptions T_Tailor3.C59_between.
Print Assumptions T_Tailor2.C60_ends.
Print Assumptions T_Tailor2.C60_force_refuted.
Print Assumptions T_AsICU.C61_round_trip.
Print Assumptions T_AsICU.C61_asICU.
Print Assumptions T_AsICU.C61_same_keys.
Print Assumptions T_AsICU2.C61_before_by_key_refuted.
Print Assumptions T_AsICU2.C61_lower_levels_refuted.
Print Assumptions T_AsICU2.C61_twice_refuted.
Print Assumptions T_AsICU2.C61_special_refuted.
Print Assumptions T_AsICU2.C61_five_refuted.
Print Assumptions T_Simple.C62_chain.
Print Assumptions T_Simple.C62_order.
Print Assumptions T_Simple.C62_convert.
Print Assumptions T_Simple2.C62_reads.
Print Assumptions T_Simple2.C62_case_forms.
Print Assumptions T_Simple2.C62_group.
Print Assumptions T_Simple2.C62_any.
Print Assumptions T_Simple2.C62_insert.
Print Assumptions T_Simple2.C62_repeated_start_refuted.
Print Assumptions T_Simple2.C62_strict_refuted.
Print Assumptions T_FirstOp.C62_difflib.
Print Assumptions T_FirstOp.C62_convert_difflib.
Print Assumptions T_FirstOp.C62_difflib_none.
Print Assumptions T_WriteDrafts.C63_written.
Print Assumptions T_WriteDrafts.C63_unchanged.
Print Assumptions T_WriteDrafts.C63_again.
Print Assumptions T_WriteDrafts2.C63_saves.
Print Assumptions T_WriteDrafts2.C63_fresh_clean.
Print Assumptions T_WriteDrafts2.C63_loaded.
Print Assumptions T_WriteDrafts2.C63_promoted_lost_refuted.
Print Assumptions T_WriteDrafts2.C63_alt_grows_refuted.
Print Assumptions T_WriteDrafts2.C63_inner_draft_refuted.
Print Assumptions T_WriteDrafts2.C63_no_drafts.
Print Assumptions T_Reload.C63_reload.
Print Assumptions T_Reload.C63_second_save.
Print Assumptions T_Reload.C63_reorder_refuted.
Print Assumptions T_ExemplarIO.C64_script.
Print Assumptions T_ExemplarIO.C64_written.
Print Assumptions T_ExemplarIO.C64_kept.
Print Assumptions T_ExemplarIO.C64_round_trip.
Print Assumptions T_ExemplarIO.C64_order.
Print Assumptions T_ExemplarIO.C64_longest.
Print Assumptions T_ExemplarIO.C64_no_text.
Print Assumptions T_ExemplarIO.C64_no_text_refuted.
Print Assumptions T_ExemplarIO.C64_common_refuted.
Print Assumptions T_ExemplarIO.C64_empty_raises.
Print Assumptions T_Alias.C65_path.
Print Assumptions T_Alias.C65_ends.
Print Assumptions T_Alias.C65_resolved.
Print Assumptions T_Alias.C65_rest.
Print Assumptions T_Alias.C65_order_refuted.
Print Assumptions T_Alias.C65_tree_refuted.
Print Assumptions T_Alias.C65_override_refuted.
Print Assumptions T_Alias.C65_self_refuted.
Print Assumptions T_Alias.C65_twice_refuted.
Print Assumptions T_SheetProc.C66_texts.
Print Assumptions T_SheetProc.C66_attribute.
Print Assumptions T_SheetProc.C66_cells.
Print Assumptions T_SheetProc.C66_attribute_cell.
Print Assumptions T_SheetProc.C66_rows.
Print Assumptions T_SheetProc.C66_blank.
Print Assumptions T_SheetProc.C66_item.
Print Assumptions T_SheetProc.C66_table1d.
Print Assumptions T_SheetProc.C66_table2d.
Print Assumptions T_SheetProc.C66_table2dr.
Print Assumptions T_SheetProc.C66_table2dx.
Print Assumptions T_SheetProc.C66_back.
Print Assumptions T_SheetProc.C66_sheet_kept.
Print Assumptions T_SheetProc.C66_adjacent_refuted.
Print Assumptions T_SheetProc.C66_no_text_refuted.
Print Assumptions T_SheetProc.C66_short_refuted.
Print Assumptions T_SheetProc.C66_bad_table_refuted.
Print Assumptions T_SheetProc.C66_second_attribute_refuted.
Print Assumptions T_AsSimple.C67_lines.
Print Assumptions T_AsSimple.C67_round_trip.
Print Assumptions T_AsSimple.C67_read_again.
Print Assumptions T_AsSimple.C67_ends.
Print Assumptions T_AsSimple.C67_complete.
Print Assumptions T_AsSimple.C67_first_line_refuted.
Print Assumptions T_AsSimple.C67_circle_refuted.
Print Assumptions T_AsSimple.C67_same_refuted.
Print Assumptions T_AsSimple.C67_lost_refuted.
Print Assumptions T_AsSimple.C67_once_refuted.
Print Assumptions T_XPath.C68_path_finds.
Print Assumptions T_XPath.C68_path_unique.
Print Assumptions T_XPath.C68_removed.
Print Assumptions T_XPath.C68_gone.
Print Assumptions T_XPath.C68_alternates_raise.
Print Assumptions T_XPath.C68_extra_attribute_refuted.
Print Assumptions T_XPath.C68_namespace_refuted.
Print Assumptions T_AllTags.C69_lookup.
Print Assumptions T_AllTags.C69_object.
Print Assumptions T_AllTags.C69_blank_line_raises.
Print Assumptions T_AllTags.C69_round_trip.
Print Assumptions T_AllTags.C69_save_load.
Print Assumptions T_AllTags.C69_marks.
Print Assumptions T_AllTags.C69_sorted.
Print Assumptions T_AllTags.C69_short_form_refuted.
Print Assumptions T_AllTags.C69_written_again_refuted.
Print Assumptions T_AllTags.C69_other_tag_refuted.
Print Assumptions T_AllTags.C69_no_tag_refuted.
Print Assumptions T_IanaTags.C70_read.
Print Assumptions T_IanaTags.C70_registered.
Print Assumptions T_IanaTags.C70_last_variant_raises.
Print Assumptions T_IanaTags.C70_first_variant_raises.
Print Assumptions T_IanaTags.C70_order_refuted.
Print Assumptions T_Template.C71_no_template_left.
Print Assumptions T_Template.C71_plain_unchanged.
Print Assumptions T_Template.C71_children.
Print Assumptions T_Template.C71_context.
Print Assumptions T_Template.C71_foreach.
Print Assumptions T_Template.C71_attributes.
Print Assumptions T_Template.C71_sequence.
Print Assumptions T_Template.C71_variable.
Print Assumptions T_Template.C71_value.
Print Assumptions T_Template.C71_variables_kept.
Print Assumptions T_Template.C71_exceptions.
Print Assumptions T_Template.C71_leaf_attributes_refuted.
Print Assumptions T_Template.C71_text_behind_refuted.
Print Assumptions T_Template.C71_loop_values_refuted.
Print Assumptions T_Template.C71_loop_scope_refuted.
Print Assumptions T_Template.C71_number_raises.
Print Assumptions T_FontRules.C72_rules_sound.
Print Assumptions T_FontRules.C72_leaves_covered.
Print Assumptions T_FontRules.C72_first_match.
Print Assumptions T_FontRules.C72_answer.
Print Assumptions T_FontRules.C72_tree_font.
Print Assumptions T_FontRules.C72_nothing.
Print Assumptions T_FontRules.C72_same_font_refuted.
Print Assumptions T_FontRules.C72_default_refuted.
Print Assumptions T_FontRules.C72_fontid.
Print Assumptions T_FontRules.C72_pick.
Print Assumptions T_ZoneTab.C73_position.
Print Assumptions T_ZoneTab.C73_number.
Print Assumptions T_ZoneTab.C73_north_east.
Print Assumptions T_ZoneTab.C73_south_west.
Print Assumptions T_ZoneTab.C73_south_west_refuted.
Print Assumptions T_ZoneTab.C73_last_line.
Print Assumptions T_ZoneTab.C73_only_lines.
Print Assumptions T_ZoneTab.C73_utc.
Print Assumptions T_ZoneTab.C73_gmt.
Print Assumptions T_ZoneTab.C73_gmt_refuted.
Print Assumptions T_ZoneTab.C73_written.
Print Assumptions T_ZoneTab.C73_no_position_raises.
Print Assumptions T_ZoneTab.C73_name.
Print Assumptions T_ZoneTab.C73_name_only.
Print Assumptions T_ZoneTab.C73_order.
Print Assumptions T_ZoneTab.C73_empty_file.
Print Assumptions T_ZoneTab.C73_read_back.
Print Assumptions T_Dtd.C74_element_order.
Print Assumptions T_Dtd.C74_attribute_order.
Print Assumptions T_Dtd.C74_value_order.
Print Assumptions T_Dtd.C74_zone_order.
Print Assumptions T_Dtd.C74_distinguishing.
Print Assumptions T_Dtd.C74_all_declared.
Print Assumptions T_Dtd.C74_comments_ignored.
Print Assumptions T_Dtd.C74_reread.
Print Assumptions T_Dtd.C74_undeclared_element.
Print Assumptions T_Dtd.C74_reads.
Print Assumptions T_Dtd.C74_no_zones.
Print Assumptions T_Dtd.C74_blocks_serial.
Print Assumptions T_Dtd.C74_metadata_mark_refuted.
Print Assumptions T_FixSldr.C75_gone.
Print Assumptions T_FixSldr.C75_untouched.
Print Assumptions T_FixSldr.C75_layout.
Print Assumptions T_FixSldr.C75_orientation.
Print Assumptions T_FixSldr.C75_orientation_rest.
Print Assumptions T_FixSldr.C75_characters.
Print Assumptions T_FixSldr.C75_undraft.
Print Assumptions T_FixSldr.C75_silidentity.
Print Assumptions T_FixSldr.C75_language.
Print Assumptions T_FixSldr.C75_script.
Print Assumptions T_FixSldr.C75_identity_rest.
Print Assumptions T_FixSldr.C75_idempotent.
Print Assumptions T_FixSldr.C75_second_refuted.
Print Assumptions T_FixSldr.C75_guinea_refuted.
Print Assumptions T_FixSldr.C75_debug.
Print Assumptions T_Minimise.C76_only_deletes.
Print Assumptions T_Minimise.C76_special_kept.
Print Assumptions T_Minimise.C76_structure.
Print Assumptions T_Minimise.C76_dropped_order.
Print Assumptions T_Minimise.C76_ends.
Print Assumptions T_Minimise.C76_ends_only.
Print Assumptions T_Minimise.C76_deterministic.
Print Assumptions T_Minimise.C76_all_agree.
Print Assumptions T_Minimise.C76_order_refuted.
Print Assumptions T_Minimise.C76_gap_refuted.
Print Assumptions T_Minimise.C76_hash_refuted.
Print Assumptions T_Minimise.C76_equal_raises.
Print Assumptions T_Difflib.get_opcodes_ok.
Print Assumptions T_Import.C77_result.
Print Assumptions T_Import.C77_schedule.
Print Assumptions T_Import.C77_idempotent.
Print Assumptions T_Import.C77_pool_failures.
Print Assumptions T_Import.C77_single_stops.
Print Assumptions T_Import.C77_sources.
Print Assumptions T_Import.C77_found.
Print Assumptions T_Import.C77_references.
Print Assumptions T_Import.C77_hg.
Print Assumptions T_Import.C77_references_refuted.
Print Assumptions T_Import.C77_chunk_refuted.
Print Assumptions T_Import.C77_misplaced_refuted.
Print Assumptions T_Import.C77_upper_refuted.
Print Assumptions T_AddFonts.C78_all.
Print Assumptions T_AddFonts.C78_stops.
Print Assumptions T_AddFonts.C78_requests.
Print Assumptions T_AddFonts.C78_preferred.
Print Assumptions T_AddFonts.C78_choice.
Print Assumptions T_AddFonts.C78_again.
Print Assumptions T_AddFonts.C78_lists.
Print Assumptions T_AddFonts.C78_csv.
Print Assumptions T_AddFonts.C78_css_features.
Print Assumptions T_AddFonts.C78_css_fonts.
Print Assumptions T_AddFonts.C78_two_defaults_refuted.
Print Assumptions T_AddFonts.C78_no_default_refuted.
Print Assumptions T_AddFonts.C78_hash_refuted.
Print Assumptions T_AddFonts.C78_stale_refuted.
Print Assumptions T_AddFonts.C78_asked_again_refuted.
Print Assumptions T_AddFonts.C78_ends_refuted.
Print Assumptions T_Likely.C79_likely.
Print Assumptions T_Likely.C79_likely_from.
Print Assumptions T_Likely.C79_extras.
Print Assumptions T_Likely.C79_only_region.
Print Assumptions T_Likely.C79_spelled.
Print Assumptions T_Likely.C79_listing.
Print Assumptions T_Likely.C79_supplemental.
Print Assumptions T_Likely.C79_keys_kept.
Print Assumptions T_Likely.C79_from_refuted.
Print Assumptions T_Likely.C79_extras_refuted.
Print Assumptions T_IterParse.C80_chunks.
Print Assumptions T_IterParse.C80_pieces.
Print Assumptions T_IterParse.C80_malformed.
Print Assumptions T_IterTree.C80_document.
Print Assumptions T_IterTree.C80_document_chunks.
Print Assumptions T_Keymans.C81_recorded.
Print Assumptions T_Keymans.C81_again.
Print Assumptions T_Keymans.C81_collected.
Print Assumptions T_Keymans.C81_files.
Print Assumptions T_Keymans.C81_dryrun.
Print Assumptions T_Keymans.C81_together.
Print Assumptions T_Keymans.C81_report_refuted.
Print Assumptions T_FlattenAll.C82_schedule.
Print Assumptions T_FlattenAll.C82_same.
Print Assumptions T_FlattenAll.C82_report.
Print Assumptions T_FlattenAll.C82_finishes.
Print Assumptions T_FlattenAll.C82_single.
Print Assumptions T_FlattenAll.C82_single_same.
Print Assumptions T_FlattenAll.C82_locales.
Print Assumptions T_FlattenAll.C82_inplace_refuted.
Print Assumptions T_FlattenAll.C82_git_refuted.
Print Assumptions T_FlattenAll.C82_single_refuted.
Print Assumptions T_BreakText.C83_text.
Print Assumptions T_BreakText.C83_made.
Print Assumptions T_BreakText.C83_cycle.
Print Assumptions T_BreakText.C83_undefined.
Print Assumptions T_BreakText.C83_written.
Print Assumptions T_BreakText.C83_astral_refuted.
Print Assumptions T_BreakText.C83_noflatten_refuted.
Print Assumptions T_CldrComments.C84_annotation.
Print Assumptions T_CldrComments.C84_placed.
Print Assumptions T_CldrComments.C84_fails.
Print Assumptions T_CldrComments.C84_rest.
Print Assumptions T_CldrComments.C84_text.
Print Assumptions T_CldrComments.C84_text_refuted.
Print Assumptions T_CldrComments.C84_white.
Print Assumptions T_Coverage.C85_paths.
Print Assumptions T_Coverage.C85_counts.
Print Assumptions T_Coverage.C85_independent.
Print Assumptions T_Coverage.C85_rows.
Print Assumptions T_Coverage.C85_english.
Print Assumptions T_Coverage.C85_layout_refuted.
Print Assumptions T_Coverage.C85_level_refuted.
Print Assumptions T_Coverage.C85_calendar_refuted.
Print Assumptions T_Coverage.C85_names.
Print Assumptions T_Coverage.C85_variables.
Print Assumptions T_Coverage.C85_targets.
Print Assumptions T_Files.C86_files.
Print Assumptions T_Files.C86_sorted.
Print Assumptions T_Files.C86_listing.
Print Assumptions T_Files.C86_missing.
Print Assumptions T_Files.C86_locale.
Print Assumptions T_Files.C86_no_locale.
Print Assumptions T_Files.C86_spelling.
Print Assumptions T_Files.C86_priority_refuted.
Print Assumptions T_AutoNames.C87_descendants.
Print Assumptions T_AutoNames.C87_source_refuted.
Print Assumptions T_AutoNames.C87_nothing_refuted.
Print Assumptions T_KbdTest.C88_report.
Print Assumptions T_KbdTest.C88_untyped_refuted.
Print Assumptions T_KbdTest.C88_status_refuted.
Print Assumptions T_KbdTest.C88_right_refuted.
Print Assumptions T_KbdTest.C88_layout.
Print Assumptions T_KbdTest.C88_modifiers.
Print Assumptions T_NormalizeAll.C89_in_place.
Print Assumptions T_NormalizeAll.C89_elsewhere.
Print Assumptions T_NormalizeAll.C89_again.
Print Assumptions T_NormalizeAll.C89_stray_refuted.
Print Assumptions T_NormalizeAll.C89_stops.
Print Assumptions T_NormalizeAll.C89_validate_refuted.
Print Assumptions T_NormalizeAll.C89_validate.
Print Assumptions T_TmplFun.C90_split.
Print Assumptions T_TmplFun.C90_findsep.
Print Assumptions T_TmplFun.C90_empty.
Print Assumptions T_TmplFun.C90_firstword.
Print Assumptions T_TmplFun.C90_blank_refuted.
Print Assumptions T_TmplFun.C90_default.
Print Assumptions T_TmplFun.C90_default_none.
Print Assumptions T_TmplFun.C90_no_text_refuted.
Print Assumptions T_TmplFun.C90_choose.
Print Assumptions T_CharClasses.C91_shown.
Print Assumptions T_CharClasses.C91_read_back.
Print Assumptions T_CharClasses.C91_pua.
Print Assumptions T_CharClasses.C91_pua_refuted.
Print Assumptions T_CharClasses.C91_mark_after_escape_refuted.
Print Assumptions T_CharClasses.C91_vs.
Print Assumptions T_CharClasses.C91_numbers.
Print Assumptions T_HackAttribs.C92_lines.
Print Assumptions T_HackAttribs.C92_patched.
Print Assumptions T_HackAttribs.C92_last_line_refuted.
Print Assumptions T_HackAttribs.C92_twice_refuted.
Print Assumptions T_HackAttribs.C92_same_file_refuted.
Print Assumptions T_HackAttribs.C92_missing_refuted.
Print Assumptions T_Hunspell.C93_no_dictionary_refuted.
Print Assumptions T_Hunspell.C93_count_refuted.
Print Assumptions T_Hunspell.C93_empty.
Print Assumptions T_Hunspell.C93_affixes_refuted.
Print Assumptions T_Hunspell.C93_classes_refuted.
Print Assumptions T_IcuPretty.C94_dots_refuted.
Print Assumptions T_IcuPretty.C94_dots_nothing.
Print Assumptions T_IcuPretty.C94_all_or_nothing.
Print Assumptions T_IcuPretty.C94_written.
Print Assumptions T_IcuPretty.C94_screen_refuted.
Print Assumptions T_MergeScript.C95_only_output.
Print Assumptions T_MergeScript.C95_merged.
Print Assumptions T_MergeScript.C95_generation_refuted.
Print Assumptions T_MergeScript.C95_git_refuted.
Print Assumptions T_MergeScript.C95_screen_refuted.
Print Assumptions T_MergeScript.C95_verbose_refuted.
Print Assumptions T_MergeScript.C95_missing_refuted.
Print Assumptions T_MergeScript.C95_no_error.
Print Assumptions T_Multigraphs.C96_same_clusters.
Print Assumptions T_Multigraphs.C96_counted.
Print Assumptions T_Multigraphs.C96_end_refuted.
Print Assumptions T_Multigraphs.C96_empty_refuted.
Print Assumptions T_Multigraphs2.C96_any.
Print Assumptions T_UsEscapes.C97_class.
Print Assumptions T_UsEscapes.C97_string.
Print Assumptions T_UsEscapes.C97_backslash_u_refuted.
Print Assumptions T_UsEscapes.C97_backslash_bracket_refuted.
Print Assumptions T_UsEscapes.C97_space_refuted.
Print Assumptions T_UsEscapes.C97_braced_backslash_refuted.
Print Assumptions T_UsEscapes.C97_no_code_point.
Print Assumptions T_CoverageData.C98_currencies.
Print Assumptions T_CoverageData.C98_year_refuted.
Print Assumptions T_CoverageData.C98_calendars.
Print Assumptions T_CoverageData.C98_variables.
Print Assumptions T_CoverageData.C98_levels.
Print Assumptions T_CoverageData.C98_locales.
Print Assumptions T_CoverageData.C98_given.
Print Assumptions T_CoverageData.C98_no_date_refuted.
Print Assumptions T_ClashComments.C99_notes.
Print Assumptions T_ClashComments.C99_same_change_refuted.
Print Assumptions T_ClashComments.C99_one_sided_refuted.
Print Assumptions T_ClashComments.C99_comment_read_back.
Print Assumptions T_ClashComments.C99_comment_refuted.
Print Assumptions T_ClashComments.C99_note_writable.
Print Assumptions T_ClashComments.C99_comments_read_back.
Print Assumptions T_ClashComments.C99_comments_stable.
Print Assumptions T_ClashComments.C99_comment_moves_refuted.
Print Assumptions T_ClashComments.C99_written_around.
