{
 "claims": [
  {
   "property": "C01",
   "status": "proved",
   "theorems": [
    "C01_exemplar_list_roundtrip",
    "C01_exemplar_list_roundtrip_no_backslash",
    "C01_space_refuted",
    "C01_hex_text_refuted",
    "C01_trailing_backslash_refuted",
    "C01_bracket_after_backslash_refuted",
    "C01_bracket_in_string_refuted",
    "C01_empty_string_refuted"
   ],
   "note": "Guard: no space, backslashes not mis-decodable; refutations outside the guard."
  },
  {
   "property": "C02",
   "status": "proved",
   "theorems": [
    "C02_range",
    "C02_second_range_refuted",
    "C02_second_operator_refuted"
   ],
   "note": "Single range in a class; chained operators refuted."
  },
  {
   "property": "C03",
   "status": "proved",
   "theorems": [
    "C03_parse_terminates",
    "C03_item_progress"
   ],
   "note": "Model fuel is never exhausted; the exception set is exact."
  },
  {
   "property": "C04",
   "status": "proved",
   "theorems": [
    "C04_flatten_enumerates",
    "C04_first_missing_refuted",
    "C04_backslash_refuted"
   ],
   "note": "Least choice is never yielded (finding)."
  },
  {
   "property": "C05",
   "status": "proved",
   "theorems": [
    "C05_unescape_escape",
    "C05_allchars_no_marks",
    "C05_allchars_lower_case_digit_refuted",
    "C05_allchars_third_mark_refuted",
    "C05_allchars_escapes"
   ],
   "note": "exact characterisation for allchars=False; allchars=True refuted for isolated marks"
  },
  {
   "property": "C06",
   "status": "proved",
   "theorems": [
    "C06_difference_level",
    "C06_difference_sign",
    "C06_less_than",
    "C06_strict_weak_order",
    "C06_sorting"
   ],
   "note": "for any lawful weight comparison"
  },
  {
   "property": "C07",
   "status": "proved",
   "theorems": [
    "C07_equality_operators",
    "C07_equal_to_none",
    "C07_cmpKey",
    "C07_cmpKey_equivalence"
   ],
   "note": ""
  },
  {
   "property": "C08",
   "status": "proved",
   "theorems": [
    "C08_itemise",
    "C08_items_known"
   ],
   "note": ""
  },
  {
   "property": "C09",
   "status": "proved",
   "theorems": [
    "C09_sort_key",
    "C09_segmentation_unique",
    "C09_prefix_key"
   ],
   "note": ""
  },
  {
   "property": "C10",
   "status": "proved",
   "theorems": [
    "C10_parse",
    "C10_one_entry_per_relation",
    "C10_assignment",
    "C10_history",
    "C10_operators",
    "C10_operator_level",
    "C10_element",
    "C10_escaped_element",
    "C10_reset",
    "C10_reset_before",
    "C10_relation_texts"
   ],
   "note": ""
  },
  {
   "property": "C100",
   "status": "proved",
   "theorems": [
    "C100_nested_refuted",
    "C100_negated_refuted",
    "C100_characters",
    "C100_sets",
    "C100_or_negated_refuted",
    "C100_minus_refuted"
   ],
   "note": "Full for sets of plain characters; escapes and strings within sets are C97."
  },
  {
   "property": "C101",
   "status": "proved",
   "theorems": [
    "C101_commands",
    "C101_help",
    "C101_clusters",
    "C101_dry_run",
    "C101_dry_run_refuted",
    "C101_skip",
    "C101_failures_refuted",
    "C101_target_refuted",
    "C101_empty_refuted",
    "C101_environment_refuted"
   ],
   "note": "Full for targets and file names without white space and without the characters of file name patterns."
  },
  {
   "property": "C102",
   "status": "proved",
   "theorems": [
    "C102_add_namespace",
    "C102_declared",
    "C102_shared_prefix_refuted",
    "C102_etwrite_refuted",
    "C102_fails_refuted",
    "C102_addnode",
    "C102_silidentity",
    "C102_silidentity_new"
   ],
   "note": "Full. Adding the identity element has the hypotheses of C27 on hashes that tell keys apart."
  },
  {
   "property": "C103",
   "status": "proved",
   "theorems": [
    "C103_files",
    "C103_names",
    "C103_pool",
    "C103_single",
    "C103_same_name_refuted",
    "C103_silent_refuted",
    "C103_locale_refuted",
    "C103_outdir_refuted"
   ],
   "note": "Full. Repairing and writing one file is one step of a process; the result without failures is a function of the content of the file."
  },
  {
   "property": "C104",
   "status": "proved",
   "theorems": [
    "C104_rows",
    "C104_sheets",
    "C104_spill_refuted",
    "C104_filled",
    "C104_files",
    "C104_both",
    "C104_fresh",
    "C104_output",
    "C104_made",
    "C104_row_error",
    "C104_empty_output_refuted",
    "C104_missing_refuted",
    "C104_no_sheet"
   ],
   "note": "Full for the model. Reading and writing of the file formats, LDML operations and the writing of a cell are arguments, so the theorems hold for all of them; single rows are C66, single cells the claim about cells."
  },
  {
   "property": "C11",
   "status": "proved",
   "theorems": [
    "C11_antisymmetric",
    "C11_known_order",
    "C11_empty_string_refuted"
   ],
   "note": "the empty string, when not in the table, is excluded and refuted"
  },
  {
   "property": "C12",
   "status": "proved",
   "theorems": [
    "C12_line",
    "C12_bmp_characters",
    "C12_supplementary_refuted"
   ],
   "note": ""
  },
  {
   "property": "C13",
   "status": "proved",
   "theorems": [
    "C13_separators"
   ],
   "note": "Any choice of '-' or '_' at each separator position gives the same parse (also the same exception), for every case mapping and every starting tag."
  },
  {
   "property": "C14",
   "status": "proved",
   "theorems": [
    "C14_full_form_round_trip",
    "C14_sorted_exact",
    "C14_case_normalised",
    "C14_four_character_variant_refuted",
    "C14_region_variant_refuted",
    "C14_extlang_script_raises",
    "C14_private_use",
    "C14_late_script"
   ],
   "note": "For all case mappings. The two side conditions of well_formed (4 character first variant without script, alphabetic 3 character region without script) are needed: refutations show what happens without them."
  },
  {
   "property": "C15",
   "status": "proved",
   "theorems": [
    "C15_len_counts_subtags"
   ],
   "note": ""
  },
  {
   "property": "C16",
   "status": "proved",
   "theorems": [
    "C16_merge_true",
    "C16_merge_false",
    "C16_merge_iff",
    "C16_hidden_stays",
    "C16_hide_flags",
    "C16_failed_merge_changes_hidescript"
   ],
   "note": "Success and the resulting flags are characterised exactly; a failed merge can change hidescript only."
  },
  {
   "property": "C17",
   "status": "proved",
   "theorems": [
    "C17_add_spec",
    "C17_history_keeps_keys",
    "C17_result_registered"
   ],
   "note": "For every iteration order of Python sets; histories may change tag objects between calls."
  },
  {
   "property": "C18",
   "status": "proved",
   "theorems": [
    "C18_records",
    "C18_subtag_without_type",
    "C18_tag_record_leaks",
    "C18_folded_repeat_refuted"
   ],
   "note": "Complete description of what a registry file reads as; the leak of Tag records and the folding of repeated fields are shown as theorems."
  },
  {
   "property": "C19",
   "status": "proved",
   "theorems": [
    "C19_attribute",
    "C19_element",
    "C19_no_markup",
    "C19_injective"
   ],
   "note": ""
  },
  {
   "property": "C20",
   "status": "proved",
   "theorems": [
    "C20_declared",
    "C20_undeclared",
    "C20_no_prefix",
    "C20_undeclared_uri",
    "C20_plain_name",
    "C20_writer",
    "C20_writer_undeclared_refuted"
   ],
   "note": "The writer's own conversion drops undeclared namespaces (C20_writer_undeclared_refuted)."
  },
  {
   "property": "C21",
   "status": "proved",
   "theorems": [
    "C21_reorders",
    "C21_stable",
    "C21_idempotent",
    "C21_canonical",
    "C21_text",
    "C21_attribute_order"
   ],
   "note": "Without draft packing; str.strip's white space and str.lower are arguments."
  },
  {
   "property": "C22",
   "status": "proved",
   "theorems": [
    "C22_order",
    "C22_64_bits",
    "C22_key_only",
    "C22_key_noticed",
    "C22_line_noticed",
    "C22_child_noticed",
    "C22_text_attribute_collision"
   ],
   "note": "For every string hash function. Also: one changed value, line or child always changes the hash, and text lines can collide with an attribute."
  },
  {
   "property": "C23",
   "status": "proved",
   "theorems": [
    "C23_packing",
    "C23_one_per_key",
    "C23_nothing_lost",
    "C23_hashes"
   ],
   "note": "packing of siblings characterised exactly for every list of siblings; hashes of a loaded document are those of the normalised tree. Hypothesis: the default draft is a known draft (otherwise KeyError, C24)"
  },
  {
   "property": "C24",
   "status": "proved",
   "theorems": [
    "C24_known",
    "C24_unknown",
    "C24_missing_known_default",
    "C24_missing",
    "C24_bounds",
    "C24_unknown_document_default_refuted"
   ],
   "note": "With an unknown draft name as document default the question fails with KeyError."
  },
  {
   "property": "C25",
   "status": "proved",
   "theorems": [
    "C25_primary_best",
    "C25_nothing_lost",
    "C25_nothing_lost_same_name",
    "C25_nothing_lost_refuted",
    "C25_loaded_well_filed"
   ],
   "note": "the English claim holds when the name for the old primary is free, or is that of the best alternate; refuted otherwise (an alternate is overwritten)"
  },
  {
   "property": "C26",
   "status": "proved",
   "theorems": [
    "C26_found",
    "C26_find",
    "C26_never_changes",
    "C26_total",
    "C26_matchdraft",
    "C26_read_back",
    "C26_slash_refuted"
   ],
   "note": "Paths as text are read back except values with a slash (refuted)."
  },
  {
   "property": "C27",
   "status": "proved",
   "theorems": [
    "C27_found",
    "C27_found_text",
    "C27_created",
    "C27_still_found",
    "C27_text_draft_raises",
    "C27_nonkey_refuted",
    "C27_overwrites_refuted"
   ],
   "note": "Creation needs the tests to be on key attributes; the other cases are refuted."
  },
  {
   "property": "C28",
   "status": "proved",
   "theorems": [
    "C28_round_trip",
    "C28_attribute_newline_refuted",
    "C28_cdata_end_refuted",
    "C28_mixed_text_refuted",
    "C28_undeclared_refuted"
   ],
   "note": "For documents with declared namespaces, legal characters, no tab/newline in attribute values, no text beside children and no CDATA end mark; each restriction is shown necessary by a refutation."
  },
  {
   "property": "C29",
   "status": "proved",
   "theorems": [
    "C29_builds",
    "C29_only_documents",
    "C29_missing_end"
   ],
   "note": ""
  },
  {
   "property": "C30",
   "status": "proved",
   "theorems": [
    "C30_ldml",
    "C30_merge",
    "C30_orders_differ",
    "C30_empty"
   ],
   "note": ""
  },
  {
   "property": "C31",
   "status": "proved",
   "theorems": [
    "C31_kept",
    "C31_inherited",
    "C31_added",
    "C31_union",
    "C31_no_fonts_raises"
   ],
   "note": "Any tree on the left, keyed font-free tree on the right. Font resources: C53 and C31_no_fonts_raises. Python shares the added elements with the other document; the model copies them."
  },
  {
   "property": "C32",
   "status": "proved",
   "theorems": [
    "C32_idempotent"
   ],
   "note": "Any left document."
  },
  {
   "property": "C33",
   "status": "proved",
   "theorems": [
    "C33_removed",
    "C33_remaining",
    "C33_covered",
    "C33_untouched",
    "C33_root",
    "C33_self",
    "C33_alternates_refuted"
   ],
   "note": "Exact description of what is removed; alternates included. C33_alternates_refuted records a loss."
  },
  {
   "property": "C34",
   "status": "proved",
   "theorems": [
    "C34_round_trip",
    "C34_blocked_refuted",
    "C34_attributes_refuted"
   ],
   "note": "The two counterexample theorems show that the excluded cases really fail."
  },
  {
   "property": "C35",
   "status": "proved",
   "theorems": [
    "C35_fallbacks",
    "C35_flatten",
    "C35_unflatten",
    "C35_copy",
    "C35_kept",
    "C35_again",
    "C35_not_transitive",
    "C35_changed",
    "C35_fallback_element",
    "C35_parents",
    "C35_stubs"
   ],
   "note": "getldml is an arbitrary function from names to documents; alias resolution and collation flattening switched off C35_stubs says what skipping stubs does."
  },
  {
   "property": "C36",
   "status": "proved",
   "theorems": [
    "C36_merge",
    "C36_other_unchanged",
    "C36_this_unchanged",
    "C36_unchanged"
   ],
   "note": "merge without drafts, for documents with distinct sibling keys whose content hash determines the key hash: full outcome per key (inductive relation outcome, by recursion through merge itself), text and attributes; corollaries for unchanged sides"
  },
  {
   "property": "C37",
   "status": "proved",
   "theorems": [
    "C37_lost",
    "C37_taken",
    "C37_no_default",
    "C37_no_other",
    "C37_both_new",
    "C37_own_change"
   ],
   "note": "describes when data is lost with drafts; comments are not modelled"
  },
  {
   "property": "C38",
   "status": "proved",
   "theorems": [
    "C38_terminates",
    "C38_path",
    "C38_truncations",
    "C38_parents",
    "C38_all",
    "C38_leading_hyphen_refuted",
    "C38_unknown_raises",
    "chain_spec",
    "remove_private_spec"
   ],
   "note": "Tag database, equality of tag sets (reflexive) and file system are parameters; refuted for tags with a leading hyphen."
  },
  {
   "property": "C39",
   "status": "proved",
   "theorems": [
    "C39_segments",
    "C39_faithful",
    "C39_case",
    "C39_scripts",
    "C39_characters",
    "C39_given_refuted",
    "C39_given_mark_refuted",
    "C39_capital_refuted",
    "C39_nukta_refuted"
   ],
   "note": "ICU properties, decomposition and lower case are parameters. Refuted: a given digraph is found wherever it stands, a mark stays with a given base, capitals before a nukta are folded, the nukta goes with the base."
  },
  {
   "property": "C40",
   "status": "proved",
   "theorems": [
    "C40_terminates",
    "C40_settled",
    "C40_keeps",
    "C40_counts_refuted"
   ],
   "note": "Counts are not kept (refuted); the count of a base never falls."
  },
  {
   "property": "C41",
   "status": "proved",
   "theorems": [
    "C41_ok",
    "C41_punctuation",
    "C41_digits",
    "C41_graphemes",
    "C41_frequency",
    "C41_sound",
    "C41_complete",
    "C41_disjoint",
    "C41_index",
    "C41_text",
    "C41_casing",
    "C41_again_refuted",
    "C41_ignorable_refuted"
   ],
   "note": "The frequency threshold is compared on exact rationals. Refuted: analysing twice, ignorable bases always in auxiliary."
  },
  {
   "property": "C42",
   "status": "proved",
   "theorems": [
    "C42_key",
    "C42_text",
    "C42_concatenation",
    "C42_omit",
    "C42_written"
   ],
   "note": "Keyboards as lists of elements, imports inlined; case mapping, white space and int() are parameters. C42_written: typing a text types its bracketed keystrokes one after the other."
  },
  {
   "property": "C43",
   "status": "proved",
   "theorems": [
    "C43_match",
    "C43_partial",
    "C43_total",
    "C43_before_never"
   ],
   "note": "All tries; a default without the character is a KeyError in the code and excluded by the result being Ok; C43_total: without defaults the result is always Ok."
  },
  {
   "property": "C44",
   "status": "proved",
   "theorems": [
    "C44_rewrites",
    "C44_determined",
    "C44_terminates",
    "C44_total",
    "C44_settings",
    "C44_omit_refuted",
    "C44_shown",
    "C44_history"
   ],
   "note": "Full, for all settings: C44_rewrites without and C44_settings with transformFailure=omit and fallback=omit."
  },
  {
   "property": "C45",
   "status": "proved",
   "theorems": [
    "C45_divides",
    "C45_write",
    "C45_sequence",
    "C45_repeated_refuted",
    "C45_beyond"
   ],
   "note": "Rows as lists of cells with repeat counts; the two exceptional cases are shown to lose data."
  },
  {
   "property": "C46",
   "status": "proved",
   "theorems": [
    "C46_once",
    "C46_lists",
    "C46_not_product"
   ],
   "note": "Values abstracted to their str(), items and the two tests the code makes."
  },
  {
   "property": "C47",
   "status": "proved",
   "theorems": [
    "C47_statement",
    "C47_sound",
    "C47_complete",
    "C47_unique",
    "C47_no_import",
    "C47_founded",
    "C47_terminates",
    "C47_diverges",
    "C47_cycle"
   ],
   "note": "Import function is a parameter; regular expression modelled as a scanner and proved equal to a declarative description of a statement."
  },
  {
   "property": "C48",
   "status": "proved",
   "theorems": [
    "C48_forms",
    "C48_full_form",
    "C48_str_form",
    "C48_forms_match",
    "C48_str_form_refuted",
    "C48_variant_order_refuted",
    "C48_matches"
   ],
   "note": "Exact set of forms; str() is a form only under the stated condition (refutation shown)."
  },
  {
   "property": "C49",
   "status": "proved",
   "theorems": [
    "C49_analyse_terminates",
    "C49_analyse_fuel",
    "C49_analyse_result",
    "C49_from_parent",
    "C49_phonetic"
   ],
   "note": ""
  },
  {
   "property": "C50",
   "status": "proved",
   "theorems": [
    "C50_reading_keeps",
    "C50_all_inherited",
    "C50_kept_unique",
    "C50_uparrows",
    "C50_text_after_comment_refuted"
   ],
   "note": "Text after a comment is lost: C50_text_after_comment_refuted."
  },
  {
   "property": "C51",
   "status": "proved",
   "theorems": [
    "C51_history_independent",
    "C51_topns_off_refuted"
   ],
   "note": "topns=True; refuted for topns=False"
  },
  {
   "property": "C52",
   "status": "proved",
   "theorems": [
    "C52_addnode"
   ],
   "note": ""
  },
  {
   "property": "C53",
   "status": "proved",
   "theorems": [
    "C53_fonts",
    "C53_default_dropped"
   ],
   "note": ""
  },
  {
   "property": "C54",
   "status": "proved",
   "theorems": [
    "C54_append",
    "C54_load",
    "C54_optional",
    "C54_backspace"
   ],
   "note": "Negative property; exception kinds of the unpacking depend on set order."
  },
  {
   "property": "C55",
   "status": "proved",
   "theorems": [
    "C55_typing",
    "C55_pasting",
    "C55_shown_refuted"
   ],
   "note": "The simple layer with hidden partial matches; refuted when they are shown."
  },
  {
   "property": "C56",
   "status": "proved",
   "theorems": [
    "C56_permutes",
    "C56_terminates",
    "C56_sorted",
    "C56_adjacent_bases_refuted",
    "C56_codes",
    "C56_leading"
   ],
   "note": "A run without a base raises TypeError in the code; the theorem is about successful runs. C56_sorted says where the characters stand when only orders are given; C56_adjacent_bases_refuted shows a mark leaving its own base; C56_codes says which order each character gets. C56_leading: marks before the first base stay where they are."
  },
  {
   "property": "C57",
   "status": "proved",
   "theorems": [
    "C57_read",
    "C57_read_tail",
    "C57_roundtrip",
    "C57_shows",
    "C57_refuted"
   ],
   "note": ""
  },
  {
   "property": "C58",
   "status": "proved",
   "theorems": [
    "C58_key",
    "C58_relation",
    "C58_succeeds",
    "C58_sortKey",
    "C58_untouched",
    "C58_element",
    "C58_two_resets_refuted",
    "C58_self_reset_refuted",
    "C58_empty_base_refuted",
    "C58_forward_expansion_refuted",
    "C58_expansion_place_refuted",
    "C58_unset_key_refuted",
    "C58_expansion"
   ],
   "note": "Exact weights (the code uses floats). Refuted with expansions (an element after one with a late expansion lands after the expansion; an expansion naming an element without key raises), for two resets at one base (tie), a self reset and an empty base (exceptions), and before the keys are calculated."
  },
  {
   "property": "C59",
   "status": "proved",
   "theorems": [
    "C59_bounds",
    "C59_between"
   ],
   "note": "Weights are exact rationals; the code uses floats."
  },
  {
   "property": "C60",
   "status": "proved",
   "theorems": [
    "C60_ends",
    "C60_force_refuted"
   ],
   "note": "Without force, for every collation. With force, circular bases of equal order recurse for ever."
  },
  {
   "property": "C61",
   "status": "proved",
   "theorems": [
    "C61_round_trip",
    "C61_asICU",
    "C61_same_keys",
    "C61_before_by_key_refuted",
    "C61_lower_levels_refuted",
    "C61_twice_refuted",
    "C61_special_refuted",
    "C61_five_refuted"
   ],
   "note": "For elements that can be written at all (good_item). The default ordering by key breaks [before] on tailored elements; the key an element gets back can differ at lower levels; both, and what special characters do, are in the _refuted theorems."
  },
  {
   "property": "C62",
   "status": "proved",
   "theorems": [
    "C62_chain",
    "C62_order",
    "C62_convert",
    "C62_reads",
    "C62_case_forms",
    "C62_group",
    "C62_any",
    "C62_insert",
    "C62_repeated_start_refuted",
    "C62_strict_refuted",
    "C62_difflib",
    "C62_convert_difflib",
    "C62_difflib_none"
   ],
   "note": "C62_convert: whole conversion with exact rational weights, for any first operation with difflib's documented facts; C62_difflib: the modelled difflib (M_Difflib) has them; C62_convert_difflib: the two together. C62_order: chains with any lawful weights. Lists that repeat their first item raise AttributeError (refuted theorem)."
  },
  {
   "property": "C63",
   "status": "proved",
   "theorems": [
    "C63_written",
    "C63_unchanged",
    "C63_again",
    "C63_saves",
    "C63_fresh_clean",
    "C63_loaded",
    "C63_promoted_lost_refuted",
    "C63_alt_grows_refuted",
    "C63_inner_draft_refuted",
    "C63_no_drafts",
    "C63_reload",
    "C63_second_save",
    "C63_reorder_refuted"
   ],
   "note": "Trees as values: an element that is both child and alternate (serial tags) is one object in Python. The full claim without the condition on promotion is refuted, as is stability of alt names and of inner drafts over reading and writing. Loading, saving and loading again gives the same document for stable documents (T_Reload.v: no draft that saving drops, no alt on elements with children, no serial elements, siblings told apart by sort key and by key hash and alt); refuted without the first two conditions."
  },
  {
   "property": "C64",
   "status": "proved",
   "theorems": [
    "C64_script",
    "C64_written",
    "C64_kept",
    "C64_round_trip",
    "C64_order",
    "C64_longest",
    "C64_no_text",
    "C64_no_text_refuted",
    "C64_common_refuted",
    "C64_empty_raises"
   ],
   "note": "Full for the modelled get and set. Refuted sub-claims recorded: no text processed, or Common the most frequent script, loses every letter."
  },
  {
   "property": "C65",
   "status": "proved",
   "theorems": [
    "C65_path",
    "C65_ends",
    "C65_resolved",
    "C65_rest",
    "C65_order_refuted",
    "C65_tree_refuted",
    "C65_override_refuted",
    "C65_self_refuted",
    "C65_twice_refuted"
   ],
   "note": "Full for acyclic documents. Refuted sub-claims recorded: order when an alias is followed by siblings, tree shape afterwards, own elements taking precedence, termination and absence of errors with circles."
  },
  {
   "property": "C66",
   "status": "proved",
   "theorems": [
    "C66_texts",
    "C66_attribute",
    "C66_cells",
    "C66_attribute_cell",
    "C66_rows",
    "C66_blank",
    "C66_item",
    "C66_table1d",
    "C66_table2d",
    "C66_table2dr",
    "C66_table2dx",
    "C66_back",
    "C66_sheet_kept",
    "C66_adjacent_refuted",
    "C66_no_text_refuted",
    "C66_short_refuted",
    "C66_bad_table_refuted",
    "C66_second_attribute_refuted"
   ],
   "note": "Model of Sheet.process and its actions; the tree of the document is an arbitrary find. The refuted theorems give the cases that go wrong."
  },
  {
   "property": "C67",
   "status": "proved",
   "theorems": [
    "C67_lines",
    "C67_round_trip",
    "C67_read_again",
    "C67_ends",
    "C67_complete",
    "C67_first_line_refuted",
    "C67_circle_refuted",
    "C67_same_refuted",
    "C67_lost_refuted",
    "C67_once_refuted"
   ],
   "note": "C67_round_trip goes through the model of convertSimple with a table of weights and no correction by difflib; C67_complete and C67_ends are about any collation. The refuted theorems give the cases that go wrong."
  },
  {
   "property": "C68",
   "status": "proved",
   "theorems": [
    "C68_path_finds",
    "C68_path_unique",
    "C68_removed",
    "C68_gone",
    "C68_alternates_raise",
    "C68_extra_attribute_refuted",
    "C68_namespace_refuted"
   ],
   "note": "C68_path_finds and C68_path_unique compose as_xpath with the model of findall of C26; C68_removed says what the document is afterwards. The refuted theorems give the cases that go wrong."
  },
  {
   "property": "C69",
   "status": "proved",
   "theorems": [
    "C69_lookup",
    "C69_object",
    "C69_blank_line_raises",
    "C69_round_trip",
    "C69_save_load",
    "C69_marks",
    "C69_sorted",
    "C69_short_form_refuted",
    "C69_written_again_refuted",
    "C69_other_tag_refuted",
    "C69_no_tag_refuted"
   ],
   "note": "Lookup, objects, round trip and save/load are proved for all inputs; the losses (hidden region, short form, rewriting) are refuted statements with witnesses from langtags.txt."
  },
  {
   "property": "C70",
   "status": "proved",
   "theorems": [
    "C70_read",
    "C70_registered",
    "C70_last_variant_raises",
    "C70_first_variant_raises",
    "C70_order_refuted"
   ],
   "note": "Proved for all files made of records; the two ways of ending in an error are proved as such."
  },
  {
   "property": "C71",
   "status": "proved",
   "theorems": [
    "C71_no_template_left",
    "C71_plain_unchanged",
    "C71_children",
    "C71_context",
    "C71_foreach",
    "C71_attributes",
    "C71_sequence",
    "C71_variable",
    "C71_value",
    "C71_variables_kept",
    "C71_exceptions",
    "C71_leaf_attributes_refuted",
    "C71_text_behind_refuted",
    "C71_loop_values_refuted",
    "C71_loop_scope_refuted",
    "C71_number_raises"
   ],
   "note": "Evaluating an XPath and str() of a result are parameters; five expected properties are refuted or shown to raise."
  },
  {
   "property": "C72",
   "status": "proved",
   "theorems": [
    "C72_rules_sound",
    "C72_leaves_covered",
    "C72_first_match",
    "C72_answer",
    "C72_tree_font",
    "C72_nothing",
    "C72_same_font_refuted",
    "C72_default_refuted",
    "C72_fontid",
    "C72_pick"
   ],
   "note": "The decision tree that scikit-learn makes is given. Two expected properties are refuted."
  },
  {
   "property": "C73",
   "status": "proved",
   "theorems": [
    "C73_position",
    "C73_number",
    "C73_north_east",
    "C73_south_west",
    "C73_south_west_refuted",
    "C73_last_line",
    "C73_only_lines",
    "C73_utc",
    "C73_gmt",
    "C73_gmt_refuted",
    "C73_written",
    "C73_no_position_raises",
    "C73_name",
    "C73_name_only",
    "C73_order",
    "C73_empty_file",
    "C73_read_back"
   ],
   "note": "Angles are whole seconds of arc, so rounding is left out; the text of an angle ({:g}) is a parameter; southern and western angles and Etc longitudes are refuted."
  },
  {
   "property": "C74",
   "status": "proved",
   "theorems": [
    "C74_element_order",
    "C74_attribute_order",
    "C74_value_order",
    "C74_zone_order",
    "C74_distinguishing",
    "C74_all_declared",
    "C74_comments_ignored",
    "C74_reread",
    "C74_undeclared_element",
    "C74_reads",
    "C74_no_zones",
    "C74_blocks_serial",
    "C74_metadata_mark_refuted"
   ],
   "note": "A DTD is the list of declarations expat reports; cls.variables is left out (unused). Marks in comments are refuted to have an effect."
  },
  {
   "property": "C75",
   "status": "proved",
   "theorems": [
    "C75_gone",
    "C75_untouched",
    "C75_layout",
    "C75_orientation",
    "C75_orientation_rest",
    "C75_characters",
    "C75_undraft",
    "C75_silidentity",
    "C75_language",
    "C75_script",
    "C75_identity_rest",
    "C75_idempotent",
    "C75_second_refuted",
    "C75_guinea_refuted",
    "C75_debug"
   ],
   "note": "Full for the model of the document; a second orientation, status or regionInfo stays (refuted), Guinea gets Guinea-Bissau's code (refuted), --debug always raises."
  },
  {
   "property": "C76",
   "status": "proved",
   "theorems": [
    "C76_only_deletes",
    "C76_special_kept",
    "C76_structure",
    "C76_dropped_order",
    "C76_ends",
    "C76_ends_only",
    "C76_deterministic",
    "C76_all_agree",
    "C76_order_refuted",
    "C76_gap_refuted",
    "C76_hash_refuted",
    "C76_equal_raises",
    "get_opcodes_ok"
   ],
   "note": "Full, over abstract key orders and any valid sequence matcher; difflib's get_opcodes is modelled and proved to be one. The order not being kept, the gap and the dependence on hashing are refutations with exact rational keys."
  },
  {
   "property": "C77",
   "status": "proved",
   "theorems": [
    "C77_result",
    "C77_schedule",
    "C77_idempotent",
    "C77_pool_failures",
    "C77_single_stops",
    "C77_sources",
    "C77_found",
    "C77_references",
    "C77_hg",
    "C77_references_refuted",
    "C77_chunk_refuted",
    "C77_misplaced_refuted",
    "C77_upper_refuted"
   ],
   "note": "Full for the listed claims. Reading, merging, normalising (C07, C10 and others) and writing are parameters. The references that stay, the locales lost with a failing one, misplaced files and .XML sources are refutations."
  },
  {
   "property": "C78",
   "status": "proved",
   "theorems": [
    "C78_all",
    "C78_stops",
    "C78_requests",
    "C78_preferred",
    "C78_choice",
    "C78_again",
    "C78_lists",
    "C78_csv",
    "C78_css_features",
    "C78_css_fonts",
    "C78_two_defaults_refuted",
    "C78_no_default_refuted",
    "C78_hash_refuted",
    "C78_stale_refuted",
    "C78_asked_again_refuted",
    "C78_ends_refuted"
   ],
   "note": "Full for the listed claims; parsed CSS, CSV and JSON, langtag lookup and the network are parameters, a file is its list of font elements (finding paths: C12 and others; reading and writing: C05, C63). The exceptions are refutations."
  },
  {
   "property": "C79",
   "status": "proved",
   "theorems": [
    "C79_likely",
    "C79_likely_from",
    "C79_extras",
    "C79_only_region",
    "C79_spelled",
    "C79_listing",
    "C79_supplemental",
    "C79_keys_kept",
    "C79_from_refuted",
    "C79_extras_refuted"
   ],
   "note": "Full for the listed claims; the XML and CSV files are given by the values that the code reads from them. The exceptions are refutations."
  },
  {
   "property": "C80",
   "status": "proved",
   "theorems": [
    "C80_chunks",
    "C80_pieces",
    "C80_malformed",
    "C80_document",
    "C80_document_chunks"
   ],
   "note": "Full. expat is given by the calls it makes; iterparse by the loop of the standard library."
  },
  {
   "property": "C81",
   "status": "proved",
   "theorems": [
    "C81_recorded",
    "C81_again",
    "C81_collected",
    "C81_files",
    "C81_dryrun",
    "C81_together",
    "C81_report_refuted"
   ],
   "note": "Full for the model. Keyboard ids have no slash, closing bracket or newline; keys of the elements decide what matches, as in C27; the language tag lookup and lower() are arguments. The report does not work, which is proved (C81_report_refuted)."
  },
  {
   "property": "C82",
   "status": "proved",
   "theorems": [
    "C82_schedule",
    "C82_same",
    "C82_report",
    "C82_finishes",
    "C82_single",
    "C82_single_same",
    "C82_locales",
    "C82_inplace_refuted",
    "C82_git_refuted",
    "C82_single_refuted"
   ],
   "note": "Full for the driver; flattenlocale, add_silidentity and serialize_xml are arguments (they are modelled elsewhere), given the files. Locale names have no slash. Refuted: in place (outputs among the inputs) the order matters; a source without commits loses the report; one process stops at a locale that many would report."
  },
  {
   "property": "C83",
   "status": "proved",
   "theorems": [
    "C83_text",
    "C83_made",
    "C83_cycle",
    "C83_undefined",
    "C83_written",
    "C83_astral_refuted",
    "C83_noflatten_refuted"
   ],
   "note": "Full for the script; ICU is an argument (text of rules to break iterator, line to positions in UTF-16 units). graphlib's search for a cycle is modelled by its outcome: some node never becomes ready; the theorems say that is when there is a cycle. Refuted: a character past U+FFFF that is not the last moves the break after it; with --noflatten nothing is written."
  },
  {
   "property": "C84",
   "status": "proved",
   "theorems": [
    "C84_annotation",
    "C84_placed",
    "C84_fails",
    "C84_rest",
    "C84_text",
    "C84_text_refuted",
    "C84_white"
   ],
   "note": "Full for parse and _proc_comment; of serialize_xml only the sequence of tags, attributes and texts. Refuted: text after a comment in an element is lost."
  },
  {
   "property": "C85",
   "status": "proved",
   "theorems": [
    "C85_paths",
    "C85_counts",
    "C85_independent",
    "C85_rows",
    "C85_english",
    "C85_layout_refuted",
    "C85_level_refuted",
    "C85_calendar_refuted",
    "C85_names",
    "C85_variables",
    "C85_targets"
   ],
   "note": "Full for the script with one process and, through independence, for many; regular expressions are a function of expression and string and always compile; percentages are exact fractions; reading coverageLevels.xml and supplementalData.xml (lines 131-153) is C98. Refuted: without white space between tags nothing below counts; --level always ends in an error with an empty table; a territory with one calendar makes expressions with its calendars an error."
  },
  {
   "property": "C86",
   "status": "proved",
   "theorems": [
    "C86_files",
    "C86_sorted",
    "C86_listing",
    "C86_missing",
    "C86_locale",
    "C86_no_locale",
    "C86_spelling",
    "C86_priority_refuted"
   ],
   "note": "Full for both functions; names without slash and not empty, locales that begin with a letter; symbolic links and unreadable directories are not modelled. Refuted: the order of the directories is not their priority."
  },
  {
   "property": "C87",
   "status": "proved",
   "theorems": [
    "C87_descendants",
    "C87_source_refuted",
    "C87_nothing_refuted"
   ],
   "note": "Full for find and findall and for the script, with reading, writing, normalising and the table of tags as arguments. What the script would do if the search worked is modelled (fill) and shown on an example, not proved in general."
  },
  {
   "property": "C88",
   "status": "proved",
   "theorems": [
    "C88_report",
    "C88_untyped_refuted",
    "C88_status_refuted",
    "C88_right_refuted",
    "C88_layout",
    "C88_modifiers"
   ],
   "note": "Full for keyboards without the setting to omit (with it nothing is seen, C42_omit). Refuted: a run with 256 failures has status 0; an event without expected text is not typed at all; with the right alt or control key no key of any keyboard has a text."
  },
  {
   "property": "C89",
   "status": "proved",
   "theorems": [
    "C89_in_place",
    "C89_elsewhere",
    "C89_again",
    "C89_stray_refuted",
    "C89_stops",
    "C89_validate_refuted",
    "C89_validate"
   ],
   "note": "Batch behaviour of ldmlnormalize over any tree; reader, writer and validator are parameters (the normal form itself is C05 and others)."
  },
  {
   "property": "C90",
   "status": "proved",
   "theorems": [
    "C90_split",
    "C90_findsep",
    "C90_empty",
    "C90_firstword",
    "C90_blank_refuted",
    "C90_default",
    "C90_default_none",
    "C90_no_text_refuted",
    "C90_choose"
   ],
   "note": "All the functions but doc, replace (regular expressions) and dateformat (identity). How lxml hands arguments over is as documented by lxml."
  },
  {
   "property": "C91",
   "status": "proved",
   "theorems": [
    "C91_shown",
    "C91_read_back",
    "C91_pua",
    "C91_pua_refuted",
    "C91_mark_after_escape_refuted",
    "C91_vs",
    "C91_numbers"
   ],
   "note": "Full for the code as it is; two sub-claims are refuted. C91_read_back instantiates C01 with the actual escape decision."
  },
  {
   "property": "C92",
   "status": "proved",
   "theorems": [
    "C92_lines",
    "C92_patched",
    "C92_last_line_refuted",
    "C92_twice_refuted",
    "C92_same_file_refuted",
    "C92_missing_refuted"
   ],
   "note": "The whole script. The order of opening decides what happens with equal or missing files."
  },
  {
   "property": "C93",
   "status": "proved",
   "theorems": [
    "C93_no_dictionary_refuted",
    "C93_count_refuted",
    "C93_empty",
    "C93_affixes_refuted",
    "C93_classes_refuted"
   ],
   "note": "The intended property is false for every input; the theorems show it. Aff.parse fails at its first statement, what follows it is not modelled."
  },
  {
   "property": "C94",
   "status": "proved",
   "theorems": [
    "C94_dots_refuted",
    "C94_dots_nothing",
    "C94_all_or_nothing",
    "C94_written",
    "C94_screen_refuted"
   ],
   "note": "The script, over the reader, minimiser and writer of tailorings as arguments (they are modelled for C08 to C10 and C60 to C62)."
  },
  {
   "property": "C95",
   "status": "proved",
   "theorems": [
    "C95_only_output",
    "C95_merged",
    "C95_generation_refuted",
    "C95_git_refuted",
    "C95_screen_refuted",
    "C95_verbose_refuted",
    "C95_missing_refuted",
    "C95_no_error"
   ],
   "note": "The whole script over the library functions as arguments; merging itself is C14, C15 and others."
  },
  {
   "property": "C96",
   "status": "proved",
   "theorems": [
    "C96_same_clusters",
    "C96_counted",
    "C96_end_refuted",
    "C96_empty_refuted",
    "C96_any"
   ],
   "note": "Full: C96_any gives the exact counts for any text, properties of characters and given exemplars, by the cut of the text into pieces of C39; C96_counted is the case of single characters."
  },
  {
   "property": "C97",
   "status": "proved",
   "theorems": [
    "C97_class",
    "C97_string",
    "C97_backslash_u_refuted",
    "C97_backslash_bracket_refuted",
    "C97_space_refuted",
    "C97_braced_backslash_refuted",
    "C97_no_code_point"
   ],
   "note": "Classes with range, union, intersection or difference operators, and nested classes, are outside C97_class (see C02). A piece for a backslash directly before one for u, U, x or ] is excluded, and refuted."
  },
  {
   "property": "C98",
   "status": "proved",
   "theorems": [
    "C98_currencies",
    "C98_year_refuted",
    "C98_calendars",
    "C98_variables",
    "C98_levels",
    "C98_locales",
    "C98_given",
    "C98_no_date_refuted"
   ],
   "note": "Full for these lines; the documents are the lists of elements that the searches find. int() of something other than decimal digits is an error in the model."
  },
  {
   "property": "C99",
   "status": "proved",
   "theorems": [
    "C99_notes",
    "C99_same_change_refuted",
    "C99_one_sided_refuted",
    "C99_comment_read_back",
    "C99_comment_refuted",
    "C99_note_writable",
    "C99_comments_read_back",
    "C99_comments_stable",
    "C99_comment_moves_refuted",
    "C99_written_around"
   ],
   "note": "Full without drafts and with all three documents. Siblings have different keys and the content hash determines the key, as in C36. Carriage returns in comments are not considered."
  }
 ]
}
