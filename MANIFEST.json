{"claims": [
{"property": "C01", "status": "proved", "theorems": ["C01_eq_is_semantic"], "note": "Total and equivalent to equality of instances, values and user order on valid trees."},
{"property": "C02", "status": "proved", "theorems": ["C02_le_is_containment", "C02_le_partial_order"], "note": ""},
{"property": "C03", "status": "proved", "theorems": ["C03_operators_agree", "C03_eq_ne"], "note": ""},
{"property": "C04", "status": "proved", "theorems": ["C04_bool", "C04_bool_returns"], "note": ""},
{"property": "C05", "status": "partial", "theorems": ["C05_round_trip_partial", "C05_exactly", "C05_landing", "C05_round_trip_refuted", "C05_unnameable_refuted"], "note": "The statement is false in general. C05_exactly says for which pairs it holds, as an equivalence: exactly those whose moved user-ordered entries end in place when the moves are replayed one by one (MoveSpec.v) and that switch no case, for configs that use one case of each choice, whose user-ordered entries can be named in an attribute, and for all options that do not replace. C05_landing says what the sum is for all other such pairs, and for all options that keep the root (C06_exactly is the equivalence for them). Refuted for each of the three otherwise. Not covered by the equivalence: entries that cannot be named, for which the delta raises (C05_unnameable_refuted shows one)."},
{"property": "C06", "status": "partial", "theorems": ["C06_every_preference_partial", "C06_exactly", "C06_root_replace_refuted", "C06_root_sum", "C06_all_options"], "note": "The statement is false in general. C06_all_options says for every choice of options when the destination is reached, as an equivalence: where the operation replace is not put on the root, exactly if at the nodes that are not set as wholes the moves end in place and no choice changes its case; where it is put on the root (preferred_replace='replace' with a differing leaf-list directly below the top), exactly if the destination extends the source, since the operation is ignored there. Conditions on names and cases as in C05_exactly."},
{"property": "C07", "status": "partial", "theorems": ["C07_replace_types_partial", "C07_exactly", "C07_replace_top_partial", "C07_switch_refuted", "C07_marks_ignored"], "note": "The statement is false in general. C07_exactly says at which depths and for which pairs the destination is reached, as an equivalence; same restrictions as C05 on names and cases. C07_marks_ignored: the marks of 'minimum-replace' have no effect on the sum, for all inputs."},
{"property": "C08", "status": "partial", "theorems": ["C08_undo_partial", "C08_exactly", "C08_undo_refuted", "C08_one_way_refuted", "C08_options_lost"], "note": "The statement is false in general. C08_exactly says for which pairs it holds, as an equivalence and for all options of the delta: exactly those whose moves of the way back end in place and that switch no case (with the conditions on names and cases of C05_exactly). C08_one_way_refuted: the way back can fail where the way there does not."},
{"property": "C09", "status": "partial", "theorems": ["C09_equal_configs_partial", "C09_no_node", "C09_unnameable_refuted", "C09_no_text_refuted", "C09_bool"], "note": "All options. The first half is proved for all configs. The second half is proved if user-ordered entries can be named in an attribute, and refuted otherwise."},
{"property": "C10", "status": "partial", "theorems": ["C10_user_order_partial", "C10_whole", "C10_exactly", "C10_one_cut", "C10_replay", "C10_user_order_refuted", "C10_swap_append_refuted"], "note": "The statement is false in general. C10_exactly: for all pairs, and all options that keep the root, the entries of the destination are in the order to which replaying the moves one by one leads (before defaults are removed), at all nodes that the delta does not set as wholes; C10_whole: those that it does are in the order of the destination. Replaying leads to the order of the destination for all sequences that keep their order or that are the source with one cut (one entry moved anywhere, a block moved, a swap). Refuted for a reversal of three entries and for a swap together with an appended entry."},
{"property": "C100", "status": "partial", "theorems": ["C100_paths_partial", "C100_unscanned_refuted", "C100_other_refuted"], "note": "Proved for scanned devices whose prefixes differ (see C39). Refuted: before scan_models a reply with a namespace other than the built-in ones makes execute raise ValueError; answers of other kinds, as in asynchronous mode, get no namespaces."},
{"property": "C11", "status": "partial", "theorems": ["C11_case_switch_refuted", "C11_stays_exactly", "C11_no_switch_reached"], "note": "The statement is false: nodes of the old case stay. C11_stays_exactly says for all pairs, and all options that keep the root, which nodes stay, as an equivalence; C11_no_switch_reached that no pair that switches a case reaches its destination (options that do not replace; C06_exactly for the others)."},
{"property": "C12", "status": "partial", "theorems": ["C12_merge", "C12_config_partial", "C12_leaf_list_refuted", "C12_order", "C12_absorbs"], "note": "The tree-level merge law is proved in full. For Config + Config it is exact when no leaf-list has defaults; otherwise the sum is the union after default removal, and C12_leaf_list_refuted shows that this may lose entries. C12_order gives the order of the merged entries; C12_absorbs says when a + b is b."},
{"property": "C13", "status": "partial", "theorems": ["C13_errors", "C13_never_succeeds", "C13_effect", "C13_replace", "C13_remove_missing", "C13_unknown_insert_refuted", "C13_other_type_refuted"], "note": "Proved at every visited position, for edits with leaf, leaf-list, container and list nodes and known insert values. Outside these the two refutations show that nodes disappear without an error."},
{"property": "C14", "status": "partial", "theorems": ["C14_add_rejects_ambiguous", "C14_sub_rejects_ambiguous_partial", "C14_compare_rejects_ambiguous", "C14_never_equal", "C14_sub_rejects_ambiguous_refuted"], "note": "Refuted for subtraction with preferred_replace='replace' when a common leaf-list differs."},
{"property": "C15", "status": "partial", "theorems": ["C15_operations", "C15_delta_total"], "note": "The claim about delete, remove and create is proved for all configs and options. The consequence that a server accepts every operation is C16, which is refuted for nested choices."},
{"property": "C16", "status": "partial", "theorems": ["C16_server_reaches_partial", "C16_server_reaches_remove_partial", "C16_nested_choice_refuted", "C16_replace_type_refuted", "C16_root_replace_refuted"], "note": "Proved for all options, reordered user-ordered entries and case switches included, for orderable configs with RootKept. With preferred_delete='delete' case switches in nested choices and with diff_type='replace' are excluded: there the statement is false (an operation 'delete' for a node the server has removed with its case), as it is for preferred_replace='replace' with differing top-level leaf-lists."},
{"property": "C17", "status": "proved", "theorems": ["C17_trim_idempotent", "C17_config_of_config"], "note": "All trees."},
{"property": "C18", "status": "partial", "theorems": ["C18_trim_partial", "C18_trim_returns", "C18_keeps", "C18_keys_stay", "C18_exact", "C18_key_default_refuted"], "note": "C18_exact, for all schemas and trees: the result is the only tree that is the argument without the nodes that say nothing beyond the defaults. What this means for the data is proved for schemas whose key leaves have no default; with such a default the statement is refuted, since the key is removed with it."},
{"property": "C19", "status": "partial", "theorems": ["C19_status", "C19_keys_partial", "C19_attributes_partial", "C19_accepts", "C19_removes", "C19_leaf_attribute_refuted", "C19_obsolete_key_refuted"], "note": "Exact acceptance condition and exact removal for all trees. The full statement is false: attributes of nodes without children are not looked at; a key that is itself obsolete is removed."},
{"property": "C20", "status": "partial", "theorems": ["C20_filter", "C20_nothing_selected", "C20_scalar_refuted"], "note": "For all selections of nodes the outline of the result is exactly the outline of the config restricted to the nodes of the specification. False for expressions with a scalar value: everything is kept."},
{"property": "C21", "status": "proved", "theorems": ["C21_extract", "C21_docstring_refuted"], "note": "Exactly the read-only subtrees are taken out. The doc string's equality of get and get-config is refuted (empty containers stay)."},
{"property": "C22", "status": "proved", "theorems": ["C22_reorder", "C22_total", "C22_two"], "note": "For all draws that are permutations of the range."},
{"property": "C23", "status": "partial", "theorems": ["C23_setter_partial", "C23_constructor_refuted", "C23_seed_without_depth_refuted"], "note": "True of the property setter, false of the constructor."},
{"property": "C24", "status": "proved", "theorems": ["C24_marked", "C24_delta", "C24_loop"], "note": "The queue loop is modelled with references as positions."},
{"property": "C25", "status": "partial", "theorems": ["C25_one_call", "C25_from_exact", "C25_history_partial", "C25_deprecated_refuted", "C25_delta_refuted", "C25_unchecked_refuted", "C25_extract_refuted", "C25_filter_refuted", "C25_answers", "C25_answers_careful_partial", "C25_answers_refuted", "C25_compare"], "note": "Heap model: trees at addresses, objects holding addresses, changes in place. Proved for one call in any state and for all histories of careful calls; false in general: building a Config from a Config changes the latter when it has something to remove. C25_answers: as long as nothing is to be removed from a Config a Config is built from, every answer is that of an API on values (simulation)."},
{"property": "C26", "status": "partial", "theorems": ["C26_self_exact", "C26_self_distinct", "C26_identical_exact", "C26_identical_partial", "C26_identical_refuted", "C26_clients_refuted"], "note": "Exact condition for lists of lines, and at text level for all texts without a line twice under one parent: after sibling sections are split, no line stands before and after another one. False for a, b, a, and for client sections that contain each other."},
{"property": "C27", "status": "proved", "theorems": ["C27_no_diff_same", "C27_texts_refuted"], "note": "For the parsed lists that are compared. For texts it is false: a repeated orderless line of the first text is lost before the comparison."},
{"property": "C28", "status": "proved", "theorems": ["C28_edit_script", "C28_projections", "C28_texts", "C28_same_lines"], "note": "Script relates every level; C28_texts holds for all texts."},
{"property": "C29", "status": "proved", "theorems": ["C29_parse_text", "C29_render", "C29_tidy"], "note": "For trees of ordinary lines (no comment lines, no surrounding whitespace, no 'client ' lines)."},
{"property": "C30", "status": "proved", "theorems": ["C30_no_duplicates", "C30_all_kept", "C30_once", "C30_order"], "note": ""},
{"property": "C31", "status": "partial", "theorems": ["C31_prune_negative_partial", "C31_subset", "C31_sections", "C31_words_refuted"], "note": "Proved with leading characters instead of leading words; with words it is false."},
{"property": "C32", "status": "partial", "theorems": ["C32_prune_positive_partial", "C32_subset", "C32_sections", "C32_words_refuted"], "note": "Proved with leading characters instead of leading words; with words it is false."},
{"property": "C33", "status": "proved", "theorems": ["C33_undo_no", "C33_undo", "C33_do"], "note": ""},
{"property": "C34", "status": "partial", "theorems": ["C34_orderless_moves_partial", "C34_returns", "C34_duplicates_refuted", "C34_which_lines"], "note": "Proved for lists without repeated lines under one parent; with repeated lines one is lost."},
{"property": "C35", "status": "partial", "theorems": ["C35_orderless", "C35_no_difference_exact", "C35_no_difference_partial", "C35_crossing_refuted"], "note": "Proved where lines in different order are both orderless, at all levels, with the exact condition on sibling sections; false if an orderless line crosses another one."},
{"property": "C36", "status": "proved", "theorems": ["C36_all_kept", "C36_returns", "C36_split", "C36_untouched", "C36_full_split_refuted", "C36_which_lines"], "note": "Nothing is lost. Finding: siblings moved up are not split again."},
{"property": "C37", "status": "partial", "theorems": ["C37_there_and_back_partial", "C37_back_and_there_partial", "C37_both_succeed_partial", "C37_split", "C37_notations", "C37_built_in", "C37_builtin_refuted"], "note": "Both directions for every namespace the table names once, any default namespace and all colon notations; in any table two successful conversions return the tag unless a module takes the prefix of a built-in namespace (refuted there). C37_split: exactly how any text splits; C37_notations, C37_built_in: exactly what each notation writes."},
{"property": "C38", "status": "proved", "theorems": ["C38_exact", "C38_refuses"], "note": ""},
{"property": "C39", "status": "partial", "theorems": ["C39_own_prefix_partial", "C39_same_prefix_refuted", "C39_builtin_refuted", "C39_numbered_refuted"], "note": "True if prefixes identify namespaces and none looks like ns00; otherwise a namespace of the reply can be missing from the map."},
{"property": "C40", "status": "proved", "theorems": ["C40_same", "C40_merge", "C40_meaningless", "C40_plain", "C40_peers", "C40_keys_refuted"], "note": "For leaves, in tables where names and URLs identify modules. Finding: the key tuples of _pair_children take identityref keys as raw text."},
{"property": "C41", "status": "proved", "theorems": ["C41_cuts", "C41_pieces"], "note": ""},
{"property": "C42", "status": "partial", "theorems": ["C42_found_partial", "C42_pair_at_end_refuted"], "note": "Exact for all texts whose literals do not end in a doubled quote; every literal that does is refused by the code."},
{"property": "C43", "status": "partial", "theorems": ["C43_cache_partial", "C43_answer_partial", "C43_load", "C43_shared_root_refuted"], "note": "Holds for all histories in which no root tag belongs to models of two names. Refuted otherwise: a cached entry of the first model survives."},
{"property": "C44", "status": "partial", "theorems": ["C44_last_scan_partial", "C44_stays", "C44_refuted"], "note": "Refuted as stated: once read, the table is never rebuilt. Holds if nothing read it between the first scan and the last one."},
{"property": "C45", "status": "proved", "theorems": ["C45_empty_iff_equal", "C45_itself", "C45_succeeds"], "note": "For every pair of trees on which the comparison succeeds; it succeeds on all trees with distinct sibling tags and a type on every node."},
{"property": "C46", "status": "partial", "theorems": ["C46_marked_added", "C46_marked_deleted_partial", "C46_marked_modified", "C46_added_partial", "C46_deleted_partial", "C46_modified_partial", "C46_empty_container_refuted", "C46_rpc_refuted", "C46_attribute_refuted", "C46_became_leaf_refuted", "C46_attributes"], "note": "Exact for models of data nodes without empty inner nodes; refuted for added empty containers, rpc nodes, changed container attributes and containers that became leaves."},
{"property": "C47", "status": "proved", "theorems": ["C47_newest", "C47_undated"], "note": "Revisions are dates YYYY-MM-DD. Finding: a module without a revision statement is keyed 'unknown' by pyang and hides every dated revision (C47_undated)."},
{"property": "C48", "status": "partial", "theorems": ["C48_listed_partial", "C48_sound", "C48_order_refuted", "C48_import_refuted", "C48_second_base_refuted"], "note": "False of the code as it is: the first identity derived from a base not met yet is lost, bases without prefix in imported modules are filed under the compiled module, and only the first base statement is read. Proved: identities whose first base was met earlier are listed, and everything listed is derived."},
{"property": "C49", "status": "partial", "theorems": ["C49_kept_partial", "C49_one_reading", "C49_refuted"], "note": "False for a name without prefix after the prefix of another module. Proved for all other paths without predicates; the text has one reading."},
{"property": "C50", "status": "proved", "theorems": ["C50_ends", "C50_returns", "C50_served", "C50_final"], "note": "Any number of workers, schedule, failures and dependency graph with finitely many names. Assumes that each single request to the device ends. All workers are started after the queue is filled, as in the code."},
{"property": "C51", "status": "proved", "theorems": ["C51_closed", "C51_only", "C51_exact"], "note": "Reachability through the modules that were fetched and parsed. Nothing else is requested (C51_only); for a device that answers the same every time the set of requests does not depend on the schedule (C51_exact)."},
{"property": "C52", "status": "partial", "theorems": ["C52_refuted", "C52_workers_partial"], "note": "False with two workers (check-then-act between the set difference and the update). Proved: at most once per worker, hence at most once with one worker and at most twice in the code."},
{"property": "C53", "status": "partial", "theorems": ["C53_refuted", "C53_ends", "C53_returns_partial", "C53_once"], "note": "False: one file whose reading raises makes join wait for ever under every schedule. Proved: the readers stop, and join returns if no file raises. No file is read more often than it is listed."},
{"property": "C54", "status": "partial", "theorems": ["C54_changed_back_refuted", "C54_force_refuted", "C54_same_device_partial", "C54_first_partial"], "note": "False: the file of capabilities need not be removed first. Proved for check scans of an unchanging device and for walks that start with the file of capabilities."},
{"property": "C55", "status": "partial", "theorems": ["C55_refuted", "C55_retried_partial"], "note": "False for every download: the file of capabilities is written whatever failed. Proved: forced scans and scans after a change of capabilities request every module."},
{"property": "C56", "status": "partial", "theorems": ["C56_copied_partial", "C56_comment_refuted"], "note": "Proved for every element without comments. An element with a comment anywhere raises TypeError."},
{"property": "C57", "status": "proved", "theorems": ["C57_no_markers", "C57_config", "C57_delta"], "note": "For all trees, without hypotheses: attributes of the result were in the datastore before; none at all for configs."},
{"property": "C58", "status": "proved", "theorems": ["C58_keys"], "note": "All configs and options."},
{"property": "C59", "status": "proved", "theorems": ["C59_position", "C59_untouched"], "note": "At any depth; edits with one entry of the list in question at that place, known insert values."},
{"property": "C60", "status": "partial", "theorems": ["C60_added_partial", "C60_section_partial", "C60_removed_partial", "C60_added_below_partial", "C60_section_below_partial", "C60_removed_below_partial", "C60_sign_refuted", "C60_added_refuted", "C60_overwritable"], "note": "At all levels of the diff, for lines without special rule; below kept sections for texts without words that begin with a sign, where it is false. False for two address lines."},
{"property": "C61", "status": "proved", "theorems": ["C61_never_raises", "C61_deletions"], "note": ""},
{"property": "C62", "status": "proved", "theorems": ["C62_printed"], "note": ""},
{"property": "C63", "status": "partial", "theorems": ["C63_no_sequence_partial", "C63_kept_partial", "C63_same_sum_partial", "C63_reordered_delta_refuted", "C63_reordered_delta_fails_refuted"], "note": "False in general: user-ordered entries are placed relative to entries that come later in the reordered delta. Proved for every draw at depths where no node can have user-ordered children, and at all depths for draws that keep the user-ordered entries of each node in their order (for the pairs and options of C06; the sum is that of the delta in its own order for all pairs)."},
{"property": "C64", "status": "partial", "theorems": ["C64_kept_partial", "C64_refused", "C64_merge_partial", "C64_same_partial", "C64_one_meaning", "C64_dot_refuted", "C64_position_refuted", "C64_twice_refuted", "C64_equals", "C64_space_refuted", "C64_close_refuted", "C64_open_refuted", "C64_late_partial", "C64_late", "C64_differ_refuted", "C64_self_refuted"], "note": "Exact for paths of any length whose names have no dots, with key and leaf-list predicates and literals that do not end in a doubled quote, without blanks in predicates. Findings: names with dots and positions are rewritten to another text, and a value that ends in an apostrophe is rewritten to a literal that the code refuses when it reads it again. Blanks, which the grammar allows: between the name of a key and the equals sign they stay and do no harm (C64_late_partial), but make two values differ that denote one path (C64_differ_refuted); behind the dot of a leaf-list predicate they make it a name (C64_self_refuted); after an equals sign they are refused (for all such paths, C64_space_refuted), after an opening bracket they split the prefix from the name, and before a closing bracket the step keeps its old prefix, which may denote another path (C64_open_refuted, C64_close_refuted)."},
{"property": "C65", "status": "partial", "theorems": ["C65_found_partial", "C65_choice_refuted"], "note": "Refuted for data nodes in a choice at top level: Model.roots lists the choice instead. Holds for models without such a choice."},
{"property": "C66", "status": "partial", "theorems": ["C66_selects_partial", "C66_selects_all_partial", "C66_namespaces", "C66_schema_paths_differ", "C66_ytool_paths_differ", "C66_quote_refuted", "C66_empty_refuted", "C66_ytool_refuted"], "note": "Proved for all positions when the values on the way are not empty and have no quotes; otherwise the path is wrong (refuted). The YTOOL notation differs from its documentation (refuted)."},
{"property": "C67", "status": "partial", "theorems": ["C67_schema_node", "C67_schema_node_returns", "C67_config_node_partial", "C67_in_list_refuted", "C67_in_choice_refuted", "C67_absolute"], "note": "Proved for all schema nodes and for config nodes below containers. Config nodes inside list entries never have a statement found (proved for all), nor those inside choices."},
{"property": "C68", "status": "partial", "theorems": ["C68_mirrors_partial", "C68_compiles", "C68_action_refuted", "C68_key_lines_refuted", "C68_extension_raises", "C68_annotations", "C68_data", "C68_attributes", "C68_access"], "note": "proved for modules without nested actions and notifications and for key arguments separated by blanks; refuted for input of a YANG 1.1 action (not write) and for keys separated by line breaks (no keys found); an extension statement as a node raises TypeError C68_attributes: for every module that compiles, exactly which attributes besides access every node has. C68_access: below data nodes access follows config alone, for all modules."},
{"property": "C69", "status": "partial", "theorems": ["C69_url", "C69_to_prefix", "C69_to_url", "C69_back_partial", "C69_dot_refuted", "C69_twice_refuted", "C69_unknown"], "note": "The way back needs a prefix without a dot, since the prefix is an unescaped regular expression; two modules with the same prefix are refuted. Unknown prefixes and URLs raise KeyError (C69_unknown)."},
{"property": "C70", "status": "partial", "theorems": ["C70_page", "C70_label", "C70_joins", "C70_read_partial", "C70_prints", "C70_compiled_prints", "C70_dot_refuted", "C70_compare_prints", "C70_compare_page", "C70_tail"], "note": "Page and joins hold for all trees without a top node of type other. Reading back needs names and texts without the characters of the marks and a prefix without a dot. C70_tail says what follows a name in terms of the node's attributes."},
{"property": "C71", "status": "partial", "theorems": ["C71_sound", "C71_complete", "C71_symmetric", "C71_same_device", "C71_guarded", "C71_schema", "C71_compare", "C71_config", "C71_round_trip_partial", "C71_eq_unchecked_refuted", "C71_keys_refuted"], "note": "Missing: the round trip for pairs that reorder user-ordered entries or switch a case (false, see C05 and C11). Findings: comparisons are made without the check, so == of configs of incompatible devices is not symmetric; keys are resolved by local name, so the check does not see a change of keys when two children of a list share a local name."},
{"property": "C72", "status": "partial", "theorems": ["C72_get", "C72_get_config", "C72_module", "C72_edit", "C72_name", "C72_edit_sent", "C72_positional_target_refuted", "C72_order_refuted", "C72_format_refuted", "C72_notification_refuted", "C72_choice_refuted", "C72_binds", "C72_passes", "C72_carries", "C72_keyword_config_refuted"], "note": "Filters, sources, targets and options are proved. Refuted: a Config given by keyword is passed on as it is; a target given by position on a device without candidate fails; the options are sent in another order than RFC 6241; an unknown format drops the config; the filter of get names notifications; a choice at the top of a module is asked for instead of its data. The calls of ncclient and the copy of the reply's namespaces are not modelled."},
{"property": "C73", "status": "partial", "theorems": ["C73_schemas", "C73_order", "C73_kept", "C73_library_refuted", "C73_cut_refuted", "C73_twice_refuted", "C73_caps_sound", "C73_replies", "C73_nameless_refuted"], "note": "Order of the ways, completeness, sorting and caching are proved. Refuted: a conformant YANG library reply gives an empty list; names with '_' or '.' are cut; a model in two versions is listed twice. Every reply is covered (C73_replies): with several identifiers of which one has no text the next way is tried; an only one without text gives the list [None] (C73_nameless_refuted)."},
{"property": "C74", "status": "proved", "theorems": ["C74_one_entry", "C74_imports", "C74_depends", "C74_required", "C74_inverse", "C74_namespaces", "C74_roots", "C74_update", "C74_include_refuted", "C74_records"], "note": "Proved for all sequences of statements. Refuted part: an included submodule is not among the imports nor in the set that compile loads itself, though its includer is among its depends. C74_records: exactly what every entry of the record has."},
{"property": "C75", "status": "partial", "theorems": ["C75_threads", "C75_ends", "C75_order", "C75_lost_refuted", "C75_dies_refuted", "C75_twice_refuted"], "note": "Proved for the start of download_all (tree made before) with distinct names. Refuted for load_context: it starts with no tree, two threads may make one each and entries are lost; files with the same module name may give two nodes or an exception that ends a worker before task_done, so join never returns."},
{"property": "C76", "status": "partial", "theorems": ["C76_finds_partial", "C76_written", "C76_read", "C76_exact", "C76_error", "C76_simplified", "C76_refuted"], "note": "Proved if the prefix chosen at each key node stands for the same namespace at the entry that carries the attribute (for instance if the namespace is declared above the list); this condition is exact per name. Refuted otherwise: two entries of one list that declare the namespace in different ways give SyntaxError or ConfigDeltaError. Values with a single quote are C09."},
{"property": "C77", "status": "partial", "theorems": ["C77_marks", "C77_ignored", "C77_sum", "C77_round_trip_partial", "C77_no_operation", "C77_read_refuted"], "note": "Which nodes are marked and the errors are proved in full. The sum is proved for the pairs of C06. Nothing is replaced: the attribute 'operation' has no namespace, so it is no NETCONF operation (C77_no_operation) and changes no sum (C77_ignored). Were it read as one, the sum would be wrong: the minimal delta lacks what the configs have in common and contains nodes to be deleted (C77_read_refuted)."},
{"property": "C78", "status": "partial", "theorems": ["C78_sum_partial", "C78_undo_partial", "C78_one_device", "C78_negation", "C78_sum_kinds_partial", "C78_difference_kinds", "C78_delta_sum_refuted", "C78_compare", "C78_asks", "C78_unchecked_refuted", "C78_options", "C78_arguments", "C78_assigned", "C78_type_refuted", "C78_other_type", "C78_delta_argument", "C78_delta_leads_partial", "C78_bare_refuted", "C78_bare"], "note": "The laws are proved for two devices with different schemas, for the pairs of configs of C05. Refuted: delta + delta and delta + element give None (C78_delta_sum_refuted); delta + config is not checked for compatibility (C78_unchecked_refuted); an unknown diff_type is taken and means 'minimum' (C78_type_refuted, C78_other_type); an element that is no envelope is lost without a word (C78_bare_refuted, C78_bare). -d loses the options of d."},
{"property": "C79", "status": "partial", "theorems": ["C79_values_partial", "C79_leaf_partial", "C79_leafref_partial", "C79_restricted", "C79_restricted_refuted", "C79_bar_refuted"], "note": "Proved for all types without restricted typedefs and without names that contain a bar, relative to what C48 says of identities. Refuted: a type that keeps some enums of a typedef gets no values at all (C79_restricted, C79_restricted_refuted); an enum named a|b is read as two (C79_bar_refuted)."},
{"property": "C80", "status": "partial", "theorems": ["C80_history_partial", "C80_alone_partial", "C80_again", "C80_identities_refuted", "C80_edit_refuted", "C80_dependencies_refuted", "C80_only_files"], "note": "Proved for contexts without identityrefs in which every module referred to is loaded with a namespace, for all histories without changes by hand; and, with identities too and for every context, for all histories in which every call is by a compiler of its own (C80_alone_partial); the order of the required modules is left open because Python lists a set. Refuted: with identities a compiler that compiled another module before lists values twice (C80_identities_refuted); YANG files changed by hand are not read again (C80_edit_refuted); a module of the name dependencies is answered with the record of dependencies (C80_dependencies_refuted)."},
{"property": "C81", "status": "partial", "theorems": ["C81_grammar", "C81_unambiguous", "C81_ends", "C81_places_partial", "C81_places_refuted", "C81_version", "C81_comments_refuted", "C81_label", "C81_label_refuted"], "note": "The grammar, its unambiguity and the version are proved in full, the places for dropped comments (the package keeps none). Refuted for kept comments: a comment may end before it begins (C81_places_refuted); a module behind two comments is refused (C81_comments_refuted). The label of a position cuts the file name of the innermost position only (C81_label, C81_label_refuted)."},
{"property": "C82", "status": "partial", "theorems": ["C82_sorted", "C82_pruned", "C82_read", "C82_undated_refuted", "C82_reset"], "note": "Proved with the greatest revision as texts, which is the latest for dates (C47). Refuted: a module without a revision statement ('unknown') is pruned and read instead of a dated one."},
{"property": "C83", "status": "partial", "theorems": ["C83_page_partial", "C83_break_refuted", "C83_first_refuted"], "note": "Exact for texts without line breaks. Refuted with line breaks in values; only the first node found is shown."},
{"property": "C84", "status": "partial", "theorems": ["C84_alike", "C84_compare", "C84_new", "C84_edit", "C84_sum", "C84_apply", "C84_delta", "C84_delta_refuted", "C84_step", "C84_rollback", "C84_replay"], "note": "Proved for comparisons, building configs, sums, edits, deltas applied and deltas computed, rollback and replay. False for deltas whose destination has nodes of two cases of one choice: the order in which these are written decides which nodes of the source are deleted (C84_delta_refuted). All other destinations are covered, for all options."},
{"property": "C85", "status": "partial", "theorems": ["C85_forth_partial", "C85_back_partial", "C85_one_reading", "C85_names_refuted", "C85_addresses_refuted", "C85_secondary_refuted", "C85_negated_refuted"], "note": "Proved for configs of ordinary, distinct and unsigned lines, negated lines included, and every device that does, at each place of the diff, what the code expects (Obeys in RunDevSpec.v). Refuted without: removing two sections where one name begins the other, adding two addresses, removing a secondary address, removing \"no ip address\" after an address was added."},
{"property": "C86", "status": "partial", "theorems": ["C86_equal", "C86_never_raises", "C86_same_partial", "C86_empty", "C86_section_refuted", "C86_reverse_refuted"], "note": "The exact condition is proved (C86_equal). That equal diffs have the same CLI holds without empty sections, and is refuted with one (a line with only a skipped line below it prints as a line without any). The reverse CLIs of equal diffs can differ (C86_reverse_refuted)."},
{"property": "C87", "status": "partial", "theorems": ["C87_answers_partial", "C87_plain", "C87_meaning", "C87_text_refuted", "C87_recent"], "note": "Proved for all sequences of comparisons for trees whose texts stay (attributes may change), with any references that can be converted, and also with all exceptions if there are none. This also justifies the simplification of CalcM.v that peers are looked up by identity. Refuted if a text is changed in place between two questions: the old answer is given again. The caches inside sub and add are not in these theorems (both work on copies of the trees and read a text before they write it)."},
{"property": "C88", "status": "partial", "theorems": ["C88_equal_partial", "C88_prefixes_partial", "C88_form", "C88_keys_refuted"], "note": "Proved for schemas in which no key of a list is a reference, for values that refer to something and configs that are valid once references are in default form. Identityref values say the same if they refer to one identity, instance-identifiers if they denote one path (for the paths that C64 converts rightly). Refuted for lists keyed by an identityref: _pair_children takes the raw texts of keys, so the same entry with another prefix is no peer."},
{"property": "C89", "status": "partial", "theorems": ["C89_text", "C89_identity", "C89_instance_partial", "C89_instance_refuted"], "note": "Proved in full for identityrefs. For instance-identifiers (without dots in names, positions or literals that end in a doubled quote, as in C64) the text can be read exactly if the path has no name of the module of its own node: that module is in the dict under None, so its name, which the text uses as a prefix, is not declared (C89_instance_refuted). C89_text: the dict changes no text, which justifies RefM.v."},
{"property": "C90", "status": "partial", "theorems": ["C90_one_partial", "C90_exact", "C90_texts", "C90_lost_refuted"], "note": "Proved for paths of one step. What any text becomes is exactly known (C90_exact, C90_texts): each delimiter is put before the word that it follows. So every path with more than one step or with a predicate becomes a text that denotes nothing (C90_lost_refuted, for all such paths). Nothing calls the method."},
{"property": "C91", "status": "partial", "theorems": ["C91_found", "C91_times", "C91_once_partial", "C91_once_refuted", "C91_attribute_refuted"], "note": "Which nodes are found is proved in full, and how often: once per way to reach the node (C91_times). Once and in the order of the document if no tag but the last is found inside itself; refuted otherwise. add_attribute_by_tags passes self twice, so it raises TypeError whatever it is given (C91_attribute_refuted). Tags with wildcards, paths or predicates are not modelled."},
{"property": "C92", "status": "partial", "theorems": ["C92_in_use", "C92_order", "C92_marks", "C92_containers", "C92_default_refuted"], "note": "The list, its order, the marks of set_create_operation and that no delta creates a non-presence container are proved in full. Refuted: a leaf with a default in use is marked create when its container is in the source already (C92_default_refuted), as node_sub calls set_create_operation on the leaf itself."},
{"property": "C93", "status": "partial", "theorems": ["C93_marks", "C93_all", "C93_refuted"], "note": "Proved for diff_type minimum and replace with all other options (C93_marks). Refuted for minimum-replace: the marks are attributes named operation without namespace (C93_refuted). C93_all, for all options: this attribute, last, on exactly the nodes at the depth asked for, is all that minimum-replace adds."},
{"property": "C94", "status": "proved", "theorems": ["C94_only", "C94_new", "C94_gone", "C94_refuted"], "note": "Proved for the options of the quantifier: completeness for all, minimality for preferred_replace=merge and diff_type minimum or minimum-replace. C94_refuted: with the others a delta repeats nodes on which the configs agree."},
{"property": "C95", "status": "proved", "theorems": ["C95_or", "C95_delta", "C95_sum", "C95_refuted_delta", "C95_refuted_sum"], "note": "Proved as stated. Findings beside it: equal anyxml nodes raise ModelError, so a config need not have a delta with itself (C95_refuted_delta); sums ignore anyxml nodes to add or delete without notice, so a delta need not lead to its destination (C95_refuted_sum). For opaque nodes with children C95_or and C95_sum hold."},
{"property": "C96", "status": "proved", "theorems": ["C96_compare", "C96_built", "C96_delta", "C96_sum", "C96_refs", "C96_round_trip", "C96_lists_refuted", "C96_named_refuted"], "note": "Proved as stated. Tails are dropped when a Config is built (netconf.py:37-49), texts are not. The claim does not extend to list entries (C96_lists_refuted: two configs that differ only in white space inside a list entry are not equal, and the delta between them does not lead from one to the other; replies of devices are not parsed with remove_blank_text) nor to edits that name an entry by the text of a container (C96_named_refuted)."},
{"property": "C97", "status": "proved", "theorems": ["C97_again", "C97_refused", "C97_options", "C97_quote_refuted"], "note": "Proved as stated. The condition on keys is needed (C97_quote_refuted: SyntaxError). Where moved entries keep b - a from leading from a to b, adding it to b is still without effect (C97_case)."},
{"property": "C98", "status": "partial", "theorems": ["C98_name", "C98_missing", "C98_state", "C98_schema_partial", "C98_schema_refuted", "C98_reload_refuted", "C98_augment_refuted", "C98_choice_refuted", "C98_loaded"], "note": "The name told is known exactly for every history (C98_name): that of a model with the root of the node, among several the one whose name was loaded for the first time last; errors in C98_missing, the list of models in C98_loaded. It goes with the schema node if no root belongs to two models (C98_schema_partial), refuted otherwise (C98_schema_refuted). Refuted: a reloaded model does not get its root back (C98_reload_refuted); nodes added by another loaded module are told to belong to the module of the root (C98_augment_refuted); nodes in a choice at top level raise ModelMissing (C98_choice_refuted)."},
{"property": "C99", "status": "partial", "theorems": ["C99_fresh_partial", "C99_again", "C99_width", "C99_stale_refuted"], "note": "Holds for any number of prints while no name changes. For any changes, the width used at a place is exactly that of the parent when it was first asked for without an error. Refuted: after a longer name has been added the old width is used and the type sticks to the name."}
]}
