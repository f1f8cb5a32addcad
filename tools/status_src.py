st("C01", "proved", "C01_heap_is_multiset C01_heap_first_is_least C01_heap_failed_call_changes_nothing")
st("C02", "proved", "C02_heap_iteration C02_heap_queue_sorted C02_heap_iteration_is_queue")
st("C03", "proved", "C03_iterator_invalidated_iff_mutated")
st("C04", "partial", "C04_heap_slice C04_heap_index_partial C04_heap_index_refuted C04_heap_index_empty_refuted C04_heap_small_negative_index",
   "Proved for every slice, every int >= 0 or <= -10, and -1 on a non-empty heap. False of the code for -9..-2 (heap.py:146-148 takes nlargest(-i+1)[i], always the second largest) and for -1 on an empty heap (ValueError); both refuted with witnesses, and the actual result characterised.")
st("C05", "proved", "C05_heap_eq_is_multiset_eq C05_heap_objects_independent")
st("C06", "proved", "C06_yield_in_order C06_calls_return_their_effect", "Thread-level LTS at statement granularity; times/priorities are integers.")
st("C07", "proved", "C07_never_early")
st("C08", "proved", "C08_conservation C08_queue_and_bool C06_calls_return_their_effect")
st("C09", "proved", "C09_cancel_exact C06_calls_return_their_effect")
st("C10", "proved", "C10_non_blocking_drain C10_stop_iteration C10_non_blocking_terminates")
st("C11", "partial", "C11_blocked_thread_is_woken_partial C11_lost_wakeup_refuted C11_sleep_blocks C11_wake_flag C11_due_event_is_returned",
   "Proved for a thread already inside event.wait. False of the code in the window between releasing the lock and entering wait: wake() is event.set(); event.clear(), so the wake-up is lost and the thread sleeps to the old deadline (refuted with a concrete interleaving).")
st("C12", "proved", "C12_lock_discipline C12_lock_is_released")
st("C13", "proved", "C13_ready_only_after_predecessors")
st("C14", "proved", "C14_ready_at_most_once")
st("C15", "proved", "C15_static_order_is_topological C15_loop_makes_progress C15_bool_means_work_left")
st("C16", "proved", "C16_cycle_sound_and_complete C16_cycle_errors C16_ready_cycle_error C16_static_order_cycle_error C20_cycle_exact", "C20_cycle_exact: cycle() and check_for_cycles() for every history of calls, including failing ones and copies.")
st("C17", "proved", "C17_graph_is_as_declared C17_len C17_add_succeeds C17_remove C20_contents_exact", "C20_contents_exact: the same for every history of calls, including failing ones and copies.")
st("C18", "proved", "C18_conflicts_are_detected")
st("C19", "proved", "C19_views_are_independent",
   "Exact equality of every later result (not just sets), for arbitrary later calls that do not name the view.")
st("C20", "partial", "C20_copy_behaves_until_modified_partial C20_copy_cannot_be_modified_refuted C20_copy_forgets_cycles_refuted C20_contents_exact C20_cycle_exact",
   "False of the code: the copy's default and stock views are registered in the original's view list, and the dirty flag is lost. Proved for acyclic graphs until the next add/remove on either graph. C20_contents_exact, C20_cycle_exact: for every history the contents of original and copy (nodes, dependencies, len, remove, cycle) are independent, except that cycle() on an unmodified copy says None.")
st("C21", "partial", "C21_ready_exactly_partial C21_late_node_is_blocked C21_late_dependency_blocks_refuted",
   "False of the code: the successor's counter is incremented for an already finished predecessor and never decremented. Proved: exact characterisation of what ready() returns, with the late nodes excluded.")
st("C22", "partial", "C22_failed_done_changes_nothing_partial C22_first_argument_bad_partial C22_failed_done_changes_view_refuted C22_duplicate_argument_refuted C22_failed_done_exact",
   "False of the code when an earlier argument has successors, and when a node is named twice. Proved when no argument has successors, and when the first argument is the invalid one. C22_failed_done_exact: what a failing done() has done in general.")
st("C23","proved","C23_protocol C23_transition_sequence","Callbacks and the using program are arbitrary interaction trees over the manager; nesting depth is unbounded (quantified).")
st("C24","proved","C24_illegal_assignment C24_no_nested_transition","")
st("C25","partial","C25_refuted C25_failure_wedges_for_ever C25_partial","The property is false of the code: an exception in on_exit or an observer leaves next set for ever. Proved: that this is permanent for every later program, and that without such an exception legal assignments outside a transition are accepted.")
st("C26","proved","C26_observers","'Same observer' is Python's identity-or-== as used by the cache comparison.")
st("C27","proved","C27_version_total_order","For all objects, from strings or keyword arguments.")
st("C28","partial","C28_equal_hash_refuted C28_equal_hash_refuted_serial C28_equal_hash_refuted_local C28_equal_hash_partial C28_equal_hash_exact","False of the code: hash uses un-normalised fields (None vs 0 epoch/serial, '1' vs '01' local). Proved when epoch and serial are present on both or neither and local versions are spelled the same. Python's hash functions are parameters. C28_equal_hash_exact: for versions made from strings, exactly when equal versions hash equally.")
st("C29","proved","C29_str_round_trip C29_str_of_fields_fails","For versions made from strings (as stated); for keyword construction str() can raise AssertionError (shown).")
st("C30","partial","C30_pep440_order_partial C30_dev_before_alpha_refuted C30_implicit_dev_number_refuted C30_local_case_refuted C30_order_exact","False of the code in three ways, each refuted with a witness; proved with exactly those cases excluded. C30_order_exact: the order (and ==) of all accepted strings is that of PEP 440 with exactly these three changes.")
st("C55","proved","C55_version_accepts C55_characters","")
st("C31","proved","C31_text_preserved","")
st("C32","proved","C32_multisplit_is_the_split C32_split_is_unique C32_no_separator_left","")
st("C33","proved","C33_maxsplit C33_at_most","")
st("C34","proved","C34_merged C34_never_empty_refuted","The documented stronger claim is refuted at the ends.")
st("C35","proved","C35_reverse_is_mirror C35_builtin_table C35_mirror_with_strip_refuted","")
st("C36","partial","C36_multistrip_partial C36_multistrip_refuted C36_multistrip_errors C36_multistrip_exact C36_cuts_unique","False of the code when s ends in a newline that is not a separator ($ also matches before a final newline); proved otherwise. C36_multistrip_exact: the exact result for every string, without that hypothesis.")
st("C37","proved","C37_multipartition C37_multirpartition C37_negative_count","")
st("C38","proved","C38_normalize C38_normalize_general C38_paths_agree C38_normalize_any C38_idempotent C38_errors","")
st("C39","proved","C39_segments C39_text_preserved C39_scanner C39_errors C39_multiline_escape_refuted",
 "For every string, every quotes/escape/multiline_quotes and every start state. C39_scanner: for one-character marks, equality with a character-by-character scanner. The documented escape inside multiline quotes is refuted (C39_multiline_escape_refuted).")
st("C40","partial","C40_delimiter C40_nesting C40_text_preserved_nesting_partial C40_scanner C40_text_preserved_single_partial C40_default C40_text_preserved_refuted C40_nothing_lost C40_text_preserved_partial C40_exact C40_nesting_exact C40_delimiter_errors C40_errors",
 "Proper nesting proved for every accepted mapping. Text preservation is false of the code in general (C40_text_preserved_refuted, a quoting delimiter plus multi-character delimiters); proved for all mappings without quoting delimiters and for all one-character mappings, including the default one. C40_exact: for every mapping, text and state, split_delimiters yields exactly what the scanner of DelimScanSpec.v finds (longest token at each place; the code goes back by the length of the tokens it passed over when it next reads only part of a token). C40_nesting_exact: the simpler rule without quoting delimiters. C40_nothing_lost: for every mapping and every text, no character is ever lost (the input is a subsequence of the output). C40_errors: which texts raise.")
st("C41","proved","C41_lines_of_text C41_lines_of_iterable","")
st("C42","proved","C42_accounted C42_same_lines","For every pipeline without lines_convert_tabs_to_spaces (which is meant to change the text).")
st("C43","partial","C43_column_partial C43_tab_refuted C43_column_exact","C43_column_exact gives the column for every line. As stated it is proved for lines without tabs, and false of the code when a line with tabs is clipped twice or stripped completely (C43_tab_refuted).")
st("C44","partial","C44_exact C44_accepted_is_python C44_text C44_dedent_refuted","Python's rule for dedents is not the code's: dedenting several levels at once raises IndentationError (C44_dedent_refuted). Proved: the exact behaviour, and that every accepted text gets Python's indents.")
st("C57","proved","C57_sort","")
st("C58","proved","C58_filters C58_comment_lines C58_space_marker_refuted C58_whitespace","For comment markers that do not start with whitespace; a single marker that does is never found (C58_space_marker_refuted). The pattern search of lines_grep is a parameter.")
st("C59","proved","C59_comments C59_no_quotes","")
st("C45","partial","C45_wrap C45_errors C45_words_preserved C45_margin_partial C45_margin_refuted C45_two_spaces_refuted","C45_wrap characterises the output completely for all words. The margin claim is false of the code when words contain white space words other than line breaks (C45_margin_refuted), proved otherwise. two_spaces=False has no effect (C45_two_spaces_refuted).")
st("C47","proved","C47_title_case C47_empty","isupper/islower of a character are parameters that exclude each other.")
st("C49","partial","C49_only_case C49_rules_partial C49_rules_refuted C49_rules_exact C49_rules_exact_total C49_idempotent C49_ascii C49_errors C49_default_marks","The documented rules are false of the code after a whole word o, d or a whole word of quote marks (C49_rules_refuted); proved otherwise (C49_rules_partial), and C49_rules_exact says what happens for every text. Only-case-changes and idempotence hold for all texts. c.upper() is a parameter.")
st("C46","proved","C46_read_back C46_ordinal C46_large C46_distinct C46_english_refuted","C46_english_refuted: 10**48 is 'qindecillion', 12th is 'twelveth', and some scales print extra blanks.")
st("C48","proved","C48_combine C48_combine_lengths C48_too_long C48_errors C48_too_long_refuted","Also beyond the property: arrays shorter than s; a single too long array raises ValueError, of several a too long one may go unnoticed (C48_too_long_refuted).")
st("C50","proved","C50_refinement C50_none C50_lifo C50_nested C50_exceptions C50_exceptions_refuted","For wrapped iterators that raise nothing but StopIteration. Other exceptions: C50_exceptions; __next__ swallows them and drops the iterator (C50_exceptions_refuted).")
st("C51","proved","C51_events C51_reset C51_exit","Histories of log/enter/exit/reset with any clock; a failing exit() changes nothing.")
st("C52","partial","C52_time_partial C52_time_refuted C52_negative_refuted C52_lines C52_time_exact C52_negative_exact C52_header","False of the code from one second on: t - seconds is printed for the nanoseconds (C52_time_refuted); proved below one second. C52_time_exact, C52_negative_exact: what is printed for every time.")
st("C53","partial","C53_exact C53_legal_partial C53_legal_refuted C53_unchanged C53_idempotent","False of the code: control characters become '?NN', and '?' is not legal (C53_legal_refuted). Proved: legal exactly when s has no control character but NUL.")
st("C54","proved","C54_unix","")
st("C60","partial","C60_shape C60_negative C60_partition_partial C60_regex C60_anchor_refuted C60_empty_match_refuted C60_exact C60_cuts_unique","Cutting is proved for patterns without anchors that do not match the empty string, in particular for every such regular expression of Regex.v (C60_regex). False otherwise: the text is cut where the text of the match first appears (C60_anchor_refuted); an empty match raises ValueError (C60_empty_match_refuted). C60_exact says exactly what happens for every pattern, with anchors and empty matches: each cut is at the first appearance of the matched text, nothing is lost, ValueError iff one of the matches used is empty.")
st("C61","proved","C61_right_to_left C61_searched C61_regex","The re module is a parameter: sane (a match lies between pos and endpos) and plain (looks only at the text it matches). C61_regex discharges plain for every regular expression of Regex.v without $ that does not match the empty string.")
st("C62","partial","C62_shape C60_negative C62_partition_partial C62_regex C62_anchor_refuted C62_exact C62_cuts_unique","As C60: proved for plain patterns, false for anchored ones. C62_exact: exactly what happens for every pattern.")
st("C63","partial","C61_reverse_search_partial C61_reverse_search_refuted C61_duplicate_refuted C63_reverse_search_exact","False of the code (two refutations); proved when matches that start later end later, e.g. when all have the same length. C63_reverse_search_exact: what is yielded for every pattern without anchors that does not match the empty string.")
st("C64","proved","C64_strip_then_split","")
st("C65","partial","C65_progressive C65_maxsplit_None_refuted C65_no_separators C65_maxsplit_None","Proved for every integer maxsplit >= 0 (-1 is C64). The part about maxsplit=None is false: C65_maxsplit_None_refuted. C65_maxsplit_None: with None, and below -1, PROGRESSIVE is the same as LEFT (RIGHT if reverse).")
st("C66","partial","C66_as_str_split_partial C66_as_str_split_unlimited_partial C66_split_is_unique C66_blank_refuted C66_blank","Proved for every string with a non-space character; false for blank strings (C66_blank_refuted). C66_blank: for every blank string multisplit gives one empty string.")
st("C67","partial","C67_fields C67_round_trip_partial C67_trailing_zero_refuted C67_negative_refuted C67_final_serial_refuted C67_newline_refuted C67_round_trip_exact","Acceptance and fields proved; the round trip is false in four cases (the refuted theorems), and proved outside them; C67_round_trip_exact: it holds if and only if none of the four is the case.")
st("C68","proved","C68_version_info C68_major_minor_micro","")
st("C69","partial","C69_lines C69_fgrep_partial C69_errors C69_empty_text C69_empty_text_refuted","Proved for every non-empty text; false for the empty text: one line too many if the file ends with a line break or is empty (C69_empty_text_refuted; C69_empty_text says exactly what happens).")
st("C70","partial","C70_fgrep C70_part_partial C70_sigma_refuted C70_dotted_refuted","C70_fgrep: exactly the lines whose lowercase contains the lowercase text. That this is what the property says is false in Greek (C70_sigma_refuted) and for I with dot (C70_dotted_refuted), and proved elsewhere (C70_part_partial). The case tables are a parameter with five laws.")
st("C71","partial","C71_grep_partial C71_empty_line_refuted C71_errors C71_grep_exact","Proved for patterns that do not match the empty string; false otherwise: one line too many. C71_grep_exact: exactly what happens for every pattern.")
st("C72","proved","C72_alone C72_guarantee C72_only C72_concurrent C72_among_others C72_race_refuted","With a file at path two concurrent calls can race (C72_race_refuted): stated in the property. Symbolic links and permissions are not modelled.")
st("C73","proved","C73_alone C73_only C73_among_others C73_fails_only_if_removed C73_race_refuted","It can fail if another process removes the file meanwhile (C73_race_refuted): stated in the property.")
st("C74","proved","C74_errors C74_alone C74_concurrent C74_only C74_among_others C74_fails_only_if C74_race_refuted C74_race_fails_refuted","Among processes that make or remove a file at path meanwhile it can empty the file, or fail (the _refuted theorems): stated in the property.")
st("C75","proved","C75_errors C75_pushd C75_no_directory C75_nested C75_made_earlier_refuted C75_reused_refuted","with pushd(...) as documented. False if the object is made before the with statement or used twice (the _refuted theorems), which is not documented.")
st("C76","partial","C76_keeps_text_partial C76_keeps_text_exact C76_keeps_text_refuted","For every s what is kept is a prefix of the text, and all of it with allow_code=False or if a newline follows the last word; false otherwise (C76_keeps_text_refuted). C76_keeps_text_exact: what is lost is the last line if it is code without a newline, and otherwise nothing.")
st("C77","proved","C77_paragraphs","")
st("C78","partial","C78_blocks_partial C78_blocks_refuted C78_blocks_exact","Proved when there is at most one code block and a newline after its last line; false otherwise (C78_blocks_refuted, C76_keeps_text_refuted).  C78_blocks_exact gives the words for every sequence of blank, text and code lines: the newlines after a code block are given again before the next code line (or AssertionError if it directly follows text), and a last code line without newline is lost.")
st("C79","proved","C79_raise","Texts are strings; widths and overflow_before/after are not negative.")
st("C80","partial","C80_columns_partial C80_trailing_spaces_refuted C80_columns_exact","C80_columns_exact: the result for all lines. Proved as stated if trailing whitespace of lines is spaces within the width; false otherwise (C80_trailing_spaces_refuted).")
st("C81","partial","C81_layout_partial C81_overflow_after_refuted C81_layout_exact","C81_layout_exact: the result for all lines. Proved as stated for tidy lines as in C80, with overflow_after cut off at the end of a column (C81_overflow_after_refuted shows the missing empty line).")
st("C82","partial","C82_bound_class_identity_partial C82_other_attributes C82_alias_refuted C82_threads_refuted C82_mutual_names_refuted C82_object_attribute_refuted","Proved for every program that follows the documentation (usage in BicSpec.v) and all single-threaded histories of reads and class statements; false for attributes under another name, threads, mutually named bases and an attribute called object (the _refuted theorems).")
st("C83","proved","C83_method_resolution_order","For programs that follow the documentation (usage in BicSpec.v). Layout conflicts when __bases__ is assigned are not modelled.")
st("C84","partial","C84_init_gets_outer_partial C84_no_init_refuted C84_skipped_init_refuted C84_outer_collected_refuted C84_init_exact","C84_init_exact says which __init__ runs and what it gets for any classes, outer object alive or not (BicSpec2.v). Proved as documented if every class decorated with BoundInnerClass has its own __init__ and the outer object is alive; false otherwise (the _refuted theorems).")
st("C85","partial","C85_get_int_or_float_partial C85_idempotent_partial C85_not_finite_refuted C85_get_int_or_float_exact","C85_get_int_or_float_exact: the result for every object. Proved as documented except for infinities and NaN, where it is false (C85_not_finite_refuted). What int() and float() do with other objects, e.g. strings, is a parameter.")
st("C86","partial","C86_try_and_get_partial C86_overflow_refuted","Proved for every object and default, including that other exceptions escape both; the documented 'False if it can't' is false for OverflowError (C86_overflow_refuted).")
st("C87","partial","C87_timestamp_3339Z_partial C87_float_microseconds_refuted C87_early_year_refuted C87_struct_time_refuted C87_timestamp_3339Z_exact","C87_timestamp_3339Z_exact gives the result for every argument. Proved for years from 1000, and for floats if want_microseconds is given; false otherwise (the _refuted theorems). Floats are taken to be rounded to microseconds by datetime; strftime is that of glibc.")
st("C88","partial","C88_timestamps_sort_partial C88_timestamp_3339Z_sorts_partial C88_mixed_refuted C88_early_year_refuted C88_timestamps_sort_same_length","Proved for any years if the results have the same length (C88_timestamps_sort_same_length), for years from 1000 and timestamps that both have, or both lack, microseconds; false otherwise (the _refuted theorems).")
st("C89","partial","C89_timestamp_human_partial C89_clocks_back_refuted C89_timestamp_human_exact","C89_timestamp_human_exact gives the result for every argument. Proved for years from 1000; the timestamp does not determine the instant (C89_clocks_back_refuted).")
st("C56","partial","C56_rstrip_whitespace C56_strip_whitespace C56_strip_separators_partial C56_strip_is_multistrip C56_strip_exact C56_leading_refuted","Proved for whitespace, and for separators of one character (a newline being one, or no line ending with one: see C36). For any separators the line yielded is right and nothing is lost (C56_strip_is_multistrip), but leading and trailing need not be separators (C56_leading_refuted): C56_strip_exact says what they are.")
st("C90","partial","C90_convert_tabs C90_convert_tabs_no_width C90_after_clipping_refuted","C90_convert_tabs gives the result for every line: tab stops are counted from the start of what is left of it. That is the right column if nothing was clipped at the left; otherwise tab stops are counted from the wrong column (C90_after_clipping_refuted).")
st("C91","proved","C91_well_nested C91_default C91_errors C91_tuples","Strings and delimiters of one type (the str/bytes checks are not modelled).")
st("C92","partial","C92_split_quoted_strings C92_joins_partial C92_final_quote_refuted","The exact behaviour is proved (C92_split_quoted_strings, which includes the RuntimeError); joining gives s unless triple_quotes is true and s ends with a quote mark (C92_final_quote_refuted).")
st("C93","partial","C93_lines_strip_comments_partial C93_comment_with_quote_refuted","Proved, if quote marks are not whitespace, up to a line on which split_quoted_strings fails (C93_comment_with_quote_refuted). The info field 'comment', which the documentation promises, is never set by the code.")
st("C94","partial","C94_result_partial C94_succeeds_partial C94_errors_partial C94_no_str_left_partial C94_nothing_lost_partial C94_ascii C94_bytes_kept_partial C94_nothing_lost_refuted C94_subclass_refuted","Proved for subclasses whose constructor takes the contents; nothing is lost if there are no bytes inside. {'a', b'a'} loses an element (C94_nothing_lost_refuted), a namedtuple inside raises TypeError (C94_subclass_refuted).")
st("C95","proved","C95_whitespace C95_linebreaks C95_bytes_built C95_linebreaks_are_whitespace","For a Python whose bytes.splitlines breaks lines at \\n and \\r only.")
st("C96","proved","C96_multisplit_is_splitlines C96_reversed C96_lines_is_splitlines","Also with reverse=True (C96_reversed).")
st("C97","partial","C97_as_str_split C97_split_is_unique C97_below_minus_one C97_below_minus_one_refuted","Proved for maxsplit >= -1 and None. Below -1 multisplit never splits (C97_below_minus_one), while str.split does (C97_below_minus_one_refuted). (The documentation's str_split passes sep itself as separators, which works only if it has one character.)")
st("C98","proved","C98_as_str_partition","")
st("C99","proved","C99_as_str_split","")
st("C100","proved","C100_accessor C100_only C100_same_name C100_mutual","Provided the state manager's attribute is not itself an accessor and no other accessor or dispatch goes through the new attribute. Descriptors other than properties made by accessor and functions made by dispatch are not modelled, nor is reading a method without calling it.")
st("C101","proved","C101_dispatch C101_only C101_hidden","While self.__dict__ has no entry of that name (C101_hidden: otherwise that is called). The metadata copied by update_wrapper is not modelled.")
st("C102","partial","C102_set_timezone C102_set_twice C102_ensure_timezone C102_ensure_idempotent C102_false_timezone_refuted","Proved for tzinfo objects that are true; one that is false is replaced (C102_false_timezone_refuted).")
st("C103","partial","C103_round_trip_partial C103_default_timezone C103_errors C103_understands","Proved for years from 1000, and for floats if want_microseconds is given (C87 is false otherwise). dateutil.parser.parse is any function that understands RFC 3339.")
st("C104","partial","C104_empty_separator C104_empty_separator_alternating C104_empty_separator_text C104_one_pattern C104_multistrip_errors C104_multistrip C104_multisplit_errors C104_multisplit C104_multipartition C104_iterator_result C104_iterator_refuted C104_empty_iterator_refuted C104_empty_iterator_exact C104_subclass_refuted C104_multisplit_subclass_refuted","The exact conditions for exceptions are proved for every object. An iterator as separators is ignored by multisplit (C104_iterator_refuted, C104_iterator_result); an empty iterator is accepted by multistrip (C104_empty_iterator_refuted); s of a subclass may be returned as it is, against the documentation. Empty strings among the separators are not rejected by multisplit without strip: then the pieces fall apart into their characters (C104_empty_separator).")
st("C105","partial","C105_normalize_errors C105_normalize C105_normalize_separators C105_empty_separators_refuted","Proved exactly; separators='' is accepted if s is empty (C105_empty_separators_refuted).")
st("C106","partial","C106_clip_leading_string C106_clip_trailing_string C106_clip_leading_int C106_clip_trailing_int C106_clip_trailing_nothing C106_history C106_nothing_refuted C106_tab_refuted","Proved for all strings and ints, except that clip_trailing(line, 0) and clip_trailing(line, '') clip the whole line (C106_nothing_refuted), and that the column is wrong when the whole line is clipped after a tab was (C106_tab_refuted; right without tabs).")
st("C107","proved","C107_closed_view_is_dead C107_close_succeeds C107_graph_after_default_closed","")
st("C108","partial","C108_default_delimiters C108_split_quoted_strings C108_split_quoted_strings_only C108_split_delimiters C108_split_delimiters_only C108_iterator_refuted C108_escape_refuted","Proved exactly for all objects. Against the documentation an iterator as quotes is rejected (C108_iterator_refuted); an empty escape of the wrong type is accepted if there are multiline quotes (C108_escape_refuted).")
st("C109","proved","C109_attributes C109_errors C109_copy C109_equality C109_hash C109_interchangeable","close and escape may be any objects, quoting and multiline are bools; that == of the strings given is an equivalence and agrees with hash is a hypothesis.")
st("C110","proved","C110_iterable C110_collection C110_deterministic C110_text C110_strings C110_pairs C110_errors C110_mixed_pairs C110_subclass_in_iterable","Iterators as separators are excluded in C110_text (C104 says what they do). C110_mixed_pairs: a string of two characters among pairs is taken for a pair; C110_subclass_in_iterable: lines of a subclass of str are rejected in an iterable. Exceptions raised by the iterable itself and keyword arguments of lines() are not modelled.")
st("C111","partial","C111_attributes C111_accepts C111_errors C111_equal C111_equivalence C111_match_refuted","Everything proved except that a re.Match object is rejected as match, against the documentation (C111_match_refuted): the code accepts re.Pattern instead.")
st("C112","partial","C112_filter C112_filter_errors C112_strip C112_strip_errors C112_strip_quotes C112_iterable_refuted","The exact conditions are proved (for lines_strip_line_comments without quotes; with quotes of the type of the markers the checks are those of C39). Sets and iterators are rejected (C112_iterable_refuted). Collections among the markers are not modelled.")
st("C113","proved","C113_lines_grep C113_errors C113_wrong_type","pattern.search is any function; compiling the pattern is not modelled.")

st("C114","proved","C114_accepted C114_errors C114_false_default_refuted C114_empty_iterator","The documented default for false values is refuted for everything but None (C114_false_default_refuted), so the statement says None. Instances of subclasses of str are assumed to be equal to the str of the same characters.")
st("C115","proved","C115_contents C115_version C115_conservation C115_sorted_while_nothing_raised C115_repaired C115_failed_append_refuted C115_lost_value_refuted C115_order_refuted C115_iterators_unaffected","The natural stronger properties are refuted: a call that raises changes nothing (C115_failed_append_refuted, C115_lost_value_refuted), and popleft returns the smallest after a failure (C115_order_refuted). heapq is CPython's C implementation (the order in which heapify visits positions is a parameter, except for the agreement with C01, where it is downward); comparisons are assumed not to modify the heap.")
st("C116","proved","C116_history_good C116_conservation C116_lock_released C116_lock_holder_progresses C116_calls C116_regulator_raises C116_no_event_lost C116_async_loses_event_refuted C116_schedule_raises_refuted C116_polling_refuted","Natural stronger properties are refuted: an asynchronous exception between popleft and return loses an event (C116_async_loses_event_refuted); if wake raises, schedule has scheduled the event although it raises (C116_schedule_raises_refuted); an exception inside wake leaves waiting threads polling (C116_polling_refuted). Entering and leaving the with block, and each Heap call, are single steps (for exceptions inside Heap calls see C115).")
st("C117","proved","C117_separators C117_empty_separator C117_other_patterns C117_version_pattern C117_segment_pattern","re.compile is a model of the fragment of pattern syntax that these patterns use; what re.escape escapes is a parameter, assumed to include every metacharacter and no ASCII letter or digit (true of every version of Python; checked of 3.7's table in C117_hypotheses). lru_cache is not modelled.")
st("C118","proved","C118_keywords C118_first_argument C118_only_ValueError C118_numbers C118_string_numbers C118_str C118_str_parsed C118_repr C118_operators C118_bool_refuted C118_level_names_refuted","The documentation is refuted on two points: release_level='a' and 'b' are rejected (C118_level_names_refuted), and with bools, which are accepted as ints, str() is no version string (C118_bool_refuted). Subclasses of int and str that redefine operations, and objects equal to None or to a string, are not modelled.")
st("C119","proved","C119_first_argument C119_failed_add C119_failed_add_unchanged_iff C119_views_not_told C119_failed_done C119_hashable C119_retry_refuted C119_order_refuted C119_done_refuted C119_harmless","The natural stronger property, that a call which raises changes nothing, is refuted: after the failing add(1, [2]) the correct add(1, 2) raises KeyError (C119_retry_refuted); a dependency is lost, so that ready() hands out a node with its predecessor (C119_order_refuted); the failing done(1, [3]) makes the successors of 1 ready (C119_done_refuted). __hash__ and __eq__ of nodes are otherwise assumed not to raise.")
st("C120","proved","C120_progress C120_every_event_is_yielded C120_starvation_refuted","That the call of a particular thread returns is refuted (C120_starvation_refuted): threading.Lock is unfair, and a thread can find it taken each time, while another calls bool(scheduler) for ever. Times are integers; exceptions are C116.")
st("C121","proved","C121_every_interleaving C121_wait_free C121_stable_when_quiet C121_one_reader C121_bases_first C121_same_class_refuted C121_skipped_init_refuted C121_type_error_refuted","Thread safety in the usual sense is refuted, each time with a program that meets the hypotheses: two threads can get different classes (C121_same_class_refuted); with a diamond of decorated classes a race for the base makes o.D() leave out an __init__, permanently, and issubclass(o.B, o.A) false (C121_skipped_init_refuted); with eight classes a race makes every later read of o.D raise TypeError (C121_type_error_refuted). A step of a thread is a look in a dictionary, making the class, or storing it; class attributes do not change; the recursion limit is C82.")
st("C122","proved","C122_safe_mkdir C122_safe_mkdir_blocked C122_safe_unlink C122_touch C122_observers","One Python call that is one system call is atomic. No other process runs meanwhile (C72-C74 say what they may do). st_size of a directory is a parameter; file_mtime, which rounds to a float, is not modelled.")
st("C123","proved","C123_calls C123_generators C123_right_so_far C123_not_too_early C123_nothing_held_back C123_sort_waits","Generators are closed by nobody (no close() or throw()), and the source may be an iterator that raises. The mutable LineInfo objects are passed by value, as in C42-C44: no modifier looks at one again after yielding it.")
st("C124","proved","C124_any_times C124_history C124_floats C124_ints C124_nan_refuted","With an event at NaN an event that is due need not be yielded (C124_nan_refuted). The documentation lists __le__, __eq__, __add__ and __sub__ as what a time class needs; the code calls < and > on times. A block under the lock is atomic: the lock excludes other threads or there are none, and now() and wake() don't call the scheduler. The exact sum is not: time + now() is rounded, and the event's time is the rounded sum.")
st("C125","proved","C125_quoted C125_quoted_parts C125_cut_escape_refuted C125_unterminated_refuted C125_delimiters C125_default_delimiters","C125_cut_escape_refuted shows that the condition on the cut is needed. A call with a state that does not reach the closing mark yields ('', text, ''), so that 'the last tuple has a non-empty leading_quote' (documentation) does not hold and the caller must remember the state (C125_unterminated_refuted). Marks and delimiters of several characters can be cut through and are not covered.")
st("C126","proved","C126_tsort C126_invalid_input C126_lines C126_numbering","Strings are numbered to become the nodes of GraphModel (C126_numbering: this is possible). Opening and decoding the file, the text of the message and the exit status are not modelled.")
st("C127","proved","C127_reflow C127_reflow_code C127_code_at_end_refuted","Without the newline a text that ends with code loses its last line (C127_code_at_end_refuted, the same bug as in C76).")
st("C128","proved","C128_wrapped_columns","min_width is not used by the code. The texts are those of C80: trailing line breaks of a column are not shown.")
st("C129","proved","C129_filters_commute C129_sort_filter C129_sort_sort C129_rstrip_strip C129_idempotent C129_strip_separators_refuted C129_strip_filter_refuted","For lines_strip and lines_rstrip without separators: with separators stripping again can strip more (C129_strip_separators_refuted). A filter before or after lines_strip is not the same (C129_strip_filter_refuted). The attribute that lines_grep adds to info (match) is not part of the infos compared. Keys must be ordered consistently (strict weak order).")
st("C130","partial","C130_drop_in_partial C130_drop_in_identical_partial C130_static_order_identical_partial C130_out_of_order C130_graphlib_finds_cycles C130_repeated_dependency_refuted C130_done_twice_refuted C130_after_cycle_error_refuted C130_order_of_calls_refuted","graphlib's class is transcribed from CPython 3.12 completely, its search for a cycle and the checks of the order of calls included (GraphlibSpec.v; C130_graphlib_finds_cycles proves that search right). The theorems hold of programs that make their calls in graphlib's order (add, prepare once, then the others); C130_out_of_order: in every other program graphlib itself raises ValueError. Where the property fails: a dependency declared twice can change the order within a tuple; done() with the same node twice raises ValueError only in graphlib; after a CycleError graphlib still hands out nodes and big raises again; the order of calls that graphlib forbids (add() after prepare(), a second prepare(), get_ready()/done()/is_active() before prepare()) big allows (C130_order_of_calls_refuted).")
st("C131","proved","C131_direction C131_single_characters C131_builtin C131_one_separator C131_last_cuts C131_overlap_refuted","The condition is exact for one separator (C131_one_separator). Without it reverse makes a difference (C131_overlap_refuted). PROGRESSIVE with maxsplit=None is excepted (see C65_maxsplit_None).")
st("C132","proved","C132_continue C132_parts C132_across_refuted C132_where_to_cut C132_lines C132_lines_after_a_break","For multisplit without strip and reverse, keep=ALTERNATING (from which the others follow, C31, C32). C132_across_refuted: cutting between \\r and \\n is different.")
st("C133","proved","C133_pattern C133_re_partition C133_re_rpartition C133_one_separator C133_from_the_right_refuted","C133_from_the_right_refuted: the condition that separators are equally long is needed from the right. C133_pattern: the pattern of the statement is of the kind the theorems speak of.")

st("C134","partial","C134_replaces_sched_partial C134_replaces_sched_with_queue_partial C134_ints C134_floats C134_identical_refuted C134_other_event_refuted C134_stop_iteration_refuted C134_nan_refuted","One thread. sched's class is transcribed from CPython 3.12 (SchedlibModel.v). The theorems hold of every program that cancels events only in the scheduler they come from and whose delay function does not raise StopIteration, and say that it observes the same but for delayfunc(0) (called by sched after each action) and the deadline returned by run(blocking=False), which big does not have (C134_identical_refuted). Outside the guards: sched cancels its own event if given an equal one of another sched.scheduler, big raises ValueError; StopIteration raised by sleep ends the for statement silently; an event at NaN is due at once in sched and never in big. The property queue needs times and priorities ordered as numbers (ints, and floats without NaN: C124_ints, C124_floats, C134_ints, C134_floats).")
st("C135","proved","C135_only_separators_in_s C135_only_separators_in_s_strip C135_multistrip C135_multisplit C135_multipartition C135_normalize_whitespace C135_gently_title C135_lines C135_split_quoted_strings C135_split_delimiters C135_wrap_words C135_split_text_with_code C135_merge_columns C135_lines_refuted C135_multisplit_refuted C135_normalize_whitespace_refuted C135_wrap_words_refuted C135_merge_columns_refuted C135_quoted_refuted C135_delimiters_refuted","The _refuted theorems show that the restriction on the characters is needed: for other ASCII texts str and bytes differ (a\\vb is two lines as a str and one as bytes). A function given as an argument (grep, sort keys, upper in gently_title) is taken to be the same for both. The class of the result of normalize_whitespace can differ when the replacement is an instance of a subclass. Delimiters are non-empty; lines' separators are non-empty.")
st("C136","proved","C136_old_to_new C136_new_to_old C136_same_start C136_default C136_delimiters_refuted C136_quoted_strings C136_quoted_strings_refuted C136_strip_comments_no_quotes C136_strip_comments C136_strip_comments_refuted","The _refuted theorems show that each condition is needed: an unclosed delimiter is an error only in the old function, a backslash outside quotes (if there are quoting delimiters) and a line break inside quotes only in the new; an escaped quote mark outside quotes opens a quote only in the old split_quoted_strings, and the default calls differ on triple quotes. Pairs both functions accept: no backslash, different opening delimiters, and what closes one opens no other.")
st("C137","proved","C137_both_systems C137_parts C137_parts_refuted","C137_parts_refuted: the cut between a colon and a space is different.")
st("C138","partial","C138_heap_repr_exact C138_empty_heap_refuted C138_view_repr C138_closed_view C138_graph_print C138_view_print C138_closed_view_refuted","All of it proved but for 'work on every object': repr() of an empty heap raises IndexError (C138_empty_heap_refuted), repr() and print() of a closed view AttributeError (C138_closed_view, C138_closed_view_refuted), and of no others. For graphs that are not copied (C20). Nodes are numbers (sorted() can compare them); class names and addresses in the texts are left out.")
st("C139","proved","C139_without_escapes C139_delimiters_to_strings C139_strings_to_delimiters C139_refuted","segments_of (QuoteAgreeSpec.v) says how the (text, open, close) tuples of split_delimiters read as the (open, text, close) tuples of split_quoted_strings. C139_refuted: in each of the four cases that are excluded the two functions differ.")
st("C140","proved","C140_repr C140_new_object","The texts of the values are left out: what is shown is the list of (name, value). Values are those of LargModel.v.")
st("C141","proved","C141_same_places C141_any_order C141_none C141_one C141_nested C141_multisplit C141_overlap_refuted","C141_overlap_refuted: for separators of several characters, which can overlap, the last part is false.")
st("C142","proved","C142_words_stay C142_allcaps_refines C142_parts C142_round_trip C142_camel_case C142_one_letter_refuted","isupper/islower of a character are parameters that exclude each other, as in C47. C142_one_letter_refuted: 'A', 'I' joined is 'AI', which is not split.")
st("C143","partial","C143_left_then_right C143_neither C143_idempotent C143_idempotent_refuted C143_order C143_order_refuted C143_more","Idempotence is false of the code: multistrip of 'a', space, newline, space with the separator space leaves 'a', space, newline, of which a second call strips more (C143_idempotent_refuted: the pattern ends with $, which also matches before a final newline); it is proved when newline is a separator or does not occur in the string (C143_idempotent), as are the laws of single-character separators. With longer, overlapping separators the order of the sides matters (C143_order_refuted), so that law is stated for single characters.")
st("C144","partial","C144_repr_exact C144_bound_repr C144_unbound_repr C144_custom_repr_partial C144_custom_repr_refuted","A custom __repr__ inherited from a later base is not used if an earlier base is decorated with BoundInnerClass and has none: class C(A, Mixin), where Mixin has a __repr__ (C144_custom_repr_refuted: the test in Wrapper looks at the class without the bound classes). C144_repr_exact says whose __repr__ runs for any classes. hex(id()), repr() of the outer object and custom __repr__ methods are parameters; metaclasses are not modelled.")
st("C145","proved","C145_continue C145_continue_right C145_mirror C145_one_at_a_time C145_prefix","")
st("C146","proved","C146_concat C146_twice C146_idempotent C146_words","")
st("C147","proved","C147_flowery C147_flowery_words C147_plain C147_negative","Beyond 75 digits int_to_words gives the decimal digits (C46_large), so C147_plain and C147_negative are stated below that.")
st("C148","partial","C148_prefix C148_parts_partial C148_parts_exact C148_parts_refuted C148_default_marks",
   "False (C148_parts_refuted) if the first part ends with a word that is the letter D or O ('plan d' + ' ' + 'works'), that letter and an apostrophe, or only quote marks: gently_title does not see that the space ends the word (as in C49). C148_parts_partial is the law for every other first part and marks that are not spaces; C148_parts_exact for every text, by the words gently_title really sees.")
st("C149","proved","C149_layout C149_fewest_lines C149_wider_margin C149_one_line C149_parts",
   "The words are not empty, not white space and contain no line break (white space words are dealt with by C149_parts). Sentence ends are followed by two blanks whatever two_spaces says (C45_two_spaces_refuted), and the layouts compared are written the same way.")
st("C150","proved","C150_keep_modes C150_no_error","Separators are not empty strings here (an empty one that re.split would get is in C104). What the pieces are is C31 to C36 and C64 to C66.")
