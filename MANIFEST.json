{
 "claims": [
  {
   "property": "C01",
   "status": "proved",
   "theorems": [
    "C01_base64_round_trip"
   ],
   "note": ""
  },
  {
   "property": "C02",
   "status": "proved",
   "theorems": [
    "C02_base64_is_rfc3548"
   ],
   "note": ""
  },
  {
   "property": "C03",
   "status": "partial",
   "theorems": [
    "C03_decode_text_partial",
    "C03_refuted_high_byte",
    "C03_refuted_padding"
   ],
   "note": "Full statement false of the code: bytes >= 128 index the table negatively, and '=' after 0 or 1 pending letters reads missing array elements. Proved: exact set of texts on which decoding is defined and its value there."
  },
  {
   "property": "C04",
   "status": "proved",
   "theorems": [
    "C04_utf8_round_trip",
    "C04_utf8_standard",
    "C04_utf8_out_of_range"
   ],
   "note": ""
  },
  {
   "property": "C05",
   "status": "proved",
   "theorems": [
    "C05_decode_progress",
    "C05_scan_terminates",
    "C05_ill_formed_resumes",
    "C05_whole",
    "C05_truncated",
    "C05_cases"
   ],
   "note": ""
  },
  {
   "property": "C06",
   "status": "proved",
   "theorems": [
    "C06_scan_inverts_encoding",
    "C06_encoding_injective"
   ],
   "note": ""
  },
  {
   "property": "C07",
   "status": "partial",
   "theorems": [
    "C07_hex_round_trip_partial",
    "C07_upper_denotes",
    "C07_lower_denotes",
    "C07_from_hex_reads",
    "C07_refuted_int_min",
    "C07_shape",
    "C07_from_hex_any",
    "C07_from_hex_undefined",
    "C07_from_hex_cases"
   ],
   "note": "Full statement false at one value: INT_MIN prints as -80000000, whose reading overflows. Proved for every other int, plus exact denotation of the printed text for all ints."
  },
  {
   "property": "C08",
   "status": "proved",
   "theorems": [
    "C08_fixed_width",
    "C08_other_widths_rejected",
    "C08_dump_bytes",
    "C08_dump_injective",
    "C08_uint32_denotes",
    "C08_padded_byte",
    "C08_pointer_denotes",
    "C08_pointer_shape",
    "C08_pointer_lowest",
    "C08_capitals"
   ],
   "note": ""
  },
  {
   "property": "C09",
   "status": "proved",
   "theorems": [
    "C09_roman_value",
    "C09_roman_out_of_range",
    "C09_roman_distinct",
    "C09_upper_case"
   ],
   "note": ""
  },
  {
   "property": "C10",
   "status": "partial",
   "theorems": [
    "C10_hanzi_value_partial",
    "C10_refuted_well_written"
   ],
   "note": "The printed text denotes the number for every int. It is not well written (the form without empty groups) exactly when |n| >= 10^8 and the middle group is zero; that is the missing part, and it is false of the code."
  },
  {
   "property": "C11",
   "status": "partial",
   "theorems": [
    "C11_alpha_value_partial",
    "C11_alpha_zero",
    "C11_alpha_distinct",
    "C11_refuted_int_min",
    "C11_capital_value_partial",
    "C11_footnotes",
    "C11_footnotes_distinct",
    "C11_footnotes_sign"
   ],
   "note": "False at INT_MIN only (negation overflows). Proved for every other int."
  },
  {
   "property": "C12",
   "status": "partial",
   "theorems": [
    "C12_decimal_round_trip_partial",
    "C12_long_round_trip_partial",
    "C12_refuted_int_min",
    "C12_shape",
    "C12_bool",
    "C12_is_bool",
    "C12_as_bool"
   ],
   "note": "False at INT_MIN / LONG_MIN only (negation overflows while reading). Proved for every other value."
  },
  {
   "property": "C13",
   "status": "partial",
   "theorems": [
    "C13_literals_partial",
    "C13_is_int_exact_partial",
    "C13_as_int_prefix",
    "C13_as_long_prefix",
    "C13_none",
    "C13_cases",
    "C13_refuted_unsafe",
    "C13_refuted_double_sign"
   ],
   "note": "is_int is unsafe on \"+\" and accepts digits preceded by \"+-\"; proved: exact set accepted on every other string, and agreement with as_int on genuine literals."
  },
  {
   "property": "C14",
   "status": "partial",
   "theorems": [
    "C14_strings_refine_lists_partial",
    "C14_long_string_refuted"
   ],
   "note": "Proved for all sequences with lengths up to 2^30. Above, the capacity computation shifts into the sign bit (undefined), see the refutation."
  },
  {
   "property": "C15",
   "status": "proved",
   "theorems": [
    "C15_substring_is_clamped_range",
    "C15_inverted_range_empty",
    "C15_split_and_concat",
    "C15_concat_monoid"
   ],
   "note": ""
  },
  {
   "property": "C16",
   "status": "proved",
   "theorems": [
    "C16_lexicographic",
    "C16_total_order"
   ],
   "note": ""
  },
  {
   "property": "C17",
   "status": "proved",
   "theorems": [
    "C17_search_forwards_first",
    "C17_from_the_start",
    "C17_occurs_iff",
    "C17_other_positions"
   ],
   "note": ""
  },
  {
   "property": "C18",
   "status": "proved",
   "theorems": [
    "C18_search_backwards_last",
    "C18_search_backwards_from_end"
   ],
   "note": ""
  },
  {
   "property": "C19",
   "status": "proved",
   "theorems": [
    "C19_count_occurrences_exact",
    "C19_empty_pattern"
   ],
   "note": ""
  },
  {
   "property": "C20",
   "status": "partial",
   "theorems": [
    "C20_replace_partial",
    "C20_replacement_unique",
    "C20_no_match_no_change",
    "C20_replace_terminates_refuted"
   ],
   "note": "The empty pattern makes replace loop for ever on every non-empty text; for every other pattern the full statement is proved."
  },
  {
   "property": "C21",
   "status": "proved",
   "theorems": [
    "C21_tokenize_cuts",
    "C21_recompose_tokenize",
    "C21_recompose_joins",
    "C21_tokenize_recompose_char",
    "C21_tokenize_recompose"
   ],
   "note": ""
  },
  {
   "property": "C22",
   "status": "proved",
   "theorems": [
    "C22_match_wildcard_is_glob"
   ],
   "note": ""
  },
  {
   "property": "C23",
   "status": "proved",
   "theorems": [
    "C23_trim_left",
    "C23_trim_right",
    "C23_trim_both",
    "C23_trim_idempotent"
   ],
   "note": ""
  },
  {
   "property": "C24",
   "status": "proved",
   "theorems": [
    "C24_quote_unquote",
    "C24_unquote_others",
    "C24_unescape_guile",
    "C24_unescape_guile_unique"
   ],
   "note": ""
  },
  {
   "property": "C25",
   "status": "proved",
   "theorems": [
    "C25_upcase_letters",
    "C25_locase_letters",
    "C25_characterwise",
    "C25_case_laws",
    "C25_locase_inverts_upcase",
    "C25_first_letter"
   ],
   "note": ""
  },
  {
   "property": "C26",
   "status": "partial",
   "theorems": [
    "C26_script_refuted",
    "C26_equal_length",
    "C26_script_partial",
    "C26_distance_partial",
    "C26_one_insertion_partial",
    "C26_one_deletion_partial"
   ],
   "note": "False as stated: strings of equal length are always reported as equal. Proved for all inputs: termination, an in-order in-bounds script whose application has the right length, bounds on the distance; exact for one insertion or one deletion anywhere."
  },
  {
   "property": "C27",
   "status": "proved",
   "theorems": [
    "C27_overlapping_longest"
   ],
   "note": ""
  },
  {
   "property": "C28",
   "status": "proved",
   "theorems": [
    "C28_string_sets"
   ],
   "note": ""
  },
  {
   "property": "C29",
   "status": "proved",
   "theorems": [
    "C29_read_word_at_cursor",
    "C29_begins_with",
    "C29_lines",
    "C29_read_int",
    "C29_read_double",
    "C29_read_double_total",
    "C29_read_word",
    "C29_skip_spaces",
    "C29_is_whitespace",
    "C29_skip_symbol"
   ],
   "note": "The text recognised by read_double is modelled, its conversion by sscanf is not."
  },
  {
   "property": "C30",
   "status": "partial",
   "theorems": [
    "C30_flat_input_partial",
    "C30_flat_empty_partial",
    "C30_more_refuted",
    "C30_read_all_refuted"
   ],
   "note": "False as stated: parse_string (\"\") reports more input, and a count near 2^31 overflows once something was consumed. Proved for all sequences of calls with non-negative counts that cannot overflow."
  },
  {
   "property": "C31",
   "status": "proved",
   "theorems": [
    "C31_hashmap_is_finite_map",
    "C31_empty"
   ],
   "note": "Proved for all hash functions and programs on any number of maps, including joins and patches, with less than 2^30 keys per map and int-sized tables."
  },
  {
   "property": "C32",
   "status": "proved",
   "theorems": [
    "C32_hashmap_iteration",
    "C32_hashset_iteration"
   ],
   "note": "Proved for the maps and sets of all programs, for both ways of draining the iterator and for generate."
  },
  {
   "property": "C33",
   "status": "partial",
   "theorems": [
    "C33_equality_exact",
    "C33_equality_extensional_partial",
    "C33_equality_refuted"
   ],
   "note": "False as stated: == reads the second map with its default value and is not symmetric (refutation with {1->0} and {2->5}). Proved: the exact meaning of ==, and extensionality when no value of the first map is the default of the second."
  },
  {
   "property": "C34",
   "status": "proved",
   "theorems": [
    "C34_hashset_is_finite_set"
   ],
   "note": "Proved for all hash functions and programs, with less than 2^30 elements per set."
  },
  {
   "property": "C35",
   "status": "proved",
   "theorems": [
    "C35_reads_newest_layer",
    "C35_extend_write_shorten",
    "C35_merge_keeps_readings",
    "C35_differences"
   ],
   "note": "Proved for all programs on a relative hash map whose layers it does not share with another one, with less than 2^30 keys per layer."
  },
  {
   "property": "C36",
   "status": "proved",
   "theorems": [
    "C36_write_back",
    "C36_patches",
    "C36_undo_log"
   ],
   "note": "Proved for all maps of all programs; patches are compared by what is read through the base. A map patched by itself is excluded."
  },
  {
   "property": "C37",
   "status": "proved",
   "theorems": [
    "C37_memoised"
   ],
   "note": "Proved for all functions, hash functions and sequences of less than 2^30 calls."
  },
  {
   "property": "C38",
   "status": "partial",
   "theorems": [
    "C38_arrays_refine_lists_partial",
    "C38_rounding",
    "C38_self_append",
    "C38_self_append_refuted",
    "C38_long_array_refuted",
    "C38_equality",
    "C38_contains"
   ],
   "note": "Proved for all sequences with lengths up to 2^30 that append no array to itself. Self-append is characterised exactly: it overruns the buffer when the rounded double length is below three times the length, so \"appending an array to itself doubles it\" is false."
  },
  {
   "property": "C39",
   "status": "proved",
   "theorems": [
    "C39_pure_functions",
    "C39_other_lists_kept",
    "C39_head_tail",
    "C39_reading",
    "C39_made",
    "C39_strong_equal",
    "C39_indexing",
    "C39_front",
    "C39_push_back",
    "C39_append",
    "C39_suppress_last",
    "C39_assign"
   ],
   "note": "Proved for all heaps and finite lists in them, with any sharing. Freeing of cells is the subject of C44."
  },
  {
   "property": "C40",
   "status": "proved",
   "theorems": [
    "C40_merge_sort"
   ],
   "note": "Proved for all arrays of less than 2^30 elements: the sum of two indices overflows beyond."
  },
  {
   "property": "C41",
   "status": "proved",
   "theorems": [
    "C41_two_arrays",
    "C41_permutation"
   ],
   "note": "Proved for all arrays of less than 2^30 elements."
  },
  {
   "property": "C42",
   "status": "partial",
   "theorems": [
    "C42_search_all_partial",
    "C42_search_next_partial",
    "C42_not_longer_partial",
    "C42_long_pattern_refuted"
   ],
   "note": "False as stated: a pattern of at least 2^slots characters reads the index out of its bounds; the bound is characterised exactly. Proved for all other patterns, in particular all that are not longer than the text, with texts below 2^29 characters."
  },
  {
   "property": "C43",
   "status": "partial",
   "theorems": [
    "C43_common_partial",
    "C43_half_partial",
    "C43_longest_refuted"
   ],
   "note": "False as stated: positions inside the current best range are skipped, so a longer common text can be missed (refutation with a concrete pair). Proved for all texts: the ranges hold equal text that cannot be extended and is non-empty if any character is common; without hash clashes it is longer than half of the longest."
  },
  {
   "property": "C44",
   "status": "proved",
   "theorems": [
    "C44_exact",
    "C44_meaning",
    "C44_reachable"
   ],
   "note": "Proved for all programs that make less than 2^31 - 8 handles. Exactness also holds with cycles; that nothing but reachable objects stays is proved for acyclic states (a cycle is never freed, see the example)."
  },
  {
   "property": "C45",
   "status": "partial",
   "theorems": [
    "C45_blocks_partial",
    "C45_progress_partial",
    "C45_reuse_partial",
    "C45_zero_size_refuted"
   ],
   "note": "False as stated for size zero: such a block shares its address with the next one and freeing it overwrites that one's contents. Proved for all programs (fast_alloc, fast_new, fast_alloc_mw, arrays, reallocation, writes) with positive sizes below 2^62 and all answers of the system."
  },
  {
   "property": "C46",
   "status": "partial",
   "theorems": [
    "C46_realloc",
    "C46_mem_used_partial",
    "C46_no_drift_partial",
    "C46_mem_used_refuted"
   ],
   "note": "The prefix is kept by every reallocation. The accounting is false as stated: a reallocation from large to large counts the unrounded difference, so the total drifts (to -7 with no block left); large blocks of fast_alloc_mw are not counted. Proved: the exact value including this drift, for all programs whose totals fit in an int."
  },
  {
   "property": "C47",
   "status": "proved",
   "theorems": [
    "C47_equality",
    "C47_inequality",
    "C47_equivalence",
    "C47_copy",
    "C47_print",
    "C47_observers"
   ],
   "note": "Proved for all heaps and all handles of finite trees with any sharing; handles that denote no finite tree (cycles made by t << t, operator 0 with an array) are excluded."
  },
  {
   "property": "C48",
   "status": "partial",
   "theorems": [
    "C48_here",
    "C48_relative",
    "C48_in_order",
    "C48_parent",
    "C48_parent_rooted_partial",
    "C48_head_tail",
    "C48_associative",
    "C48_rooted_associative_partial",
    "C48_rooted",
    "C48_host",
    "C48_web_associative_refuted",
    "C48_absolute_partial",
    "C48_web_page",
    "C48_web_blank",
    "C48_web_other",
    "C48_file_root_refuted",
    "C48_defined",
    "C48_front",
    "C48_ends"
   ],
   "note": "The laws are proved for all names built from components, relative and rooted. False as stated in places: url_root (\"file\") times a bare root reads out of bounds and times another rooted name drops that root; above a web host '..' is absorbed, so associativity fails for '../..' on a web name; a web page times '/x' keeps its host, which is proved separately (web_page, web_blank, web_other)."
  },
  {
   "property": "C49",
   "status": "partial",
   "theorems": [
    "C49_or",
    "C49_or_exact",
    "C49_expand_partial",
    "C49_expand_defined",
    "C49_expand_above",
    "C49_expand_above_root",
    "C49_expand_above_refuted",
    "C49_sort_in",
    "C49_sort",
    "C49_order",
    "C49_order_refuted",
    "C49_factor"
   ],
   "note": "or is proved for all urls, sort for all urls as keeping the set of alternatives, factor for flat alternatives of names under at most one root. expand is proved for urls without '...' and none (undefined exactly if a product of choices is undefined), and for names with one '...'; behind alternatives '...' misses directories (refuted). The order used by sort is total on names under one root and not antisymmetric across roots (refuted)."
  },
  {
   "property": "C50",
   "status": "partial",
   "theorems": [
    "C50_names_partial",
    "C50_directory_partial",
    "C50_beside_refuted",
    "C50_inside_refuted",
    "C50_directory_cases",
    "C50_above_partial",
    "C50_one_less_refuted",
    "C50_endless_refuted",
    "C50_alternatives_partial",
    "C50_alternatives_refuted",
    "C50_rooted_partial",
    "C50_web_partial",
    "C50_outside",
    "C50_roots_partial",
    "C50_to_root_partial",
    "C50_from_root_partial",
    "C50_from_file_partial",
    "C50_file_refuted",
    "C50_web_roots_partial",
    "C50_web_hosts",
    "C50_refuted"
   ],
   "note": "False for bases that end with a separator, unless the name leaves the base at least two directories above its end (exact: C50_directory_partial, C50_beside_refuted, C50_inside_refuted, C50_directory_cases); for bases that start with more '..' than the name: one more gives another name (C50_one_less_refuted), two or more and delta never ends (C50_endless_refuted), as many and the law holds (C50_above_partial); from file:/// and file:///a to names at another root (C50_file_refuted); for alternatives, which keep their choices but not their form (C50_alternatives_partial, C50_alternatives_refuted); for a bare host, from a page to a bare host or to a local path, from a rooted to a relative name, and undefined from file:///a to a root (C50_refuted). Proved for relative names, names at one root, pages on one host, and for pairs without a relative difference, roots alone among them."
  },
  {
   "property": "C51",
   "status": "partial",
   "theorems": [
    "C51_total",
    "C51_relative",
    "C51_absolute",
    "C51_protocol",
    "C51_blank",
    "C51_local",
    "C51_path",
    "C51_entries",
    "C51_home",
    "C51_variable",
    "C51_circular_refuted",
    "C51_home_refuted",
    "C51_print",
    "C51_round_relative_partial",
    "C51_round_absolute_partial",
    "C51_round_protocol_partial",
    "C51_round_blank_partial",
    "C51_round_path_partial",
    "C51_round_refuted"
   ],
   "note": "Reading is defined for all texts without '~' and '$', and the components are exactly the texts between separators for all names, protocols and paths without '[' that do not mix patterns with '..'. The round trip is false as stated: patterns before the last part, './www.x', bare roots of a protocol and '/../' change (C51_round_refuted); reading does not end when variables refer to each other in a circle (C51_circular_refuted). Proved for all other names and for paths of names."
  },
  {
   "property": "C52",
   "status": "partial",
   "theorems": [
    "C52_u16_refine_lists_partial",
    "C52_no_leak_partial",
    "C52_compare",
    "C52_reserve_nothing_refuted",
    "C52_reserve_leaks_refuted",
    "C52_new_units_partial",
    "C52_new_units_refuted",
    "C52_long_string_refuted"
   ],
   "note": "Proved for all programs with lengths up to 2^30 that do not reserve 0 units for a nonempty string: contents, capacity, destruction, and comparison of the results. False otherwise: reserve (0) frees the array of a nonempty string and leaves its length, room reserved for an empty string leaks, lengths above 2^30 shift into the sign bit. New units are 0 for new strings and for strings that were not shortened before; removed units come back otherwise."
  },
  {
   "property": "C53",
   "status": "partial",
   "theorems": [
    "C53_streams_are_stacks",
    "C53_between_partial",
    "C53_nul_refuted",
    "C53_freed_when_unreachable",
    "C53_files_closed"
   ],
   "note": "Proved for all programs as refinement of stacks of buffers, with failing writes, copies, redirection, exact lifetimes and closing of files. False for NUL characters, which printing drops (refuted); unbuffer without buffer is undefined and excluded."
  },
  {
   "property": "C54",
   "status": "partial",
   "theorems": [
    "C54_intervals_partial",
    "C54_clock",
    "C54_all_tasks",
    "C54_counted",
    "C54_any_history",
    "C54_unmatched_stop_refuted"
   ],
   "note": "Proved for all sequences of events on any tasks whose starts and stops nest, with the report text, sums modulo 2^32 and no wrap for a clock that does not go back. False for histories with a stop without a start: the next interval is lost (refuted); C54_any_history says exactly which intervals are counted then."
  },
  {
   "property": "C55",
   "status": "partial",
   "theorems": [
    "C55_known",
    "C55_round_partial",
    "C55_unknown",
    "C55_codes_partial",
    "C55_regions",
    "C55_other",
    "C55_user",
    "C55_charset",
    "C55_american_refuted",
    "C55_greek_refuted"
   ],
   "note": "Proved for all texts with the tables of the code, with anything behind the locale name. False for 'american', whose locale maps to english, and the locales of Greece (code el) are not recognised (both refuted)."
  },
  {
   "property": "C56",
   "status": "partial",
   "theorems": [
    "C56_boxes_partial",
    "C56_early_refuted",
    "C56_shown"
   ],
   "note": "Proved for all families of types with a correct == and all orders in which types get their numbers. False before the numbers are initialized, that is in initializers of other static variables (refuted)."
  },
  {
   "property": "C57",
   "status": "partial",
   "theorems": [
    "C57_save_load",
    "C57_append_load",
    "C57_save",
    "C57_append",
    "C57_load",
    "C57_string_load",
    "C57_append_to",
    "C57_remove",
    "C57_move",
    "C57_copy",
    "C57_names",
    "C57_names_save",
    "C57_names_append",
    "C57_total_partial",
    "C57_choice_partial",
    "C57_refused_refuted",
    "C57_lost_refuted"
   ],
   "note": "Save, append, load, append_to, remove, move and copy over an abstract file system with arbitrary aliasing of paths and arbitrary refusals of the operating system. Products with alternatives and patterns are not refused, and a failed save may have emptied the file (both refuted). Returning at all is proved for urls without none and '...' in which roots stand in front only or file:// does not occur (partial). Not modelled: rights, links, times, directories' listings, concurrent access."
  },
  {
   "property": "C58",
   "status": "partial",
   "theorems": [
    "C58_transfer_partial",
    "C58_failures_partial",
    "C58_not_started",
    "C58_once_refuted",
    "C58_empty_refuted",
    "C58_silent_refuted"
   ],
   "note": "Proved for all texts and all sizes of partial reads and writes, with the buffers that collect the bytes, and with what happens after failures. False: descriptors are closed a second time when the pipes are destroyed, the pipe of an empty input is not closed before the child has ended, and failed reads are not reported (all refuted). Outputs below 1 GiB. The descriptors and arguments of the command are C73. Failing pthread_create is C99."
  },
  {
   "property": "C59",
   "status": "partial",
   "theorems": [
    "C59_escape_sh_refuted",
    "C59_escape_sh_partial",
    "C59_escape_sh_exact"
   ],
   "note": "False as stated: | ; ' * [ ] # ~ = % { } ! and tab are not escaped, and a line feed becomes the letter n. Proved for all strings without these characters, and exactly what the shell reads for any string."
  },
  {
   "property": "C60",
   "status": "partial",
   "theorems": [
    "C60_strings",
    "C60_u16",
    "C60_arrays",
    "C60_pair",
    "C60_triple",
    "C60_quartet",
    "C60_quintuple",
    "C60_sextuple",
    "C60_integers",
    "C60_floats_partial",
    "C60_zero_refuted",
    "C60_pointers",
    "C60_short_defined",
    "C60_undefined_refuted"
   ],
   "note": "Proved for strings, UTF-16 strings, arrays of any element type, pairs to sextuples, integers and pointers: equal values have equal hashes whatever their history, and the value is given. False for floating point numbers: 0.0 == -0.0 but their hashes differ (refuted). By the rules of C++17 the hash of nearly every string of four or more characters is undefined (left shifts out of range; refuted); compilers in use wrap around, and C60_strings gives that value. There is no hash of lists in the code."
  },
  {
   "property": "C61",
   "status": "partial",
   "theorems": [
    "C61_is_double_accepts_partial",
    "C61_is_double_exact",
    "C61_refuted_unsafe",
    "C61_refuted_accepts"
   ],
   "note": "is_double reads past the end on texts such as \"1e\" and accepts \"e5\". Proved: every genuine literal is accepted, and exactly which texts are accepted, refused or read past the end."
  },
  {
   "property": "C62",
   "status": "partial",
   "theorems": [
    "C62_search_any_partial",
    "C62_in_bounds_refuted"
   ],
   "note": "When no pattern occurs the code tests position N (text) and reads one character past the end; proved exact whenever a pattern occurs."
  },
  {
   "property": "C63",
   "status": "proved",
   "theorems": [
    "C63_starts_iff",
    "C63_ends_iff",
    "C63_remove_prefix",
    "C63_remove_suffix",
    "C63_index_of",
    "C63_contains_char",
    "C63_find_non_alpha",
    "C63_classes",
    "C63_iso_classes",
    "C63_words",
    "C63_identifier",
    "C63_closing_delimiter"
   ],
   "note": ""
  },
  {
   "property": "C64",
   "status": "proved",
   "theorems": [
    "C64_escape_generic_injective",
    "C64_escape_spaces_injective",
    "C64_escape_generic_protects",
    "C64_escape_spaces_protects",
    "C64_escape_verbatim",
    "C64_escape_verbatim_exact",
    "C64_escape_generic_exact",
    "C64_escape_spaces_exact",
    "C64_dos_to_better"
   ],
   "note": ""
  },
  {
   "property": "C65",
   "status": "partial",
   "theorems": [
    "C65_tabs_expanded_partial",
    "C65_no_tab_left",
    "C65_zero_width_refuted"
   ],
   "note": "Tab width 0 divides by zero; proved exact for every positive width."
  },
  {
   "property": "C66",
   "status": "proved",
   "theorems": [
    "C66_parse_binary",
    "C66_parse_array"
   ],
   "note": ""
  },
  {
   "property": "C67",
   "status": "partial",
   "theorems": [
    "C67_spanish_partial",
    "C67_ispanish_partial",
    "C67_spanish_letters",
    "C67_german_partial",
    "C67_spanish_exact",
    "C67_german_exact",
    "C67_round_trip_refuted"
   ],
   "note": "False for Spanish texts with an apostrophe and German texts with byte 223; proved for all others, in both directions, with the exact encoding of every character, and exactly which texts survive."
  },
  {
   "property": "C68",
   "status": "partial",
   "theorems": [
    "C68_join_partial",
    "C68_join_atoms_refuted",
    "C68_slice",
    "C68_append",
    "C68_assign"
   ],
   "note": "False for two atoms: the product claims to be atomic but has no label (printing and destroying it are undefined). Proved for all other operands; << and assignment for arrays that are not part of their own subtrees."
  },
  {
   "property": "C69",
   "status": "partial",
   "theorems": [
    "C69_whole_partial",
    "C69_any",
    "C69_not_started",
    "C69_long_refuted",
    "C69_nul_refuted",
    "C69_pause_refuted"
   ],
   "note": "Proved: the call returns for every schedule, and what the result then is; an output below 8 KiB without NUL whose pieces come in time is returned whole. False: 8 KiB or more read past the array, a NUL ends the result, and after a pause longer than the waits the rest is missing although the status says success (all refuted)."
  },
  {
   "property": "C70",
   "status": "partial",
   "theorems": [
    "C70_md5",
    "C70_sha224",
    "C70_sha256",
    "C70_modes",
    "C70_names",
    "C70_after_save",
    "C70_form",
    "C70_faithful",
    "C70_closed_partial",
    "C70_empty_refuted",
    "C70_memory_refuted",
    "C70_memory_exact"
   ],
   "note": "Proved for all files, urls and refusals, with MD5, SHA-224 and SHA-256 defined in Spec/Digest.v and a tbox that computes them: the result is the digest or empty. False: an empty file is left open after each call, and the path and the buffer are never freed (both refuted)."
  },
  {
   "property": "C71",
   "status": "proved",
   "theorems": [
    "C71_graph",
    "C71_dictionary",
    "C71_no_null",
    "C71_child_made"
   ],
   "note": "Proved for all programs, keys and hash functions with fewer than 2^30 different keys in use. operator[] is not modelled: its body does not compile when it is instantiated. Counting of handles is Model/RefCount.v (a tree that is its own child is never freed)."
  },
  {
   "property": "C72",
   "status": "partial",
   "theorems": [
    "C72_suffix",
    "C72_no_suffix",
    "C72_query_partial",
    "C72_query_refuted",
    "C72_backup_refuted",
    "C72_glue",
    "C72_glue_suffix",
    "C72_unblank",
    "C72_roots",
    "C72_descends_partial",
    "C72_root_refuted",
    "C72_here_refuted",
    "C72_slash_refuted"
   ],
   "note": "Proved for all urls, names and directories. False: a dot in a query makes the end of the query the suffix; the basename of a backup file such as a.tex~ is the whole name although its suffix is tex; nothing below a bare root, below \".\" or below a base with a slash at the end descends from it (all refuted)."
  },
  {
   "property": "C73",
   "status": "partial",
   "theorems": [
    "C73_descriptors_partial",
    "C73_free_partial",
    "C73_same_refuted",
    "C73_arguments_partial",
    "C73_any_arguments",
    "C73_digits",
    "C73_ten_refuted",
    "C73_again_refuted",
    "C73_evaluate"
   ],
   "note": "Proved when the descriptors asked for are different and open in the caller (or at least are no ends of the pipes), and for arguments of plain text and one-digit references with at most ten inputs; what becomes of any other arguments is characterised exactly. False: an input whose pipe gets the very number asked for is closed in the command, $$10 is taken for $$1 and 0, and the caller's array of arguments is changed, so that a second call passes the descriptors of the first (all refuted)."
  },
  {
   "property": "C74",
   "status": "partial",
   "theorems": [
    "C74_mkdir",
    "C74_rmdir",
    "C74_make_dir_partial",
    "C74_make_dir_allowed_partial",
    "C74_make_dir_refuted",
    "C74_chdir",
    "C74_read_partial",
    "C74_read_error_partial",
    "C74_read_web_refuted",
    "C74_subdirectories_partial",
    "C74_read_names_refuted",
    "C74_subdirectories_refuted"
   ],
   "note": "Proved for all disks, local urls and refusals. read_directory and subdirectories only when the names on the way and below are read as they are (no colon, not ~ or $..., for subdirectories not www. or ftp.). False: make_dir never returns for the url of a server, read_directory tells no error for urls that are not local, gives wrong names when the path has a colon or an entry starts with $, and subdirectories does not find directories named www...."
  },
  {
   "property": "C75",
   "status": "partial",
   "theorems": [
    "C75_address_partial",
    "C75_address_refuted",
    "C75_get_partial",
    "C75_head_partial",
    "C75_headers",
    "C75_text_refuted",
    "C75_init_refuted",
    "C75_download_partial",
    "C75_download_refuted"
   ],
   "note": "Proved for header names in ASCII that differ not only in case, and texts without NUL. False: without a slash after the host, uri_host and uri_path are undefined; a text with a NUL is cut; the initial response labels the time as a status; download to file:///a does not write /a (all refuted). download replaces the file also when the status is an error."
  },
  {
   "property": "C76",
   "status": "partial",
   "theorems": [
    "C76_directory",
    "C76_directory_again",
    "C76_directory_same",
    "C76_file_partial",
    "C76_printed",
    "C76_names",
    "C76_new_refuted",
    "C76_removed_refuted",
    "C76_pwd_partial",
    "C76_pwd_chdir_partial",
    "C76_pwd_printed_partial",
    "C76_pwd_refuted"
   ],
   "note": "Proved for uuids of 36 hexadecimal digits and hyphens and suffixes without / : * and NUL; url_pwd for directories whose names are read as they are. False: a file of 4294967295 bytes counts as missing because its size is -1 as an int; a temporary directory that was removed is not made again; the current directory cannot be given when a name has a colon (all refuted)."
  },
  {
   "property": "C77",
   "status": "partial",
   "theorems": [
    "C77_kind",
    "C77_type",
    "C77_type_same",
    "C77_type_app",
    "C77_type_regular",
    "C77_type_directory",
    "C77_type_link_partial",
    "C77_ramdisc_refuted",
    "C77_web",
    "C77_web_type",
    "C77_web_newer",
    "C77_newer",
    "C77_newer_transitive",
    "C77_newer_asymmetric",
    "C77_size_partial",
    "C77_time_partial",
    "C77_newer_time_partial",
    "C77_size_refuted",
    "C77_time_refuted"
   ],
   "note": "Proved; sizes and times only when they fit into an int, and the letter l when there is no other flag than that of links. False: everything in the ramdisc is of every type; a file of 4294967295 bytes has the size -1; after 2038 a newer file has the smaller last_modified (all refuted)."
  },
  {
   "property": "C78",
   "status": "partial",
   "theorems": [
    "C78_same_partial",
    "C78_blank",
    "C78_local",
    "C78_same_refuted",
    "C78_parts",
    "C78_blank_parts",
    "C78_rooted_blank",
    "C78_blank_rooted",
    "C78_concrete",
    "C78_round_partial",
    "C78_round_refuted",
    "C78_unset_refuted",
    "C78_in"
   ],
   "note": "Proved for names without ://, and the reading of the concrete name for names other than the empty one. False: http_url (a://b) and http://a://b are different urls; the concrete name of file_url () is read as the root alone; a file url made from a variable that is not set has no concrete name (all refuted)."
  },
  {
   "property": "C79",
   "status": "partial",
   "theorems": [
    "C79_found",
    "C79_make_again",
    "C79_make_new",
    "C79_construct",
    "C79_make_failed",
    "C79_destroy",
    "C79_destroy_twice",
    "C79_one_each_partial",
    "C79_hidden_refuted",
    "C79_failed_refuted"
   ],
   "note": "Proved for fewer than 2^30 resources; that every resource is found by its name only when all are made with make. False otherwise: with two resources of the same name, deleting the first hides the second, and so does a construction that fails (both refuted)."
  },
  {
   "property": "C80",
   "status": "partial",
   "theorems": [
    "C80_values",
    "C80_distinct_partial",
    "C80_string_refuted",
    "C80_list",
    "C80_hashmap",
    "C80_hashmap_distinct_partial",
    "C80_order_refuted",
    "C80_hashset",
    "C80_hashset_distinct_partial",
    "C80_empty_refuted"
   ],
   "note": "Proved, the last sentence for strings and characters without comma, space, >, ] and NUL. False otherwise: a string with a comma looks like two strings; the set of the empty string looks like the empty set; equal hash maps may be printed differently (all refuted). An iterator that is printed is used up."
  },
  {
   "property": "C81",
   "status": "partial",
   "theorems": [
    "C81_nesting_partial",
    "C81_lines_partial",
    "C81_rule",
    "C81_shared_refuted",
    "C81_margin_refuted",
    "C81_overflow_refuted",
    "C81_rel_hashmap",
    "C81_null"
   ],
   "note": "Proved for programs that indent at the beginning of lines and do not unindent at the margin, and for one stream. False: the indentation is shared by all streams; it can become negative, after which lines are misplaced; it overflows at depth 2^30 (all refuted)."
  },
  {
   "property": "C82",
   "status": "partial",
   "theorems": [
    "C82_command_partial",
    "C82_caller_partial",
    "C82_calls_partial",
    "C82_calls_refuted",
    "C82_twice_refuted",
    "C82_lost_refuted",
    "C82_sent",
    "C82_all_sent",
    "C82_open_refuted",
    "C82_result_partial",
    "C82_late_refuted",
    "C82_unstarted_refuted",
    "C82_any_arguments",
    "C82_digits"
   ],
   "note": "Proved when the descriptors asked for by number are different and open and copies of them can be made. False otherwise: a descriptor asked for twice, not open or not copied is lost to an end of a pipe; each input without a number closes a descriptor twice; empty inputs and failed ones stay open while the command is waited for; outputs not read within five seconds are cut off silently; a command that cannot be started gives 22, not -1 (all refuted). The replacement of $$i and $%i is exactly characterised for all arguments."
  },
  {
   "property": "C83",
   "status": "partial",
   "theorems": [
    "C83_only",
    "C83_some",
    "C83_only_any",
    "C83_some_any",
    "C83_length_refuted",
    "C83_lower_case_refuted",
    "C83_range_partial",
    "C83_no_range",
    "C83_greek_refuted",
    "C83_negative_refuted",
    "C83_to_utf16_partial",
    "C83_to_utf8",
    "C83_round_trip_partial",
    "C83_injective",
    "C83_wide",
    "C83_nul_refuted",
    "C83_error_refuted"
   ],
   "note": "Proved for documents of plain characters and marks of four upper-case digits, and exactly characterised for any text. False otherwise: numbers are compared as texts, so marks of another length that begin with 5 to 8 pass and lower-case ones from 9A00 on do not; the Greek characters 370 to 37F are called latin and negative numbers ascii; text after a 0 is lost in utf8_to_utf16; an error of the library overruns the result (all refuted). The empty text and incorrect text depend on the library and are left out."
  },
  {
   "property": "C84",
   "status": "proved",
   "theorems": [
    "C84_rooted",
    "C84_rooted_in",
    "C84_rooted_web",
    "C84_name",
    "C84_rooted_name",
    "C84_name_in_path",
    "C84_product_rooted",
    "C84_product_starts",
    "C84_product_relative",
    "C84_read_relative",
    "C84_read_absolute",
    "C84_read_protocol"
   ],
   "note": "Proved for all urls without none, which loses the root (shown in the example), and with roots at the beginning of alternatives only, as reading makes them. Reading is covered for the same texts as in C51."
  },
  {
   "property": "C85",
   "status": "partial",
   "theorems": [
    "C85_set_get_partial",
    "C85_get_partial",
    "C85_get_unset",
    "C85_set",
    "C85_others",
    "C85_empty_refuted",
    "C85_name_refuted",
    "C85_parts_refuted",
    "C85_username",
    "C85_login",
    "C85_no_user_refuted",
    "C85_raw_time",
    "C85_elapsed",
    "C85_monotone"
   ],
   "note": "Proved on Unix for any tbox that cuts and joins the values of a variable faithfully when no part is empty (a contract, since tbox is not in the repository). False otherwise: set_env with an empty value or with a name that is empty or contains = does nothing and says nothing, parts that are empty may be lost, and the names of a user without an entry in the password file are undefined behaviour (all refuted). The clock is any pair of seconds and microseconds below a million."
  },
  {
   "property": "C86",
   "status": "partial",
   "theorems": [
    "C86_round_partial",
    "C86_round_refuted",
    "C86_nearest",
    "C86_monotone",
    "C86_others",
    "C86_as_int_partial",
    "C86_as_int_refuted",
    "C86_add",
    "C86_min_max_partial",
    "C86_min_max_int",
    "C86_nan_refuted"
   ],
   "note": "Proved for all doubles but the largest one below 1/2 and the odd integers between 2^52 and 2^53 in size, which are rounded to the next integer (refuted). as_int is undefined if the integer is not an int. min and max give the second argument if one of them is NaN (refuted). The default rounding mode is assumed."
  },
  {
   "property": "C87",
   "status": "partial",
   "theorems": [
    "C87_decimal_partial",
    "C87_exact",
    "C87_exponent_refuted",
    "C87_plus_refuted"
   ],
   "note": "Exactly characterised for all texts. False: numbers with an exponent are errors, numbers such as +-1 are accepted, and + before a unit or at the end reads past the end (refuted). The theorem gives the text that as_double is applied to; its value is in C91."
  },
  {
   "property": "C88",
   "status": "partial",
   "theorems": [
    "C88_cork_to_il2",
    "C88_il2_to_cork_partial",
    "C88_round_trip_partial",
    "C88_il2_to_cork_refuted"
   ],
   "note": "Proved for cork_to_il2. il2_to_cork is wrong for every character from 128 on but four: its table contains characters such as U+00A8 that take two or three bytes in the source, which is UTF-8, and so has 135 bytes instead of 128 (refuted, and exactly characterised). Characters below 128 are taken to be ASCII in both encodings."
  },
  {
   "property": "C89",
   "status": "partial",
   "theorems": [
    "C89_reads_partial",
    "C89_prints_partial",
    "C89_round_trip_partial",
    "C89_list_partial",
    "C89_alternatives",
    "C89_pattern",
    "C89_pattern_round_trip_partial",
    "C89_environment",
    "C89_environment_unset",
    "C89_file_partial",
    "C89_file_round_trip_partial",
    "C89_file_server_partial",
    "C89_head",
    "C89_append",
    "C89_drive_alone",
    "C89_mingw_partial",
    "C89_other_styles",
    "C89_server_refuted",
    "C89_root_refuted",
    "C89_standard_refuted",
    "C89_file_refuted",
    "C89_pattern_refuted",
    "C89_home_refuted",
    "C89_leaves_drive_refuted",
    "C89_negative_refuted"
   ],
   "note": "Proved for all names built from plain components, mixed separators, both configurations, lists and file urls, and with patterns; a pattern is printed and read again if it is the last component; '~' and variables at the beginning are proved for values that name a drive or a server. False in general: a server with one letter is the drive of that name, \\a\\b and /a/b are read as relative (so what OS_MINGW prints for the system and OS_WIN in the standard style is read as another url), file:///c: is printed with a separator that changes it, '..\\..\\b' leaves the drive, a pattern before the last component is printed in braces that are read as a part of it, reading '~' never ends if HOME is '~', and a name that starts with a negative character calls isalpha out of its domain. Not covered: '[' in Windows names, variables after the beginning."
  },
  {
   "property": "C90",
   "status": "partial",
   "theorems": [
    "C90_text",
    "C90_one_number",
    "C90_one_text",
    "C90_special",
    "C90_total",
    "C90_literal",
    "C90_read",
    "C90_literals",
    "C90_short",
    "C90_short_text",
    "C90_back_partial",
    "C90_again_partial",
    "C90_print_order",
    "C90_read_order",
    "C90_int_text",
    "C90_int_read",
    "C90_back_refuted",
    "C90_again_refuted"
   ],
   "note": "Proved: the printed text, what is read, numbers with six digits, order, integers. False: a double with more digits is not read back (refuted), and below 4.95e-318 printing again may give another text (refuted); exactly which doubles from 4.95e-318 on come back is proved. libc's sprintf and sscanf are modelled as correctly rounded; texts that do not start with a decimal number are a parameter."
  },
  {
   "property": "C91",
   "status": "partial",
   "theorems": [
    "C91_number",
    "C91_digits",
    "C91_none",
    "C91_printed_partial",
    "C91_length",
    "C91_length_printed_partial",
    "C91_printed_refuted"
   ],
   "note": "Proved for all numbers; a point without digits is accepted as a number by read_double. False: from 999999.5 on (and for lengths below 0.0001) the printed text is not read (refuted, and exactly characterised)."
  },
  {
   "property": "C92",
   "status": "partial",
   "theorems": [
    "C92_kinds",
    "C92_kind",
    "C92_operator_partial",
    "C92_operator_refuted",
    "C92_text",
    "C92_atom",
    "C92_tree",
    "C92_numbers",
    "C92_shares_string",
    "C92_shares_array",
    "C92_strings",
    "C92_arrays",
    "C92_data",
    "C92_copy_refuted"
   ],
   "note": "Proved for all trees, sharing and programs. False: asking an atom for the operator 0 reads its label as an array (undefined), and copy does not copy the data (both refuted). The reading of doubles is C90."
  },
  {
   "property": "C93",
   "status": "partial",
   "theorems": [
    "C93_args_partial",
    "C93_no_args",
    "C93_restored",
    "C93_leak_refuted",
    "C93_args_refuted",
    "C93_user_partial",
    "C93_user_refuted",
    "C93_windows_partial",
    "C93_english",
    "C93_other",
    "C93_regions_refuted",
    "C93_taiwanese_refuted",
    "C93_stable",
    "C93_mac_partial",
    "C93_mac_other",
    "C93_mac_refuted",
    "C93_three_letters_refuted"
   ],
   "note": "Proved for arguments that are not empty, with the conversion library and the functions of Windows as contracts. False: the memory of the arguments is never freed; an argument that is not converted overruns memory; the name of the user depends on an uninitialized variable; Taiwan, Serbian and Bosnian are not recognised on Windows, British, Taiwan and Greek not on macOS, and languages with codes of three letters are taken for others (all refuted)."
  },
  {
   "property": "C94",
   "status": "partial",
   "theorems": [
    "C94_words",
    "C94_arguments_partial",
    "C94_blank",
    "C94_any",
    "C94_windows",
    "C94_grammar_refuted",
    "C94_nul_refuted",
    "C94_no_space_refuted"
   ],
   "note": "Proved for lines of words, for arguments that escape_sh quotes, and for blank lines, with wordexp as a contract. False: lines with the syntax of shells start nothing and give 2, as does a command that exits with 2; text behind a zero is ignored; the words of a failed expansion are leaked; empty arguments vanish (refuted)."
  },
  {
   "property": "C95",
   "status": "partial",
   "theorems": [
    "C95_meaning_partial",
    "C95_lifetime_partial",
    "C95_freed_partial",
    "C95_stored_refuted",
    "C95_null_refuted"
   ],
   "note": "Proved for all programs that make handles by their constructor. False: an object that is assigned to the public member rep is deleted by the first copy of the handle that ends, or never; calls through null handles are not detected (refuted)."
  },
  {
   "property": "C96",
   "status": "partial",
   "theorems": [
    "C96_blocks_partial",
    "C96_progress_partial",
    "C96_memory_partial",
    "C96_same_as_fast_alloc_partial",
    "C96_mem_used_partial",
    "C96_before_init_partial",
    "C96_before_init_refuted"
   ],
   "note": "Proved for all programs, without reallocation to 0 bytes, for jemalloc and for mimalloc after mem_init. False: before mem_init a refusal of mimalloc hands NULL to the program; mem_used is 0 or the number of blocks (refuted)."
  },
  {
   "property": "C97",
   "status": "partial",
   "theorems": [
    "C97_new",
    "C97_silent",
    "C97_underflow_partial",
    "C97_overflow_partial",
    "C97_overflow_refuted",
    "C97_padding_refuted",
    "C97_new_array",
    "C97_array_silent",
    "C97_array_overflow",
    "C97_array_underflow_partial",
    "C97_array_underflow_refuted",
    "C97_array_sum_refuted"
   ],
   "note": "Proved: no false alarms, damage to one header word, to the guard behind a block inside a chunk, to the guard of any array. False: the report of an overflow reads behind the memory of the block; padding and upper halves of header words are not checked; the compared sum can overflow (refuted)."
  },
  {
   "property": "C98",
   "status": "partial",
   "theorems": [
    "C98_reads",
    "C98_extend",
    "C98_write",
    "C98_merge",
    "C98_above_partial",
    "C98_above_refuted"
   ],
   "note": "Proved for all programs; find_differences when there is a map below. False: once a map has removed its own layer, it shares the layer of the map below and changes it (refuted)."
  },
  {
   "property": "C99",
   "status": "partial",
   "theorems": [
    "C99_memory_partial",
    "C99_result_partial",
    "C99_result_all_partial",
    "C99_no_signal_partial",
    "C99_no_deadlock_partial",
    "C99_finite",
    "C99_returns_partial",
    "C99_empty_refuted",
    "C99_signal_refuted",
    "C99_memory_refuted"
   ],
   "note": "Proved for all interleavings when no input is empty, all threads can be created, and the caller ignores SIGPIPE or the command reads its inputs to the last byte. False otherwise: an empty input makes a command that reads it wait for ever, SIGPIPE can end the caller, and after a failed pthread_create the other threads use freed memory (refuted)."
  },
  {
   "property": "C100",
   "status": "partial",
   "theorems": [
    "C100_memory_partial",
    "C100_result_partial",
    "C100_no_deadlock_partial",
    "C100_finite_partial",
    "C100_returns_partial",
    "C100_two_refuted",
    "C100_empty_refuted",
    "C100_memory_refuted",
    "C100_lost_refuted"
   ],
   "note": "Proved for all interleavings when the reading threads are created and end in time, and, as far as returning is concerned, when no input is empty and there is at most one or all fit into their pipes. False otherwise: two long inputs read in the other order and empty inputs make the caller wait for ever, late threads race with the caller, and the output of a thread that could not be created is silently lost (refuted)."
  },
  {
   "property": "C101",
   "status": "proved",
   "theorems": [
    "C101_exists",
    "C101_load",
    "C101_load_none",
    "C101_save",
    "C101_append",
    "C101_variable",
    "C101_set_env",
    "C101_home",
    "C101_disk_finds",
    "C101_disk_load",
    "C101_disk_load_none",
    "C101_disk_save",
    "C101_disk_append",
    "C101_disk_again"
   ],
   "note": "Proved for all lists of directories a/b or /a/b whose parts are plain names, with repetitions; the name is relative. The search path is given in the text, by a variable $V (also one set with set_env) or by ~. Also proved on the disks of C102 with a current directory: what is saved is found and loaded again."
  },
  {
   "property": "C102",
   "status": "proved",
   "theorems": [
    "C102_step",
    "C102_runs",
    "C102_can_run",
    "C102_load",
    "C102_load_none",
    "C102_kinds",
    "C102_size",
    "C102_saved_listed",
    "C102_removed_listed",
    "C102_refused",
    "C102_refused_runs",
    "C102_refused_else",
    "C102_refused_none",
    "C102_cut"
   ],
   "note": "Proved for all programs whose operations make sense (a file is saved into a directory that exists, a directory is not made where a file is in the way, the current directory is not removed) when the system refuses nothing; and for all answers of the system that an operation that returns leaves at most a part of its effect, at its own places (C102_refused). Links are not modelled."
  },
  {
   "property": "C103",
   "status": "partial",
   "theorems": [
    "C103_text_partial",
    "C103_innermost",
    "C103_lines_partial",
    "C103_faithful_partial",
    "C103_refuted_largest"
   ],
   "note": "False for the bound 4294967295, where the array has no cells and is written to. Proved for all other bounds; the names tell the frames apart if they have no newline and are not the text for no frames."
  },
  {
   "property": "C104",
   "status": "proved",
   "theorems": [
    "C104_can",
    "C104_keep",
    "C104_refused",
    "C104_refused_none",
    "C104_refused_cut"
   ],
   "note": "Proved for all sequences of requests of one process: with all texts kept when the system refuses nothing, and with nothing lost that was there whatever the system refuses. Nobody else removes the temporary directory; files of more than 2147483647 bytes are excepted (see C76)."
  }
 ]
}