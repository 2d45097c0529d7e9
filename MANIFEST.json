{
 "claims": [
  {
   "property": "C01",
   "status": "proved",
   "theorems": [
    "C01_C02_encode_exact",
    "C01_C02_decode_encode",
    "C01_scalar_length"
   ],
   "note": "encode is exact for every 32-bit value, decode inverts it in any window; scalars take 1-4 bytes"
  },
  {
   "property": "C02",
   "status": "proved",
   "theorems": [
    "C01_C02_encode_exact",
    "C01_C02_decode_encode",
    "C02_big_endian_deterministic"
   ],
   "note": "same theorems at U16 and U16BE; independence of the uninitialised locals proved separately"
  },
  {
   "property": "C03",
   "status": "proved",
   "theorems": [
    "C03_convert_exact",
    "C03_convert_roundtrip",
    "C03_scalars_are_usable",
    "C03_convert_prefix"
   ],
   "note": "every pair of the five encodings, wchar_t being UTF-32 (the non-Windows configuration)"
  },
  {
   "property": "C04",
   "status": "proved",
   "theorems": [
    "C04_reads_string_safe",
    "C04_reads_range_safe"
   ],
   "note": "any units, both consumers, any number of reads; UB is an explicit outcome of the model"
  },
  {
   "property": "C05",
   "status": "proved",
   "theorems": [
    "C05_passes_agree"
   ],
   "note": "any zero-free source units, any capacity"
  },
  {
   "property": "C06",
   "status": "proved",
   "theorems": [
    "C06_clusters_string",
    "C06_clusters_range",
    "C06_any_units_string",
    "C06_any_units_range",
    "C06_any_units_points",
    "C06_end_is_final_string",
    "C06_end_is_final_range"
   ],
   "note": "both consumers, all pairs of encodings; any units, well formed or not, up to the first read that returns zero"
  },
  {
   "property": "C07",
   "status": "partial",
   "theorems": [
    "C07_utf16_malformed_stops",
    "C07_utf16_prefix_scalar",
    "C07_utf8_rejects_exactly_truncated_partial",
    "C07_utf8_truncated_rejected_partial",
    "C07_any_units_exact",
    "C07_any_units_well_formed",
    "C07_stop_is_final_string",
    "C07_stop_is_final_range",
    "C07_stop_is_final_refuted",
    "C07_utf8_malformed_refuted",
    "C07_utf8_overlong_zero_refuted",
    "C07_range_zero_dropped_refuted"
   ],
   "note": "UTF-16 proved at full strength; for UTF-8 the claim is false of the code (refuted theorems); the partial theorems state exactly what is rejected, C07_any_units_exact gives the exact result of converting any units of any encoding, and C07_stop_is_final that a reader that stopped stays stopped (all pairs but UTF-8 to UTF-32)"
  },
  {
   "property": "C08",
   "status": "proved",
   "theorems": [
    "C08_C10_strings_are_values"
   ],
   "note": "every program over string variables: constructors, copies, moves, Left/Right/Sub/Remove/Insert/+; results equal the plain-list meaning"
  },
  {
   "property": "C09",
   "status": "partial",
   "theorems": [
    "C09_slices_checked",
    "C09_index_checked",
    "C09_error_changes_nothing",
    "C09_all_arguments",
    "C09_remove_negative_refuted",
    "C09_sub_negative_refuted",
    "C09_remove_at_end_refuted",
    "C09_range_check_overflow_refuted"
   ],
   "note": "proved for Left, Right, Insert and []; C09_all_arguments says what Sub and Remove do for all integer arguments; the claim is false of the code for negative counts, Remove(Length(),0) and 64-bit overflow (refuted theorems)"
  },
  {
   "property": "C10",
   "status": "proved",
   "theorems": [
    "C08_C10_strings_are_values",
    "C10_other_strings_unchanged",
    "C10_windows_are_live"
   ],
   "note": "memory is explicit (blocks, freed blocks, uninitialised cells); use after free and out-of-block access are UB outcomes and are excluded"
  },
  {
   "property": "C11",
   "status": "proved",
   "theorems": [
    "C11_counter_is_number_of_sharers",
    "C11_no_leak"
   ],
   "note": "counter equals the number of live sharers in every reachable state; nothing allocated remains once all strings are gone"
  },
  {
   "property": "C12",
   "status": "proved",
   "theorems": [
    "C12_compare_is_lexicographic",
    "C12_order_meaning",
    "C12_order_equal",
    "C12_order_antisymmetric",
    "C12_order_transitive"
   ],
   "note": "comparison equals lex for any two reachable strings, lex characterised and shown to be a strict total order"
  },
  {
   "property": "C13",
   "status": "proved",
   "theorems": [
    "C13_buffer_terminated",
    "C13_pointer_stays",
    "C13_pointer_shared"
   ],
   "note": "any reachable string, including windows that do not end at the terminator; any later history for the pointer"
  },
  {
   "property": "C14",
   "status": "partial",
   "theorems": [
    "C14_printing",
    "C14_buffer_suffices",
    "C14_parsing",
    "C14_round_trip_i64",
    "C14_round_trip_u64",
    "C14_round_trip_i32_partial",
    "C14_round_trip_u32_partial",
    "C14_vint_round_trip_refuted",
    "C14_numeral_unique",
    "C14_value_read",
    "C14_nothing_read"
   ],
   "note": "itoa/i64toa/utoa/u64toa and their parsers; the round trip of itoa/atoi is false for a 64-bit vint outside the int range (C14_vint_round_trip_refuted); i32/u32 round trips are stated for 32-bit values. Which characters count as blank is an oracle."
  },
  {
   "property": "C15",
   "status": "proved",
   "theorems": [
    "C15_list",
    "C15_array",
    "C15_insert_own_element_refuted"
   ],
   "note": "Refinement of any program over list/array variables to plain sequences. Inserting a reference to the list's own element is refuted separately. Self move assignment empties the list (the specification says so)."
  },
  {
   "property": "C16",
   "status": "proved",
   "theorems": [
    "C16_list_slots",
    "C16_list_destroy",
    "C16_array_slots"
   ],
   "note": "Every slot access is checked in the model; freeing a buffer with a live element counts as UB."
  },
  {
   "property": "C17",
   "status": "proved",
   "theorems": [
    "C17_capacity",
    "C17_growth",
    "C17_append_cost"
   ],
   "note": ""
  },
  {
   "property": "C18",
   "status": "partial",
   "theorems": [
    "C18_get",
    "C18_set",
    "C18_insert",
    "C18_remove_at",
    "C18_remove_range_partial",
    "C18_remove_range_negative_refuted",
    "C18_remove_range",
    "C18_array_get",
    "C18_array_set",
    "C18_array_resize"
   ],
   "note": "Proved; false for a negative length passed to RemoveRange (C18_remove_range_negative_refuted). C18_remove_range says what RemoveRange does for all arguments."
  },
  {
   "property": "C19",
   "status": "proved",
   "theorems": [
    "C19_history",
    "C19_multiset",
    "C19_any_comparator",
    "C19_first_index_refuted"
   ],
   "note": "SortedList stays ordered and is the sorted multiset of what was added, for every history and total order; any comparator keeps indices in range. IndexOf need not be the first of equal elements (C19_first_index_refuted)."
  },
  {
   "property": "C20",
   "status": "partial",
   "theorems": [
    "C20_copy_refuted"
   ],
   "note": "false of the code: the copy constructor of SortedList takes a non-const reference path that steals the source (C20_copy_refuted)."
  },
  {
   "property": "C21",
   "status": "proved",
   "theorems": [
    "C21_history",
    "C21_map_put",
    "C21_map_del",
    "C21_map_ascending"
   ],
   "note": "moves of dictionaries are C67"
  },
  {
   "property": "C22",
   "status": "proved",
   "theorems": [
    "C22_history",
    "C22_no_leak"
   ],
   "note": "includes ownership: every value container on the heap belongs to exactly one key"
  },
  {
   "property": "C23",
   "status": "partial",
   "theorems": [
    "C23_remove_value_refuted",
    "C23_remove_value_partial"
   ],
   "note": "false of the code: true is returned whenever the key exists (C23_remove_value_refuted); the exact behaviour is C23_remove_value_partial"
  },
  {
   "property": "C24",
   "status": "proved",
   "theorems": [
    "C24_dictionary",
    "C24_group"
   ],
   "note": ""
  },
  {
   "property": "C25",
   "status": "partial",
   "theorems": [
    "C25_dictionary_reset_refuted",
    "C25_group_reset_refuted",
    "C25_reset",
    "C25_reset_exact",
    "C25_reset_raises"
   ],
   "note": "proved for every pipeline without a dictionary or group source (Reset at any point); false for the enumerators of Dictionary and Group (refuted theorems) and exactly for the pipelines that read one unevaluated (C25_reset_raises)"
  },
  {
   "property": "C26",
   "status": "proved",
   "theorems": [
    "C26_join"
   ],
   "note": ""
  },
  {
   "property": "C27",
   "status": "proved",
   "theorems": [
    "C27_sorts",
    "C27_any_comparator",
    "C27_any_orderer",
    "C27_exceptions_propagate",
    "C27_models_agree"
   ],
   "note": "a negative length is outside the range; the orderedness theorem is for a comparator that is a function (a total preorder)"
  },
  {
   "property": "C28",
   "status": "proved",
   "theorems": [
    "C28_sort"
   ],
   "note": "Kosaraju on any well formed graph (edge lists mutually inverse, shown for every graph built by C29); termination, bounds, partition, components = mutual dependency classes, order."
  },
  {
   "property": "C29",
   "status": "partial",
   "theorems": [
    "C29_group",
    "C29_group_unknown",
    "C29_func",
    "C29_sub_class",
    "C29_no_self_edges_refuted",
    "C29_sub_class_unknown_refuted"
   ],
   "note": "InitWithGroup, InitWithFunc and InitWithSubClass build exactly the stated edges; for sub classes duplicates are excluded but self edges are kept, so that part of the claim is refuted. InitWithFunc/SubClass for comparisons where Eq is equality and distinct items."
  },
  {
   "property": "C30",
   "status": "partial",
   "theorems": [
    "C30_pipeline",
    "C30_exact",
    "C30_means",
    "C30_repeat_raises",
    "C30_repeat_dictionary_refuted",
    "C30_range_overflow_refuted"
   ],
   "note": "pipelines of any depth over lists, ranges and dictionaries, by simulation of each enumerator class. False for Take(n<=0) after Skip, Take after a negative Skip, Repeat over a dictionary and a Range that overflows (refuted); C30_exact gives the exact sequence for any Skip and Take numbers, C30_repeat_raises the exact outcome of Repeat over a dictionary or group"
  },
  {
   "property": "C31",
   "status": "partial",
   "theorems": [
    "C31_take",
    "C31_exact",
    "C31_take_zero_refuted",
    "C31_skip_negative_refuted"
   ],
   "note": "proved for n >= 1 on every pipeline and for n <= 0 on pipelines not starting with Skip; Skip(k).Take(0) yields a value (refuted theorem); C31_exact gives the exact values for every n on every pipeline"
  },
  {
   "property": "C32",
   "status": "proved",
   "theorems": [
    "C32_distinct",
    "C32_intersect",
    "C32_except",
    "C32_union"
   ],
   "note": "membership, order and absence of duplicates for Distinct, Intersect, Except, Union"
  },
  {
   "property": "C33",
   "status": "proved",
   "theorems": [
    "C33_aggregate_init",
    "C33_aggregate",
    "C33_all",
    "C33_any",
    "C33_max",
    "C33_min",
    "C33_first",
    "C33_last",
    "C33_count",
    "C33_is_empty"
   ],
   "note": "all aggregations, errors on empty sources included"
  },
  {
   "property": "C34",
   "status": "proved",
   "theorems": [
    "C34_pipeline",
    "C34_key_pipeline",
    "C34_any_comparison",
    "C34_order_by",
    "C34_order_by_key",
    "C34_stable_refuted"
   ],
   "note": "on every pipeline, with OrderByKey; any comparison gives a permutation or raises"
  },
  {
   "property": "C35",
   "status": "proved",
   "theorems": [
    "C35_group_by",
    "C35_group_by_any_equality",
    "C35_group_by_disagreeing_refuted",
    "C35_select_many"
   ],
   "note": "keys in order of first appearance, groups as sub sequences, each value in exactly one group; SelectMany is flat_map. C35_group_by_any_equality drops the agreement of == with <=>; C35_group_by_disagreeing_refuted shows that values are then lost."
  },
  {
   "property": "C36",
   "status": "proved",
   "theorems": [
    "C36_compare",
    "C36_antisymmetric",
    "C36_transitive",
    "C36_equal"
   ],
   "note": "equals the lexicographic order for any element comparison; laws for any partial order on elements"
  },
  {
   "property": "C37",
   "status": "proved",
   "theorems": [
    "C37_dictionary",
    "C37_dictionary_en",
    "C37_dictionary_values",
    "C37_group",
    "C37_group_en",
    "C37_group_values",
    "C37_dictionary_copy",
    "C37_group_copy",
    "C37_list_of_pairs",
    "C37_list_of_pairs_en",
    "C37_sorted_of_pairs",
    "C37_sorted_of_pairs_en",
    "C37_array_of_pairs",
    "C37_array_from_group",
    "C37_dictionary_self",
    "C37_group_self_refuted",
    "C37_group_self_append_refuted",
    "C37_array_from_indexed",
    "C37_list_from_indexed",
    "C37_sorted_from_indexed",
    "C37_array_from_enumerable",
    "C37_list_from_enumerable",
    "C37_sorted_from_enumerable",
    "C37_string",
    "C37_self_refuted",
    "C37_self_append_refuted",
    "C37_negative_count_refuted"
   ],
   "note": "all four algorithms and the string overload; sources by index, lazy lists, dictionaries and groups; destinations arrays, lists, sorted lists, dictionaries and groups; copying a container to itself and negative counts refuted separately"
  },
  {
   "property": "C38",
   "status": "partial",
   "theorems": [
    "C38_history",
    "C38_alive",
    "C38_counter",
    "C38_counter_released",
    "C38_assign_from_member_refuted"
   ],
   "note": "Proved for every history of construct/copy/move/assign/reset/destroy on stack variables and members, with the whole deletion cascade, under the client rule that the object of a member that is changed or read stays reachable from the stack, through any chain of members, without the changed variable; C38_assign_from_member_refuted shows the rule is needed: p = p->next with p the sole owner of its object reads a freed object. Destructors with a body of their own are in C69."
  },
  {
   "property": "C39",
   "status": "partial",
   "theorems": [
    "C39_detach_partial",
    "C39_detach_exact",
    "C39_counter_lost_refuted",
    "C39_shared_refuted"
   ],
   "note": "C39_detach_partial: Detach of a sole owner hands the object out without deleting it. False in general: the counter is leaked (C39_counter_lost_refuted) and Detach while other owners exist leaves a Ptr whose later use is undefined (C39_shared_refuted). C39_detach_exact says exactly what Detach does in every reachable state."
  },
  {
   "property": "C40",
   "status": "proved",
   "theorems": [
    "C40_safe",
    "C40_last",
    "C40_done"
   ],
   "note": "Interleaving semantics (the atomics use the default sequentially consistent order), any number of threads and any programs, including moving copies between threads."
  },
  {
   "property": "C41",
   "status": "partial",
   "theorems": [
    "C41_release",
    "C41_balance",
    "C41_self_assign_refuted"
   ],
   "note": "Proved for every history without p = p.Obj(); C41_self_assign_refuted shows that assigning a ComPtr its own raw pointer releases the object twice."
  },
  {
   "property": "C42",
   "status": "proved",
   "theorems": [
    "C42_history"
   ],
   "note": "Any number of maps sharing one allocator, with uninitialised memory modelled."
  },
  {
   "property": "C43",
   "status": "partial",
   "theorems": [
    "C43_history",
    "C43_stable",
    "C43_destroyed",
    "C43_get_range_refuted",
    "C43_get",
    "C43_block_size"
   ],
   "note": "C43_history, C43_stable, C43_destroyed cover fresh addresses and stability for every positive block size. The part 'Get out of range raises an error' is false (C43_get_range_refuted): beyond the end Get returns null, and a negative index is undefined or raises depending on its value. C43_get gives the result of Get for every index after every history."
  },
  {
   "property": "C44",
   "status": "partial",
   "theorems": [
    "C44_history",
    "C44_order",
    "C44_null_least",
    "C44_own_value_refuted"
   ],
   "note": "Proved for every element type and every history without x = x.Value() on a type that is not copy assignable (C44_own_value_refuted: the object is destroyed before it is copied)."
  },
  {
   "property": "C45",
   "status": "partial",
   "theorems": [
    "C45_history",
    "C45_noncopyable_refuted",
    "C45_own_part_refuted"
   ],
   "note": "Proved for every list of alternatives and every history that does not assign a non-copyable alternative over another one (C45_noncopyable_refuted: the variant is left without an object) or a part of the held object over it (C45_own_part_refuted)."
  },
  {
   "property": "C46",
   "status": "proved",
   "theorems": [
    "C46_lexicographic",
    "C46_total",
    "C46_partial_order",
    "C46_equal",
    "C46_consistent",
    "C46_pair_lexicographic",
    "C46_pair_total",
    "C46_pair_tuple"
   ],
   "note": "Tuples of any width over element types given by their comparisons; comparison between tuples of different element types is not modelled."
  },
  {
   "property": "C47",
   "status": "partial",
   "theorems": [
    "C47_common",
    "C47_strongest_partial",
    "C47_all_strong_refuted"
   ],
   "note": "The picked category is always one everything converts to, and the strongest one unless all categories are strong; for a list of strong orderings the code picks partial_ordering (C47_all_strong_refuted)."
  },
  {
   "property": "C48",
   "status": "partial",
   "theorems": [
    "C48_from_internal",
    "C48_from_date",
    "C48_fields",
    "C48_calendar",
    "C48_undo",
    "C48_forward_adds",
    "C48_later",
    "C48_later_refuted",
    "C48_compare",
    "C48_before_1970_refuted",
    "C48_zone",
    "C48_assumption_met",
    "C48_windows_from_internal",
    "C48_windows_fields",
    "C48_windows_undo",
    "C48_windows_backward_refuted"
   ],
   "note": "Relative to stated assumptions on mktime/localtime and the Windows conversions, which every constant-offset Gregorian zone is shown to meet. Dates before 1970 (Linux) and counts past 2^64 are refuted. C48_fields and C48_calendar: the fields shown are those of the instant or date."
  },
  {
   "property": "C49",
   "status": "partial",
   "theorems": [
    "C49_alternation",
    "C49_finalize",
    "C49_finalize_again",
    "C49_finalize_later",
    "C49_finalize_earlier_refuted",
    "C49_finalize_own_refuted",
    "C49_exit",
    "C49_exit_later_refuted",
    "C49_throwing_initialiser_refuted",
    "C49_throwing_finaliser",
    "C49_throwing_at_exit"
   ],
   "note": "Alternation holds whatever the callbacks do. None-initialised-afterwards holds when finalisers use no storage or only later registered ones; refuted for finalisers that use earlier ones or their own. Throwing finalisers: exact effect, also at exit (the program is terminated). An initialiser that threw is never run again (refuted, universally). Threads are not modelled."
  },
  {
   "property": "C50",
   "status": "partial",
   "theorems": [
    "C50_reentrant",
    "C50_once",
    "C50_terminates",
    "C50_alive",
    "C50_self_destruction_refuted",
    "C50_history",
    "C50_other_events",
    "C50_order_refuted",
    "C50_rvalue_refuted",
    "C50_self_removal_refuted",
    "C50_adding_refuted"
   ],
   "note": "Exactly-once delivery and exact removal hold over all histories of several events. The order of calls is by handler address, not by addition (C50_order_refuted); rvalue arguments reach only the first handler; handlers that change the event they run in may be skipped or called twice. C50_reentrant describes exactly which handlers are called whatever callbacks do, nested raises included; a callback that removes and drops its own handler destroys the function it runs in (C50_self_destruction_refuted)."
  },
  {
   "property": "C51",
   "status": "proved",
   "theorems": [
    "C51_lorem",
    "C51_title",
    "C51_sentence",
    "C51_paragraph",
    "C51_paragraph_ends_refuted",
    "C51_closest_refuted"
   ],
   "note": "LoremIpsum modelled at buffer level with the word list of the source; closest among texts of at least one word; paragraph for every random sequence. Refuted parts: a paragraph may break off after a comma, and for tiny lengths an empty text would be closer."
  },
  {
   "property": "C52",
   "status": "proved",
   "theorems": [
    "C52_run",
    "C52_filter",
    "C52_debug",
    "C52_debug_catch_refuted",
    "C52_options",
    "C52_unsuppressed"
   ],
   "note": "C52_debug_catch_refuted records that without suppression a test that catches what left a nested category or case leaves a dangling context; C52_unsuppressed covers all other runs without suppression."
  },
  {
   "property": "C53",
   "status": "partial",
   "theorems": [
    "C53_alower_partial",
    "C53_aupper_partial",
    "C53_wlower_partial",
    "C53_wupper_partial",
    "C53_wide_refuted",
    "C53_zero_refuted",
    "C53_exact"
   ],
   "note": "Proved for narrow strings without embedded zeros and wide ASCII strings; false beyond (C53_wide_refuted, C53_zero_refuted). The C library's case functions are parameters constrained on the relevant range. C53_exact gives the result for every string and every case function."
  },
  {
   "property": "C54",
   "status": "proved",
   "theorems": [
    "C54_history",
    "C54_second",
    "C54_once"
   ],
   "note": "All histories over any number of collections; none of the container constructors or assignments passes on the association."
  },
  {
   "property": "C55",
   "status": "proved",
   "theorems": [
    "C55_history",
    "C55_copy",
    "C55_assign",
    "C55_move",
    "C55_separate",
    "C55_convert",
    "C55_null_pointer_refuted"
   ],
   "note": "All histories of construction, copy, move, conversion, assignment, comparison and call. Refuted: a null function pointer gives a non-empty Func."
  },
  {
   "property": "C56",
   "status": "partial",
   "theorems": [
    "C56_for_each",
    "C56_for_indexed",
    "C56_enumerator_deleted_partial",
    "C56_indexed_enumerator_deleted_partial",
    "C56_leak_refuted"
   ],
   "note": "The for loop and indexed() are proved; the enumerator is deleted on every way out except when the very first Next raises inside the iterator's constructor (C56_leak_refuted)."
  },
  {
   "property": "C57",
   "status": "partial",
   "theorems": [
    "C57_lazy_lists_are_values",
    "C57_memory_safe",
    "C57_nothing_leaks_partial",
    "C57_intersect_leak_refuted",
    "C57_self_move_refuted",
    "C57_programs_build_pipelines"
   ],
   "note": "Value semantics, memory safety and the link to the denotation of pipelines are proved for every history; nothing leaks unless Intersect or Except is left by an exception (C57_intersect_leak_refuted)."
  },
  {
   "property": "C58",
   "status": "proved",
   "theorems": [
    "C58_linux",
    "C58_windows",
    "C58_round_trip",
    "C58_decoding",
    "C58_not_encodable",
    "C58_returned",
    "C58_destination",
    "C58_terminator_refuted",
    "C58_capacity_zero_refuted"
   ],
   "note": "Exact results of wtoa and atow on both platforms, round trip, and writes into a caller's buffer on Linux. Refuted readings: the terminator is always written; a capacity of zero writes nothing."
  },
  {
   "property": "C59",
   "status": "proved",
   "theorems": [
    "C59_text",
    "C59_form",
    "C59_resolution",
    "C59_monotone",
    "C59_integers",
    "C59_round_trip",
    "C59_round_trip_only",
    "C59_writable",
    "C59_text_round_trip",
    "C59_round_trip_refuted",
    "C59_small_refuted",
    "C59_comma_refuted",
    "C59_parse",
    "C59_embedded_zero",
    "C59_empty_refuted",
    "C59_wide"
   ],
   "note": "Linux build; sprintf(\"%f\") modelled exactly, strtod an oracle with the hypotheses reads_decimals and reads_infinity (met by simple_strtod, C59_strtod). Refuted readings: unconditional round trip, small numbers, comma locale, empty text rejected."
  },
  {
   "property": "C60",
   "status": "proved",
   "theorems": [
    "C60_linearizable",
    "C60_released",
    "C60_shared_buffer_refuted"
   ],
   "note": "Proved for every schedule with Buffer() on shared variables restricted to strings that end where their buffer ends; without it refuted (C60_shared_buffer_refuted). Fields of a shared variable are loaded in one step."
  },
  {
   "property": "C61",
   "status": "proved",
   "theorems": [
    "C61_programs_of_conversions",
    "C61_paths_agree",
    "C61_zero_inside_refuted",
    "C61_lone_surrogate_refuted"
   ],
   "note": "the refinement and the path theorem are proved for all programs and all zero-free texts of scalar values; for texts with a zero or a lone surrogate inside, path independence is false of the code (refuted theorems)"
  },
  {
   "property": "C62",
   "status": "proved",
   "theorems": [
    "C62_sort_at_most",
    "C62_sort_worst_case",
    "C62_sort_n_log_n_refuted",
    "C62_search_at_most",
    "C62_search_worst_case",
    "C62_add",
    "C62_exceptions_propagate",
    "C62_dictionary",
    "C62_models_agree"
   ],
   "note": "Sort: upper bound for every comparator, reached by every strictly ascending list. Searches: bound reached for a key above all elements."
  },
  {
   "property": "C63",
   "status": "proved",
   "theorems": [
    "C63_history",
    "C63_types",
    "C63_deletes",
    "C63_alive",
    "C63_cast_back",
    "C63_paths",
    "C63_no_virtual_destructor_refuted"
   ],
   "note": "Wrapping new Derived in a Ptr<Base> needs a virtual destructor (C63_no_virtual_destructor_refuted); user-defined destructors do not use Ptr variables here (C69 adds them)."
  },
  {
   "property": "C64",
   "status": "proved",
   "theorems": [
    "C64_group",
    "C64_group_enumerators",
    "C64_group_value",
    "C64_group_key_refuted",
    "C64_history",
    "C64_enumerators",
    "C64_reference",
    "C64_reference_exact",
    "C64_reference_lost",
    "C64_reference_after_remove_refuted",
    "C64_loop",
    "C64_loop_queries",
    "C64_loop_replaces",
    "C64_loop_worklist",
    "C64_loop_endless",
    "C64_loop_removes",
    "C64_loop_removes_all_refuted",
    "C64_dictionary",
    "C64_dictionary_enumerators",
    "C64_dictionary_current_refuted"
   ],
   "note": "Proved for every history, enumerator and loop body, for List/Array, Dictionary and Group. Refuted: references survive the removal of other elements; removing in a loop removes everything to be removed; the pair a dictionary enumerator stands on, or the key a group enumerator stands on, survives additions. Not modelled: index overflow after 2^63 calls of Next."
  },
  {
   "property": "C65",
   "status": "proved",
   "theorems": [
    "C65_history",
    "C65_insert_effect",
    "C65_insert",
    "C65_insert_destroy_refuted",
    "C65_array_new_refuted",
    "C65_array_from_refuted",
    "C65_array_resize_refuted",
    "C65_dictionary_add_refuted",
    "C65_dictionary_calm",
    "C65_dictionary_set",
    "C65_group_add_refuted",
    "C65_group_leak_refuted",
    "C65_group_value",
    "C65_group_key_not_copied",
    "C65_group_calm",
    "C65_sorted_add_refuted",
    "C65_nullable",
    "C65_nullable_strong_refuted",
    "C65_variant_history",
    "C65_variant_refuted",
    "C65_variant_hollow"
   ],
   "note": "Proved for every history: failed assignments, failed Resize and array construction, every failure inside Nullable, what a failed copy of a value leaves of a Group. Refuted: a list, sorted list, dictionary, group or variant cannot be destroyed after a failed Insert, Add or change of alternative; failed array constructions and failed copies of new keys of a group leak. Moves and destructors of elements are assumed not to throw; Ptr is not covered."
  },
  {
   "property": "C66",
   "status": "proved",
   "theorems": [
    "C66_group_history",
    "C66_group_add_refuted",
    "C66_list",
    "C66_list_safe",
    "C66_insert",
    "C66_adds",
    "C66_insert_copy_refuted",
    "C66_add_refuted",
    "C66_sorted",
    "C66_sorted_distinct",
    "C66_dictionary",
    "C66_dictionary_new",
    "C66_dictionary_copy_refuted",
    "C66_dictionary_add_refuted",
    "C66_group_other",
    "C66_group_same",
    "C66_group_error",
    "C66_group_remove"
   ],
   "note": "that these calls add a copy is refuted where the container grows or moves elements; what they do is given exactly, for histories of lists, dictionaries and groups"
  },
  {
   "property": "C67",
   "status": "proved",
   "theorems": [
    "C67_sorted",
    "C67_dictionary",
    "C67_group",
    "C67_group_gone",
    "C67_unique",
    "C67_self_move_refuted"
   ],
   "note": "x = std::move(x) does not keep the contents (C67_self_move_refuted); the rest is proved"
  },
  {
   "property": "C68",
   "status": "partial",
   "theorems": [
    "C68_window_output",
    "C68_window_length_refuted",
    "C68_linux_output_partial",
    "C68_linux_output_refuted",
    "C68_linux_output_lost",
    "C68_file_output_partial",
    "C68_file_output_refuted",
    "C68_colours",
    "C68_linux_input",
    "C68_windows_input",
    "C68_windows_input_refuted"
   ],
   "note": "true of Windows consoles; on Linux and for Windows files and pipes part of the claim is false of the code (refuted theorems) and the partial theorems state exactly what arrives; SetTitle and Windows colours are not text"
  },
  {
   "property": "C69",
   "status": "proved",
   "theorems": [
    "C69_safe",
    "C69_effect",
    "C69_alive",
    "C69_owner_alive",
    "C69_counter",
    "C69_counter_released",
    "C69_once",
    "C69_members_exist",
    "C69_members_gone",
    "C69_terminates",
    "C69_completes",
    "C69_no_bodies",
    "C69_reads_busy_refuted",
    "C69_writes_busy_refuted",
    "C69_kills_source_refuted"
   ],
   "note": "Under the stated rule; the three C69_*_refuted theorems show that each part of the rule is needed. Members are Ptr variables of the object; classes and casts as in C38 (one class)."
  },
  {
   "property": "C70",
   "status": "proved",
   "theorems": [
    "C70_effect",
    "C70_defined",
    "C70_apart",
    "C70_copy",
    "C70_assign",
    "C70_move_through_refuted",
    "C70_assign_through_refuted",
    "C70_dangling_refuted",
    "C70_default_refuted"
   ],
   "note": "One memory for all objects; an element of type T owns an address, one of type T& points to any. Element types are identified (conversions keep the value) and constness is not modelled. C70_effect is the full description of every statement. The four refuted theorems are consequences users may not expect and are no part of the statement."
  },
  {
   "property": "C71",
   "status": "partial",
   "theorems": [
    "C71_history",
    "C71_alive",
    "C71_counter",
    "C71_counter_released",
    "C71_buffers",
    "C71_apart",
    "C71_range",
    "C71_lift_refuted",
    "C71_own_list_refuted",
    "C71_own_item_refuted"
   ],
   "note": "C71_history, C71_alive, C71_counter, C71_counter_released, C71_buffers, C71_apart and C71_range hold for all histories in which the object whose list or member changes stays reachable from the stack, through any chain of members and items, without the places that change. Without that the claim is refuted: C71_lift_refuted, C71_own_list_refuted; and for list.Add(list[i]): C71_own_item_refuted."
  },
  {
   "property": "C72",
   "status": "proved",
   "theorems": [
    "C72_lists_of_strings",
    "C72_counters",
    "C72_buffers",
    "C72_no_leak"
   ],
   "note": "one thread; Insert and Add of an own element excluded (undefined when the buffer is replaced, C66)"
  },
  {
   "property": "C73",
   "status": "proved",
   "theorems": [
    "C73_dictionaries_of_strings",
    "C73_keys_ascend",
    "C73_counters",
    "C73_buffers",
    "C73_no_leak"
   ],
   "note": "Programs over string variables and Dictionary<WString,WString>; element operations at the level of string objects, counters and buffers; entries made of the dictionary's own elements excluded (C66). Add(Pair) and enumeration not in this model."
  },
  {
   "property": "C74",
   "status": "partial",
   "theorems": [
    "C74_failed_statements_change_nothing_partial",
    "C74_counters_partial",
    "C74_leaks",
    "C74_first_failure_no_leak",
    "C74_enough_memory",
    "C74_join_refuted",
    "C74_buffer_refuted",
    "C74_no_leak_refuted"
   ],
   "note": "Proved for all histories: with failures at the first allocation, or at the second allocation of constructors that are not joins, failed statements change nothing, counters are exact, and the lost memory is counted exactly. Refuted: joins and Buffer() when the second allocation fails are undefined or tear the string, and second failures of constructors lose memory."
  },
  {
   "property": "C75",
   "status": "partial",
   "theorems": [
    "C75_never_wrong_partial",
    "C75_enough_memory",
    "C75_insertion_refuted",
    "C75_removal_refuted",
    "C75_array_places",
    "C75_array_size_refuted"
   ],
   "note": "Proved for all programs and failure patterns: undefined behaviour or exactly the results and elements of unlimited memory, never a wrong answer; with enough memory as in C15; the exact condition under which an insertion or a removal needs memory. Refuted: failures are not reported (null dereference), removal may fail, an emptied list may be left unusable, and Array(size) wraps the number of bytes."
  },
  {
   "property": "C76",
   "status": "partial",
   "theorems": [
    "C76_array_history",
    "C76_array_calm",
    "C76_array_resize_refuted",
    "C76_array_copies",
    "C76_history_partial",
    "C76_calm",
    "C76_growth_leak_refuted",
    "C76_growth_moved_refuted",
    "C76_in_place_refuted",
    "C76_removal_refuted",
    "C76_range_refuted",
    "C76_shrinking_refuted"
   ],
   "note": "The exact effect of every failing move, absence of undefined behaviour and the ledger are proved for all histories of lists and of an array; keeping the old elements and destroying everything is refuted universally (growth, in place, removal, shrinking, Resize of an array). Construction of the inserted element from the argument is not among the throwing moves (C65)."
  },
  {
   "property": "C77",
   "status": "partial",
   "theorems": [
    "C77_history_partial",
    "C77_captures",
    "C77_use_exact",
    "C77_local_copy",
    "C77_replaced_refuted",
    "C77_successor_refuted"
   ],
   "note": "Proved: under the rule of C38 and as long as some Func refers to the running function nothing is undefined; captures exist exactly that long; calling through an untouched local copy is always safe. Without another Func the claim is refuted universally (C77_replaced_refuted, C77_successor_refuted)."
  },
  {
   "property": "C78",
   "status": "proved",
   "theorems": [
    "C78_report",
    "C78_totals"
   ],
   "note": "Runs with failures suppressed; texts are abstract, the filter is C52. C78_totals is stated on the printed lines alone."
  },
  {
   "property": "C79",
   "status": "partial",
   "theorems": [
    "C79_ptr",
    "C79_ptr_leak_refuted",
    "C79_com_partial",
    "C79_com_lost_refuted",
    "C79_com_shared_refuted"
   ],
   "note": "Refuted: the object or reference handed over is lost when the counter cannot be allocated (C79_ptr_leak_refuted, C79_com_lost_refuted), and a failed assignment to a ComPtr that shares its reference leaves it uncounted (C79_com_shared_refuted). Everything else is proved."
  },
  {
   "property": "C80",
   "status": "partial",
   "theorems": [
    "C80_sort_partial",
    "C80_exceptions_propagate",
    "C80_models_agree",
    "C80_lost_refuted"
   ],
   "note": "Everything but the last part: after an exception one element may have been replaced by what a failed assignment left (at most one, described exactly). That all elements are still there is refuted (C80_lost_refuted)."
  },
  {
   "property": "C81",
   "status": "partial",
   "theorems": [
    "C81_loop",
    "C81_elements",
    "C81_same_values",
    "C81_first",
    "C81_is_empty",
    "C81_count",
    "C81_take_calls",
    "C81_all_any_ask_every_element",
    "C81_array",
    "C81_array_calls_once_refuted",
    "C81_array_works_refuted",
    "C81_skip_after_exception_refuted",
    "C81_pairwise_after_exception_refuted",
    "C81_current_after_exception_refuted"
   ],
   "note": "Every loop runs the functions and its body in the order of the specification (C81_loop), for all effects and exceptions. Refuted of the code: functions are called once when a lazy list is copied to an array; an enumerator can be used further after an exception."
  },
  {
   "property": "C82",
   "status": "partial",
   "theorems": [
    "C82_safe",
    "C82_frozen",
    "C82_single",
    "C82_last",
    "C82_quiet",
    "C82_effect",
    "C82_reach",
    "C82_nothing_lost",
    "C82_all_deleted",
    "C82_bounded",
    "C82_complete",
    "C82_self_load_refuted",
    "C82_ring_refuted"
   ],
   "note": "Proved for every program without p = p->f and p = move(p->f) onto the same variable, which are refuted when p is the only pointer (C82_self_load_refuted); cyclic graphs are kept (C82_ring_refuted). Sequentially consistent interleaving of the atomic steps; destructors of the objects do nothing but destroy their members."
  },
  {
   "property": "C83",
   "status": "partial",
   "theorems": [
    "C83_sorted_never_wrong_partial",
    "C83_dictionary_never_wrong_partial",
    "C83_group_never_wrong_partial",
    "C83_enough_memory_sorted",
    "C83_enough_memory_dictionary",
    "C83_enough_memory_group",
    "C83_sorted_add_refuted",
    "C83_dictionary_add_refuted",
    "C83_group_add_refuted",
    "C83_remove_refuted"
   ],
   "note": "Never a wrong answer, in any program with any failing allocations; exact condition of the undefined behaviour of Add; refuted: the failure is reported only by the new of a group's container, Remove can leave an unusable dictionary"
  },
  {
   "property": "C84",
   "status": "partial",
   "theorems": [
    "C84_moves",
    "C84_shrink_refuted",
    "C84_emptied_refuted",
    "C84_statement",
    "C84_program",
    "C84_no_waste",
    "C84_left_refuted",
    "C84_left_buffer",
    "C84_right_refuted"
   ],
   "note": "proved: amortised moves, capacity at most 5/4 of the peak, allocation per string statement and per program, no waste without parts; refuted of the code: memory is given back (lists with more than nine elements, parts of strings)"
  },
  {
   "property": "C85",
   "status": "partial",
   "theorems": [
    "C85_select_many",
    "C85_select_many_throws",
    "C85_select_many_values",
    "C85_select_many_lazy_refuted",
    "C85_select_many_depth_refuted",
    "C85_group_by",
    "C85_group_by_values",
    "C85_group_by_calls_once_refuted",
    "C85_group_by_complete_refuted",
    "C85_aggregate",
    "C85_aggregate_from",
    "C85_last",
    "C85_defaults"
   ],
   "note": "SelectMany, GroupBy, Aggregate, First and Last for all functions with effects. False of the code: SelectMany is lazy, bounded nesting, one call of the key function per element, every element in a group when keys change (refuted)."
  },
  {
   "property": "C86",
   "status": "partial",
   "theorems": [
    "C86_compare",
    "C86_total",
    "C86_equal",
    "C86_sorted_list",
    "C86_dictionary",
    "C86_group",
    "C86_join",
    "C86_sort",
    "C86_nan_sorted_list",
    "C86_nan_dictionary",
    "C86_nan_group",
    "C86_nan_stored_refuted",
    "C86_nan_join_refuted",
    "C86_numbers_sort",
    "C86_nan_sort"
   ],
   "note": "proved for the types of the library; for floating point keys a value stored under NaN cannot be read or removed and GroupInnerJoin joins NaN with any number (C86_nan_stored_refuted, C86_nan_join_refuted)"
  },
  {
   "property": "C87",
   "status": "partial",
   "theorems": [
    "C87_history",
    "C87_alive",
    "C87_aligned",
    "C87_counter",
    "C87_lists",
    "C87_own_value_refuted",
    "C87_own_dictionary_refuted"
   ],
   "note": "All histories that follow the rules of dlegal. Refuted without the rules: a value of the dictionary itself under a new key, and a dictionary that only its own value keeps."
  },
  {
   "property": "C88",
   "status": "partial",
   "theorems": [
    "C88_sorted_list",
    "C88_dictionary",
    "C88_ascending",
    "C88_descending",
    "C88_equal_elements",
    "C88_in_order_refuted"
   ],
   "note": "The bounds are proved in full from both sides for every history; that elements arriving in order cost a constant each is proved for dictionaries and refuted for sorted lists with equal elements (C88_in_order_refuted)."
  },
  {
   "property": "C89",
   "status": "partial",
   "theorems": [
    "C89_remove_at",
    "C89_set",
    "C89_clear",
    "C89_remove_range",
    "C89_remove_range_refuted",
    "C89_destroy",
    "C89_move",
    "C89_resize",
    "C89_resize_refuted",
    "C89_resize_up",
    "C89_dictionary_set",
    "C89_dictionary_clear",
    "C89_dictionary_remove",
    "C89_dictionary_remove_refuted",
    "C89_dictionary_destroy",
    "C89_dictionary_move",
    "C89_group_remove",
    "C89_group_remove_value",
    "C89_group_clear",
    "C89_remove",
    "C89_nothing"
   ],
   "note": "RemoveAt, Remove, Set, Clear, Dictionary::Set and Clear and Group::Remove(key) proved; for the other operations what is seen is proved exactly and the claim that it is the state before or after is refuted"
  },
  {
   "property": "C90",
   "status": "partial",
   "theorems": [
    "C90_history_partial",
    "C90_quiet",
    "C90_set_partial",
    "C90_remove_refuted",
    "C90_remove_last_refuted",
    "C90_clear_refuted",
    "C90_destroy_refuted"
   ],
   "note": "false of RemoveAt, Clear, the destructor and of Set without room (universal refuted theorems); C90_history_partial says exactly what every program does; other operations in destructors (Insert, removals) are not modelled"
  },
  {
   "property": "C91",
   "status": "proved",
   "theorems": [
    "C91_history",
    "C91_cut",
    "C91_whole",
    "C91_source",
    "C91_balance",
    "C91_alive",
    "C91_terminates",
    "C91_plain"
   ],
   "note": "All programs and callbacks, throwing and catching in any nesting. Handlers after the throwing one are skipped, by address (C91_cut). Exceptions are values of one type, caught by every try; running out of memory in Add is not included."
  },
  {
   "property": "C92",
   "status": "proved",
   "theorems": [
    "C92_sorted_list",
    "C92_dictionary",
    "C92_pairs",
    "C92_list_propagates",
    "C92_dictionary_propagates",
    "C92_list_agrees",
    "C92_dictionary_agrees"
   ],
   "note": "SortedList and Dictionary with stateful, inconsistent or throwing comparisons: every history is defined, each step is one of a small relation on plain lists, a failed comparison changes nothing, and values stay with keys they were given with or called equal to; agrees with the models of C19/C21 for comparisons that are functions."
  },
  {
   "property": "C93",
   "status": "partial",
   "theorems": [
    "C93_history",
    "C93_released_partial",
    "C93_propagates",
    "C93_agrees",
    "C93_released_refuted"
   ],
   "note": "Group with stateful, inconsistent or throwing comparisons of keys and equality of values: histories are defined and follow gr_step, with an exact account of live value containers (C93_history); all memory is released when comparing keys cannot fail, even if the equality of values throws (C93_released_partial); refuted in general: Add of a new key leaks its value container when placing the key throws (C93_released_refuted)."
  },
  {
   "property": "C94",
   "status": "proved",
   "theorems": [
    "C94_history",
    "C94_array",
    "C94_determined",
    "C94_agrees"
   ],
   "note": "List and Array searches with stateful, inconsistent or throwing ==, items of any type: every history is defined and every step is the one the relation eq_step allows (C94_history, C94_array), which is deterministic including the comparisons made (C94_determined); agrees with C15 for an equality that is a function (C94_agrees)."
  },
  {
   "property": "C95",
   "status": "proved",
   "theorems": [
    "C95_any",
    "C95_propagates",
    "C95_exact"
   ],
   "note": "Loops over Distinct, Union, Intersect and Except with the real sorted buffers and stateful, inconsistent or throwing comparisons: defined, ending and as the relation may_yield allows (C95_any), exceptions are not swallowed (C95_propagates), exact for total preorders (C95_exact). Sources are plain sequences and an exception ends the loop; comparisons made by cloning are left out."
  },
  {
   "property": "C96",
   "status": "partial",
   "theorems": [
    "C96_opened",
    "C96_history",
    "C96_clone",
    "C96_history_from",
    "C96_propagates",
    "C96_opened_propagates",
    "C96_clone_propagates",
    "C96_loop",
    "C96_exact",
    "C96_current_refuted"
   ],
   "note": "Making an enumerator (C96_opened, C96_opened_propagates), cloning it (C96_clone, C96_clone_propagates) and all histories of calls on it or a clone (C96_history, C96_history_from, C96_propagates), with stateful, inconsistent or throwing comparisons, agreement of the loop with C95 (C96_loop), and for consistent comparisons equality with an enumerator of the exact result (C96_exact). That a Next left by an exception keeps Current is refuted (C96_current_refuted)."
  }
 ]
}