{
 "claims": [
  {
   "property": "C01",
   "status": "proved",
   "theorems": [
    "C01_rollback",
    "C01_others_keep_changes",
    "C01_success_keeps",
    "C01_merge_rollback",
    "C01_failing_history"
   ],
   "note": "Values are immutable in the model; a library function that mutates its argument in place (see C65) escapes it."
  },
  {
   "property": "C02",
   "status": "proved",
   "theorems": [
    "C02_counters",
    "C02_rejected_input"
   ],
   "note": "Inputs rejected by checkData are not counted (they raise before the counter is incremented)."
  },
  {
   "property": "C03",
   "status": "proved",
   "theorems": [
    "C03_exclusive",
    "C03_rejected",
    "C03_rollback_spares_shared"
   ],
   "note": ""
  },
  {
   "property": "C04",
   "status": "proved",
   "theorems": [
    "C04_cell_serial",
    "C04_all_updates_applied",
    "C04_counter",
    "C04_no_deadlock"
   ],
   "note": "any number of threads, any schedule, statement-level interleaving of Cell.update; a raising update keeps the lock, see C05"
  },
  {
   "property": "C05",
   "status": "partial",
   "theorems": [
    "C05_success_partial",
    "C05_refuted",
    "C05_stuck",
    "C05_others_wait_refuted"
   ],
   "note": "the code does not release the lock when the update raises: refuted with witnesses; proved for successful updates"
  },
  {
   "property": "C06",
   "status": "proved",
   "theorems": [
    "C06_attr_expr",
    "C06_attr_to",
    "C06_attr_to_function",
    "C06_cell_expr",
    "C06_cell_to",
    "C06_get",
    "C06_pool_expr",
    "C06_pool_to",
    "C06_update_laws",
    "C06_update_raises"
   ],
   "note": "'original value unchanged' is by the functional model; copying is read off genpy.py:687-704"
  },
  {
   "property": "C07",
   "status": "partial",
   "theorems": [
    "C07_get_reports",
    "C07_refuted",
    "C07_last_step_ignored",
    "C07_update_reports_partial",
    "C07_negative_position"
   ],
   "note": "refuted: an update whose last step is missing is silently ignored"
  },
  {
   "property": "C08",
   "status": "proved",
   "theorems": [
    "C08_get",
    "C08_let",
    "C08_set_one",
    "C08_lexical",
    "C08_block_isolated",
    "C08_block_names",
    "C08_declares_here",
    "C08_function_names",
    "C08_call_closed",
    "C08_call_body"
   ],
   "note": " On the expression language: blocks and functions leave the set of variables of every enclosing scope unchanged, and user functions neither see nor change the caller's variables."
  },
  {
   "property": "C09",
   "status": "partial",
   "theorems": [
    "C09_refuted",
    "C09_mixed_scopes_fail",
    "C09_same_scope_partial"
   ],
   "note": "refuted: names living in different scopes always raise RuntimeError"
  },
  {
   "property": "C10",
   "status": "proved",
   "theorems": [
    "C10_refl",
    "C10_trans",
    "C10_meaning",
    "C10_documents_refuted"
   ],
   "note": "Avro types of one document (one definition per record name), any nesting, recursive records. C10_meaning: the memo of entered records computes the greatest consistent answer, also between two documents. C10_documents_refuted: between three separately parsed documents transitivity fails because of defaults. The exception type (not an Avro type) accepts nothing and is excluded."
  },
  {
   "property": "C11",
   "status": "partial",
   "theorems": [
    "C11_untagged",
    "C11_tagged_partial",
    "C11_refuted",
    "C11_documents_refuted"
   ],
   "note": "Proved for values without tags, and for tagged values when the accepting type has a union wherever the accepted one does. False in general for the run-time form of unions: double accepts [int, double] but the run-time value {\"int\": 3} is not a number."
  },
  {
   "property": "C12",
   "status": "proved",
   "theorems": [
    "C12_accepts_all",
    "C12_least",
    "C12_total"
   ],
   "note": "Value types; candidates well formed and taken from one document. Also least: every type accepting all branches accepts the result. Function types are only compared for equality (signature.py:256-263) and are not in the theorem."
  },
  {
   "property": "C13",
   "status": "partial",
   "theorems": [
    "C13_sound",
    "C13_ideal_partial",
    "C13_rejection",
    "C13_simpleTest",
    "C13_arithmetic",
    "C13_fcn_arity_refuted",
    "C13_contravariance_refuted",
    "C13_wild_enum_refuted",
    "C13_number_refuted",
    "C13_union_order_refuted",
    "C13_two_enums_refuted",
    "C13_crash_refuted"
   ],
   "note": "Dispatch is proved sound for the matching rules that titus follows (C13_sound) and, for signatures without functions, wild enums, wild fixed, EnumFields and restricted wildcards, for the rules as they should be (C13_ideal_partial); a call that fits a direct signature with one type per label is never turned down (C13_rejection). The full statement is refuted: the arity and the parameter types of functions that are passed are not checked, a wild enum or fixed may be anything, the restriction to numbers is not enforced (int + string is well typed), matching depends on the order of a union, a union of two enums never matches a wildcard, and a clash may escape as an AvroException."
  },
  {
   "property": "C14",
   "status": "proved",
   "theorems": [
    "C14_comparisons",
    "C14_total_order",
    "C14_partition",
    "C14_rejects"
   ],
   "note": "fromString and == (identity, no __eq__) are not modelled."
  },
  {
   "property": "C15",
   "status": "partial",
   "theorems": [
    "C15_roundtrip_partial",
    "C15_refuted"
   ],
   "note": "Proved for all schemas in which no union member passes for an earlier one (same JSON kind, or integer where a real is expected), at every sufficient recursion depth. False in general: jsonEncoder does not read the tag, {\"int\": 3} in [double, int] comes back as a double."
  },
  {
   "property": "C16",
   "status": "partial",
   "theorems": [
    "C16_idempotent",
    "C16_valid_unchanged",
    "C16_shape_partial",
    "C16_valid_refuted",
    "C16_string_refuted",
    "C16_string_partial",
    "C16_string_after_null_partial"
   ],
   "note": "Idempotence and acceptance of valid data are proved in full; the result has the structure of the type. False: ranges, enum symbols, fixed sizes are not checked, booleans pass as integers, and an untagged string that parses as an earlier member is converted."
  },
  {
   "property": "C17",
   "status": "proved",
   "theorems": [
    "C17_total_preorder",
    "C17_nan",
    "C17_meaning",
    "C17_refuted"
   ],
   "note": "For values without maps, with bytes held as strings and no NaN of type float; C17_refuted shows that these three are not ordered."
  },
  {
   "property": "C18",
   "status": "proved",
   "theorems": [
    "C18_sort_stable",
    "C18_sort_unique",
    "C18_sort_permutation",
    "C18_sort_sorted"
   ],
   "note": "CPython's sorted is modelled by a stable insertion sort; C18_sort_unique shows that any stable sort gives the same list. For comparison functions that are not strict weak orders only the permutation theorem holds."
  },
  {
   "property": "C19",
   "status": "proved",
   "theorems": [
    "C19_argmaxN",
    "C19_argminN",
    "C19_positions_unique",
    "C19_maxN_items",
    "C19_minN_items",
    "C19_prefix_of_sort",
    "C19_errors",
    "C70_topN",
    "C70_topN_none"
   ],
   "note": "For every strict weak order; the running stat.sample.topN is C70_topN."
  },
  {
   "property": "C20",
   "status": "proved",
   "theorems": [
    "C20_max",
    "C20_min",
    "C20_empty"
   ],
   "note": ""
  },
  {
   "property": "C21",
   "status": "proved",
   "theorems": [
    "C21_plus",
    "C21_minus",
    "C21_times",
    "C21_negative",
    "C21_abs",
    "C21_sum_int",
    "C21_sum_long",
    "C21_product_int",
    "C21_product_long"
   ],
   "note": ""
  },
  {
   "property": "C22",
   "status": "partial",
   "theorems": [
    "C22_modulo",
    "C22_remainder",
    "C22_zero_divisor",
    "C22_floordiv_partial",
    "C22_floordiv_int",
    "C22_floordiv_refuted",
    "C22_quotient_range_refuted"
   ],
   "note": "% and %% proved in full; // proved for |x| < 2^53 (hence all ints) and refuted beyond, and the quotient range check is refuted"
  },
  {
   "property": "C23",
   "status": "proved",
   "theorems": [
    "C23_and",
    "C23_or",
    "C23_xor",
    "C23_not"
   ],
   "note": ""
  },
  {
   "property": "C24",
   "status": "proved",
   "theorems": [
    "C24_kleene_and",
    "C24_kleene_or",
    "C24_kleene_not",
    "C24_spec_laws",
    "C24_short_circuit",
    "C24_kleene_short_circuit",
    "C24_left_exception"
   ],
   "note": ""
  },
  {
   "property": "C25",
   "status": "proved",
   "theorems": [
    "C25_unsigned",
    "C25_signed",
    "C25_signed_unique"
   ],
   "note": ""
  },
  {
   "property": "C26",
   "status": "proved",
   "theorems": [
    "C26_string",
    "C26_string_dup",
    "C26_enum",
    "C26_int"
   ],
   "note": ""
  },
  {
   "property": "C27",
   "status": "proved",
   "theorems": [
    "C27_subseq",
    "C27_subseq_items",
    "C27_cut3_unique",
    "C27_subseqto",
    "C27_subseqto_subseq",
    "C27_split",
    "C27_remove_range",
    "C27_insert_replace_remove",
    "C27_valid_index_splits",
    "C27_bad_index",
    "C27_cycle",
    "C27_rotate",
    "C27_head_tail_last_init",
    "C29_substr",
    "C76_slices"
   ],
   "note": "Arrays, strings (C29_substr) and bytes (C76_slices)."
  },
  {
   "property": "C28",
   "status": "partial",
   "theorems": [
    "C28_distinct",
    "C28_union",
    "C28_intersection_partial",
    "C28_intersection_refuted",
    "C28_intersection_always_repeats",
    "C28_diff",
    "C28_symdiff_partial",
    "C28_subset",
    "C28_seteq",
    "C28_disjoint"
   ],
   "note": "Finding: a.intersection repeats every common element, so the no-duplicates part is refuted. Item equality is assumed to be an equivalence (excludes NaN)."
  },
  {
   "property": "C29",
   "status": "proved",
   "theorems": [
    "C29_contains",
    "C29_index",
    "C29_rindex",
    "C29_startswith",
    "C29_split",
    "C29_cuts_unique",
    "C29_join_split",
    "C29_split_join",
    "C29_count",
    "C29_count_empty",
    "C29_replaceall",
    "C29_replaceall_same",
    "C29_replaceall_refuted",
    "C29_replacefirst",
    "C29_replacelast",
    "C29_empty_separator_refuted",
    "C29_substr",
    "C29_strip",
    "C29_lstrip_rstrip",
    "C29_repeat",
    "C29_translate",
    "C29_int",
    "C29_int_injective",
    "C29_hex",
    "C29_width",
    "C29_hex_width"
   ],
   "note": "Strings are lists of code points; the methods of Python's str are modelled by the textbook algorithms. Noted besides: the result of replaceall may contain the replaced string again, and with an empty separator s.split gives no pieces. s.lower, s.upper and s.number of doubles are not modelled."
  },
  {
   "property": "C30",
   "status": "partial",
   "theorems": [
    "C30_add",
    "C30_remove",
    "C30_only_except",
    "C30_update_union",
    "C30_split_join",
    "C30_join",
    "C30_access",
    "C30_sets",
    "C30_toset",
    "C30_map",
    "C30_filter",
    "C30_filterMap",
    "C30_flatMap",
    "C30_contains_fcn",
    "C30_pure",
    "C30_zipmap_partial",
    "C30_zipmap_refuted"
   ],
   "note": "Refuted for map.zipmap and map.zipmapWithKey, which refuse equal key sets inserted in different orders. Proved for the rest of the library, with effectful function arguments (one call per entry in insertion order). The encoding behind map.toset / map.in / map.add(item) is the avro package's: an injective function in the theorem. Tags of results of filterMap are removed outside the model."
  },
  {
   "property": "C31",
   "status": "partial",
   "theorems": [
    "C31_congruence_partial",
    "C31_argN",
    "C31_best_unique",
    "C31_arg",
    "C31_arg_congruence",
    "C31_arg_errors",
    "C31_corresponds",
    "C31_corresponds_refuted",
    "C30_zipmap_refuted"
   ],
   "note": "The arg functions return the unique ranking by value and then key, for every strict weak order. Refuted for zipmap, and for corresponds with a function that can fail, where the iteration order of a Python set decides the outcome."
  },
  {
   "property": "C32",
   "status": "partial",
   "theorems": [
    "C32_roundtrip",
    "C32_trailing_truncated",
    "C32_injective",
    "C32_repack",
    "C32_unpack_total",
    "C32_terminated_refuted",
    "C32_float_refuted",
    "C32_range_refuted",
    "C32_string_refuted",
    "C32_unsigned_long_refuted"
   ],
   "note": "Round trip proved for every format list and all values that fit. Values the type checker accepts but that do not fit (null inside null-terminated bytes, non-single floats, out-of-range integers) do not come back; NaNs are not told apart."
  },
  {
   "property": "C33",
   "status": "partial",
   "theorems": [
    "C33_spelling_partial",
    "C33_64bit_refuted",
    "C33_bytes",
    "C33_garbage_refuted"
   ],
   "note": "True for all spellings of all documented fixed-size names except int64, unsigned int64 and float64, which always get 4 bytes. Raw/terminated/prefixed spellings only by example."
  },
  {
   "property": "C34",
   "status": "proved",
   "theorems": [
    "C34_calledBy",
    "C34_hasSideEffects"
   ],
   "note": ""
  },
  {
   "property": "C35",
   "status": "proved",
   "theorems": [
    "C35_isRecursive",
    "C35_callDepth",
    "C35_hasRecursive"
   ],
   "note": ""
  },
  {
   "property": "C36",
   "status": "partial",
   "theorems": [
    "C36_entries_partial",
    "C36_text",
    "C36_run_partial",
    "C36_refuted"
   ],
   "note": "Refuted: calls inside the expression of attr / attr-to, the init of pool-to and the name of call are dropped by the walk methods. Proved for documents that name no function there: each entry lists all functions named in its section or function, and every name called at run time (ghost trace of the model, runs that come back) is reachable from the entry of the running section. C36_text gives the run-time part with no restriction, in terms of the text."
  },
  {
   "property": "C37",
   "status": "partial",
   "theorems": [
    "C37_check",
    "C37_accepted_partial",
    "C37_refuted"
   ],
   "note": "C37_check characterises exactly what checkForDeadlock refuses. Refuted by six accepted documents that block. Proved: after successful calls no call blocks and all locks are free, for accepted documents without merge section in which nothing is hidden from the call graph, inline update functions use no function references, fills or call, and try surrounds no updates; the library passes on exceptions of its function arguments."
  },
  {
   "property": "C38",
   "status": "partial",
   "theorems": [
    "C38_refuted",
    "C38_merge_refuted",
    "C38_check",
    "C38_limit_stable",
    "C38_timeout_option_partial",
    "C38_while_ends"
   ],
   "note": "Refuted for per-method limits (options.py:43-46 read the key \"timeout\" four times) and for merge. What holds: the common limit is applied and loops end."
  },
  {
   "property": "C39",
   "status": "partial",
   "theorems": [
    "C39_value",
    "C39_no_filter",
    "C39_filter",
    "C39_timeout_swallowed",
    "C39_refuted"
   ],
   "note": "The last clause is refuted for exceptions other than runtime and user exceptions (AttributeError instead)."
  },
  {
   "property": "C40",
   "status": "partial",
   "theorems": [
    "C40_first_match",
    "C40_no_match",
    "C40_exhaustive_partial",
    "C40_exhaustive_refuted",
    "C40_narrowing_refuted",
    "C40_cases"
   ],
   "note": "first_match and no_match for any decoder. exhaustive_partial: with the decoder of C15 a non-partial block that passes the check has an accepting case for every stored value, if the cases the check relies on contain no union inside or are the very types looked for; refuted without that. Expressions that are no union are matched by decoding only: narrowing_refuted."
  },
  {
   "property": "C41",
   "status": "proved",
   "theorems": [
    "C41_while",
    "C41_until",
    "C41_for",
    "C41_foreach",
    "C41_forkeyval",
    "C41_while_stops",
    "C41_while_false_at_once",
    "C41_foreach_in_order"
   ],
   "note": ""
  },
  {
   "property": "C42",
   "status": "proved",
   "theorems": [
    "C42_one_action",
    "C42_fold",
    "C42_left_fold",
    "C42_merge"
   ],
   "note": ""
  },
  {
   "property": "C43",
   "status": "proved",
   "theorems": [
    "C43_terminates",
    "C43_succeeds",
    "C43_meaning",
    "C43_order",
    "C43_memo_once",
    "C43_memo_refuted",
    "C43_repeated_refuted"
   ],
   "note": "ForwardDeclarationParser.parse, for every set of declarations, order and repetition; success is characterised by the existence of an order in which names are defined once and before use (C43_succeeds), and the types found by their meaning (C43_meaning). The constructor of schemas belongs to the Avro library and is modelled from its documented behaviour. Findings besides: with the memo that PrettyPFA and chain use (removeDuplicateNames) the order does matter (C43_memo_refuted), and without it a definition repeated inside another text is refused (C43_repeated_refuted)."
  },
  {
   "property": "C44",
   "status": "partial",
   "theorems": [
    "C44_collect_expression",
    "C44_collect_partial",
    "C44_replace",
    "C44_replace_nowhere",
    "C44_refuted",
    "C44_collect_once",
    "C44_replace_document"
   ],
   "note": "Complete for expressions, user functions and the sections begin, action, end. Refuted for the merge section, which EngineConfig.collect and replace leave out. CastCase nodes and replacements of a whole clause of cond are not modelled."
  },
  {
   "property": "C45",
   "status": "partial",
   "theorems": [
    "C45_expression_partial",
    "C45_document_partial",
    "C45_every_tree",
    "C45_every_document",
    "C45_different",
    "C45_marks",
    "C45_document_marks",
    "C45_injective",
    "C45_bool_refuted",
    "C45_index_refuted",
    "C45_source_refuted"
   ],
   "note": "Every well-formed tree and document (ReadSpec2, a definition independent of the reader) with plain integers and embedded cells reads back unchanged from the JSON it prints (a type is the JSON that describes it), so every one that the reader accepts does; position marks change nothing. Missing, and refuted: a boolean given as {\"int\": true} prints as a boolean; an index in a dotted name is not checked for 32 bits and comes back as a long; a cell with a \"source\" prints the fetched data. The refuted theorems are the witnesses."
  },
  {
   "property": "C46",
   "status": "partial",
   "theorems": [
    "C46_expression_partial",
    "C46_document_partial",
    "C46_accepted",
    "C46_accepted_document",
    "C46_exactly",
    "C46_refuted",
    "C46_nested_refuted",
    "C46_document_refuted"
   ],
   "note": "What the reader accepts is well-formed, and exactly the well-formed trees are accepted. An exception other than PFASyntaxException needs one of the defects listed in ReadSpec.culprit or bad_document (\"del\" alone, a case, parameter, function or pool that is not an object, an invalid name, a \"cond\" member without branches, bad base 64, an integer beyond floats, a pool with a source, ...). That those do escape as UnboundLocalError, TypeError, AttributeError, binascii.Error or OverflowError is shown by the refuted theorems."
  },
  {
   "property": "C47",
   "status": "proved",
   "theorems": [
    "C47_trigger",
    "C47_unique",
    "C47_error"
   ],
   "note": "Counters are unbounded integers in model and code (the code never checks the int range)."
  },
  {
   "property": "C48",
   "status": "proved",
   "theorems": [
    "C48_simpleWalk",
    "C48_missingWalk",
    "C48_raise",
    "C48_unique_path",
    "C48_terminates",
    "C48_every_score",
    "C48_simpleTree"
   ],
   "note": "Predicates are arbitrary effectful functions; trees are the Python dicts of the engine, related to an inductive tree type."
  },
  {
   "property": "C49",
   "status": "partial",
   "theorems": [
    "C49_closest",
    "C49_closestN",
    "C49_closest_is_closestN",
    "C49_errors",
    "C49_kmeans",
    "C49_kmeans_partition",
    "C49_updateMean",
    "C49_updateMean_errors",
    "C49_updateMean_box",
    "C49_randomSeeds",
    "C49_randomSeeds_errors",
    "C49_nearestK",
    "C49_nearestK_default",
    "C49_ballR",
    "C49_mean",
    "C49_nan_refuted",
    "C49_dimension_refuted",
    "C49_mean_crash_refuted"
   ],
   "note": "Proved whenever no distance is nan. Refuted: with a nan distance the first cluster can be returned although another is nearer; the built-in distance of closest and ballR silently truncates vectors of different dimension; neighbor.mean ends in a ZeroDivisionError when the weights cancel. Averaged coordinates are exact rationals."
  },
  {
   "property": "C50",
   "status": "partial",
   "theorems": [
    "C50_range",
    "C50_right_bin",
    "C50_errors",
    "C50_open_right_bin",
    "C50_rejected_refuted",
    "C50_infinite_refuted",
    "C50_overflow_refuted",
    "C50_open_int_refuted",
    "C50_open_crash_refuted"
   ],
   "note": "The index is in range for every arithmetic, binary64 included; the right bin is proved for exact arithmetic. Refuted for binary64: points just below high are rejected, infinite ranges end in a ValueError, ranges whose width overflows put points in the wrong bin; the three-argument form returns numbers beyond int and can end in an OverflowError."
  },
  {
   "property": "C51",
   "status": "proved",
   "theorems": [
    "C51_update",
    "C51_positive",
    "C51_order",
    "C51_zero_weight"
   ],
   "note": "Exact rational arithmetic; floats round. All three levels (count / mean / variance)."
  },
  {
   "property": "C52",
   "status": "proved",
   "theorems": [
    "C52_window",
    "C52_changing_size",
    "C52_error"
   ],
   "note": "Exact rational arithmetic, positive weights; all three levels."
  },
  {
   "property": "C53",
   "status": "partial",
   "theorems": [
    "C53_fixed_one_slot",
    "C53_open_one_slot",
    "C53_ranges_bins",
    "C53_conserved_partial",
    "C53_fixed_right_bin",
    "C53_open_right_bin",
    "C53_lost_refuted",
    "C53_overlap_refuted",
    "C53_float_crash_refuted",
    "C53_open_first_refuted",
    "C53_2d_one_slot",
    "C53_2d_conserved",
    "C53_2d_right_bin",
    "C53_2d_refused",
    "C53_2d_lost_refuted",
    "C53_2d_float_crash_refuted"
   ],
   "note": "One slot takes the weight, over floats too. Not true in general: weight is lost when the flow field is absent, overlapping ranges count twice, rounding can raise IndexError/ValueError, and the first datum of an empty low/binsize histogram goes to bin 0. The same for fillHistogram2d (C53_2d_*), with its own refutations."
  },
  {
   "property": "C54",
   "status": "partial",
   "theorems": [
    "C54_weekend",
    "C54_work_hours_partial",
    "C54_refuted"
   ],
   "note": "Refuted: isWorkHours is true from 9 to 17 on Saturdays and Sundays too (day != 5 or day != 6). The weekday part and isWeekend are proved."
  },
  {
   "property": "C55",
   "status": "partial",
   "theorems": [
    "C55_int",
    "C55_int_empty",
    "C55_choice",
    "C55_choices",
    "C55_sample",
    "C55_sample_negative_refuted",
    "C55_population_errors",
    "C55_double_partial",
    "C55_histogram",
    "C55_histogram_total_partial",
    "C55_histogram_errors",
    "C55_string",
    "C55_bytes",
    "C55_string_errors",
    "C55_uuid",
    "C55_uuid_refuted",
    "C55_int_onto",
    "C55_string_refuted",
    "C55_double_high_refuted",
    "C55_double_overflow_refuted",
    "C55_histogram_refuted"
   ],
   "note": "For every generator answering in range. Missing: half-open range for doubles (refuted: rounding reaches high, and an overflowing difference gives infinity), an index for every distribution (refuted: None if the sum of weights overflows or is subnormal), characters only (refuted: surrogate 0xD800), negative sample sizes (ValueError), UUIDs of 36 characters (refuted: 40). rand.gaussian is not modelled; the redrawing loop of random.sample has fuel."
  },
  {
   "property": "C56",
   "status": "partial",
   "theorems": [
    "C56_transpose",
    "C56_transpose_errors",
    "C56_add",
    "C56_add_vectors",
    "C56_scale",
    "C56_map",
    "C56_zipmap",
    "C56_trace",
    "C56_trace_errors",
    "C56_symmetric",
    "C56_symmetric_errors",
    "C56_symmetric64",
    "C56_symmetric_refuted",
    "C56_truncate",
    "C56_truncate_errors",
    "C56_dot",
    "C56_dot_vector",
    "C56_dot_errors",
    "C56_dot_empty",
    "C56_scale_distributes",
    "C56_product_transpose",
    "C56_product_assoc",
    "C56_product_add",
    "C56_trace_product",
    "C56_dot_ragged_refuted",
    "C56_add_maps",
    "C56_add_sparse",
    "C56_transpose_maps",
    "C56_transpose_maps_twice",
    "C56_transpose_maps_errors",
    "C56_symmetric_maps",
    "C56_truncate_maps",
    "C56_transpose_maps_refuted",
    "C56_trace_maps_refuted",
    "C56_scale_maps",
    "C56_add_map",
    "C56_map_maps",
    "C56_dot_maps",
    "C56_dot_map_vector",
    "C56_dot_maps_errors",
    "C56_trace_maps"
   ],
   "note": "Element-wise functions, transpose, trace, symmetric and truncate for any arithmetic; la.dot and the laws of scale, product and trace for exact arithmetic (any commutative ring), where numpy.dot is taken to be the sum of products. The order in which Python iterates over sets of keys is arbitrary. Not modelled: inverse, det, eigenBasis, zipmap of maps. Refuted: la.dot of ragged arrays, la.transpose of maps whose rows have different keys and la.trace of maps without diagonal entries end in Python errors; la.symmetric with tolerance 0 denies the symmetry of the identity matrix."
  },
  {
   "property": "C57",
   "status": "partial",
   "theorems": [
    "C57_counts",
    "C57_partition",
    "C57_symmetric",
    "C57_simpleMatching",
    "C57_jaccard",
    "C57_tanimoto",
    "C57_errors",
    "C57_general",
    "C57_similarity",
    "C57_equal_refuted"
   ],
   "note": "Exact quotients (rounding not modelled). Refuted: equal inputs do not always score 1: jaccard of two all-false vectors, and every score of two empty vectors, is nan."
  },
  {
   "property": "C58",
   "status": "partial",
   "theorems": [
    "C58_restores",
    "C58_exact",
    "C58_loaded",
    "C58_document",
    "C58_again",
    "C58_union_refuted",
    "C58_bytes_refuted",
    "C58_foreign_refuted",
    "C58_source_refuted",
    "C58_mark_refuted",
    "C58_double_refuted",
    "C58_tally_refuted"
   ],
   "note": "Proved for every engine whose values have the form their types prescribe (unions tagged, bytes as strings, integers in double positions exact): the snapshot exists, loads, and restores every cell and pool item (C58_restores), exactly if the values are as decoding leaves them (C58_exact, C58_loaded: every fresh engine), also through a JSON document (C58_document), and again and again (C58_again). Refuted: values a running engine stores without union tags cannot be reloaded, bytes raise TypeError, a shared state with cells of other documents raises KeyError, a cell with source json cannot be re-read, items called @ are lost, large integers in double cells are rounded, and the fold tally is not captured."
  },
  {
   "property": "C59",
   "status": "partial",
   "theorems": [
    "C59_accepted_partial",
    "C59_refuted"
   ],
   "note": "Whole documents (all sections, user functions, function arguments, library callbacks), any history of calls. Refuted for one set of variables of several scopes (C09); proved with one variable per set/step, names in call that are symbols of its enum, right arity of functions filled into library functions. Types are not part of the static model; the library is any library that calls its function arguments with the number of arguments of its signature."
  },
  {
   "property": "C60",
   "status": "proved",
   "theorems": [
    "C60_map",
    "C60_map_raise",
    "C60_mapWithIndex",
    "C60_filter",
    "C60_filter_raise",
    "C60_filterMap",
    "C60_flatMap",
    "C60_zipmap",
    "C60_fold",
    "C60_fold_raise",
    "C60_foldRight",
    "C60_reduce",
    "C60_pure",
    "C60_pure_filter",
    "C60_pure_fold",
    "C60_pure_foldRight",
    "C60_takeWhile",
    "C60_take_drop",
    "C60_all",
    "C60_any",
    "C60_corresponds",
    "C60_groupby",
    "C60_groupby_raise",
    "C60_flatten",
    "C60_slidingWindow",
    "C60_combinations",
    "C60_permutations"
   ],
   "note": "zipmap modelled for two arrays; periodic time-limit checks not modelled here"
  },
  {
   "property": "C61",
   "status": "partial",
   "theorems": [
    "C61_copysign_partial",
    "C61_copysign_refuted"
   ],
   "note": "fails exactly at the minimal value of the type"
  },
  {
   "property": "C62",
   "status": "partial",
   "theorems": [
    "C62_pow_range_partial",
    "C62_pow_exact_refuted"
   ],
   "note": "range safety proved for every C library pow; exactness refuted for every C library pow"
  },
  {
   "property": "C63",
   "status": "partial",
   "theorems": [
    "C63_table",
    "C63_reference_partial",
    "C63_fill_partial",
    "C63_user",
    "C63_user_scopes",
    "C63_higher_order_partial",
    "C63_user_higher_order",
    "C63_error_refuted",
    "C63_try_refuted",
    "C63_thunks_refuted"
   ],
   "note": "Proved: the table of all 449 library functions (transcribed) shows that no function that may be referenced looks into paramTypes or needs arguments that only generated code supplies (C63_table); for every such function but &&& and |||, the reference and the function that only calls it give the same value and effects, exceptions with a code turned into TypeError (C63_reference_partial); the same with literal or variable fills (C63_fill_partial) and inside a call of a library function that calls its functions and gives up at the first exception (C63_higher_order_partial). For functions of the document, in accepted documents, references and direct calls agree in values, exceptions and effects (C63_user, C63_user_higher_order). Missing, because false: exceptions keep their code (C63_error_refuted, C63_try_refuted), and &&&, ||| (C63_thunks_refuted). Not covered: fills with other expressions than literals and variables, fills of inline functions, {\"fcn\": \"emit\"}. The bodies of library methods are arbitrary programs here; that a class fits its row in the table is by reading."
  },
  {
   "property": "C64",
   "status": "partial",
   "theorems": [
    "C64_contains_seq",
    "C64_count_seq",
    "C64_index_seq",
    "C64_rindex_seq",
    "C64_startswith",
    "C64_endswith",
    "C64_contains",
    "C64_index",
    "C64_rindex",
    "C64_count",
    "C64_nested_array_refuted"
   ],
   "note": "Holds for needles that are items of non-array type or non-empty subsequences; refuted for items that are themselves arrays (C64_nested_array_refuted)."
  },
  {
   "property": "C65",
   "status": "partial",
   "theorems": [
    "C65_item_serial",
    "C65_delete_refuted"
   ],
   "note": "proved for items nobody deletes; C65_delete_refuted shows the unlocked pool-del breaking a concurrent update"
  },
  {
   "property": "C66",
   "status": "partial",
   "theorems": [
    "C66_integers",
    "C66_special",
    "C66_rounds_partial",
    "C66_exact",
    "C66_close",
    "C66_refuted",
    "C66_to_double",
    "C66_every_number"
   ],
   "note": "C66_every_number says for every finite number what comes out: the nearest integer with exactly two kinds of exceptions. False at 0.49999999999999994 (gives 1) and at odd integers between 2^52 and 2^53 (gives the next one). Uses Flocq and the axioms of the standard reals."
  },
  {
   "property": "C67",
   "status": "proved",
   "theorems": [
    "C67_covariance",
    "C67_errors"
   ],
   "note": "Array variant, exact arithmetic; the map variant is not modelled."
  },
  {
   "property": "C68",
   "status": "proved",
   "theorems": [
    "C68_ewma",
    "C68_bounds",
    "C68_error"
   ],
   "note": "Exact arithmetic."
  },
  {
   "property": "C69",
   "status": "proved",
   "theorems": [
    "C69_cusum"
   ],
   "note": "Exact (integer) arithmetic."
  },
  {
   "property": "C70",
   "status": "proved",
   "theorems": [
    "C70_counter",
    "C70_counter_keys",
    "C70_topN",
    "C70_topN_none"
   ],
   "note": "The user's lessThan is a pure total function here."
  },
  {
   "property": "C71",
   "status": "partial",
   "theorems": [
    "C71_refines",
    "C71_immutable",
    "C71_held",
    "C71_rollback",
    "C71_update",
    "C71_realised",
    "C71_in_place_refuted",
    "C71_caller_refuted"
   ],
   "note": "Heap of objects with references; a run is a trace of commands (new, get, attr-to, cell, cell-to, pool, pool-to, pool-del, try, error) grouped in calls with or without backups. C71_refines: same results and same final contents as the machine on values, for all traces; C71_immutable, C71_held: what a reference stands for never changes; C71_rollback: exact contents restored; C71_update: the update of the machine on values is CoreModel's; C71_realised: every state of values has a heap. C71_in_place_refuted: model.reg.updateChi2 changes the record in a cell and rollback does not undo it (and turns DOF into a float). C71_caller_refuted: the caller gets the cell's own object and can change the cell through it. Missing: documents are represented by their traces, not by the evaluator of CoreModel; that the library functions other than updateChi2 build new objects was checked by reading them."
  },
  {
   "property": "C72",
   "status": "partial",
   "theorems": [
    "C72_accessors",
    "C72_readings_unique",
    "C72_day_of_year",
    "C72_out_of_range",
    "C72_unknown_zone",
    "C72_intervals",
    "C72_day_of_year_interval",
    "C72_bad_interval",
    "C72_make",
    "C72_make_zone",
    "C72_round_trip",
    "C72_make_inverse",
    "C72_make_impossible",
    "C72_make_overflow_refuted",
    "C72_make_int_refuted",
    "C72_zone_overflow_refuted"
   ],
   "note": "Refuted corners: milliseconds of 2147484 and more and zones near the ends of the range give a Python OverflowError; makeTimestamp, declared int, returns fractions. Timestamps are whole microseconds (the rounding of datetime.fromtimestamp and of total_seconds is not modelled); pytz zones are two arbitrary functions."
  },
  {
   "property": "C73",
   "status": "partial",
   "theorems": [
    "C73_numbers",
    "C73_ints",
    "C73_ordered",
    "C73_missing",
    "C73_present",
    "C73_in",
    "C73_in_union_refuted",
    "C73_union_refuted",
    "C73_isMissing",
    "C73_unknown_operator",
    "C73_compound",
    "C73_compound_pure",
    "C73_surrogate"
   ],
   "note": "Refuted where the value type is a union: in/notIn with union items never finds an untagged field value, and == between a string field and a union [string, bytes] is false for equal strings. Exceptions raised inside compoundTest's predicate are only covered through the walk theorems of C48."
  },
  {
   "property": "C74",
   "status": "partial",
   "theorems": [
    "C74_inside",
    "C74_outside",
    "C74_too_few",
    "C74_through_points",
    "C74_coordinates",
    "C74_vectors",
    "C74_nearest",
    "C74_nearest_errors"
   ],
   "note": "Linear interpolation over exact rationals (rounding, infinities and nan not modelled); nearest over binary64 whenever no distance is nan."
  },
  {
   "property": "C75",
   "status": "partial",
   "theorems": [
    "C75_squaredEuclidean",
    "C75_euclidean",
    "C75_taxicab",
    "C75_chebyshev",
    "C75_minkowski",
    "C75_errors",
    "C75_minkowski_errors",
    "C75_symmetric",
    "C75_taxicab_metric",
    "C75_chebyshev_metric",
    "C75_zero",
    "C75_self_refuted",
    "C75_negative_refuted",
    "C75_simpleEuclidean",
    "C75_absDiff"
   ],
   "note": "Exact rationals (rounding, infinities and nan inputs not modelled); the power used by minkowski with finite p is a parameter. Refuted: a vector without present values is at distance nan from itself; negative weights end in a Python ValueError."
  },
  {
   "property": "C76",
   "status": "partial",
   "theorems": [
    "C76_roundtrip",
    "C76_encode_domain",
    "C76_canonical",
    "C76_canonical_utf16_refuted",
    "C76_decode",
    "C76_tester",
    "C76_tester_refuted",
    "C76_base64",
    "C76_base64_injective",
    "C76_base64_text",
    "C76_base64_digits",
    "C76_base64_refused",
    "C76_base64_padding_refuted",
    "C76_slices",
    "C76_fixed",
    "C76_enum"
   ],
   "note": "Proved for Python's six codecs as modelled, both ways of holding bytes (str with characters below 256, Python bytes). Refuted: the testers end in a TypeError for bytes held as str, which is what every library function returns (C76_tester_refuted); base 64 text of the right alphabet with wrong padding ends in binascii.Error instead of error 16220 (C76_base64_padding_refuted); UTF-16 with a mark has two encodings of each text (C76_canonical_utf16_refuted). Not covered: hash functions."
  },
  {
   "property": "C77",
   "status": "partial",
   "theorems": [
    "C77_int",
    "C77_long",
    "C77_one_value",
    "C77_roundtrip",
    "C77_plain_refuted",
    "C77_double",
    "C77_float",
    "C77_single_refuted"
   ],
   "note": "Complete for parse.int and parse.long, for any Unicode tables. The conversion of decimal text to binary64 by float() is not modelled: C77_double and C77_float start from its result. Refuted: texts other than a sign and digits are accepted (C77_plain_refuted); parse.float does not round to single precision (C77_single_refuted). Not modelled: the 4300 digit limit of newer Python versions."
  },
  {
   "property": "C78",
   "status": "partial",
   "theorems": [
    "C78_median",
    "C78_median_halves",
    "C78_median_order",
    "C78_empty",
    "C78_mode",
    "C78_mode_single",
    "C78_mode_item_refuted",
    "C78_mode_maps_refuted",
    "C78_ntile",
    "C78_ntile_monotone"
   ],
   "note": "Proved for every strict weak order (no nan items), arrays of fewer than 2^53 items, the position of a.ntile in binary64. The value of the mixture for real numbers is left to a parameter. Refuted: the mode of real numbers need not be an item (C78_mode_item_refuted), and equal maps written in different order are counted apart (C78_mode_maps_refuted)."
  },
  {
   "property": "C79",
   "status": "proved",
   "theorems": [
    "C79_chain_is_pipeline",
    "C79_chain_fails",
    "C79_names_apart",
    "C79_after_failure_refuted",
    "C79_try_refuted",
    "C79_counters_refuted",
    "C79_pool_del_refuted",
    "C79_inline_refuted",
    "C79_call_refuted",
    "C79_version_refuted",
    "C79_embedded_pool_refuted"
   ],
   "note": "Simulation of every step's engine by the chain (C79_chain_is_pipeline, C79_chain_fails, C79_names_apart). Refuted with witnesses: after a failure in a later step the chain also rolls back the earlier steps; try around emit catches exceptions of later steps; counters in emit chains; pool-del keeps the old pool name; functions written in place cannot read name etc.; call by computed name; any version number (PFASyntaxException); any embedded pool (TypeError). Not modelled: renaming and checking of types, source positions."
  },
  {
   "property": "C80",
   "status": "partial",
   "theorems": [
    "C80_linear",
    "C80_linear_outputs",
    "C80_linear_map",
    "C80_linear_map_array",
    "C80_linear_map_outputs",
    "C80_variance",
    "C80_variance_squares",
    "C80_variance_outputs",
    "C80_variance_map",
    "C80_variance_map_outputs"
   ],
   "note": "Exact arithmetic (any commutative ring); rounding and numpy's order of summation are not modelled, so the claim is not settled for binary64."
  },
  {
   "property": "C81",
   "status": "partial",
   "theorems": [
    "C81_network",
    "C81_activation_calls",
    "C81_composition",
    "C81_single_layer",
    "C81_svm",
    "C81_svm_classes",
    "C81_svm_linear",
    "C81_kernels_symmetric",
    "C81_kernels_refused",
    "C81_rbf_self",
    "C81_rbf_total_refuted"
   ],
   "note": "Values in exact arithmetic; composition (C81_composition) with any arithmetic and effects; symmetry of the kernels in binary64 (exp, tanh and pow are parameters). Refuted: m.kernel.rbf of finite arrays raises OverflowError when a difference exceeds about 1e154 (C81_rbf_total_refuted)."
  },
  {
   "property": "C82",
   "status": "partial",
   "theorems": [
    "C82_gaussian",
    "C82_gaussian_map",
    "C82_multinomial",
    "C82_multinomial_scale",
    "C82_multinomial_map_refuted",
    "C82_bernoulli",
    "C82_bernoulli_errors",
    "C82_bernoulli_repeated_refuted"
   ],
   "note": "Over the real numbers (rounding is not modelled); the record forms only unwrap their field. Refuted: multinomial with maps does not use the normalised model (C82_multinomial_map_refuted); bernoulli counts a repeated item each time (C82_bernoulli_repeated_refuted)."
  },
  {
   "property": "C83",
   "status": "partial",
   "theorems": [
    "C83_softmax",
    "C83_softmax_shift",
    "C83_softmax_errors",
    "C83_softmax_total_refuted",
    "C83_softmax_map",
    "C83_elementwise",
    "C83_logit",
    "C83_softmax_logit",
    "C83_logit_total_refuted",
    "C83_loglog",
    "C83_cloglog_total_refuted",
    "C83_softplus",
    "C83_cauchit"
   ],
   "note": "Over the real numbers with the overflow of math.exp: rounding, NaN and infinities are not modelled; probit and tanh only as far as working element by element. Refuted: softmax raises OverflowError when the input of largest magnitude is negative and another is more than about 709 above it (C83_softmax_total_refuted); logit of a very negative number and loglog/cloglog of a large one raise OverflowError (C83_logit_total_refuted, C83_cloglog_total_refuted)."
  },
  {
   "property": "C84",
   "status": "partial",
   "theorems": [
    "C84_statistic_is_distance",
    "C84_statistic_bound",
    "C84_statistic_ties_refuted",
    "C84_statistic_range",
    "C84_answers",
    "C84_symmetric",
    "C84_order_irrelevant"
   ],
   "note": "The statistic is exact (rational numbers); the step from the statistic to the probability is not modelled. Refuted: with a value that occurs twice in a sample, d can be above every distance (C84_statistic_ties_refuted: the samples [1, 1] and [1] have the same distribution function and d = 1/2)."
  },
  {
   "property": "C85",
   "status": "partial",
   "theorems": [
    "C85_residual_array",
    "C85_pull_array",
    "C85_residual_map",
    "C85_pull_map",
    "C85_array_refusals",
    "C85_map_refusals",
    "C85_pull_zero_uncertainty",
    "C85_pull_agrees",
    "C85_residual_agrees",
    "C85_map_order",
    "C85_residual_map_refuted",
    "C85_dof_counts",
    "C85_chi2_ints",
    "C85_chi2_floats",
    "C85_number_is_array_of_one",
    "C85_update_overflow_refuted",
    "C85_update_int_refuted",
    "C85_reduced_total",
    "C85_prob_guards",
    "C85_prob_nan_refuted",
    "C85_reg_residual_refuted",
    "C85_reg_pull_refuted",
    "C85_reg_dof_refuted",
    "C85_reg_reduced_refuted"
   ],
   "note": "mahalanobis and the chi-square distribution are not modelled. Refuted: a residual of maps of ints stays a map of ints (C85_residual_map_refuted); updateChi2 with a number that is an int raises AttributeError (C85_update_int_refuted), and a pull whose square overflows gives infinity as a number and OverflowError in an array (C85_update_overflow_refuted); chi2Prob of NaN with dof 0 is 0.0 (C85_prob_nan_refuted); the deprecated model.reg functions cut arrays of different lengths, raise ZeroDivisionError and turn DOF into a float (C85_reg_*_refuted)."
  },
  {
   "property": "C86",
   "status": "partial",
   "theorems": [
    "C86_refusals",
    "C86_refusal_codes",
    "C86_outputs",
    "C86_first_output",
    "C86_outputs_separate_refuted",
    "C86_kriging_weight_refuted"
   ],
   "note": "The linear algebra of fit and predict is a parameter; the field sigma and a number as x are not modelled. Refuted: a finite Kriging weight has no effect (C86_kriging_weight_refuted: getbeta returns nothing), and outputs after the first are computed with the weight of the first (C86_outputs_separate_refuted; C86_outputs says exactly what they are)."
  },
  {
   "property": "C87",
   "status": "partial",
   "theorems": [
    "C87_floor",
    "C87_ceil",
    "C87_rint",
    "C87_special",
    "C87_round_partial",
    "C87_round_big",
    "C87_round_refuted",
    "C87_double_refuted",
    "C87_signum",
    "C87_signum_special",
    "C87_hypot_refuted",
    "C87_round_every_number",
    "C87_round_one_result"
   ],
   "note": "Real values of binary64 through Flocq. Refuted: m.round adds 0.5 in floating point, so 0.49999999999999994 is rounded to 1 and the whole number 2^52+1 to 2^52+2 (C87_round_refuted; C87_round_every_number says exactly what comes out for every finite number); floor, ceil and rint return Python ints where a double is declared (C87_double_refuted); m.hypot raises OverflowError on large arguments (C87_hypot_refuted). The elementary functions (exp, ln, sin, ...) are not modelled."
  },
  {
   "property": "C88",
   "status": "partial",
   "theorems": [
    "C88_forecast_length",
    "C88_forecast_first",
    "C88_own_forecast",
    "C88_update",
    "C88_periodic_forecast",
    "C88_periodic_own_forecast",
    "C88_error_correction",
    "C88_periodic_error_correction",
    "C88_gamma_zero",
    "C88_periodic_refused",
    "C88_nan_refuted"
   ],
   "note": "Over the reals, without rounding. A result that is no number (division by a zero season or level) is not followed further. Refuted: over floats a NaN smoothing parameter passes the range checks and destroys the state (C88_nan_refuted)."
  },
  {
   "property": "C89",
   "status": "partial",
   "theorems": [
    "C89_checked_input",
    "C89_tagged",
    "C89_untagged",
    "C89_map_refuted",
    "C89_numbers"
   ],
   "note": "Refuted for a map or record without a tag, which the signature accepts: the first of its values comes back, and an empty map ends in an IndexError (C89_map_refuted)."
  },
  {
   "property": "C90",
   "status": "partial",
   "theorems": [
    "C90_choose_partial",
    "C90_choose_refuted",
    "C90_binomial_pdf_partial",
    "C90_binomial_pdf_refuted",
    "C90_binomial_qf",
    "C90_binomial_qf_one_refuted",
    "C90_binomial_cdf",
    "C90_geometric",
    "C90_geometric_qf_upper",
    "C90_geometric_qf_partial",
    "C90_geometric_qf_refuted",
    "C90_geometric_refused",
    "C90_hyper_pdf_partial",
    "C90_hyper_pdf_refuted",
    "C90_hyper_cdf_partial",
    "C90_hyper_cdf_refuted",
    "C90_hyper_qf_partial",
    "C90_hyper_qf_refuted",
    "C90_negbin_partial",
    "C90_negbin_cdf_refuted",
    "C90_negbin_qf_upper_partial",
    "C90_negbin_qf_refuted",
    "C90_refused",
    "C90_poisson_pdf",
    "C90_poisson_cdf",
    "C90_poisson_qf_upper"
   ],
   "note": "Over the reals. The incomplete beta and gamma functions are parameters with their known relation to sums as hypothesis (C90_binomial_cdf, C90_poisson_cdf, C90_poisson_qf_upper). Refuted: nChooseK(n, n) is refused and large results are no ints; binomialPDF(n, n) is 0; binomialQF(1) with prob 0; geometricQF and negativeBinomialQF are one too large when p is a value of the CDF; hypergeometricPDF at x = m is 0, hypergeometricCDF at x >= m is below 1 (0 beyond), hypergeometricQF never ends for p at or above 1 - P(m); negativeBinomialCDF with size 0 falls from 1 to 0. For estimates above 100000 negativeBinomialQF returns the estimate, of which nothing is said."
  },
  {
   "property": "C91",
   "status": "partial",
   "theorems": [
    "C91_uniform",
    "C91_exponential",
    "C91_exponential_refuted",
    "C91_cauchy",
    "C91_weibull",
    "C91_weibull_zero",
    "C91_erf",
    "C91_gaussian",
    "C91_gaussian_point",
    "C91_gaussian_point_refuted",
    "C91_gaussian_qf_partial",
    "C91_gaussian_record",
    "C91_lognormal",
    "C91_lognormal_qf",
    "C91_refused"
   ],
   "note": "Over the reals. math.erf is a parameter with the slope and the limits of the error function; C91_erf proves there is exactly one such function. Missing: the accuracy of gaussianQF, an approximation (C91_gaussian_qf_partial: placed, scaled, symmetric). Refuted: exponential with rate 0 is accepted and is no distribution; gaussianQF(1) with deviation 0 is infinite, not the mean. weibullPDF at 0 with shape below 1 is NaN (C91_weibull_zero)."
  },
  {
   "property": "C92",
   "status": "partial",
   "theorems": [
    "C92_getmatch",
    "C92_copy",
    "C92_self",
    "C92_groups",
    "C92_patterns_refuted",
    "C92_search",
    "C92_first",
    "C92_contains",
    "C92_assigned",
    "C92_new_key",
    "C92_removed_key",
    "C92_removed_item",
    "C92_assigned_at",
    "C92_assigned_at_leaves",
    "C92_assigned_at_refuted",
    "C92_positions"
   ],
   "note": "Documents are values (the in-place variants assign, assignAt and remove change the same value); regular expressions are a parameter. Refuted: assignedAt replaces a part that matches only after its own parts were replaced, so it can change places that indexes does not find, and raises IndexError when the whole document matches (C92_assigned_at_refuted; C92_assigned_at says exactly what it does, C92_assigned_at_leaves when it is as documented); True matches 1, NaN is below every limit, a literal in a Group raises AttributeError (C92_patterns_refuted). Not modelled: look, index strings."
  },
  {
   "property": "C93",
   "status": "partial",
   "theorems": [
    "C93_sound_partial",
    "C93_raises_partial",
    "C93_history_partial",
    "C93_branches",
    "C93_union_refuted",
    "C93_ifnotnull_refuted",
    "C93_set_refuted",
    "C93_fill_refuted"
   ],
   "note": "Proved for the type rules of TypingModel: every kind of expression of CoreModel has a rule. Missing: functions passed by reference with filled-in arguments, ifnotnull of unions with several non-null members or with a long, float, double or map member, a let directly as argument of to, init or dell; library functions, the JSON decoder, pack and unpack are assumed to obey their types (env_typed), exhaustive casts are those of C40. The rules also demand more than the code where the code is wrong: a plain type accepts a union whose data are tagged (C93_union_refuted), ifnotnull binds {int: 3} as a double (C93_ifnotnull_refuted), set of variables of several scopes writes a variable of the outer scope that has another type (C93_set_refuted), filled-in arguments are not type-checked (C93_fill_refuted)."
  },
  {
   "property": "C94",
   "status": "partial",
   "theorems": [
    "C94_partition",
    "C94_nonempty",
    "C94_routing",
    "C94_grows",
    "C94_depth",
    "C94_codes",
    "C94_pfa",
    "C94_regression_partial",
    "C94_classification_partial",
    "C94_complete_partial",
    "C94_mean",
    "C94_class",
    "C94_codes_refuted",
    "C94_ties_refuted",
    "C94_entropy_refuted",
    "C94_pure_refuted",
    "C94_leaf_refuted"
   ],
   "note": "Structure (partition, no empty leaf, routing, termination, depth) and the PFA document are proved for every arithmetic. Optimality is proved in exact arithmetic, and only where the code is right: regression nodes with different numbers in each column and every category present, classification nodes with categories as predictors; completeness for columns of different numbers. Elsewhere it is false: positions are taken for codes when a category is absent (C94_codes_refuted), a cut between equal numbers is credited with a gain and hides useful fields (C94_ties_refuted), the entropy after a numerical cut is divided by one too many (C94_entropy_refuted), a node of one class is split (C94_pure_refuted), an unsplit tree is written as a bare score on which the engine fails (C94_leaf_refuted). Not modelled: the optional statistics in pfaValue, maxSubsetSize = 1 in pfaValue's link to the engine."
  },
  {
   "property": "C95",
   "status": "partial",
   "theorems": [
    "C95_init",
    "C95_init_refused",
    "C95_new_point",
    "C95_metrics",
    "C95_assign",
    "C95_means",
    "C95_descent",
    "C95_ends",
    "C95_run",
    "C95_value",
    "C95_scores",
    "C95_all_change",
    "C95_half_change",
    "C95_iterations_refuted",
    "C95_jumped_refuted",
    "C95_moving_refuted",
    "C95_weights_refuted",
    "C95_ignored_refuted",
    "C95_heavy_refuted",
    "C95_names",
    "C95_names_refuted",
    "C95_fields",
    "C95_fields_refuted"
   ],
   "note": "Proved for iterations without weights, in exact arithmetic for the descent and the end of runs. The claims fail for: weights, which are an error unless a cluster has one point or as many as there are columns, and then scale columns (C95_weights_refuted, C95_ignored_refuted, C95_heavy_refuted); clusterJumped and moving, which stop at the first jump instead of going on (C95_jumped_refuted, C95_moving_refuted); maxIterations(n), which runs n + 1 iterations (C95_iterations_refuted); documents with a metric other than Euclidean, whose function uses names it does not have (C95_names_refuted); documents with populations, whose type has a field populations and whose data population (C95_fields_refuted). Not modelled: random subsets, stepup, overflow, GaussianSimilarity, the printing conditions."
  },
  {
   "property": "C96",
   "status": "partial",
   "theorems": [
    "C96_order",
    "C96_accepted",
    "C96_fields",
    "C96_replace",
    "C96_unchanged",
    "C96_table",
    "C96_permuted",
    "C96_dict",
    "C96_constants",
    "C96_scores",
    "C96_named",
    "C96_texts_refuted",
    "C96_replaced_refuted",
    "C96_null_refuted",
    "C96_hidden_refuted",
    "C96_one_row_refuted",
    "C96_remainder_refuted"
   ],
   "note": "Proved for expressions without text literals and with at least one variable, from functions on which Numpy and PFA agree. The claims fail for: text literals, which are taken for fields and replaced as fields (C96_texts_refuted, C96_replaced_refuted); null (C96_null_refuted); constants, which raise beside columns (C96_constants) or leave one row (C96_one_row_refuted); fields named numpy or math (C96_hidden_refuted); and %%, whose Numpy function has another sign (C96_remainder_refuted). The parser, Numpy itself, record arrays and more than a hundred positional expressions are not modelled."
  },
  {
   "property": "C97",
   "status": "partial",
   "theorems": [
    "C97_first",
    "C97_ends",
    "C97_all",
    "C97_conserved",
    "C97_pieces",
    "C97_no_match",
    "C97_bad_pattern",
    "C97_no_end_refuted",
    "C97_ascii",
    "C97_text",
    "C97_literal_ends",
    "C97_star_refuted",
    "C97_empty_refuted",
    "C97_positions_refuted",
    "C97_zero_refuted",
    "C97_anchor_refuted",
    "C97_groups_refuted",
    "C97_split_refuted",
    "C97_decode_refuted",
    "C97_replacement"
   ],
   "note": "Proved for every engine that finds matches inside its text. The claims fail for: patterns with empty matches, on which nine functions never end (C97_no_end_refuted, C97_star_refuted); the empty text, which has no match (C97_empty_refuted); positions in texts with characters outside ASCII, which count bytes (C97_positions_refuted; C97_ascii for the others); texts with the byte 0 (C97_zero_refuted); ^, which matches again after every match (C97_anchor_refuted); groups that took no part, which shift the others (C97_groups_refuted); split, which drops one empty piece at either end (C97_split_refuted); and matches that cut characters (C97_decode_refuted). The regular expressions of the C library, regcomp and ctypes are not modelled."
  },
  {
   "property": "C98",
   "status": "partial",
   "theorems": [
    "C98_value",
    "C98_program",
    "C98_params_refuted",
    "C98_scopes",
    "C98_document",
    "C98_function",
    "C98_lines",
    "C98_forms",
    "C98_statement_refuted",
    "C98_subscript_refuted",
    "C98_constants_refuted",
    "C98_operators_refuted",
    "C98_negative_refuted",
    "C98_list_argument_refuted",
    "C98_twice_refuted",
    "C98_cell_refuted",
    "C98_tuple_refuted",
    "C98_lines_refuted",
    "C98_keyword_refuted"
   ],
   "note": "Proved for expressions, programs of assignments, forms and line numbers (C98_value, C98_program, C98_scopes, C98_document, C98_function, C98_lines, C98_forms). On Python 3 the claims fail for: statements that are not assignments, all of which raise AttributeError (C98_statement_refuted); subscripts on Python 3.9 (C98_subscript_refuted); True, False and None (C98_constants_refuted); operators without their like, which raise errors other than the documented (C98_operators_refuted); Negative (C98_negative_refuted); a list as the only argument (C98_list_argument_refuted); chains, whose middle is evaluated twice (C98_twice_refuted); cells by themselves (C98_cell_refuted); tuples of different lengths (C98_tuple_refuted); parameters that are changed (C98_params_refuted); line numbers beside String (C98_lines_refuted); types as texts (C98_keyword_refuted). The branches of _statement after the first use of ast.Print, and Python's parser, are not modelled."
  },
  {
   "property": "C99",
   "status": "partial",
   "theorems": [
    "C99_tokens",
    "C99_levels",
    "C99_one_meaning",
    "C99_every",
    "C99_accepted",
    "C99_errors",
    "C99_chains",
    "C99_minus_refuted",
    "C99_sign_refuted",
    "C99_extraction_refuted",
    "C99_comma_refuted",
    "C99_keywords",
    "C99_lexemes"
   ],
   "note": "Proved for the modelled expressions (C99_tokens, C99_levels, C99_one_meaning, C99_every, C99_accepted, C99_errors, C99_chains, C99_keywords, C99_lexemes). The claims fail for: a minus before a digit, which is always its sign, so that x-1 is an error (C99_minus_refuted) and -2 ** 2 is not -(2 ** 2) though -x ** 2 is -(x ** 2) (C99_sign_refuted); brackets after anything but a name, which extract from all that stands before them (C99_extraction_refuted); a comma before the first argument, which is accepted (C99_comma_refuted). The parser is modelled as the machine ply documents; blocks, assignments, functions, control structures, substitutions and sections are not modelled."
  },
  {
   "property": "C100",
   "status": "partial",
   "theorems": [
    "C100_functions",
    "C100_logarithms",
    "C100_log_base",
    "C100_growing",
    "C100_overflow_refuted",
    "C100_small_refuted"
   ],
   "note": "Proved for acos, asin, atan, cos, sin, tan, tanh and sqrt (C100_functions), the logarithms (C100_logarithms, C100_log_base) and, for arguments below 600 in size, exp, expm1, cosh and sinh (C100_growing). The claims fail for: finite arguments from 1024 on, for which exp, expm1, cosh and sinh raise Python's OverflowError (C100_overflow_refuted); small positive arguments of ln1p and expm1, for which zero is returned (C100_small_refuted). Doubles are real numbers, infinities and NaN: rounding is modelled in C100_small_refuted only. Python's math module is taken as documented."
  },
  {
   "property": "C101",
   "status": "partial",
   "theorems": [
    "C101_meaning",
    "C101_errors",
    "C101_to",
    "C101_scopes",
    "C101_shadow_refuted",
    "C101_function_refuted",
    "C101_twice_refuted",
    "C101_commas_refuted",
    "C101_partial_refuted",
    "C101_arguments_refuted"
   ],
   "note": "Proved for programs whose variables share no name with a cell, pool or the first part of a function's name, where no assignment with commas reaches a cell or pool, what is assigned to a pool without init is a name or literal, no partial application is the right-hand side of =, and no call has arguments with and without names (C101_meaning). Every error of the translation is a PrettyPfaException (C101_errors); which path assignments are refused is C101_to; C101_scopes says how variables, groups and conditions of the language behave, for the running of trees and of programs alike. Without those conditions the claim fails: C101_shadow_refuted, C101_function_refuted, C101_twice_refuted, C101_commas_refuted, C101_partial_refuted, C101_arguments_refuted. The other statements (for, foreach, cast, unpack, try, error, log, json, new) are not in this model."
  },
  {
   "property": "C102",
   "status": "partial",
   "theorems": [
    "C102_search",
    "C102_ends",
    "C102_refused",
    "C102_groups",
    "C102_between_refuted",
    "C102_extract",
    "C102_number_refuted",
    "C102_complete",
    "C102_empty_refuted"
   ],
   "note": "Proved for patterns without a range that has a limit below, with each key once, and documents without NaN (C102_search; true and false are the numbers 1 and 0, see C92). Without a +- b a search ends without an error (C102_ends). C102_refused says which patterns are errors, C102_groups how groups are numbered, C102_extract and C102_complete what extraction and completion give. The claims fail: a < # < b finds a and a <= # < b does not (C102_between_refuted); a number where an object is raises Python's KeyError (C102_number_refuted); completion in an empty array raises ValueError (C102_empty_refuted). The lexer, and how completions are quoted, are not modelled."
  },
  {
   "property": "C103",
   "status": "partial",
   "theorems": [
    "C103_change",
    "C103_all",
    "C103_kept",
    "C103_revert",
    "C103_ends",
    "C103_substitution",
    "C103_whole_refuted",
    "C103_groups_refuted"
   ],
   "note": "C103_change: whatever is answered, each part inside stays or, where the pattern matches it after the parts inside it were changed, becomes the replacement; nothing outside changes. C103_all: with yes and all every match is replaced. C103_kept: after an error, and without a yes or all, the document is as before. C103_revert: revert takes everything back, if it is asked for. C103_ends: without groups in the replacement and with all, there is no other error than that IndexError below. C103_substitution: substitutions of texts give the new text. The claims fail: the named part itself cannot be replaced, the command ends in an IndexError and earlier answers are lost (C103_whole_refuted); groups before an & are not known in the replacement (C103_groups_refuted). Not modelled: printing, how answers are read from the terminal, and parts of the document that are one object in memory."
  },
  {
   "property": "C104",
   "status": "partial",
   "theorems": [
    "C104_externalize",
    "C104_which",
    "C104_start",
    "C104_error",
    "C104_internalize",
    "C104_internalize_error",
    "C104_back",
    "C104_url",
    "C104_pool_refuted",
    "C104_back_refuted",
    "C104_overwrite_refuted"
   ],
   "note": "C104_externalize: what is changed in the document and in the files, and what is not. C104_which: the cell comes before the pool of the same name (with cell=false after it), and nothing else than a missing or not embedded object or a file that cannot be written prevents the command. C104_start: every cell starts with the value it started with, if it did not start from the overwritten file. C104_error, C104_internalize_error: after an error everything is as before. C104_internalize: internalize embeds what the cell starts with. C104_back: there and back, only source embedded and a missing init can differ. C104_url: exactly the names that begin with a scheme are taken for URLs. The claims fail: an externalized pool cannot be read by any engine (C104_pool_refuted); a pool without init gets init null on the way there and back, which the reader rejects (C104_back_refuted); a second cell externalized to the same file overwrites the first without a warning (C104_overwrite_refuted). Not modelled: reading the options of the command, texts of files (JSON values instead), the cached engine of pfainspector, which neither command resets."
  },
  {
   "property": "C105",
   "status": "partial",
   "theorems": [
    "C105_current",
    "C105_others",
    "C105_error",
    "C105_commands",
    "C105_stale_refuted",
    "C105_rename_refuted"
   ],
   "note": "C105_current: after any commands except externalize and internalize, reports are those of the present document (an invariant of all sequences of commands). C105_others: other documents stay. C105_error: a failing command changes no document. C105_commands: what load, rename, drop and the changes do to the named document. The claims fail: externalize and internalize do not reset the kept engine, so that pfa valid calls a document valid that cannot be read any more (C105_stale_refuted); rename a as a deletes the document (C105_rename_refuted). Not modelled: parsing of command lines, save, help, tab completion, files that cells refer to and that change during the session."
  },
  {
   "property": "C106",
   "status": "partial",
   "theorems": [
    "C106_nested",
    "C106_home",
    "C106_count",
    "C106_cd",
    "C106_count_refuted",
    "C106_tilde_refuted"
   ],
   "note": "C106_nested: nested cd and back lead back to the same state, at any point of a session. C106_home: after any commands and errors some number of backs leads to the first directory, and the next is refused. C106_count: the number is that of the obeyed cd commands minus the obeyed backs, unless a directory refused to be entered. C106_cd: what cd does. The claims fail: a cd into a directory that may not be entered is remembered although it failed, and the next back leads nowhere (C106_count_refuted); cd ~ is refused because the path is tested before it is expanded (C106_tilde_refuted). Not modelled: reading the arguments, directories that are removed or renamed during the session, symbolic links beyond the name that getcwd gives."
  }
 ]
}
