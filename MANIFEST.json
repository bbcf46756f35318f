{
 "claims": [
  {
   "property": "C01",
   "status": "partial",
   "theorems": [
    "C01_repeated_call_not_executed_partial"
   ],
   "note": "For every history of programs whose ops take and return atoms (any signature, refs of any history, other calls, raising calls, commits, cleared caches, new processes in between). Missing: ops with MList/MDict annotations, versioned storages."
  },
  {
   "property": "C02",
   "status": "partial",
   "theorems": [
    "C02_refuted",
    "C02_reopen_refuted",
    "C02_executed_at_most_once_in_process_partial"
   ],
   "note": "The claim is false: after clear_cache() or in a new process a computation with the same contents but another history is executed again (content lookups only see the cache). Proved: while the caches are kept and no call raises, no computation is executed twice, for every history of programs with atoms."
  },
  {
   "property": "C03",
   "status": "partial",
   "theorems": [
    "C03_result_is_the_functions_partial",
    "C03_empty_collections_refuted",
    "C03_pointer_refuted"
   ],
   "note": "Proved for every history of programs whose ops take and return atoms (no starred parameters, nothing ignored, no ValuePointers, one definition per op name and version). Missing: MList/MDict annotations. The full statement is false: empty list and empty dict have the same content id, and a ValuePointer has the content id of a string; both witnesses are proved."
  },
  {
   "property": "C04",
   "status": "proved",
   "theorems": [
    "C04_same_binding_same_call"
   ],
   "note": "For calls without a keyword naming a positional-only parameter (inspect.Signature.bind refuses those)."
  },
  {
   "property": "C05",
   "status": "proved",
   "theorems": [
    "C05_ignored_values_do_not_matter",
    "C05_function_gets_ignored_values",
    "C05_double_marker_refuted"
   ],
   "note": "Function receives the value unless a parameter in ignore_args is in addition passed Ignore(x): then it receives the marker (refuted corner)."
  },
  {
   "property": "C06",
   "status": "proved",
   "theorems": [
    "C06_default_keeps_call",
    "C06_other_value_new_call"
   ],
   "note": ""
  },
  {
   "property": "C07",
   "status": "proved",
   "theorems": [
    "C07_history_id_iff",
    "C07_content_id_iff",
    "C07_different_bindings_different_calls",
    "C07_collection_values",
    "C07_names_clash_refuted",
    "C07_positional_only_clash_refuted",
    "C07_value_pointer_refuted",
    "C07_list_tuple_refuted"
   ],
   "note": "Ids iff: unconditional but for collision-free hashing. 'Different bindings are different calls' holds without name clashes, value pointers and list-typed parameters; each corner refuted."
  },
  {
   "property": "C08",
   "status": "proved",
   "theorems": [
    "C08_output_ids_distinct",
    "C08_one_creator",
    "C08_multiple_creators_never_raised",
    "C08_pointer_outputs_refuted"
   ],
   "note": "Storages without versioning; any history incl. collections, failing commits, crashes, deletions. Assumes the content hash is injective. Ops returning ValuePointers are excluded as in the statement; C08_pointer_outputs_refuted shows that the claim fails for them."
  },
  {
   "property": "C09",
   "status": "proved",
   "theorems": [
    "C09_outputs_in_order_and_complete",
    "C09_parse_returns_total",
    "C09_wrong_shape_refused",
    "C09_unfit_names_refuted"
   ],
   "note": "Refuted without the side condition on the custom names."
  },
  {
   "property": "C10",
   "status": "proved",
   "theorems": [
    "C10_function_gets_arguments",
    "C10_star_and_keyword_refuted",
    "C10_keyword_named_like_star_refuted",
    "C10_keyword_named_like_positional_refuted"
   ],
   "note": "Proved under side conditions on keywords, each shown necessary by a refutation."
  },
  {
   "property": "C11",
   "status": "partial",
   "theorems": [
    "C11_noop_arguments",
    "C11_noop_only_reads",
    "C11_dirty_marks_refuted"
   ],
   "note": "Arguments and effects proved for all states (only values read into the cache, atoms possibly marked dirty). The clause on dirty marks is refuted (finding 16)."
  },
  {
   "property": "C12",
   "status": "proved",
   "theorems": [
    "C12_cached_table_is_a_dictionary",
    "C12_content_addressed_table_is_a_dictionary",
    "C12_runs_exist",
    "C12_changing_values_with_overflow_refuted"
   ],
   "note": "Full refinement for tables without overflow directory and for content-addressed tables (the only one with overflow in the code: atoms); false for changing values with overflow (refuted)."
  },
  {
   "property": "C13",
   "status": "proved",
   "theorems": [
    "C13_commit_makes_storage_durable",
    "C13_commit_makes_table_durable",
    "C13_commit_makes_content_addressed_table_durable",
    "C13_commit_succeeds_small_values",
    "C13_commit_succeeds_with_overflow",
    "C17_call_table_returns_what_was_saved"
   ],
   "note": "All four tables, any reached state, any commit order. The versioner row of versioned storages is not part of this theorem."
  },
  {
   "property": "C14",
   "status": "proved",
   "theorems": [
    "C14_commit_all_or_nothing",
    "C14_database_stays_intact",
    "C14_crash_keeps_database_intact",
    "C14_torn_overflow_file_refuted"
   ],
   "note": "On-disk databases; SQLite transactions are trusted to be atomic. Refuted side claim: the content of an overflow file is not protected against a crash while it is written."
  },
  {
   "property": "C15",
   "status": "partial",
   "theorems": [
    "C15_failed_commit_loses_nothing_in_process_partial",
    "C15_retry_after_first_table_partial",
    "C15_memory_retry_partial",
    "C15_retry_loses_data_refuted",
    "C15_failed_final_commit_refuted",
    "C15_memory_retry_blocked_refuted"
   ],
   "note": "The full claim is false for the code (three refutations with witnesses): dirty marks are cleared table by table before the transaction commits. Proved: the failed process still reads everything; a retry is complete after a failure in the first table (disk) or before the call rows (in memory)."
  },
  {
   "property": "C16",
   "status": "proved",
   "theorems": [
    "C16_clear_cache_loses_nothing",
    "C16_preload_loses_nothing",
    "C16_preload_loses_nothing_when_committed",
    "C16_preload_with_unsaved_data_refuted"
   ],
   "note": "clear_cache as claimed. Preloading is safe only when nothing is unsaved (refutation for the other case)."
  },
  {
   "property": "C17",
   "status": "proved",
   "theorems": [
    "C17_call_table_returns_what_was_saved",
    "C17_runs_exist",
    "C17_name_clash_refuted",
    "C17_no_rows_refuted"
   ],
   "note": "Refinement to one dictionary under arbitrary saves/reads/commits/clears/re-opens and row orders, for calls with disjoint names and at least one row (both shown necessary)."
  },
  {
   "property": "C18",
   "status": "partial",
   "theorems": [
    "C18_intact_partial",
    "C18_shapes_load_partial",
    "C18_recorded_call_loads_partial",
    "C18_mget_call_partial",
    "C18_with_deletions_partial",
    "C18_after_clear_refuted"
   ],
   "note": "Shapes and ops, recursively for elements: for every reachable state of programs with any annotations, including MList/MDict, for any hash (C18_intact_partial, C18_shapes_load_partial). Contents of atoms: for every reachable state of programs with atoms, also with deletions followed by cleanups. Reading through mget_call after clear_cache() can raise KeyError (refuted with a witness). Missing: the contents of atoms when collections are used."
  },
  {
   "property": "C19",
   "status": "partial",
   "theorems": [
    "C19_round_trip_partial",
    "C19_save_succeeds",
    "C19_nested_list_refuted"
   ],
   "note": "Every ref saved (any nesting, saves in any order, commits, cleared caches, new processes) loads with its ids; unwrapping gives its value if lists contain only atoms. For collections inside lists the claim is false (refuted)."
  },
  {
   "property": "C20",
   "status": "proved",
   "theorems": [
    "C20_delete_dependents",
    "C20_dependents_defined"
   ],
   "note": "For call tables left by any history, everything committed, no clear_cache before; outside of that see the C21 refutations."
  },
  {
   "property": "C21",
   "status": "partial",
   "theorems": [
    "C21_deleted_are_gone",
    "C21_uncommitted_refuted",
    "C21_after_clear_refuted",
    "C21_content_twin_refuted"
   ],
   "note": "Full statement false (findings 2, 3, 34); proved for committed calls and no clear_cache since opening."
  },
  {
   "property": "C22",
   "status": "partial",
   "theorems": [
    "C22_removed_exactly",
    "C22_cleanup_keeps_calls_partial",
    "C22_refuted"
   ],
   "note": "In any state cleanup_refs removes exactly the shapes and atoms that nothing in the database mentions; over all histories of programs with atoms (with cleanups, and deletions each followed by a cleanup) every recorded call loads to the same values after a cleanup. Refuted when list outputs are found by content (finding 15). Missing: collections; deletions without a cleanup."
  },
  {
   "property": "C23",
   "status": "proved",
   "theorems": [
    "C23_batch_reads_preserve_order"
   ],
   "note": "Every list of ids (repetitions allowed), every cache/database split, every row order."
  },
  {
   "property": "C24",
   "status": "proved",
   "theorems": [
    "C24_dependencies_exact",
    "C24_dependents_exact"
   ],
   "note": "Termination and exactness for every table."
  },
  {
   "property": "C25",
   "status": "proved",
   "theorems": [
    "C25_lexical_scoping",
    "C25_block_restores",
    "C25_failing_enter_refuted",
    "C25_failing_hook_refuted"
   ],
   "note": "For all programs on one storage, any failing commits. Excludes raising sync_code in __enter__ and raising exit hooks, which are refuted."
  },
  {
   "property": "C26",
   "status": "partial",
   "theorems": [
    "C26_refuted",
    "C26_wrong_storage_refuted",
    "C26_modes_and_commits_partial"
   ],
   "note": "Full statement false (finding 17); modes and commits are right for any nesting of several storages without noop()."
  },
  {
   "property": "C27",
   "status": "partial",
   "theorems": [
    "C27_nothing_executed",
    "C27_memoized_or_RuntimeError",
    "C27_recording_refuted"
   ],
   "note": "Nothing is executed: proved for all states. 'Nothing recorded' is refuted (finding 32)."
  },
  {
   "property": "C28",
   "status": "proved",
   "theorems": [
    "C28_save_ref_twice",
    "C28_save_calls_again",
    "C28_save_order",
    "C28_detached_refuted"
   ],
   "note": "Order independence for consistent families of calls; refuted when one id occurs both in and out of memory (finding 33)."
  },
  {
   "property": "C29",
   "status": "proved",
   "theorems": [
    "C29_committed_retrieved",
    "C29_synced_retrieved",
    "C29_stable",
    "C29_checks"
   ],
   "note": "all operation sequences, also failing ones, any hash function; the recursion limit of get_content is not modelled"
  },
  {
   "property": "C30",
   "status": "proved",
   "theorems": [
    "C30_commit",
    "C30_sync_known",
    "C30_permanent",
    "C30_declared",
    "C30_every_history_declared"
   ],
   "note": "all histories; semantic equality of contents is exactly the equivalence generated by the no answers"
  },
  {
   "property": "C31",
   "status": "proved",
   "theorems": [
    "C31_sync_twice",
    "C31_sync_codebase_twice",
    "C31_sync_component_twice"
   ],
   "note": "all states"
  },
  {
   "property": "C32",
   "status": "proved",
   "theorems": [
    "C32_aborted_sync",
    "C32_aborted_sync_component",
    "C32_aborted_commit"
   ],
   "note": "all states and abort points; the context leaked by a failing __enter__ is C25_failing_enter_refuted"
  },
  {
   "property": "C33",
   "status": "proved",
   "theorems": [
    "C33_hits_are_compatible",
    "C33_semantic_change_misses"
   ],
   "note": "all versioner histories; injective hash"
  },
  {
   "property": "C34",
   "status": "proved",
   "theorems": [
    "C34_unique",
    "C34_order_irrelevant"
   ],
   "note": "all versioner histories; injective hash; order independence for calls all recorded for the op looked up (else C49_same_name_refuted)"
  },
  {
   "property": "C35",
   "status": "proved",
   "theorems": [
    "C35_found_again"
   ],
   "note": "all sessions and traces; injective hash; the calls reused in the trace are compatible with the code"
  },
  {
   "property": "C36",
   "status": "partial",
   "theorems": [
    "C36_partial",
    "C36_before_nested_ops_partial",
    "C36_after_nested_op_refuted",
    "C36_caught_exception_refuted",
    "C36_stale_result_refuted"
   ],
   "note": "refuted: nothing is tracked after a nested op call (a stale result is reused end to end), a caught exception of a helper makes the call fail; proved for bodies without nested ops in which no tracked function raises"
  },
  {
   "property": "C37",
   "status": "proved",
   "theorems": [
    "C37_sccs_exact",
    "C37_deterministic"
   ],
   "note": "All finite graphs whose neighbours are keys, any node type and order."
  },
  {
   "property": "C38",
   "status": "proved",
   "theorems": [
    "C38_topological_sort",
    "C38_almost_topological_sort",
    "C38_topsort_modulo_sccs",
    "C38_topsort_acyclic"
   ],
   "note": "utils.topological_sort, utils.almost_topological_sort and ComputationFrame.topsort_modulo_sccs (Kahn with fallback)."
  },
  {
   "property": "C39",
   "status": "partial",
   "theorems": [
    "C39_partial",
    "C39_no_failures",
    "C39_drop_call_refuted",
    "C39_drop_ref_refuted",
    "C39_drop_func_refuted",
    "C39_drop_func_twice_refuted",
    "C39_add_call_refuted",
    "C39_rename_refuted"
   ],
   "note": "Every sequence of sane operations that return keeps the frame consistent; the unconditional statement is refuted in six ways."
  },
  {
   "property": "C40",
   "status": "partial",
   "theorems": [
    "C40_nodes",
    "C40_subsets_partial",
    "C40_subsets_refuted",
    "C40_subsets_stale_refuted"
   ],
   "note": "Selecting nodes proved in full. Restricting to elements keeps exactly them; _check holds when they are closed along edges, refuted otherwise. Independence of the copy: see C46."
  },
  {
   "property": "C41",
   "status": "partial",
   "theorems": [
    "C41_union_partial",
    "C41_union_laws",
    "C41_union_refuted",
    "C41_intersection_partial",
    "C41_intersection_laws",
    "C41_intersection_refuted"
   ],
   "note": "Per-node union/intersection and the laws are proved; consistency under compatible/aligned frames, refuted in general."
  },
  {
   "property": "C42",
   "status": "partial",
   "theorems": [
    "C42_stream",
    "C42_midstream_acyclic",
    "C42_midstream_partial",
    "C42_midstream_refuted",
    "C42_upstream_check_refuted"
   ],
   "note": "upstream/downstream exact. midstream exact on acyclic frames; between simple paths and walks in general; refuted (endless recursion) on a cyclic frame."
  },
  {
   "property": "C43",
   "status": "proved",
   "theorems": [
    "C43",
    "C43_drop_unreachable"
   ],
   "note": "Assumes the calls of the list constructor are labelled as the code labels them (tidy)."
  },
  {
   "property": "C44",
   "status": "partial",
   "theorems": [
    "C44_expand_back_partial",
    "C44_expand_pass_partial",
    "C44_reuse_refuted"
   ],
   "note": "With reuse_existing=False: recursive backward expansion terminates, keeps the frame, stays consistent, and adds exactly the recorded history; one pass over chosen variables (with or without skip_existing) adds exactly the missing creators and their inputs. With the default reuse_existing=True the claim is false (C44_reuse_refuted). Forward expansion is modelled but not proved."
  },
  {
   "property": "C45",
   "status": "partial",
   "theorems": [
    "C45_history_rows",
    "C45_joint_rows_partial",
    "C45_no_conflict",
    "C45_df_partial",
    "C45_refuted"
   ],
   "note": "The table of one variable has exactly one row per value, holding exactly its transitive history; a joint row combines whole histories of values of different variables without conflicts and nothing else. That the combined values are related is false: pandas.merge matches nulls (C45_refuted). df() is covered when the restricted frame is consistent. pandas.merge is modelled by its documented behaviour."
  },
  {
   "property": "C46",
   "status": "partial",
   "theorems": [
    "C46_merge_into_refuted"
   ],
   "note": "Refuted for merge_into; the other methods work on copies (frames are values in the model, so this is by construction)."
  },
  {
   "property": "C47",
   "status": "partial",
   "theorems": [
    "C47_partial",
    "C47_new_node",
    "C47_refuted",
    "C47_from_op_refuted"
   ],
   "note": "Fresh among names of its own kind; refuted across kinds."
  },
  {
   "property": "C48",
   "status": "proved",
   "theorems": [
    "C48_merge_into",
    "C48_merge_vars",
    "C48_self_refuted"
   ],
   "note": "For two different variables; merging a variable into itself drops it."
  },
  {
   "property": "C49",
   "status": "partial",
   "theorems": [
    "C49_same_name_refuted",
    "C49_lookup_total"
   ],
   "note": "refuted for two ops of the same name in different modules; otherwise proved"
  },
  {
   "property": "C50",
   "status": "partial",
   "theorems": [
    "C50_recompute_refuted",
    "C50_after_drop_partial"
   ],
   "note": "Refuted: the versioner keeps the row of the deleted call, re-running raises ValueError. After drop_version of its semantic version, re-running with the same trace succeeds with the same version and the call is found again (proved for every session, when the calls it reused are not of the dropped version)."
  },
  {
   "property": "C51",
   "status": "partial",
   "theorems": [
    "C51_expand_forward_partial",
    "C51_recursive_partial",
    "C51_all_consumers_refuted",
    "C51_lists_refuted"
   ],
   "note": "Refuted as stated: a value with one consumer in the frame gets no others, and elements of lists end up in the wrong variables. Proved with reuse_existing=False: one pass on variables without elements of lists succeeds, keeps the frame and adds exactly the consumers of the values that have none, in new functions connected to their inputs and to new variables with their outputs; the recursive loop on all variables, when no lists are recorded, ends with exactly the future of these values. reuse_existing=True is not covered."
  },
  {
   "property": "C52",
   "status": "partial",
   "theorems": [
    "C52_expand_all_partial",
    "C52_nothing_new",
    "C52_inputs_refuted"
   ],
   "note": "Refuted as stated: a call found forwards lacks the inputs that were not in the frame. Proved with reuse_existing=False, skip_existing=False and no recorded lists: it ends after at most two rounds, keeps the frame, every value is connected to its creator and, if it has any, to a consumer, and what is added is exactly the history of the values and the future of those without a consumer. A frame with everything connected is not changed, with any options (no restriction on lists)."
  },
  {
   "property": "C53",
   "status": "partial",
   "theorems": [
    "C53_isin_partial",
    "C53_check_refuted",
    "C53_lone_refuted",
    "C53_two_labels_refuted"
   ],
   "note": "exact, for frames where list-building calls have the usual argument names (tidy), when no two edges join the same nodes and every function node has an edge; _check holds for the result when the test takes or leaves whole calls.  False without these (refutations).  Missing: the stronger consistency of the result, whose index from refs to variables may be stale (C40_subsets_stale_refuted)"
  }
 ]
}
