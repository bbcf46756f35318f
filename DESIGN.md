# A machine-checked model of mandala's storage, versioning and computation frames

Source: `/repo` (amakelov/mandala, Python), read as text and never run.  Model and proofs: `rocq/theories`
(Coq 8.16.1 and std++).  Properties: `properties.jsonl`.  Status per property: `MANIFEST.json`.
Log of deliberately wrong models and the theorems that noticed: `seeded/LOG.jsonl`.

## 1. Method

* Every Python function in scope becomes a total Gallina function with a comment citing file and lines.  Exceptions are
  values (`Base.result`), loops are structural recursion, folds, or fuel with an explicit out-of-fuel error (and a
  theorem that the error does not occur, where termination is claimed).
* State-changing methods are functions `state -> result * state` (`Base.M`): the state *after an exception* is part of the
  model, since Python keeps partial effects.
* External behaviour is a parameter, never an axiom: the content hash `H`, the user's functions, the size of serialized
  values, the points at which SQLite fails or the process dies, the order in which SQLite returns rows (`sel`), the
  iteration orders of sets (`ord`, `eord`, commit orders), the user's answers to versioning prompts.  Assumptions on
  them (for instance that `H` is injective, or that `sel` permutes) are visible hypotheses of the theorems that need them.
* Layout: model files hold definitions (and decidability instances) only; `Spec_*.v` hold the specifications, written
  without the model's helper functions where possible; `Props_*.v` hold the property theorems with `Print Assumptions` and
  an `Example` with a non-trivial case meeting the hypotheses; everything else is proof.
* If the English property is false of the code, the theorem `..._refuted` is a concrete witness evaluated by the
  kernel, next to the strongest true variant proved.  A theorem that covers only part of the property ends in `_partial`
  and the comment above it says what is missing.

## 2. What is modelled, file by file

| model file | code | specification | proofs |
|---|---|---|---|
| `Returns` | utils.py 92-100, 218-275; model.py 223-232; storage.py 1199-1203: naming and ordering of outputs | `Spec_Returns` | `Returns_proofs`, `Props_Returns` |
| `DictStore` | storage_utils.py 135-322: key-value tables, overflow files, cache | `Spec_DictStore` | `DictStore_proofs`, `Props_DictStore` |
| `CallStore` | storage_utils.py 325-780: the call table in memory, in SQLite and cached; provenance closure | `Spec_CallStore` | `CallStore_proofs`, `Props_CallStore` |
| `Commit` | storage.py 169-217: commit, clear_cache, preload, with failures and crashes at every statement | `Spec_Commit` | `Commit_proofs`, `Props_Commit` |
| `Refs`, `Args`, `Ident` | model.py 19-221, 289-454; storage.py 574-591, 704-771, 793-858; inspect.Signature.bind | `Spec_Args`, `Spec_Ident`, `Spec_Values` | `Args_proofs`, `Ident_proofs`, `Ident_values`, `Props_Args` |
| `Storage` | storage.py 245-434, 464-522, 535-695, 773-936, 1162-1203 | `Spec_Storage`, `Spec_Storage2`, `Spec_Atoms`, `Spec_Results`, `Spec_Outputs`, `Spec_Cleanup`, `Spec_Roundtrip`, `Spec_Integrity` | `Storage_*`, `Atoms_rel`, `Props_Storage2`, `Props_Atoms`, `Props_Results`, `Props_Outputs`, `Props_Clean`, `Props_Roundtrip`, `Props_Integrity` |
| `Queries` | storage.py 439-460 | `Spec_Outputs` | `Queries_proofs`, `Props_Outputs` |
| `Contexts` | storage.py 128-161, 1205-1282; model.py 244-249, 497-499 | `Spec_Contexts` | `Contexts_proofs`, `Props_Contexts` |
| `GraphAlgo` | utils.py 313-433; cf.py 1233-1265 | `Spec_GraphAlgo` | `GraphAlgo_`/`Tarjan_`/`Topsort_`/`Kahn_proofs`, `Props_GraphAlgo` |
| `Dag` | deps/shallow_versions.py | `Spec_Dag` | `Dag_proofs`, `Props_Versions` |
| `Versioner` | deps/versioner.py, deps/deep_versions.py, parts of deps/model.py | `Spec_Versioner` | `Versioner_*`, `Props_Versions` |
| `Tracer` | deps/tracers/dec_impl.py and its use in storage.py 773-936 | `Spec_Tracer` | `Tracer_proofs`, `Props_Tracer` |
| `Frame` | cf.py 29-868, 1715-1846, 1961-2184 (list in the file) | `Spec_Frame` | `Frame_*`, `Props_Frame`, `Props_Frame2`, `Props_Frame3` |
| `Paths` | utils.py 435-465; cf.py 745-773, 1282-1294 | `Spec_Paths` | `Paths_proofs`, `Paths_loop`, `Props_Frame*` |
| `FrameExpand` | cf.py 161-170, 907-1190 | `Spec_Expand`, `Spec_Forward` | `Expand_proofs`, `Props_Expand`, `Expand_forward`, `Forward_loop`, `Props_Forward` |
| `FrameExpandAll` | cf.py 1192-1213 | `Spec_All` | `Expand_all_proofs`, `Props_All` |
| `FrameFilter` | cf.py 563-588 (both directions), 1913-1957; the test on a ref is a parameter | `Spec_Filter` | `Filter_proofs`, `Props_Filter` |
| `FrameHistory` | cf.py 1319-1375, 1432-1680: histories and the table extracted from a frame (`pandas.merge` as documented) | `Spec_History` | `History_proofs`, `Props_History` |

The scope of the theorems about whole histories (C01-C03, C18, C22): programs whose ops take and return *atoms* (values
stored as a whole; no `MList`/`MDict` annotation) on a storage without versioning; any signature, defaults, ignored
arguments, refs of any history, raising calls, commits in any order, cleared caches, new processes; for C22 and
`C18_with_deletions_partial` also cleanups and deletions (`Spec_Atoms.v`, `Spec_Cleanup.v` state it exactly).  C08 covers
collections, failing commits, crashes and deletions as well.

## 3. Trusted base

* Coq's kernel, and the std++ and standard-library definitions that occur in statements (`gmap`, `gset`, lists,
  strings, `N`, `Z`).
* Axioms: none.  `Print Assumptions` reports "Closed under the global context" for every theorem of the manifest
  (section 5 lists them).
* The correspondence between the Python code and the Gallina functions, as cited function by function.
* Assumed of the environment, inside the model or as hypotheses:
  - joblib: deserialize (serialize x) = x; the content hash of a value depends on the value only.  Collision freedom is the
    hypothesis `Inj (=) (=) H` of the theorems that use it.
  - SQLite: transactions on disk are atomic, statements have the row semantics stated in `CallStore.v`, `DictStore.v`,
    `Commit.v`; rows may come in any order.
  - pandas: `df.loc` insertion/selection/dropping as in `CallStore.v`.
  - Python: dictionaries keep insertion order (`PyDict.v`), `inspect.Signature.bind` as in `Args.v`.

## 4. What is not modelled

* Serialization itself, numpy/pandas values, hashing of values; `viz.py`, printing, logging, timing, progress bars.
* Mutable sharing: objects are values, so a user who mutates an object after passing or receiving it is outside the model;
  likewise two `ComputationFrame`s sharing dictionaries (C46 is only refuted at one method, not proved for the others).
* Bodies of ops are functions of their bound arguments (in `Storage.v`); nested op calls appear in `Tracer.v` and
  `Contexts.v` only.
* Storage with versioning: the versioner, the tracer and the storage are three models; `Tracer.v` joins the first two with
  the part of `call_internal` that uses them.  The call tables of a versioned storage are not joined with the history
  invariants of `Storage.v`.
* Concurrency: two processes on one database are modelled only through re-opening.
* The interpreter's recursion limit (except in `Paths.v`, where it is the outcome of a real endless recursion), SQLite's limit on
  query parameters.
* `SetRef`, `TupleRef` (never created), `storage.py` 951-1160 (the source-code view, version listings), `deps/crawler.py` (the code
  state is an arbitrary map), `deps/tracers/sys_impl.py`, generator and class helpers in the tracer, strict tracing.
* cf.py: attaching, `apply`/`eval` and unwrapping of tables, statistics and printing.

## 5. Theorems per property

Every theorem below is closed under the global context (no axioms).

* **C01** Repeating a call never re-runs the function — *partial*: `C01_repeated_call_not_executed_partial`. For every history of programs whose ops take and return atoms (any signature, refs of any history, other calls, raising calls, commits, cleared caches, new processes in between). Missing: ops with MList/MDict annotations, versioned storages.
* **C02** The same computation is never executed twice — *partial*: `C02_refuted`, `C02_reopen_refuted`, `C02_executed_at_most_once_in_process_partial`. The claim is false: after clear_cache() or in a new process a computation with the same contents but another history is executed again (content lookups only see the cache). Proved: while the caches are kept and no call raises, no computation is executed twice, for every history of programs with atoms.
* **C03** A memoized result is the function's result — *partial*: `C03_result_is_the_functions_partial`, `C03_empty_collections_refuted`, `C03_pointer_refuted`. Proved for every history of programs whose ops take and return atoms (no starred parameters, nothing ignored, no ValuePointers, one definition per op name and version). Missing: MList/MDict annotations. The full statement is false: empty list and empty dict have the same content id, and a ValuePointer has the content id of a string; both witnesses are proved.
* **C04** Call identity ignores how arguments are passed — *proved*: `C04_same_binding_same_call`. For calls without a keyword naming a positional-only parameter (inspect.Signature.bind refuses those).
* **C05** Ignored arguments never influence identity — *proved*: `C05_ignored_values_do_not_matter`, `C05_function_gets_ignored_values`, `C05_double_marker_refuted`. Function receives the value unless a parameter in ignore_args is in addition passed Ignore(x): then it receives the marker (refuted corner).
* **C06** New default arguments keep old calls valid — *proved*: `C06_default_keeps_call`, `C06_other_value_new_call`.
* **C07** Different inputs give different calls — *proved*: `C07_history_id_iff`, `C07_content_id_iff`, `C07_different_bindings_different_calls`, `C07_collection_values`, `C07_names_clash_refuted`, `C07_positional_only_clash_refuted`, `C07_value_pointer_refuted`, `C07_list_tuple_refuted`. Ids iff: unconditional but for collision-free hashing. 'Different bindings are different calls' holds without name clashes, value pointers and list-typed parameters; each corner refuted.
* **C08** Every output has its own identity — *proved*: `C08_output_ids_distinct`, `C08_one_creator`, `C08_multiple_creators_never_raised`, `C08_pointer_outputs_refuted`. Storages without versioning; any history incl. collections, failing commits, crashes, deletions. Assumes the content hash is injective. Ops returning ValuePointers are excluded as in the statement; C08_pointer_outputs_refuted shows that the claim fails for them.
* **C09** Outputs come back in order and complete — *proved*: `C09_outputs_in_order_and_complete`, `C09_parse_returns_total`, `C09_wrong_shape_refused`, `C09_unfit_names_refuted`. Refuted without the side condition on the custom names.
* **C10** The op body sees the arguments the user passed — *proved*: `C10_function_gets_arguments`, `C10_star_and_keyword_refuted`, `C10_keyword_named_like_star_refuted`, `C10_keyword_named_like_positional_refuted`. Proved under side conditions on keywords, each shown necessary by a refutation.
* **C11** noop mode is the plain function — *partial*: `C11_noop_arguments`, `C11_noop_only_reads`, `C11_dirty_marks_refuted`. Arguments and effects proved for all states (only values read into the cache, atoms possibly marked dirty). The clause on dirty marks is refuted (finding 16).
* **C12** A cached table behaves like one dictionary — *proved*: `C12_cached_table_is_a_dictionary`, `C12_content_addressed_table_is_a_dictionary`, `C12_runs_exist`, `C12_changing_values_with_overflow_refuted`. Full refinement for tables without overflow directory and for content-addressed tables (the only one with overflow in the code: atoms); false for changing values with overflow (refuted).
* **C13** Commit makes everything durable — *proved*: `C13_commit_makes_storage_durable`, `C13_commit_makes_table_durable`, `C13_commit_makes_content_addressed_table_durable`, `C13_commit_succeeds_small_values`, `C13_commit_succeeds_with_overflow`, `C17_call_table_returns_what_was_saved`. All four tables, any reached state, any commit order. The versioner row of versioned storages is not part of this theorem.
* **C14** Commit is all or nothing — *proved*: `C14_commit_all_or_nothing`, `C14_database_stays_intact`, `C14_crash_keeps_database_intact`, `C14_torn_overflow_file_refuted`. On-disk databases; SQLite transactions are trusted to be atomic. Refuted side claim: the content of an overflow file is not protected against a crash while it is written.
* **C15** A failed commit can be retried without losing data — *partial*: `C15_failed_commit_loses_nothing_in_process_partial`, `C15_retry_after_first_table_partial`, `C15_memory_retry_partial`, `C15_retry_loses_data_refuted`, `C15_failed_final_commit_refuted`, `C15_memory_retry_blocked_refuted`. The full claim is false for the code (three refutations with witnesses): dirty marks are cleared table by table before the transaction commits. Proved: the failed process still reads everything; a retry is complete after a failure in the first table (disk) or before the call rows (in memory).
* **C16** Clearing the cache loses nothing — *proved*: `C16_clear_cache_loses_nothing`, `C16_preload_loses_nothing`, `C16_preload_loses_nothing_when_committed`, `C16_preload_with_unsaved_data_refuted`. clear_cache as claimed. Preloading is safe only when nothing is unsaved (refutation for the other case).
* **C17** The call table returns what was saved — *proved*: `C17_call_table_returns_what_was_saved`, `C17_runs_exist`, `C17_name_clash_refuted`, `C17_no_rows_refuted`. Refinement to one dictionary under arbitrary saves/reads/commits/clears/re-opens and row orders, for calls with disjoint names and at least one row (both shown necessary).
* **C18** Every recorded call is loadable — *partial*: `C18_intact_partial`, `C18_shapes_load_partial`, `C18_recorded_call_loads_partial`, `C18_mget_call_partial`, `C18_with_deletions_partial`, `C18_after_clear_refuted`. Shapes and ops, recursively for elements: for every reachable state of programs with any annotations, including MList/MDict, for any hash (C18_intact_partial, C18_shapes_load_partial). Contents of atoms: for every reachable state of programs with atoms, also with deletions followed by cleanups. Reading through mget_call after clear_cache() can raise KeyError (refuted with a witness). Missing: the contents of atoms when collections are used.
* **C19** References survive a save/load round trip — *partial*: `C19_round_trip_partial`, `C19_save_succeeds`, `C19_nested_list_refuted`. Every ref saved (any nesting, saves in any order, commits, cleared caches, new processes) loads with its ids; unwrapping gives its value if lists contain only atoms. For collections inside lists the claim is false (refuted).
* **C20** Deleting calls deletes their dependents — *proved*: `C20_delete_dependents`, `C20_dependents_defined`. For call tables left by any history, everything committed, no clear_cache before; outside of that see the C21 refutations.
* **C21** Deleted calls are really gone — *partial*: `C21_deleted_are_gone`, `C21_uncommitted_refuted`, `C21_after_clear_refuted`, `C21_content_twin_refuted`. Full statement false (findings 2, 3, 34); proved for committed calls and no clear_cache since opening.
* **C22** Cleaning up refs never breaks surviving calls — *partial*: `C22_removed_exactly`, `C22_cleanup_keeps_calls_partial`, `C22_refuted`. In any state cleanup_refs removes exactly the shapes and atoms that nothing in the database mentions; over all histories of programs with atoms (with cleanups, and deletions each followed by a cleanup) every recorded call loads to the same values after a cleanup. Refuted when list outputs are found by content (finding 15). Missing: collections; deletions without a cleanup.
* **C23** Batch reads preserve order — *proved*: `C23_batch_reads_preserve_order`. Every list of ids (repetitions allowed), every cache/database split, every row order.
* **C24** Provenance closure is exact — *proved*: `C24_dependencies_exact`, `C24_dependents_exact`. Termination and exactness for every table.
* **C25** Nested contexts restore the mode — *proved*: `C25_lexical_scoping`, `C25_block_restores`, `C25_failing_enter_refuted`, `C25_failing_hook_refuted`. For all programs on one storage, any failing commits. Excludes raising sync_code in __enter__ and raising exit hooks, which are refuted.
* **C26** Contexts of different storages nest — *partial*: `C26_refuted`, `C26_wrong_storage_refuted`, `C26_modes_and_commits_partial`. Full statement false (finding 17); modes and commits are right for any nesting of several storages without noop().
* **C27** Forbidding new calls is safe — *partial*: `C27_nothing_executed`, `C27_memoized_or_RuntimeError`, `C27_recording_refuted`. Nothing is executed: proved for all states. 'Nothing recorded' is refuted (finding 32).
* **C28** Saving is idempotent — *proved*: `C28_save_ref_twice`, `C28_save_calls_again`, `C28_save_order`, `C28_detached_refuted`. Order independence for consistent families of calls; refuted when one id occurs both in and out of memory (finding 33).
* **C29** Code history never loses or changes contents — *proved*: `C29_committed_retrieved`, `C29_synced_retrieved`, `C29_stable`, `C29_checks`. all operation sequences, also failing ones, any hash function; the recursion limit of get_content is not modelled
* **C30** Semantic version follows the user's answers — *proved*: `C30_commit`, `C30_sync_known`, `C30_permanent`, `C30_declared`, `C30_every_history_declared`. all histories; semantic equality of contents is exactly the equivalence generated by the no answers
* **C31** Syncing code is idempotent — *proved*: `C31_sync_twice`, `C31_sync_codebase_twice`, `C31_sync_component_twice`. all states
* **C32** An aborted sync changes nothing — *proved*: `C32_aborted_sync`, `C32_aborted_sync_component`, `C32_aborted_commit`. all states and abort points; the context leaked by a failing __enter__ is C25_failing_enter_refuted
* **C33** A versioned lookup only reuses compatible results — *proved*: `C33_hits_are_compatible`, `C33_semantic_change_misses`. all versioner histories; injective hash
* **C34** At most one version matches — *proved*: `C34_unique`, `C34_order_irrelevant`. all versioner histories; injective hash; order independence for calls all recorded for the op looked up (else C49_same_name_refuted)
* **C35** A call that just ran is found again — *proved*: `C35_found_again`. all sessions and traces; injective hash; the calls reused in the trace are compatible with the code
* **C36** All dependencies of a call are tracked — *partial*: `C36_partial`, `C36_before_nested_ops_partial`, `C36_after_nested_op_refuted`, `C36_caught_exception_refuted`, `C36_stale_result_refuted`. refuted: nothing is tracked after a nested op call (a stale result is reused end to end), a caught exception of a helper makes the call fail; proved for bodies without nested ops in which no tracked function raises
* **C37** Strongly connected components are exact — *proved*: `C37_sccs_exact`, `C37_deterministic`. All finite graphs whose neighbours are keys, any node type and order.
* **C38** Topological order is valid — *proved*: `C38_topological_sort`, `C38_almost_topological_sort`, `C38_topsort_modulo_sccs`, `C38_topsort_acyclic`. utils.topological_sort, utils.almost_topological_sort and ComputationFrame.topsort_modulo_sccs (Kahn with fallback).
* **C39** A computation frame is always consistent — *partial*: `C39_partial`, `C39_no_failures`, `C39_drop_call_refuted`, `C39_drop_ref_refuted`, `C39_drop_func_refuted`, `C39_drop_func_twice_refuted`, `C39_add_call_refuted`, `C39_rename_refuted`. Every sequence of sane operations that return keeps the frame consistent; the unconditional statement is refuted in six ways.
* **C40** Selecting nodes or elements gives a sub-frame — *partial*: `C40_nodes`, `C40_subsets_partial`, `C40_subsets_refuted`, `C40_subsets_stale_refuted`. Selecting nodes proved in full. Restricting to elements keeps exactly them; _check holds when they are closed along edges, refuted otherwise. Independence of the copy: see C46.
* **C41** Union and intersection of frames are set operations — *partial*: `C41_union_partial`, `C41_union_laws`, `C41_union_refuted`, `C41_intersection_partial`, `C41_intersection_laws`, `C41_intersection_refuted`. Per-node union/intersection and the laws are proved; consistency under compatible/aligned frames, refuted in general.
* **C42** Upstream/downstream is graph reachability — *partial*: `C42_stream`, `C42_midstream_acyclic`, `C42_midstream_partial`, `C42_midstream_refuted`, `C42_upstream_check_refuted`. upstream/downstream exact. midstream exact on acyclic frames; between simple paths and walks in general; refuted (endless recursion) on a cyclic frame.
* **C43** Element reachability is the least fixpoint — *proved*: `C43`, `C43_drop_unreachable`. Assumes the calls of the list constructor are labelled as the code labels them (tidy).
* **C44** Expanding a frame back finds the whole history — *partial*: `C44_expand_back_partial`, `C44_expand_pass_partial`, `C44_reuse_refuted`. With reuse_existing=False: recursive backward expansion terminates, keeps the frame, stays consistent, and adds exactly the recorded history; one pass over chosen variables (with or without skip_existing) adds exactly the missing creators and their inputs. With the default reuse_existing=True the claim is false (C44_reuse_refuted). Forward expansion is modelled but not proved.
* **C45** Rows of the extracted table are real computations — *partial*: `C45_history_rows`, `C45_joint_rows_partial`, `C45_no_conflict`, `C45_df_partial`, `C45_refuted`. The table of one variable has exactly one row per value, holding exactly its transitive history; a joint row combines whole histories of values of different variables without conflicts and nothing else. That the combined values are related is false: pandas.merge matches nulls (C45_refuted). df() is covered when the restricted frame is consistent. pandas.merge is modelled by its documented behaviour.
* **C46** Copies of a frame are independent — *partial*: `C46_merge_into_refuted`. Refuted for merge_into; the other methods work on copies (frames are values in the model, so this is by construction).
* **C47** Generated names are fresh — *partial*: `C47_partial`, `C47_new_node`, `C47_refuted`, `C47_from_op_refuted`. Fresh among names of its own kind; refuted across kinds.
* **C48** Merging variables keeps all elements — *proved*: `C48_merge_into`, `C48_merge_vars`, `C48_self_refuted`. For two different variables; merging a variable into itself drops it.
* **C49** A versioned lookup never fails — *partial*: `C49_same_name_refuted`, `C49_lookup_total`. refuted for two ops of the same name in different modules; otherwise proved
* **C50** A call whose stored result is gone can be computed again — *partial*: `C50_recompute_refuted`, `C50_after_drop_partial`. Refuted: the versioner keeps the row of the deleted call, re-running raises ValueError. After drop_version of its semantic version, re-running with the same trace succeeds with the same version and the call is found again (proved for every session, when the calls it reused are not of the dropped version).
* **C51** Expanding a frame forwards finds the consumers of its values — *partial*: `C51_expand_forward_partial`, `C51_recursive_partial`, `C51_all_consumers_refuted`, `C51_lists_refuted`. Refuted as stated: a value with one consumer in the frame gets no others, and elements of lists end up in the wrong variables. Proved with reuse_existing=False: one pass on variables without elements of lists succeeds, keeps the frame and adds exactly the consumers of the values that have none, in new functions connected to their inputs and to new variables with their outputs; the recursive loop on all variables, when no lists are recorded, ends with exactly the future of these values. reuse_existing=True is not covered.
* **C52** Expanding a frame in all directions ends with everything connected — *partial*: `C52_expand_all_partial`, `C52_nothing_new`, `C52_inputs_refuted`. Refuted as stated: a call found forwards lacks the inputs that were not in the frame. Proved with reuse_existing=False, skip_existing=False and no recorded lists: it ends after at most two rounds, keeps the frame, every value is connected to its creator and, if it has any, to a consumer, and what is added is exactly the history of the values and the future of those without a consumer. A frame with everything connected is not changed, with any options (no restriction on lists).
* **C53** Filtering a frame by values keeps exactly what belongs to them — *partial*: `C53_isin_partial`, `C53_check_refuted`, `C53_lone_refuted`, `C53_two_labels_refuted`. exact, for frames where list-building calls have the usual argument names (tidy), when no two edges join the same nodes and every function node has an edge; _check holds for the result when the test takes or leaves whole calls.  False without these (refutations).  Missing: the stronger consistency of the result, whose index from refs to variables may be stale (C40_subsets_stale_refuted)

## 6. Behaviour of the code found while modelling

Each item deviates from a property or from the documentation; theorem names in parentheses prove it on the model.

1. `CachedCallStorage.exists_content` asks the database for a *ref* with that id instead of a call with that content, so a
   computation known by content is executed again after `clear_cache()` or in a new process (`C02_refuted`, `C02_reopen_refuted`).
   In versioned mode the second save then raises ValueError.
2. `drop_calls` leaves the call's dirty mark: every later commit raises ValueError (`C21_uncommitted_refuted`).
3. `calls.clear()` replaces the cache object, `Storage.call_cache` keeps the old one (`C21_after_clear_refuted`, `C18_after_clear_refuted`).
4. `commit` clears the dirty marks table by table before the SQL transaction commits; a retry after a failure loses data (`C15_*_refuted`).
5. `CachedCallStorage.get_data_content` falls back with a TypeError; its SQL version starts a nested transaction (OperationalError).
6. The `transaction` decorator does not roll back when it gives up with OperationalError.
7. `ValuePointer("s")` has the content id of the string "s" (`C03_pointer_refuted`, `C07_value_pointer_refuted`); outputs that are value
   pointers ignore the history id (`C08_pointer_outputs_refuted`).
8. Names like `args_0` made for starred arguments collide with parameters (`C07_names_clash_refuted`).
9. `call_internal` rebuilds keyword arguments wrongly in three corners (`C10_*_refuted`).
10. Custom output names that are too few, too many or repeated (`C09_unfit_names_refuted`).
11. An op without inputs returning `()` has no rows and cannot be read back (`C17_no_rows_refuted`).
12. An input named like an output overwrites its row (`C17_name_clash_refuted`).
13. Two processes saving the same call: IntegrityError, and the dirty marks are gone (follows from 4).
14. Overflow files are written once and outside the transaction (`C12_changing_values_with_overflow_refuted`, `C14_torn_overflow_file_refuted`).
15. A list output found by content keeps the elements' old history ids, which no row mentions: after deleting the first call and
    `cleanup_refs` the second call is broken (`C22_refuted`).
16. Unwrapping outside a context marks atoms dirty (`C11_dirty_marks_refuted`).
17. Nested contexts of two storages share one global context (`C26_refuted`, `C26_wrong_storage_refuted`); raising exit hooks and a failing
    `__enter__` leave it behind (`C25_failing_*_refuted`).
18. After a nested op call the tracer stays suspended, so later dependencies are missed and stale results are reused (`C36_after_nested_op_refuted`,
    `C36_stale_result_refuted`).
19. An exception in a tracked helper leaves the call stack unpopped (`C36_caught_exception_refuted`).
20. `drop_calls` computes dependents from the database only; calls not committed yet are missed.
21. `load_ref` of a nested list returns the elements' shapes instead of their values (`C19_nested_list_refuted`).
22. `preload_*` replaces unsaved cache contents (`C16_preload_with_unsaved_data_refuted`).
23. A parameter in `ignore_args` that is also passed `Ignore(x)` reaches the function as the marker (`C05_double_marker_refuted`).
24. `MList` of a list and of a tuple have the same id (`C07_list_tuple_refuted`); the empty list and the empty dict too (`C03_empty_collections_refuted`).
25. `allow_new_calls(False)` still records a call found by content (`C27_recording_refuted`).
26. Saving a ref both in and out of memory: the first wins (`C28_detached_refuted`).
27. A deleted call whose content is recorded under another history is not executed again (`C21_content_twin_refuted`).
28. `pre_call_uid` uses the op's name only (`C49_same_name_refuted`); a deleted versioned call cannot be recomputed (`C50_recompute_refuted`).
29. All unhashable globals have the same hash; `sync_component` writes `sources["versioned"]`.
30. Frames: `drop_call`, `drop_ref`, `drop_func`, `add_call`, `rename` break `_check` or raise in corners (`C39_*_refuted`); `select_subsets` leaves stale
    `refinv` entries (`C40_subsets_stale_refuted`); union raises and intersection breaks `_check` for consistent frames (`C41_*_refuted`);
    `get_edges_in_paths` does not terminate on a cycle and is not limited to simple paths (`C42_midstream_refuted`); `upstream` may fail `_check`
    (`C42_upstream_check_refuted`); generated names collide across kinds (`C47_refuted`, `C47_from_op_refuted`); merging a variable into
    itself drops it (`C48_self_refuted`); `merge_into(inplace=False)` mutates the original (`C46_merge_into_refuted`).
31. `expand_back(recursive=True)` with the default `reuse_existing=True` stops too early and breaks `_check` (`C44_reuse_refuted`); it raises TypeError
    on a frame without variables.
32. `cf.df()` joins histories with `pandas.merge`, where nulls match: values without any common history share a row (`C45_refuted`); two variables
    without a common column cannot be joined at all.
33. `expand_forward` looks for the consumers of values that have no consumer in the frame only: with one consumer there the others are never found
    (`C51_all_consumers_refuted`).  `_group_calls` keeps the variables of the last element of a list only, and expanding then adds all elements
    to these variables, which changes them (`C51_lists_refuted`).
34. `expand_all` leaves out inputs: a call found forwards from one of its inputs gets no variables for the others, and they are never found
    (`C52_inputs_refuted`).
35. `get_adj_elts` builds a dictionary keyed by node, so with two edges between a variable and a function only one counts: `isin` then loses calls that
    consume a kept value (`C53_two_labels_refuted`).  `isin` raises on a frame with a function node without edges (`C53_lone_refuted`), and its
    result need not pass `_check` (`C53_check_refuted`).
