{"id": "C01", "title": "Repeating a call never re-runs the function", "statement": "Inside a storage context, once a call to an @op with some arguments has returned, repeating that call (same op, version, arguments with the same history) does not execute the wrapped function, leaves the set of recorded calls unchanged and returns refs with the same cid and hid for every output, no matter how many other calls, commits or context exits happened in between (without deletions).", "quantifier": "every op, every argument binding, every history of other op calls and commits between the two calls", "why_tests_cant": "tests repeat a handful of calls with a fixed program; the claim is about every interleaving of other calls, commits and cache states", "anchors": ["mandala/storage.py:Storage.call", "mandala/storage.py:Storage.call_internal", "mandala/storage.py:Storage.lookup_call", "mandala/storage.py:Storage.save_call"]}
{"id": "C02", "title": "The same computation is never executed twice", "statement": "Over a whole program history without deletions, the wrapped function of an @op is executed at most once per distinct (op name, op version, contents of the inputs), as the README promises ('never computes the same call twice').", "quantifier": "every program (sequence of op calls, commits, cache clears, re-opens) and every user function", "why_tests_cant": "counts executions over unbounded histories; a unit test fixes one history, and the interesting ones mix equal contents with different provenance and a re-opened database", "anchors": ["mandala/storage.py:Storage.lookup_call", "mandala/storage_utils.py:CachedCallStorage.exists_content", "mandala/storage_utils.py:SQLiteCallStorage.exists_content"]}
{"id": "C03", "title": "A memoized result is the function's result", "statement": "If the op body is a deterministic function of its arguments and content hashing is collision free, then unwrapping what an op call returns (memoized or freshly computed) gives the value the plain function returns on the same arguments.", "quantifier": "every op, every argument values, every prior history of the storage", "why_tests_cant": "an error needs two different argument lists whose ids coincide, or a stale cache; a test would have to guess the colliding pair", "anchors": ["mandala/storage.py:Storage.call", "mandala/model.py:Op.get_call_content_id", "mandala/model.py:wrap_atom"]}
{"id": "C04", "title": "Call identity ignores how arguments are passed", "statement": "Passing the same values positionally, by keyword (in any order) or by relying on the default gives the same call: same storage inputs, same call ids.", "quantifier": "every signature, every split of the arguments into positional and keyword ones, every keyword order", "why_tests_cant": "the number of ways to pass arguments is exponential in the number of parameters and unbounded with *args/**kwargs", "anchors": ["mandala/storage.py:Storage.parse_args", "mandala/model.py:Op.get_call_history_id"]}
{"id": "C05", "title": "Ignored arguments never influence identity", "statement": "Values wrapped in Ignore(...), or passed for a parameter in ignore_args, never influence the call ids: two calls differing only in such values are the same call, yet the function receives the actual value when it is run.", "quantifier": "every signature, every set of ignored parameters, every value", "why_tests_cant": "universally quantified over the ignored values and the signatures", "anchors": ["mandala/storage.py:Storage.parse_args", "mandala/model.py:_Ignore", "mandala/model.py:Op._get_hashable_inputs"]}
{"id": "C06", "title": "New default arguments keep old calls valid", "statement": "Adding a parameter with default NewArgDefault(d) to an op keeps every old call: calling the new op without the parameter, or with a value equal to d (wrapped or not), has the ids of the old call; calling with a different value has different ids.", "quantifier": "every signature, default d, passed value, other arguments", "why_tests_cant": "relates two versions of a function for all arguments", "anchors": ["mandala/storage.py:Storage.parse_args", "mandala/model.py:_NewArgDefault", "mandala/utils.py:_conservative_equality_check"]}
{"id": "C07", "title": "Different inputs give different calls", "statement": "Assuming collision-free hashing, two calls to the same op (name, version, semantic version) have equal history ids iff their named inputs have equal history ids, and equal content ids iff their named inputs have equal content ids; in particular calls that bind parameters differently are different calls.", "quantifier": "every pair of ops and input dictionaries", "why_tests_cant": "an injectivity statement over all pairs", "anchors": ["mandala/model.py:Op.get_call_history_id", "mandala/model.py:Op.get_call_content_id", "mandala/storage.py:Storage.parse_args"]}
{"id": "C08", "title": "Every output has its own identity", "statement": "The history ids of distinct outputs of a call are distinct, outputs of distinct calls have distinct history ids, hence a recorded output ref has at most one creator call ('Ref has multiple creators, this should not happen' is never raised).", "quantifier": "every history of calls that return plain values", "why_tests_cant": "quantifies over all pairs of recorded calls of an arbitrary history", "anchors": ["mandala/model.py:Op.get_output_history_ids", "mandala/storage.py:Storage.get_ref_creator"]}
{"id": "C09", "title": "Outputs come back in order and complete", "statement": "A function returning an n-tuple gives exactly n refs, the i-th one wrapping the i-th component, also when n >= 10 and also when the call is served from the storage in any row order; a custom list of n distinct output names gives the same.", "quantifier": "every n, every tuple of return values, every order in which rows come back from the database", "why_tests_cant": "unbounded n and all permutations of rows", "anchors": ["mandala/utils.py:parse_returns", "mandala/utils.py:parse_output_name", "mandala/model.py:Op.get_ordered_outputs"]}
{"id": "C10", "title": "The op body sees the arguments the user passed", "statement": "When an op call executes its function, every parameter is bound to the (unwrapped) value the user passed for it, exactly as if the plain function had been called; it never raises a binding error for a call the plain function accepts.", "quantifier": "every signature (positional-only, keyword-only, *args, **kwargs, defaults) and every accepted argument list", "why_tests_cant": "the space of signatures and calls is unbounded", "anchors": ["mandala/storage.py:Storage.call_internal", "mandala/storage.py:Storage.parse_args", "mandala/utils.py:boundargs_to_args_kwargs"]}
{"id": "C11", "title": "noop mode is the plain function", "statement": "In mode 'noop' an op call returns exactly what the plain function returns on the unwrapped arguments and leaves the storage (caches, dirty marks, database) unchanged apart from read caching.", "quantifier": "every signature, call and storage state", "why_tests_cant": "for all calls and states", "anchors": ["mandala/storage.py:Storage.call", "mandala/utils.py:boundargs_to_args_kwargs", "mandala/model.py:unwrap_special_value"]}
{"id": "C12", "title": "A cached table behaves like one dictionary", "statement": "The atoms/shapes/ops tables (a cache over SQLite over an overflow directory) behave observably like a single dictionary: get returns the last value set, exists is exact, drop removes, whatever the interleaving of set/get/commit/clear and whatever sizes the values have.", "quantifier": "every sequence of operations, keys, values and serialized sizes relative to the overflow threshold", "why_tests_cant": "refinement over unbounded operation sequences", "anchors": ["mandala/storage_utils.py:CachedDictStorage", "mandala/storage_utils.py:SQLiteDictStorage", "mandala/storage_utils.py:JoblibDictStorage"]}
{"id": "C13", "title": "Commit makes everything durable", "statement": "After a commit returns, a new Storage on the same database observes every atom, shape, op and call saved before the commit, with the same contents.", "quantifier": "every storage state reachable by op calls and commits", "why_tests_cant": "any reachable state, any key", "anchors": ["mandala/storage.py:Storage.commit", "mandala/storage_utils.py:CachedDictStorage.commit", "mandala/storage_utils.py:CachedCallStorage.commit"]}
{"id": "C14", "title": "Commit is all or nothing", "statement": "If the process dies or a statement fails at any point during a commit to an on-disk database, re-opening the database shows either none or all of the rows of that commit: never a call whose refs are missing.", "quantifier": "every crash point inside a commit, every state, every order in which the dirty keys are written", "why_tests_cant": "crash points cannot be enumerated by unit tests", "anchors": ["mandala/storage.py:Storage.commit", "mandala/storage_utils.py:DBAdapter", "mandala/storage_utils.py:transaction"]}
{"id": "C15", "title": "A failed commit can be retried without losing data", "statement": "If a commit fails part way with an exception and is retried successfully later, the database contains everything that was saved: a failed attempt never forgets unsaved data.", "quantifier": "every failure point inside a commit and every state", "why_tests_cant": "needs fault injection at every statement", "anchors": ["mandala/storage.py:Storage.commit", "mandala/storage_utils.py:CachedDictStorage.commit"]}
{"id": "C16", "title": "Clearing the cache loses nothing", "statement": "clear_cache() with default arguments either raises and changes nothing that was uncommitted, or succeeds, and then every lookup (refs, calls, ops) answers as before.", "quantifier": "every reachable state with or without uncommitted data", "why_tests_cant": "all reachable states", "anchors": ["mandala/storage.py:Storage.clear_cache", "mandala/storage_utils.py:CachedDictStorage.clear", "mandala/storage_utils.py:CachedCallStorage.clear"]}
{"id": "C17", "title": "The call table returns what was saved", "statement": "Saving a call and reading it back (from the cache, or from SQLite after commit) gives the same op name, ids, versions and the same input and output name->ref maps.", "quantifier": "every call whose input and output names are disjoint, every table contents", "why_tests_cant": "all calls and all table contents", "anchors": ["mandala/storage_utils.py:InMemCallStorage.save", "mandala/storage_utils.py:InMemCallStorage.mget_data", "mandala/storage_utils.py:SQLiteCallStorage.save", "mandala/storage_utils.py:SQLiteCallStorage.mget_data"]}
{"id": "C18", "title": "Every recorded call is loadable", "statement": "Referential integrity: in any state reached by op calls and commits, every input and output of every recorded call has a stored shape (recursively for list/dict elements), every atom shape's content is stored, and the op is stored; so reading any recorded call never raises KeyError.", "quantifier": "every reachable state", "why_tests_cant": "inductive invariant over histories", "anchors": ["mandala/storage.py:Storage.save_call", "mandala/storage.py:Storage.save_ref", "mandala/storage.py:Storage._get_call_from_data"]}
{"id": "C19", "title": "References survive a save/load round trip", "statement": "Loading a ref by its history id gives back the same content id, history id and, after unwrap, the same value, for atoms and nested lists and dicts of refs.", "quantifier": "every ref (any nesting), every storage state", "why_tests_cant": "structural recursion over arbitrary nestings", "anchors": ["mandala/storage.py:Storage.save_ref", "mandala/storage.py:Storage.load_ref", "mandala/storage.py:Storage.unwrap"]}
{"id": "C20", "title": "Deleting calls deletes their dependents", "statement": "After drop_calls(..., delete_dependents=True) outside a context with everything committed, none of the given calls remain, no remaining call consumes (transitively) an output of a deleted call, and every call not depending on a deleted one is untouched.", "quantifier": "every committed call table and every set of calls", "why_tests_cant": "transitive closure over arbitrary provenance graphs", "anchors": ["mandala/storage.py:Storage.drop_calls", "mandala/storage_utils.py:InMemCallStorage.get_dependents"]}
{"id": "C21", "title": "Deleted calls are really gone", "statement": "After drop_calls, a lookup of a deleted call misses (so the function is re-run), and later commits succeed and do not resurrect it - also if the call had not been committed yet, or the cache had been cleared before.", "quantifier": "every state (committed, uncommitted, after clear_cache) and set of calls", "why_tests_cant": "combination of cache, alias and dirty-mark states", "anchors": ["mandala/storage.py:Storage.drop_calls", "mandala/storage_utils.py:CachedCallStorage", "mandala/storage.py:Storage.clear_cache"]}
{"id": "C22", "title": "Cleaning up refs never breaks surviving calls", "statement": "cleanup_refs() removes only refs that no recorded call needs: afterwards every recorded call is still loadable and unwraps to the same values, including list and dict elements.", "quantifier": "every committed state reachable by op calls, deletions and cleanups", "why_tests_cant": "inductive invariant over histories mixing deletions and content deduplication", "anchors": ["mandala/storage.py:Storage.cleanup_refs", "mandala/storage.py:Storage.get_orphans", "mandala/storage.py:Storage.get_unreferenced_cids"]}
{"id": "C23", "title": "Batch reads preserve order", "statement": "mget_call(hids) returns the calls in the order of the requested ids, one per id, however the ids are distributed between cache and database.", "quantifier": "every list of ids, every cache/database split", "why_tests_cant": "all lists and splits", "anchors": ["mandala/storage.py:Storage.mget_call"]}
{"id": "C24", "title": "Provenance closure is exact", "statement": "get_dependencies/get_dependents terminate and return exactly the refs and calls reachable backwards/forwards from the given ones in the recorded provenance graph.", "quantifier": "every call table (cyclic or not), every starting set", "why_tests_cant": "least fixpoint over arbitrary graphs; termination", "anchors": ["mandala/storage_utils.py:InMemCallStorage.get_dependencies", "mandala/storage_utils.py:InMemCallStorage.get_dependents"]}
{"id": "C25", "title": "Nested contexts restore the mode", "statement": "For every properly nested sequence of storage contexts (run/noop) on one storage, leaving a block restores the mode, the active context stays set until the outermost block exits and is cleared then, and exactly the outermost exit commits.", "quantifier": "every properly nested sequence of enters and exits, with exceptions", "why_tests_cant": "unbounded nesting", "anchors": ["mandala/storage.py:Storage.__enter__", "mandala/storage.py:Storage.__exit__", "mandala/storage.py:noop"]}
{"id": "C26", "title": "Contexts of different storages nest", "statement": "With two storages, after leaving an inner `with s2:` block nested in a `with s1:` block, op calls are memoized in s1 again.", "quantifier": "every nesting of blocks of two storages", "why_tests_cant": "the usual tests use a single storage", "anchors": ["mandala/storage.py:Storage.__exit__", "mandala/model.py:Context"]}
{"id": "C27", "title": "Forbidding new calls is safe", "statement": "With allow_new_calls(False), an op call either returns a memoized result or raises RuntimeError; in no case is a user function executed, a call recorded or anything marked for writing.", "quantifier": "every state, op and arguments (including nested struct inputs)", "why_tests_cant": "all states and calls", "anchors": ["mandala/storage.py:Storage.allow_new_calls", "mandala/storage.py:Storage.call_internal"]}
{"id": "C28", "title": "Saving is idempotent", "statement": "Saving a ref or a call that is already saved changes nothing; saving the same calls in any order and any number of times gives the same tables.", "quantifier": "every list of calls and every state", "why_tests_cant": "all permutations and repetitions", "anchors": ["mandala/storage.py:Storage.save_ref", "mandala/storage.py:Storage.save_call", "mandala/storage_utils.py:InMemCallStorage.save"]}
{"id": "C29", "title": "Code history never loses or changes contents", "statement": "Every content ever committed to a component's history can be retrieved verbatim from its content hash, whatever is committed, checked out or synced later.", "quantifier": "every sequence of init/commit/checkout/sync with arbitrary contents", "why_tests_cant": "all edit histories", "anchors": ["mandala/deps/shallow_versions.py:DAG.commit", "mandala/deps/shallow_versions.py:DAG.get_content"]}
{"id": "C30", "title": "Semantic version follows the user's answers", "statement": "A commit marked as not semantic keeps the semantic version of its parent, a commit marked semantic gets a fresh one no earlier content had, and syncing back to a known content restores exactly the semantic version that content had.", "quantifier": "every sequence of commits and syncs", "why_tests_cant": "all edit histories", "anchors": ["mandala/deps/shallow_versions.py:DAG.commit", "mandala/deps/shallow_versions.py:DAG.sync"]}
{"id": "C31", "title": "Syncing code is idempotent", "statement": "Synchronizing a component (or the whole codebase) twice with the same code asks nothing and changes nothing the second time.", "quantifier": "every versioner state and code state", "why_tests_cant": "all states", "anchors": ["mandala/deps/shallow_versions.py:DAG.sync", "mandala/deps/versioner.py:Versioner.sync_codebase"]}
{"id": "C32", "title": "An aborted sync changes nothing", "statement": "If the user aborts (or the sync fails) while answering questions about changed dependencies, the stored versioner is exactly what it was before.", "quantifier": "every versioner, code state, and point at which the sync is aborted", "why_tests_cant": "every abort point", "anchors": ["mandala/deps/versioner.py:Versioner.sync_codebase", "mandala/storage.py:Storage.sync_code"]}
{"id": "C33", "title": "A versioned lookup only reuses compatible results", "statement": "If a versioned lookup succeeds, then every dependency recorded for the reused version is, in the current code state, at a content the user declared semantically equal to the recorded one; changing a recorded dependency with a semantic change makes the lookup miss.", "quantifier": "every versioner history and code state", "why_tests_cant": "all histories of code edits and calls", "anchors": ["mandala/deps/versioner.py:Versioner.lookup_call", "mandala/deps/versioner.py:Versioner.get_codestate_semantic_hashes"]}
{"id": "C34", "title": "At most one version matches", "statement": "For given call contents and code state at most one recorded semantic version is compatible with the code: lookup results do not depend on iteration order.", "quantifier": "every versioner history built through the API", "why_tests_cant": "an invariant over all histories", "anchors": ["mandala/deps/versioner.py:Versioner._check_semantic_distinguishability", "mandala/deps/versioner.py:Versioner.process_trace"]}
{"id": "C35", "title": "A call that just ran is found again", "statement": "Right after a versioned call ran (and its trace was processed), looking it up with the unchanged code state returns exactly the version just recorded.", "quantifier": "every trace, code state and versioner state", "why_tests_cant": "all traces", "anchors": ["mandala/deps/versioner.py:Versioner.process_trace", "mandala/deps/versioner.py:Versioner.lookup_call"]}
{"id": "C36", "title": "All dependencies of a call are tracked", "statement": "Every tracked function called and every tracked global read during an op call (also after a nested op call returned, and also in helpers that raise and are caught) is among the recorded dependencies of its version.", "quantifier": "every execution trace of tracked calls, nested op calls and exceptions", "why_tests_cant": "all dynamic call trees", "anchors": ["mandala/deps/tracers/dec_impl.py:DecTracer", "mandala/storage.py:Storage.call_internal"]}
{"id": "C37", "title": "Strongly connected components are exact", "statement": "The SCC routine returns a partition of the nodes whose blocks are exactly the classes of mutually reachable nodes.", "quantifier": "every finite directed graph", "why_tests_cant": "all graphs", "anchors": ["mandala/utils.py:find_strongly_connected_components"]}
{"id": "C38", "title": "Topological order is valid", "statement": "On acyclic graphs the topological sorts list every node once with all edges pointing forward; on general graphs the 'almost' sort respects every edge between different strongly connected components.", "quantifier": "every finite directed graph", "why_tests_cant": "all graphs", "anchors": ["mandala/utils.py:topological_sort", "mandala/utils.py:almost_topological_sort", "mandala/cf.py:ComputationFrame.topsort_modulo_sccs"]}
{"id": "C39", "title": "A computation frame is always consistent", "statement": "Starting from an empty frame, any sequence of the public building and dropping operations keeps the frame's internal check true: memberships and inverse indexes agree, edges connect existing nodes, creators and consumers are right.", "quantifier": "every sequence of frame operations", "why_tests_cant": "inductive invariant over operation sequences", "anchors": ["mandala/cf.py:ComputationFrame._check", "mandala/cf.py:ComputationFrame.add_call", "mandala/cf.py:ComputationFrame.drop_call", "mandala/cf.py:ComputationFrame.add_ref"]}
{"id": "C40", "title": "Selecting nodes or elements gives a sub-frame", "statement": "Indexing a frame by node names (or restricting it to given elements) keeps exactly the selected nodes, all edges among them and exactly the elements they had (or the given subsets); the result is again consistent and the original is unchanged.", "quantifier": "every frame and every selection", "why_tests_cant": "all frames", "anchors": ["mandala/cf.py:ComputationFrame.select_nodes", "mandala/cf.py:ComputationFrame.select_subsets", "mandala/cf.py:ComputationFrame.__getitem__"]}
{"id": "C41", "title": "Union and intersection of frames are set operations", "statement": "The union (intersection) of two frames of the same storage has, at every node, the union (intersection) of the elements, is consistent, and union/intersection are commutative, associative and idempotent up to equality of contents.", "quantifier": "every pair of consistent frames", "why_tests_cant": "algebraic laws over all frames", "anchors": ["mandala/cf.py:ComputationFrame._binary_union", "mandala/cf.py:ComputationFrame._binary_intersection"]}
{"id": "C42", "title": "Upstream/downstream is graph reachability", "statement": "upstream(nodes)/downstream(nodes) keep exactly the nodes from which the given nodes are reachable / reachable from the given nodes, and midstream exactly those on a path between them.", "quantifier": "every frame graph and node set", "why_tests_cant": "all graphs", "anchors": ["mandala/cf.py:ComputationFrame.get_reachable_nodes", "mandala/cf.py:ComputationFrame.midstream", "mandala/utils.py:get_edges_in_paths"]}
{"id": "C43", "title": "Element reachability is the least fixpoint", "statement": "The element-level reachability used by drop_unreachable terminates and computes the least set containing the initial elements and closed under the call rules (any input for 'weak', all tracked inputs for 'strong').", "quantifier": "every frame (cyclic or not), direction and initial state", "why_tests_cant": "fixpoint over arbitrary frames", "anchors": ["mandala/cf.py:ComputationFrame.get_reachable_elts", "mandala/cf.py:ComputationFrame.drop_unreachable"]}
{"id": "C44", "title": "Expanding a frame back finds the whole history", "statement": "Expanding a frame backwards without limits adds exactly the calls and refs in the recorded transitive provenance of its elements, and loses nothing.", "quantifier": "every recorded history and starting frame", "why_tests_cant": "transitive provenance over arbitrary histories", "anchors": ["mandala/cf.py:ComputationFrame.expand_back", "mandala/cf.py:ComputationFrame._expand_unidirectional"]}
{"id": "C45", "title": "Rows of the extracted table are real computations", "statement": "Each row of cf.df() collects, for one chosen value, exactly the values and calls of the frame in its transitive history; no unrelated value is mixed into a row.", "quantifier": "every frame", "why_tests_cant": "all frames and histories", "anchors": ["mandala/cf.py:ComputationFrame.get_total_history", "mandala/cf.py:ComputationFrame.df"]}
{"id": "C46", "title": "Copies of a frame are independent", "statement": "Operations that do not say inplace never change the frame they are called on.", "quantifier": "every frame and operation sequence", "why_tests_cant": "aliasing shows up only in particular sequences", "anchors": ["mandala/cf.py:ComputationFrame.copy", "mandala/cf.py:ComputationFrame.drop", "mandala/cf.py:ComputationFrame.rename"]}
{"id": "C47", "title": "Generated names are fresh", "statement": "Names generated for new variables and functions of a frame never collide with existing ones, so adding generated nodes never overwrites a node.", "quantifier": "every set of existing names and every hint", "why_tests_cant": "all name sets", "anchors": ["mandala/cf.py:ComputationFrame.get_new_vname", "mandala/cf.py:ComputationFrame.get_new_fname"]}
{"id": "C48", "title": "Merging variables keeps all elements", "statement": "merge_into / merge_vars terminate, lose no element and redirect every edge of the merged variable to the variable it was merged into.", "quantifier": "every frame", "why_tests_cant": "all frames", "anchors": ["mandala/cf.py:ComputationFrame.merge_into", "mandala/cf.py:ComputationFrame.merge_vars"]}
{"id": "C49", "title": "A versioned lookup never fails", "statement": "In a session, looking up a versioned call either returns a recorded version or misses; it does not raise.", "quantifier": "every versioner history, code state, op and call", "why_tests_cant": "all histories and all pairs of ops", "anchors": ["mandala/deps/versioner.py:Versioner.lookup_call", "mandala/model.py:Op.get_pre_call_id"]}
{"id": "C50", "title": "A call whose stored result is gone can be computed again", "statement": "If a versioned call was deleted (or failed after its trace was processed), running it again with the same code succeeds and records it.", "quantifier": "every session and every versioned call", "why_tests_cant": "all histories", "anchors": ["mandala/deps/versioner.py:Versioner._check_semantic_distinguishability", "mandala/storage.py:Storage.drop_calls", "mandala/storage.py:Storage.call_internal"]}
{"id": "C51", "title": "Expanding a frame forwards finds the consumers of its values", "statement": "Expanding a computation frame forwards keeps what was in it and adds every recorded call that takes one of the chosen values as input, connected to the variables holding its inputs and with its outputs in variables, and nothing else.", "quantifier": "every consistent frame, every choice of variables, every recorded history, every order of the storage's answers", "why_tests_cant": "all frames and histories", "anchors": ["mandala/cf.py:ComputationFrame.expand_forward", "mandala/cf.py:ComputationFrame._expand_unidirectional", "mandala/cf.py:ComputationFrame._expand_from_call_groups", "mandala/cf.py:ComputationFrame._group_calls"]}
{"id": "C52", "title": "Expanding a frame in all directions ends with everything connected", "statement": "expand_all ends, keeps what was in the frame, and leaves a frame in which every value is connected to its recorded creator and consumers and every call has all its inputs; expanding again changes nothing.", "quantifier": "every consistent frame, every recorded history, every order of the storage's answers", "why_tests_cant": "all frames and histories", "anchors": ["mandala/cf.py:ComputationFrame.expand_all", "mandala/cf.py:ComputationFrame._expand_unidirectional", "mandala/cf.py:ComputationFrame._expand_from_call_groups"]}
{"id": "C53", "title": "Filtering a frame by values keeps exactly what belongs to them", "statement": "isin (and comparison with a scalar) returns a consistent frame with the same nodes and edges, whose values are those that pass the test and whose calls are exactly those that consume or create one of them.", "quantifier": "every consistent frame, every test on values, every iteration order", "why_tests_cant": "all frames and tests", "anchors": ["mandala/cf.py:ComputationFrame.isin", "mandala/cf.py:ComputationFrame.__lt__", "mandala/cf.py:ComputationFrame._add_adj_calls", "mandala/cf.py:ComputationFrame.get_adj_elts"]}
