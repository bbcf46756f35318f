(** C12, C13, C16 for the key-value tables. *)
From stdpp Require Import base strings gmap list.
From Verif Require Import Base DictStore Spec_DictStore DictStore_proofs.

(** C12 for the tables without an overflow directory (shapes, ops, sources;
    atoms by default): whatever the operations, the values, their sizes, the order
    in which commits write keys, and whether commits or clears fail, the observations
    are those of one dictionary. *)
Theorem C12_cached_table_is_a_dictionary :
  forall (V : Type) (big : V -> bool) (sql : gmap string V) os bs d,
    cd_steps big (cd_open (PDict sql None)) os bs d -> bs = (dict_run sql os).1.
Proof. exact @refines_sql. Qed.
Print Assumptions C12_cached_table_is_a_dictionary.

(** C12 for a table with an overflow directory whose keys are content hashes
    (atoms: [val cid] is the content with that hash). *)
Theorem C12_content_addressed_table_is_a_dictionary :
  forall (V : Type) (big : V -> bool) (val : string -> V) (p : pdict V) os bs d,
    (forall k v, pd_sql p !! k = Some v -> v = val k) ->
    (forall o k v, pd_over p = Some o -> o !! k = Some v -> v = val k) ->
    (forall k v, OSet k v ∈ os -> v = val k) ->
    cd_steps big (cd_open p) os bs d -> bs = (dict_run (pd_load_all p) os).1.
Proof. exact @refines_keyed. Qed.
Print Assumptions C12_content_addressed_table_is_a_dictionary.

(** Every sequence of operations has a run: the theorems are not vacuous. *)
Theorem C12_runs_exist :
  forall (V : Type) (big : V -> bool) (d : cdict V) os, exists bs d', cd_steps big d os bs d'.
Proof. exact @cd_steps_total. Qed.
Print Assumptions C12_runs_exist.

(** A run with a failing commit (5 is too big and there is no overflow directory), a
    refused clear, and reads afterwards. *)
Example C12_example :
  exists d, cd_steps (fun v => Nat.ltb 4 v) (cd_open (PDict {["a" := 1]} None))
    [OSet "a" 2; OSet "b" 5; OCommit; OClear; OGet "a"; OGet "b"; ODrop "b"; OCommit; OClear; OGet "a"; OExists "b"]
    [BUnit; BUnit; BUnit; BUnit; BVal (Some 2); BVal (Some 5); BUnit; BUnit; BUnit; BVal (Some 2); BBool false] d.
Proof.
  eexists.
  repeat first [ eapply steps_cons; [first
     [ apply step_set | eapply step_get_ok; vm_compute; reflexivity
     | apply step_drop
     | eapply step_commit; [reflexivity|vm_compute; reflexivity]
     | eapply step_clear; vm_compute; reflexivity
     | refine (eq_ind _ (fun b => cd_step _ _ _ (BBool b) _) (step_exists _ _ _) _ _);
         vm_compute; reflexivity ]|] | apply steps_nil ].
Qed.

(** With an overflow directory and a key whose value changes, the English property is
    false: a value that outgrows the threshold stays hidden behind the old one. *)
Theorem C12_changing_values_with_overflow_refuted :
  exists (big : nat -> bool) p os bs d,
    cd_steps big (cd_open p) os bs d /\ bs <> (dict_run (pd_load_all p) os).1 /\
    os = [OSet "k" 1; OCommit; OSet "k" 5; OCommit; OClear; OGet "k"] /\
    last bs = Some (BVal (Some 1)).
Proof.
  exists (fun v => Nat.ltb 4 v), (PDict ∅ (Some ∅)),
    [OSet "k" 1; OCommit; OSet "k" 5; OCommit; OClear; OGet "k"].
  eexists _, _. split.
  - repeat first [ eapply steps_cons; [first
     [ apply step_set | eapply step_get_ok; vm_compute; reflexivity
     | eapply step_commit; [reflexivity|vm_compute; reflexivity]
     | eapply step_clear; vm_compute; reflexivity ]|] | apply steps_nil ].
  - split; [vm_compute; intros [=]|]. split; reflexivity.
Qed.
Print Assumptions C12_changing_values_with_overflow_refuted.

(** C13 (tables): what a successful commit leaves in the database is exactly the
    dictionary the program saw. *)
Theorem C13_commit_makes_table_durable :
  forall (V : Type) (big : V -> bool) (sql : gmap string V) os bs d order d',
    cd_steps big (cd_open (PDict sql None)) os bs d ->
    order ≡ₚ elements (cd_dirty d) -> cd_commit big order d = (Ok tt, d') ->
    exists sql', cd_pers d' = PDict sql' None /\ sql' = (dict_run sql os).2.
Proof. exact @durable_sql. Qed.
Print Assumptions C13_commit_makes_table_durable.

(** C13 for content-addressed tables: also everything a new process observes after
    re-opening is what the dictionary says. *)
Theorem C13_commit_makes_content_addressed_table_durable :
  forall (V : Type) (big : V -> bool) (val : string -> V) (p : pdict V) os bs d order d',
    (forall k v, pd_sql p !! k = Some v -> v = val k) ->
    (forall o k v, pd_over p = Some o -> o !! k = Some v -> v = val k) ->
    (forall k v, OSet k v ∈ os -> v = val k) ->
    cd_steps big (cd_open p) os bs d ->
    order ≡ₚ elements (cd_dirty d) -> cd_commit big order d = (Ok tt, d') ->
    pd_load_all (cd_pers d') = (dict_run (pd_load_all p) os).2 /\
    forall os2 bs2 d2, (forall k v, OSet k v ∈ os2 -> v = val k) ->
      cd_steps big (cd_open (cd_pers d')) os2 bs2 d2 ->
      bs2 = (dict_run (dict_run (pd_load_all p) os).2 os2).1.
Proof. exact @durable_keyed. Qed.
Print Assumptions C13_commit_makes_content_addressed_table_durable.

(** The commit does succeed when no value is too big, or there is an overflow directory. *)
Theorem C13_commit_succeeds_small_values :
  forall (V : Type) (big : V -> bool) (sql : gmap string V) os bs d order,
    (forall k v, OSet k v ∈ os -> big v = false) ->
    (forall k v, sql !! k = Some v -> big v = false) ->
    cd_steps big (cd_open (PDict sql None)) os bs d -> order ≡ₚ elements (cd_dirty d) ->
    exists d', cd_commit big order d = (Ok tt, d').
Proof. exact @commit_succeeds_sql. Qed.
Print Assumptions C13_commit_succeeds_small_values.
Theorem C13_commit_succeeds_with_overflow :
  forall (V : Type) (big : V -> bool) (val : string -> V) (p : pdict V) os bs d order,
    (forall k v, pd_sql p !! k = Some v -> v = val k) ->
    (forall o k v, pd_over p = Some o -> o !! k = Some v -> v = val k) ->
    (forall k v, OSet k v ∈ os -> v = val k) ->
    pd_over p <> None ->
    cd_steps big (cd_open p) os bs d -> order ≡ₚ elements (cd_dirty d) ->
    exists d', cd_commit big order d = (Ok tt, d').
Proof. exact @commit_succeeds_keyed. Qed.
Print Assumptions C13_commit_succeeds_with_overflow.

(** A commit that writes one small value to SQL and one big one to the overflow
    directory. *)
Example C13_example :
  let d := cd_set "a" 1 (cd_set "b" 9 (cd_open (PDict ∅ (Some ∅)))) in
  cd_steps (fun v => Nat.ltb 4 v) (cd_open (PDict ∅ (Some ∅)))
     [OSet "b" 9; OSet "a" 1] [BUnit; BUnit] d /\
  exists d', cd_commit (fun v => Nat.ltb 4 v) ["b"; "a"] d = (Ok tt, d') /\
    pd_sql (cd_pers d') = {["a" := 1]} /\ pd_over (cd_pers d') = Some {["b" := 9]} /\
    pd_load_all (cd_pers d') = (dict_run ∅ [OSet "b" 9; OSet "a" 1]).2.
Proof.
  split.
  - eapply steps_cons; [apply step_set|]. eapply steps_cons; [apply step_set|]. apply steps_nil.
  - eexists. split; [vm_compute; reflexivity|].
    split_and!; apply (bool_decide_unpack _); vm_compute; exact I.
Qed.

(** C16 for preloading: with nothing unsaved, replacing the cache by the
    database contents changes no later observation. *)
Theorem C16_preload_loses_nothing_when_committed :
  forall (V : Type) (big : V -> bool) (val : string -> V) (p : pdict V) os bs d,
    (forall k v, pd_sql p !! k = Some v -> v = val k) ->
    (forall o k v, pd_over p = Some o -> o !! k = Some v -> v = val k) ->
    (forall k v, OSet k v ∈ os -> v = val k) ->
    cd_steps big (cd_open p) os bs d -> cd_dirty d = ∅ ->
    forall os2 bs2 d2, (forall k v, OSet k v ∈ os2 -> v = val k) ->
      cd_steps big (cd_preload d) os2 bs2 d2 ->
      bs2 = (dict_run (dict_run (pd_load_all p) os).2 os2).1.
Proof. exact @preload_clean. Qed.
Print Assumptions C16_preload_loses_nothing_when_committed.

(** With unsaved data [preload] silently drops it (storage.py:194-201 never looks at the dirty
    keys), and the next commit raises KeyError. *)
Theorem C16_preload_with_unsaved_data_refuted :
  let d := cd_preload (cd_set "k" 1 (cd_open (PDict ∅ None))) in
  (cd_get "k" d).1 = Err EKeyError /\ (cd_commit (fun _ => false) ["k"] d).1 = Err EKeyError.
Proof. split; vm_compute; reflexivity. Qed.
Print Assumptions C16_preload_with_unsaved_data_refuted.
