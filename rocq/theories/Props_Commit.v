(** C13, C14, C15, C16 for the whole storage. *)
From stdpp Require Import base strings gmap list.
From Verif Require Import Base PyDict DictStore Spec_DictStore CallStore Spec_CallStore Commit Spec_Commit
  DictStore_proofs CallStore_proofs Commit_proofs.

(** Throughout: [s] is any state reached by any sequence of operations, [m] what
    was saved; [o] is any order of iteration over the dirty sets; [f] says which
    statements fail; [sel] is the order in which SQLite returns rows. *)

(** C13: a commit in which no statement fails succeeds, and a new process that opens the
    database sees exactly what had been saved: all of it, nothing else.  Values
    too large for a database field are fine for atoms with an overflow directory. *)
Theorem C13_commit_makes_storage_durable :
  forall A S O bigA bigS bigO (val : string -> A) sel (s : tabs A S O) m f o,
    (forall l, sel l ≡ₚ l) ->
    reached bigA bigS bigO val sel s m -> orders_of o s -> (forall x, f x = None) ->
    (forall k v, m_atoms m !! k = Some v -> bigA v = true -> pd_over (cd_pers (t_atoms s)) <> None) ->
    (forall k v, m_shapes m !! k = Some v -> bigS v = false) ->
    (forall k v, m_ops m !! k = Some v -> bigO v = false) ->
    exists s', commit_disk bigA bigS bigO f o s = (Ok tt, s') /\ shows (db_of s') m /\
               sees sel (open_db (db_of s')) m.
Proof.
  intros A S O bigA bigS bigO val sel s m f o Hsel Hr Ho Hf HA HS HO.
  exact (commit_durable bigA bigS bigO val sel Hsel m f o s Hr Ho Hf HA HS HO).
Qed.
Print Assumptions C13_commit_makes_storage_durable.

(** C14: whatever statements fail, a commit on disk either succeeds and the database shows
    everything that was saved, or raises and all tables have the same rows as
    before. *)
Theorem C14_commit_all_or_nothing :
  forall A S O bigA bigS bigO (val : string -> A) sel (s : tabs A S O) m f o r s',
    (forall l, sel l ≡ₚ l) ->
    reached bigA bigS bigO val sel s m -> orders_of o s ->
    commit_disk bigA bigS bigO f o s = (r, s') ->
    (r = Ok tt /\ shows (db_of s') m) \/ (r <> Ok tt /\ same_rows (db_of s') (db_of s)).
Proof.
  intros A S O bigA bigS bigO val sel s m f o r s' Hsel.
  exact (commit_atomic bigA bigS bigO val sel Hsel m f o s r s').
Qed.
Print Assumptions C14_commit_all_or_nothing.

(** C14, integrity: whether the commit succeeds, fails, or the process dies in the
    middle of it (even while an overflow file is half written), every recorded
    call still has its op and refs, and every atom needed by a ref is readable with the
    right content. *)
Theorem C14_database_stays_intact :
  forall A S O bigA bigS bigO (val : string -> A) sel (need : S -> list string) (s : tabs A S O) m f o r s',
    (forall l, sel l ≡ₚ l) ->
    reached bigA bigS bigO val sel s m -> orders_of o s -> intact val need (db_of s) ->
    (forall hid i, m_calls m !! hid = Some i -> is_Some (m_ops m !! i_op i) /\
       forall n p, i_ins i !! n = Some p \/ i_outs i !! n = Some p -> is_Some (m_shapes m !! p.2)) ->
    (forall hid sh cid, m_shapes m !! hid = Some sh -> cid ∈ need sh -> is_Some (m_atoms m !! cid)) ->
    commit_disk bigA bigS bigO f o s = (r, s') ->
    intact val need (db_of s').
Proof.
  intros A S O bigA bigS bigO val sel need s m f o r s' Hsel.
  exact (commit_intact bigA bigS bigO val sel Hsel need m f o s r s').
Qed.
Print Assumptions C14_database_stays_intact.

Theorem C14_crash_keeps_database_intact :
  forall A S O bigA bigS bigO (val : string -> A) sel (need : S -> list string) (s : tabs A S O) m f o torn,
    (forall l, sel l ≡ₚ l) ->
    reached bigA bigS bigO val sel s m -> orders_of o s -> intact val need (db_of s) ->
    intact val need (crash_disk bigA bigS bigO f o torn s) /\
    same_rows (crash_disk bigA bigS bigO f o torn s) (db_of s).
Proof.
  intros A S O bigA bigS bigO val sel need s m f o torn Hsel.
  exact (crash_intact bigA bigS bigO val sel Hsel need m f o torn s).
Qed.
Print Assumptions C14_crash_keeps_database_intact.

(** * A concrete storage *)
Definition ex_call : cdata :=
  CData "f" "cc" "ch" [("x", ("cx", "hx"))] [("output_0", ("co", "ho"))] None None.
Definition ex_db0 (over : option (gmap string string)) : db string string string :=
  DB (PDict ∅ over) (PDict ∅ None) (PDict ∅ None) [].
(** one atom per ref; a shape is the cid it needs *)
Definition ex_fill (t : tabs string string string) : tabs string string string :=
  Tabs (cd_set "co" "co" (cd_set "cx" "cx" (t_atoms t)))
       (cd_set "ho" "co" (cd_set "hx" "cx" (t_shapes t)))
       (cd_set "f" "op f" (t_ops t)) (cc_save ex_call (t_calls t)).
Definition ex_s (over : option (gmap string string)) := ex_fill (open_db (ex_db0 over)).
Definition ex_m : contents string string string :=
  Contents (<["co" := "co"]> (<["cx" := "cx"]> ∅)) (<["ho" := "co"]> (<["hx" := "cx"]> ∅))
           (<["f" := "op f"]> ∅) (<["ch" := info ex_call]> ∅).
Definition ex_o : orders := Orders ["cx"; "co"] ["ho"; "hx"] ["f"] ["ch"].
Definition small (v : string) : bool := false.
Definition large (v : string) : bool := true.
Definition no_need (s : string) : list string := [s].

Lemma ex_reached bigA : reached bigA small small (fun k => k) (fun l => l) (ex_s (Some ∅)) ex_m.
Proof.
  constructor.
  - exists (PDict ∅ (Some ∅)), [OSet "cx" "cx"; OSet "co" "co"], [BUnit; BUnit]. split_and!.
    + intros k v. simpl. by rewrite lookup_empty.
    + intros o k v [= <-]. by rewrite lookup_empty.
    + intros k v Hk. repeat (apply elem_of_cons in Hk as [[= -> ->]|Hk]; [done|]). by apply elem_of_nil in Hk.
    + repeat econstructor.
    + apply (bool_decide_unpack _). vm_compute. exact I.
  - exists ∅, [OSet "hx" "cx"; OSet "ho" "co"], [BUnit; BUnit]. split; [repeat econstructor|apply (bool_decide_unpack _); vm_compute; exact I].
  - exists ∅, [OSet "f" "op f"], [BUnit]. split; [repeat econstructor|apply (bool_decide_unpack _); vm_compute; exact I].
  - exists [KSave ex_call], [KBUnit]. split_and!.
    + intros c Hc. apply elem_of_list_singleton in Hc as [= ->].
      split; [apply (bool_decide_unpack _); vm_compute; exact I|done].
    + eapply kss_cons; [by apply ks_save_new|apply kss_nil].
    + reflexivity.
Qed.
Lemma ex_orders : orders_of ex_o (ex_s (Some ∅)).
Proof. split_and!; apply (bool_decide_unpack _); vm_compute; exact I. Qed.

(** C13/C14 example: in-memory changes, failure at a call row, then what the disk holds *)
Definition fail_at (x : stmt) : faults := fun y =>
  match x, y with
  | SAtom k, SAtom k' | SShape k, SShape k' | SOp k, SOp k' => if decide (k = k') then Some EOperational else None
  | SRow r, SRow r' => if decide (r = r') then Some EOperational else None
  | SCommit, SCommit => Some EOperational
  | _, _ => None
  end.
Definition ex_row : crow := row_of ex_call DOut ("output_0", ("co", "ho")).

Example C14_example :
  (commit_disk small small small (fun _ => None) ex_o (ex_s (Some ∅))).1 = Ok tt /\
  (commit_disk small small small (fail_at (SRow ex_row)) ex_o (ex_s (Some ∅))).1 = Err EOperational /\
  db_calls (db_of (commit_disk small small small (fail_at (SRow ex_row)) ex_o (ex_s (Some ∅))).2) = [] /\
  length (db_calls (db_of (commit_disk small small small (fun _ => None) ex_o (ex_s (Some ∅))).2)) = 2 /\
  intact (fun k => k) no_need (db_of (ex_s (Some ∅))).
Proof.
  split_and!; try (vm_compute; reflexivity).
  split.
  - intros r Hr. by apply elem_of_nil in Hr.
  - intros hid s cid. simpl. unfold pd_get; simpl. rewrite lookup_empty. done.
Qed.

(** The content of an overflow file itself is not protected: if the process dies
    while writing one, the next process that saves the same value finds the file and
    keeps it (storage_utils.py:150-153), commits successfully, and later reads return the
    half-written content. *)
Theorem C14_torn_overflow_file_refuted :
  exists (s : tabs string string string) m o f torn,
    reached large small small (fun k => k) (fun l => l) s m /\ orders_of o s /\
    let d := crash_disk large small small f o (Some torn) s in
    let s1 := ex_fill (open_db d) in
    let (r, s2) := commit_disk large small small (fun _ => None) o s1 in
    r = Ok tt /\ pd_get "cx" (db_atoms (db_of s2)) = Ok "half".
Proof.
  exists (ex_s (Some ∅)), ex_m, ex_o, (fail_at (SAtom "cx")), ("cx", "half").
  split; [apply ex_reached|]. split; [apply ex_orders|]. vm_compute. split; reflexivity.
Qed.
Print Assumptions C14_torn_overflow_file_refuted.

(** C15 as stated is false on disk: a failure after the first table makes the next, successful
    commit write only part of the data.  Here inserting a call row fails; the retry
    succeeds and writes the call, but its refs and op are missing from the database
    for good. *)
Theorem C15_retry_loses_data_refuted :
  exists (s : tabs string string string) m o f o',
    reached small small small (fun k => k) (fun l => l) s m /\ orders_of o s /\
    let (r1, s1) := commit_disk small small small f o s in
    let (r2, s2) := commit_disk small small small (fun _ => None) o' s1 in
    r1 = Err EOperational /\ orders_of o' s1 /\ r2 = Ok tt /\
    cd_dirty (t_shapes s2) = ∅ /\ cd_dirty (t_atoms s2) = ∅ /\
    length (db_calls (db_of s2)) = 2 /\
    pd_get "hx" (db_shapes (db_of s2)) = Err EKeyError /\ pd_get "cx" (db_atoms (db_of s2)) = Err EKeyError /\
    pd_get "f" (db_ops (db_of s2)) = Err EKeyError.
Proof.
  exists (ex_s (Some ∅)), ex_m, ex_o, (fail_at (SRow ex_row)), (Orders [] [] [] ["ch"]).
  split; [apply ex_reached|]. split; [apply ex_orders|]. vm_compute.
  split_and!; try reflexivity; split_and!; apply (bool_decide_unpack _); vm_compute; exact I.
Qed.
Print Assumptions C15_retry_loses_data_refuted.

(** The same if every statement succeeds and the final COMMIT fails: nothing at all is
    written by the retry, which reports success. *)
Theorem C15_failed_final_commit_refuted :
  exists (s : tabs string string string) m o o',
    reached small small small (fun k => k) (fun l => l) s m /\ orders_of o s /\
    let (r1, s1) := commit_disk small small small (fail_at SCommit) o s in
    let (r2, s2) := commit_disk small small small (fun _ => None) o' s1 in
    r1 = Err EOperational /\ orders_of o' s1 /\ r2 = Ok tt /\ db_calls (db_of s2) = [] /\
    pd_get "hx" (db_shapes (db_of s2)) = Err EKeyError.
Proof.
  exists (ex_s (Some ∅)), ex_m, ex_o, (Orders [] [] [] []).
  split; [apply ex_reached|]. split; [apply ex_orders|]. vm_compute.
  split_and!; try reflexivity; split_and!; apply (bool_decide_unpack _); vm_compute; exact I.
Qed.
Print Assumptions C15_failed_final_commit_refuted.

(** In an in-memory database a failure between two rows of a call blocks every later
    commit: the retry raises IntegrityError and leaves exactly the same state, so
    every further retry does too. *)
Theorem C15_memory_retry_blocked_refuted :
  exists (s : tabs string string string) m o f o' s1,
    reached small small small (fun k => k) (fun l => l) s m /\ orders_of o s /\
    commit_mem small small small f o s = (Err EOperational, s1) /\ orders_of o' s1 /\
    commit_mem small small small (fun _ => None) o' s1 = (Err EIntegrity, s1).
Proof.
  exists (ex_s (Some ∅)), ex_m, ex_o, (fail_at (SRow ex_row)), (Orders [] [] [] ["ch"]),
    (commit_mem small small small (fail_at (SRow ex_row)) ex_o (ex_s (Some ∅))).2.
  split; [apply ex_reached|]. split; [apply ex_orders|]. split; [vm_compute; reflexivity|].
  split; [split_and!; apply (bool_decide_unpack _); vm_compute; exact I|]. vm_compute. reflexivity.
Qed.
Print Assumptions C15_memory_retry_blocked_refuted.

(** What is true (1): the process that failed to commit still reads everything it had
    saved, from any table. *)
Theorem C15_failed_commit_loses_nothing_in_process_partial :
  forall A S O bigA bigS bigO (val : string -> A) sel (s : tabs A S O) m f o e s',
    (forall l, sel l ≡ₚ l) ->
    reached bigA bigS bigO val sel s m -> orders_of o s ->
    commit_disk bigA bigS bigO f o s = (Err e, s') -> sees sel s' m.
Proof.
  intros A S O bigA bigS bigO val sel s m f o e s' Hsel.
  exact (failed_sees bigA bigS bigO val sel Hsel m f o s e s').
Qed.
Print Assumptions C15_failed_commit_loses_nothing_in_process_partial.

(** (2): after a failure in the first table (atoms), a later successful commit writes
    everything. *)
Theorem C15_retry_after_first_table_partial :
  forall A S O bigA bigS bigO (val : string -> A) sel (s : tabs A S O) m f o e s1 k f' o' s2,
    (forall l, sel l ≡ₚ l) ->
    reached bigA bigS bigO val sel s m -> orders_of o s ->
    k ∈ o_atoms o -> f (SAtom k) <> None ->
    commit_disk bigA bigS bigO f o s = (Err e, s1) ->
    orders_of o' s1 -> commit_disk bigA bigS bigO f' o' s1 = (Ok tt, s2) ->
    shows (db_of s2) m.
Proof.
  intros A S O bigA bigS bigO val sel s m f o e s1 k f' o' s2 Hsel.
  exact (retry_first_table bigA bigS bigO val sel Hsel m f o s e s1 k f' o' s2).
Qed.
Print Assumptions C15_retry_after_first_table_partial.

(** (3): in an in-memory database, after a failure anywhere before the call rows. *)
Theorem C15_memory_retry_partial :
  forall A S O bigA bigS bigO (val : string -> A) sel (s : tabs A S O) m f o e s1 f' o' s2,
    (forall l, sel l ≡ₚ l) ->
    reached bigA bigS bigO val sel s m -> orders_of o s ->
    (forall r, f (SRow r) = None) ->
    commit_mem bigA bigS bigO f o s = (Err e, s1) ->
    orders_of o' s1 -> commit_mem bigA bigS bigO f' o' s1 = (Ok tt, s2) ->
    shows (db_of s2) m.
Proof.
  intros A S O bigA bigS bigO val sel s m f o e s1 f' o' s2 Hsel.
  exact (mem_retry bigA bigS bigO val sel Hsel m f o s e s1 f' o' s2).
Qed.
Print Assumptions C15_memory_retry_partial.

Example C15_example :
  let (r1, s1) := commit_disk small small small (fail_at (SAtom "co")) ex_o (ex_s (Some ∅)) in
  let (r2, s2) := commit_disk small small small (fun _ => None) ex_o s1 in
  r1 = Err EOperational /\ r2 = Ok tt /\ pd_get "hx" (db_shapes (db_of s2)) = Ok "cx".
Proof. vm_compute. split_and!; reflexivity. Qed.
Example C15_memory_example :
  let (r1, s1) := commit_mem small small small (fail_at (SShape "hx")) ex_o (ex_s (Some ∅)) in
  let (r2, s2) := commit_mem small small small (fun _ => None) (Orders [] ["ho"; "hx"] ["f"] ["ch"]) s1 in
  r1 = Err EOperational /\ r2 = Ok tt /\ pd_get "hx" (db_shapes (db_of s2)) = Ok "cx".
Proof. vm_compute. split_and!; reflexivity. Qed.

(** C16: [clear_cache()] with default arguments, whether it succeeds or refuses, loses
    nothing; it succeeds exactly when nothing is unsaved, and then
    the process is in the state of a freshly opened one. *)
Theorem C16_clear_cache_loses_nothing :
  forall A S O bigA bigS bigO (val : string -> A) sel (s : tabs A S O) m r s',
    (forall l, sel l ≡ₚ l) ->
    reached bigA bigS bigO val sel s m -> clear_cache false s = (r, s') ->
    sees sel s' m /\ db_of s' = db_of s /\
    (r = Ok tt <-> cd_dirty (t_atoms s) = ∅ /\ cd_dirty (t_shapes s) = ∅ /\
                  cd_dirty (t_ops s) = ∅ /\ cc_dirty (t_calls s) = ∅) /\
    (r = Ok tt -> s' = open_db (db_of s)) /\
    (forall f o s2, orders_of o s' -> commit_disk bigA bigS bigO f o s' = (Ok tt, s2) -> shows (db_of s2) m).
Proof.
  intros A S O bigA bigS bigO val sel s m r s' Hsel.
  exact (clear_safe bigA bigS bigO val sel Hsel m s r s').
Qed.
Print Assumptions C16_clear_cache_loses_nothing.

Theorem C16_preload_loses_nothing :
  forall A S O bigA bigS bigO (val : string -> A) sel (s : tabs A S O) m lazy,
    (forall l, sel l ≡ₚ l) ->
    reached bigA bigS bigO val sel s m ->
    cd_dirty (t_atoms s) = ∅ -> cd_dirty (t_shapes s) = ∅ -> cd_dirty (t_ops s) = ∅ -> cc_dirty (t_calls s) = ∅ ->
    sees sel (preload lazy s) m.
Proof.
  intros A S O bigA bigS bigO val sel s m lazy Hsel.
  exact (preload_safe bigA bigS bigO val sel Hsel m lazy s).
Qed.
Print Assumptions C16_preload_loses_nothing.

Example C16_example :
  (clear_cache false (ex_s (Some ∅))).1 = Err EValueError /\
  let s1 := (commit_disk small small small (fun _ => None) ex_o (ex_s (Some ∅))).2 in
  (clear_cache false s1).1 = Ok tt /\
  (cd_get "hx" (t_shapes (clear_cache false s1).2)).1 = Ok "cx" /\
  (cd_get "hx" (t_shapes (preload false s1))).1 = Ok "cx".
Proof. vm_compute. split_and!; reflexivity. Qed.
