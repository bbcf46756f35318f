(** Committing all tables of a storage, with failures and crashes.  Models
    - mandala/storage.py:169-174 [Storage.clear_cache], 189-208 [preload]
    - mandala/storage.py:210-217 [Storage.commit]
    - mandala/storage_utils.py:292-298, 766-772 (the loops, DictStore.v and CallStore.v)
    - the behaviour of the sqlite3 connection used as a context manager: for an on-disk
      database (storage_utils.py:38, default isolation level) the first INSERT opens
      a transaction, leaving the [with] block commits it, an exception rolls it
      back; for an in-memory database (storage_utils.py:18-22, [isolation_level=None])
      every statement commits by itself and rollback does nothing.

    Trusted: SQLite's transactions are atomic.  Files in the overflow directory are
    not part of the transaction.  Not modelled here: the versioner row written by versioned
    storages (storage.py:215-216). *)
From stdpp Require Import base strings gmap list.
From Verif Require Import Base PyDict DictStore CallStore.

Section commit.
  (** types of stored atoms, shapes and ops; which serialized values exceed the threshold *)
  Context {A S O : Type} (bigA : A -> bool) (bigS : S -> bool) (bigO : O -> bool).

  (** the database (and overflow directory) *)
  Record db := DB { db_atoms : pdict A; db_shapes : pdict S; db_ops : pdict O; db_calls : list crow }.

  (** the tables as seen by a process *)
  Record tabs := Tabs { t_atoms : cdict A; t_shapes : cdict S; t_ops : cdict O; t_calls : ccalls }.
  Definition db_of (s : tabs) : db :=
    DB (cd_pers (t_atoms s)) (cd_pers (t_shapes s)) (cd_pers (t_ops s)) (cc_pers (t_calls s)).
  (** storage.py:44-70: opening a storage on a database *)
  Definition open_db (d : db) : tabs :=
    Tabs (cd_open (db_atoms d)) (cd_open (db_shapes d)) (cd_open (db_ops d)) (cc_open (db_calls d)).

  (** The single statements of a commit.  A [faults] function says which of them raises an
      exception (disk full, database locked, unserializable value, interrupt, ...);
      since every statement occurs at most once in a commit this covers every
      failure point. *)
  Inductive stmt :=
    | SAtom (k : string) | SShape (k : string) | SOp (k : string)
    | SRow (r : crow) | SCommit.
  Definition faults := stmt -> option exn.

  Definition with_fault {T X} (f : option exn) (m : M T X) : M T X :=
    match f with Some e => raiseM e | None => m end.

  (** the orders in which Python iterates over the dirty sets *)
  Record orders := Orders { o_atoms : list string; o_shapes : list string; o_ops : list string; o_calls : list string }.

  (** storage_utils.py:292-298 with failing statements: the dirty keys are forgotten
      as soon as the loop over this table is done *)
  Definition dict_commit {V} (big : V -> bool) (fault : string -> option exn) (order : list string)
    : M (cdict V) unit := fun d =>
    match iterM (fun k => with_fault (fault k) (cd_commit_key big k)) order d with
    | (Ok _, d') => (Ok tt, CDict (cd_cache d') ∅ (cd_pers d'))
    | (Err e, d') => (Err e, d')
    end.

  (** storage_utils.py:766-772 with failing statements *)
  Definition calls_commit_hid (fault : crow -> option exn) (hid : string) : M ccalls unit := fun s =>
    match mc_get hid (cc_cache s) with
    | Err e => (Err e, s)
    | Ok c => let (r, t) := iterM (fun r => with_fault (fault r) (sql_insert r)) (rows_of c) (cc_pers s) in
              (r, CCalls (cc_cache s) (cc_dirty s) t)
    end.
  Definition calls_commit (fault : crow -> option exn) (order : list string) : M ccalls unit := fun s =>
    match iterM (calls_commit_hid fault) order s with
    | (Ok _, s') => (Ok tt, CCalls (cc_cache s') ∅ (cc_pers s'))
    | (Err e, s') => (Err e, s')
    end.

  (** lifting an operation on one table to the storage *)
  Definition on_atoms {X} (m : M (cdict A) X) : M tabs X := fun s =>
    let (r, d) := m (t_atoms s) in (r, Tabs d (t_shapes s) (t_ops s) (t_calls s)).
  Definition on_shapes {X} (m : M (cdict S) X) : M tabs X := fun s =>
    let (r, d) := m (t_shapes s) in (r, Tabs (t_atoms s) d (t_ops s) (t_calls s)).
  Definition on_ops {X} (m : M (cdict O) X) : M tabs X := fun s =>
    let (r, d) := m (t_ops s) in (r, Tabs (t_atoms s) (t_shapes s) d (t_calls s)).
  Definition on_calls {X} (m : M ccalls X) : M tabs X := fun s =>
    let (r, d) := m (t_calls s) in (r, Tabs (t_atoms s) (t_shapes s) (t_ops s) d).

  (** storage.py:211-217, the body of the [with] block; the last step is the COMMIT
      statement issued when the block is left *)
  Definition commit_body (f : faults) (o : orders) : M tabs unit :=
    (on_atoms (dict_commit bigA (fun k => f (SAtom k)) (o_atoms o)) ;;;
     on_shapes (dict_commit bigS (fun k => f (SShape k)) (o_shapes o)) ;;;
     on_ops (dict_commit bigO (fun k => f (SOp k)) (o_ops o)) ;;;
     on_calls (calls_commit (fun r => f (SRow r)) (o_calls o)) ;;;
     with_fault (f SCommit) (retM tt))%pym.

  (** ROLLBACK: the SQL tables are as before, the overflow files and everything in
      the process's memory are as they are now *)
  Definition roll_dict {V} (old cur : cdict V) : cdict V :=
    CDict (cd_cache cur) (cd_dirty cur) (PDict (pd_sql (cd_pers old)) (pd_over (cd_pers cur))).
  Definition rollback (old cur : tabs) : tabs :=
    Tabs (roll_dict (t_atoms old) (t_atoms cur)) (roll_dict (t_shapes old) (t_shapes cur))
         (roll_dict (t_ops old) (t_ops cur))
         (CCalls (cc_cache (t_calls cur)) (cc_dirty (t_calls cur)) (cc_pers (t_calls old))).

  (** [Storage.commit()] on an on-disk database *)
  Definition commit_disk (f : faults) (o : orders) : M tabs unit := fun s =>
    match commit_body f o s with
    | (Ok _, s') => (Ok tt, s')
    | (Err e, s') => (Err e, rollback s s')
    end.
  (** ... and on an in-memory one *)
  Definition commit_mem (f : faults) (o : orders) : M tabs unit := commit_body f o.

  (** The disk after the process died in the middle of a commit that had got as far as the
      statement where [f] stops it: the transaction is undone by SQLite, overflow
      files written so far stay, and [torn] is the file that was being written
      (with arbitrary content), if any. *)
  Definition crash_disk (f : faults) (o : orders) (torn : option (string * A)) (s : tabs) : db :=
    let d := db_of (rollback s (commit_body f o s).2) in
    match torn with
    | None => d
    | Some (k, v) => DB (PDict (pd_sql (db_atoms d)) (over_set k v <$> pd_over (db_atoms d)))
                        (db_shapes d) (db_ops d) (db_calls d)
    end.

  (** storage.py:169-174: table by table, stopping at the first one that refuses *)
  Definition clear_cache (allow_uncommitted : bool) : M tabs unit :=
    (on_atoms (cd_clear allow_uncommitted) ;;;
     on_shapes (cd_clear allow_uncommitted) ;;;
     on_ops (cd_clear allow_uncommitted) ;;;
     on_calls (cc_clear allow_uncommitted))%pym.

  (** storage.py:189-192 (the call cache is [self.calls.cache]: a fresh storage, see
      DESIGN.md about [call_cache] after [clear]), 194-202, 204-208 *)
  Definition cc_preload (s : ccalls) : ccalls :=
    CCalls (MCalls (cc_pers s) (list_to_set (map r_hid (cc_pers s)))) (cc_dirty s) (cc_pers s).
  Definition preload (lazy : bool) (s : tabs) : tabs :=
    Tabs (if lazy then t_atoms s else cd_preload (t_atoms s)) (cd_preload (t_shapes s))
         (cd_preload (t_ops s)) (cc_preload (t_calls s)).
End commit.
Global Arguments db : clear implicits.
Global Arguments tabs : clear implicits.
