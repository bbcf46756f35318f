(** The call table: pandas cache, SQLite table, and the cached combination.  Models
    - mandala/storage_utils.py:325-504 [InMemCallStorage]
    - mandala/storage_utils.py:507-707 [SQLiteCallStorage]
    - mandala/storage_utils.py:710-780 [CachedCallStorage].

    At this layer a call is what the table records of it: its ids, op name,
    versions, and for every input and output name the (cid, hid) of the ref.
    Simplifications: timing and logging are left out; SQLite's limit on the number of
    query parameters is not modelled. *)
From stdpp Require Import base strings gmap list.
From Verif Require Import Base PyDict.

Inductive dir := DIn | DOut.
Global Instance dir_eq_dec : EqDecision dir.
Proof. solve_decision. Defined.

(** (cid, hid) of a ref *)
Notation ids := (string * string)%type.

(** What is recorded of a call: the dictionaries of storage_utils.py:412-422
    and 611-614, with [input_cids]/[input_hids] zipped into one dictionary of pairs
    (they always have the same keys), likewise for outputs. *)
Record cdata := CData {
  d_op : string; d_cid : string; d_hid : string;
  d_ins : pydict ids; d_outs : pydict ids;
  d_sem : option string; d_cont : option string;
}.

(** One row; columns as in storage_utils.py:326-336 and 514-518 *)
Record crow := CRow {
  r_hid : string; r_name : string; r_dir : dir;
  r_ccid : string; r_rcid : string; r_rhid : string;
  r_op : string; r_sem : option string; r_cont : option string;
}.
Global Instance crow_eq_dec : EqDecision crow.
Proof. solve_decision. Defined.

(** the row for one input or output (storage_utils.py:359-370, 546-558) *)
Definition row_of (c : cdata) (d : dir) (kv : string * ids) : crow :=
  CRow (d_hid c) kv.1 d (d_cid c) kv.2.1 kv.2.2 (d_op c) (d_sem c) (d_cont c).

(** all rows of a call, in the order in which they are written *)
Definition rows_of (c : cdata) : list crow :=
  map (row_of c DIn) (d_ins c) ++ map (row_of c DOut) (d_outs c).

Definition same_key (r r' : crow) : Prop := r_hid r = r_hid r' /\ r_name r = r_name r'.
Global Instance same_key_dec r r' : Decision (same_key r r').
Proof. unfold same_key; apply _. Defined.

(** [df.loc[(hid, name), :] = row]: overwrite the row with that key or append
    (storage_utils.py:359-370) *)
Fixpoint upsert (r : crow) (t : list crow) : list crow :=
  match t with
  | [] => [r]
  | r' :: t => if decide (same_key r r') then r :: t else r' :: upsert r t
  end.

(** rows of one call *)
Definition rows_for (hid : string) (t : list crow) : list crow :=
  filter (fun r => r_hid r = hid) t.

(** Turning the rows of one call into its data (storage_utils.py:400-422 and
    605-622): ids and versions from the first row, dictionaries filled row by row.
    Without rows: KeyError on the final dictionary access. *)
Definition ins_of (rows : list crow) : pydict ids :=
  dict_of (map (fun r => (r_name r, (r_rcid r, r_rhid r))) (filter (fun r => r_dir r = DIn) rows)).
Definition outs_of (rows : list crow) : pydict ids :=
  dict_of (map (fun r => (r_name r, (r_rcid r, r_rhid r))) (filter (fun r => r_dir r = DOut) rows)).
Definition data_of_rows (hid : string) (rows : list crow) : result cdata :=
  match rows with
  | [] => Err EKeyError
  | r :: _ => Ok (CData (r_op r) (r_ccid r) hid (ins_of rows) (outs_of rows) (r_sem r) (r_cont r))
  end.

(** * In-memory table *)
Record mcalls := MCalls { mc_rows : list crow; mc_hids : gset string }.

(** storage_utils.py:338-347, without a data frame *)
Definition mc_empty : mcalls := MCalls [] ∅.

(** storage_utils.py:352-373 *)
Definition mc_save (c : cdata) (m : mcalls) : mcalls :=
  if decide (d_hid c ∈ mc_hids m) then m
  else MCalls (fold_left (fun t r => upsert r t) (rows_of c) (mc_rows m))
              ({[d_hid c]} ∪ mc_hids m).

(** storage_utils.py:375-385; [df.index.levels[0]] is the set of hids with a row
    (unused levels are removed after every drop) *)
Definition mc_drop (hid : string) : M mcalls unit := fun m =>
  match rows_for hid (mc_rows m) with
  | [] => (Err EValueError, m)
  | _ :: _ =>
      let rows := filter (fun r => r_hid r <> hid) (mc_rows m) in
      if decide (hid ∈ mc_hids m)
      then (Ok tt, MCalls rows (mc_hids m ∖ {[hid]}))
      else (Err EKeyError, MCalls rows (mc_hids m))
  end.

(** storage_utils.py:387-389 *)
Definition mc_exists (hid : string) (m : mcalls) : bool := bool_decide (hid ∈ mc_hids m).

(** storage_utils.py:391-392 *)
Definition mc_exists_content (cid : string) (m : mcalls) : bool :=
  bool_decide (cid ∈ map r_ccid (mc_rows m)).

(** storage_utils.py:394-423 *)
Definition mc_mget (hids : list string) (m : mcalls) : result (list cdata) :=
  mapR (fun hid => data_of_rows hid (rows_for hid (mc_rows m))) hids.

(** storage_utils.py:425-431 *)
Definition mc_get (hid : string) (m : mcalls) : result cdata :=
  if mc_exists hid m then
    ds ← mc_mget [hid] m; of_option EIndexError (head ds)
  else Err EValueError.

(** storage_utils.py:433-436: the first row with this content id *)
Definition mc_get_content (cid : string) (m : mcalls) : result cdata :=
  match filter (fun r => r_ccid r = cid) (mc_rows m) with
  | [] => Err EIndexError
  | r :: _ => mc_get (r_hid r) m
  end.

(** storage_utils.py:438-446, 447-455, 457-460, 462-466 and their SQL versions
    646-684 *)
Definition creator_hids (refs : gset string) (t : list crow) : gset string :=
  list_to_set (map r_hid (filter (fun r => r_rhid r ∈ refs /\ r_dir r = DOut) t)).
Definition consumer_hids (refs : gset string) (t : list crow) : gset string :=
  list_to_set (map r_hid (filter (fun r => r_rhid r ∈ refs /\ r_dir r = DIn) t)).
Definition input_hids (calls : gset string) (t : list crow) : gset string :=
  list_to_set (map r_rhid (filter (fun r => r_hid r ∈ calls /\ r_dir r = DIn) t)).
Definition output_hids (calls : gset string) (t : list crow) : gset string :=
  list_to_set (map r_rhid (filter (fun r => r_hid r ∈ calls /\ r_dir r = DOut) t)).

(** storage_utils.py:476-485 and 495-504: the [while True] loop, with
    [calls_of]/[refs_of] the two queries used in the body *)
Fixpoint closure_loop (fuel : nat) (calls_of refs_of : gset string -> gset string)
    (refs calls cur_refs cur_calls : gset string) : result (gset string * gset string) :=
  match fuel with
  | 0 => Err EFuel
  | S fuel =>
      let calls_upd := calls_of cur_refs ∖ calls in
      let refs_upd := refs_of cur_calls ∖ refs in
      if decide (calls_upd = ∅ /\ refs_upd = ∅) then Ok (refs, calls)
      else closure_loop fuel calls_of refs_of (refs ∪ refs_upd) (calls ∪ calls_upd) refs_upd calls_upd
  end.

(** enough fuel for every loop over a table *)
Definition closure_fuel (t : list crow) : nat := S (length t + length t).

(** storage_utils.py:468-485 and 686-695 *)
Definition get_dependencies (refs calls : gset string) (t : list crow) :=
  closure_loop (closure_fuel t) (fun rs => creator_hids rs t) (fun cs => input_hids cs t)
    refs calls refs calls.
(** storage_utils.py:487-504 and 697-707 *)
Definition get_dependents (refs calls : gset string) (t : list crow) :=
  closure_loop (closure_fuel t) (fun rs => consumer_hids rs t) (fun cs => output_hids cs t)
    refs calls refs calls.

(** * SQLite table *)
Section sql.
  (** The order in which SQLite returns the selected rows.  The theorems assume
      only that it is a permutation. *)
  Context (sel : list crow -> list crow).

  (** [INSERT INTO] a table with primary key (call_history_id, name)
      (storage_utils.py:549-552) *)
  Definition sql_insert (r : crow) : M (list crow) unit := fun t =>
    if decide (Exists (same_key r) t) then (Err EIntegrity, t) else (Ok tt, t ++ [r]).

  (** storage_utils.py:539-559 *)
  Definition sql_save (c : cdata) : M (list crow) unit := iterM sql_insert (rows_of c).

  (** storage_utils.py:561-563 *)
  Definition sql_drop (hid : string) (t : list crow) : list crow :=
    filter (fun r => r_hid r <> hid) t.

  (** storage_utils.py:565-574 *)
  Definition sql_exists (hid : string) (t : list crow) : bool :=
    bool_decide (hid ∈ map r_hid t).
  (** storage_utils.py:576-584 *)
  Definition sql_exists_content (cid : string) (t : list crow) : bool :=
    bool_decide (cid ∈ map r_ccid t).
  (** storage_utils.py:586-594 *)
  Definition sql_exists_ref_hid (hid : string) (t : list crow) : bool :=
    bool_decide (hid ∈ map r_rhid t).

  (** storage_utils.py:596-623 *)
  Definition sql_mget (hids : list string) (t : list crow) : result (list cdata) :=
    let rows := sel (filter (fun r => r_hid r ∈ hids) t) in
    mapR (fun hid => data_of_rows hid (rows_for hid rows)) hids.
  (** storage_utils.py:625-632 *)
  Definition sql_get (hid : string) (t : list crow) : result cdata :=
    ds ← sql_mget [hid] t; of_option EIndexError (head ds).
  (** storage_utils.py:634-643.  [get_data(hid, conn)] passes the connection
      positionally, so the [transaction] wrapper (storage_utils.py:52, 59-62) tries to
      begin a second transaction inside the first one, which SQLite refuses; after ten
      retries: OperationalError.  Without matching rows: IndexError. *)
  Definition sql_get_content (cid : string) (t : list crow) : result cdata :=
    match sel (filter (fun r => r_ccid r = cid) t) with
    | [] => Err EIndexError
    | _ :: _ => Err EOperational
    end.

  (** * The cached call table *)
  Record ccalls := CCalls { cc_cache : mcalls; cc_dirty : gset string; cc_pers : list crow }.

  Definition cc_open (t : list crow) : ccalls := CCalls mc_empty ∅ t.

  (** storage_utils.py:721-723 *)
  Definition cc_save (c : cdata) (s : ccalls) : ccalls :=
    CCalls (mc_save c (cc_cache s)) ({[d_hid c]} ∪ cc_dirty s) (cc_pers s).

  (** storage_utils.py:725-728 *)
  Definition cc_drop (hid : string) : M ccalls unit := fun s =>
    match mc_drop hid (cc_cache s) with
    | (Ok _, m) => (Ok tt, CCalls m (cc_dirty s ∖ {[hid]}) (cc_pers s))
    | (Err e, m) => (Err e, CCalls m (cc_dirty s) (cc_pers s))
    end.

  (** storage_utils.py:730-735 *)
  Definition cc_exists (hid : string) (s : ccalls) : bool :=
    mc_exists hid (cc_cache s) || sql_exists hid (cc_pers s).

  (** storage_utils.py:737-742: the fallback asks for a *ref* with this id *)
  Definition cc_exists_content (cid : string) (s : ccalls) : bool :=
    mc_exists_content cid (cc_cache s) || sql_exists_ref_hid cid (cc_pers s).

  (** storage_utils.py:744-750 *)
  Definition cc_get (hid : string) (s : ccalls) : result cdata :=
    if mc_exists hid (cc_cache s) then mc_get hid (cc_cache s) else sql_get hid (cc_pers s).

  (** storage_utils.py:752-758.  The fallback [persistent.get_data_content(cid, conn)]
      passes [conn] positionally, and the [transaction] wrapper adds [conn=conn]
      (storage_utils.py:63): TypeError, two values for one parameter. *)
  Definition cc_get_content (cid : string) (s : ccalls) : result cdata :=
    if mc_exists_content cid (cc_cache s) then mc_get_content cid (cc_cache s)
    else Err ETypeError.

  (** one iteration of storage_utils.py:770-771 *)
  Definition cc_commit_hid (hid : string) : M ccalls unit := fun s =>
    match mc_get hid (cc_cache s) with
    | Err e => (Err e, s)
    | Ok c => let (r, t) := sql_save c (cc_pers s) in (r, CCalls (cc_cache s) (cc_dirty s) t)
    end.

  (** storage_utils.py:766-772; [order] enumerates the dirty set *)
  Definition cc_commit (order : list string) : M ccalls unit := fun s =>
    match iterM cc_commit_hid order s with
    | (Ok _, s') => (Ok tt, CCalls (cc_cache s') ∅ (cc_pers s'))
    | (Err e, s') => (Err e, s')
    end.

  (** storage_utils.py:774-780 *)
  Definition cc_clear (allow_uncommitted : bool) : M ccalls unit := fun s =>
    if bool_decide (cc_dirty s = ∅) || allow_uncommitted
    then (Ok tt, CCalls mc_empty ∅ (cc_pers s))
    else (Err EValueError, s).

  (** storage.py:354-366: [split_list] and [merge_lists] *)
  Definition split_list {A} (lst : list A) (mask : list bool) : list A * list A :=
    (map fst (filter (fun xm => xm.2 = true) (zip lst mask)),
     map fst (filter (fun xm => xm.2 = false) (zip lst mask))).
  (** the indices [i], [j] are the lists not yet consumed *)
  Fixpoint merge_lists {A} (lt lf : list A) (mask : list bool) : result (list A) :=
    match mask with
    | [] => Ok []
    | true :: mask =>
        match lt with [] => Err EIndexError | x :: lt => r ← merge_lists lt lf mask; Ok (x :: r) end
    | false :: mask =>
        match lf with [] => Err EIndexError | x :: lf => r ← merge_lists lt lf mask; Ok (x :: r) end
    end.

  (** storage.py:352-374, the part that reads the tables: [call_cache] is the
      storage's own reference to the call cache *)
  Definition mget_datas (hids : list string) (call_cache : mcalls) (t : list crow) : result (list cdata) :=
    let mask := map (fun hid => mc_exists hid call_cache) hids in
    let '(cache_part, db_part) := split_list hids mask in
    cache_datas ← mc_mget cache_part call_cache;
    db_datas ← sql_mget db_part t;
    merge_lists cache_datas db_datas mask.
End sql.
