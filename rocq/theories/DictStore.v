(** Key-value tables: SQLite with an overflow directory, behind a cache.  Models
    - mandala/storage_utils.py:135-167 [JoblibDictStorage]
    - mandala/storage_utils.py:172-263 [SQLiteDictStorage]
    - mandala/storage_utils.py:266-322 [CachedDictStorage].

    Values are kept deserialized (joblib's dump/load round trip is
    trusted).  [big v] says that the serialized value exceeds
    [overflow_threshold_MB] (storage_utils.py:218-219). *)
From stdpp Require Import base strings gmap list.
From Verif Require Import Base.

Section dictstore.
  Context {V : Type} (big : V -> bool).

  (** The persistent side: the SQL table and the overflow directory (None when no
      [overflow_dir] was given). *)
  Record pdict := PDict { pd_sql : gmap string V; pd_over : option (gmap string V) }.

  (** storage_utils.py:152-155: write-once overflow files *)
  Definition over_set (k : string) (v : V) (o : gmap string V) : gmap string V :=
    match o !! k with Some _ => o | None => <[k := v]> o end.

  (** storage_utils.py:202-210 *)
  Definition pd_get (k : string) (p : pdict) : result V :=
    match pd_sql p !! k with
    | Some v => Ok v
    | None =>
        match pd_over p with
        | Some o => of_option EKeyError (o !! k)  (* FileNotFoundError in Python *)
        | None => Err EKeyError
        end
    end.

  (** storage_utils.py:213-230 *)
  Definition pd_set (k : string) (v : V) (p : pdict) : result unit * pdict :=
    if big v then
      match pd_over p with
      | Some o => (Ok tt, PDict (pd_sql p) (Some (over_set k v o)))
      | None => (Err EValueError, p)
      end
    else (Ok tt, PDict (<[k := v]> (pd_sql p)) (pd_over p)).

  (** storage_utils.py:233-236 *)
  Definition pd_drop (k : string) (p : pdict) : pdict :=
    PDict (delete k (pd_sql p)) (delete k <$> pd_over p).

  (** storage_utils.py:239-247 *)
  Definition pd_exists (k : string) (p : pdict) : bool :=
    bool_decide (is_Some (pd_sql p !! k)) ||
    match pd_over p with
    | Some o => bool_decide (is_Some (o !! k))
    | None => false
    end.

  (** storage_utils.py:250-255 *)
  Definition pd_keys (p : pdict) : list string :=
    (map_to_list (pd_sql p)).*1 ++
    match pd_over p with Some o => (map_to_list o).*1 | None => [] end.

  (** storage_utils.py:258-263 *)
  Definition pd_values (p : pdict) : list V :=
    (map_to_list (pd_sql p)).*2 ++
    match pd_over p with Some o => (map_to_list o).*2 | None => [] end.

  (** storage_utils.py:193-199: [res.update(overflow)], the overflow wins *)
  Definition pd_load_all (p : pdict) : gmap string V :=
    match pd_over p with Some o => o ∪ pd_sql p | None => pd_sql p end.

  (** The cached table. *)
  Record cdict := CDict { cd_cache : gmap string V; cd_dirty : gset string; cd_pers : pdict }.

  (** a freshly opened table over an existing database *)
  Definition cd_open (p : pdict) : cdict := CDict ∅ ∅ p.

  (** storage_utils.py:280-286 *)
  Definition cd_get (k : string) : M cdict V := fun d =>
    match cd_cache d !! k with
    | Some v => (Ok v, d)
    | None =>
        match pd_get k (cd_pers d) with
        | Ok v => (Ok v, CDict (<[k := v]> (cd_cache d)) (cd_dirty d) (cd_pers d))
        | Err e => (Err e, d)
        end
    end.

  (** storage_utils.py:288-290 *)
  Definition cd_set (k : string) (v : V) (d : cdict) : cdict :=
    CDict (<[k := v]> (cd_cache d)) ({[k]} ∪ cd_dirty d) (cd_pers d).

  (** one iteration of the loop in storage_utils.py:296-297 *)
  Definition cd_commit_key (k : string) : M cdict unit := fun d =>
    match cd_cache d !! k with
    | Some v => let (r, p) := pd_set k v (cd_pers d) in
                (r, CDict (cd_cache d) (cd_dirty d) p)
    | None => (Err EKeyError, d)
    end.

  (** storage_utils.py:292-298; [order] is the order in which Python happens to
      iterate over the set of dirty keys *)
  Definition cd_commit (order : list string) : M cdict unit := fun d =>
    match iterM cd_commit_key order d with
    | (Ok _, d') => (Ok tt, CDict (cd_cache d') ∅ (cd_pers d'))
    | (Err e, d') => (Err e, d')
    end.

  (** storage_utils.py:300-308 *)
  Definition cd_clear (allow_uncommitted : bool) : M cdict unit := fun d =>
    if bool_decide (cd_dirty d = ∅) || allow_uncommitted
    then (Ok tt, CDict ∅ ∅ (cd_pers d))
    else (Err EValueError, d).

  (** storage_utils.py:310-315 *)
  Definition cd_drop (k : string) (d : cdict) : cdict :=
    CDict (delete k (cd_cache d)) (cd_dirty d ∖ {[k]}) (pd_drop k (cd_pers d)).

  (** storage_utils.py:317-322 *)
  Definition cd_exists (k : string) (d : cdict) : bool :=
    bool_decide (is_Some (cd_cache d !! k)) || pd_exists k (cd_pers d).

  (** storage.py:194-201 [preload_*]: replaces the cache by the persistent contents *)
  Definition cd_preload (d : cdict) : cdict :=
    CDict (pd_load_all (cd_pers d)) (cd_dirty d) (cd_pers d).

End dictstore.
Global Arguments pdict : clear implicits.
Global Arguments cdict : clear implicits.
