(** Specification for C08: histories of arbitrary use of one storage, without restrictions on
    what the program holds, passes or deletes, and with failing commits and crashes. *)
From stdpp Require Import base strings gmap list.
From Verif Require Import Base PyDict Returns DictStore CallStore Commit Refs Args Ident Storage.

Section outputs.
  Context (H : pyval -> string) (sel : list crow -> list crow) (bigA : pyval -> bool).

  (** The values a function returned, one by one.  An op returns plain values if none of them is a
      [ValuePointer] (refs and values of any other kind are allowed). *)
  Definition values_of {A} (r : returned A) : list A := match r with RTuple l => l | ROther a => [a] end.
  Definition returns_plain (o : opdef) : Prop :=
    forall env ret id v, od_fun o env = Ok ret -> AVal (VPtr id v) ∉ values_of ret.

  (** What can happen to a storage: calls with any arguments (returning or raising),
      calls outside of a context, reading, committing with any failures, clearing caches,
      deleting any calls, cleaning up, (dis)allowing new calls, closing and opening again whether or
      not everything is committed, and a crash in the middle of a commit followed by opening. *)
  Inductive gstep : st -> st -> Prop :=
    | gstep_call s o args kw keys r s' :
        returns_plain o -> call_run H sel o args kw keys s = (r, s') -> gstep s s'
    | gstep_noop s o args kw r s' : call_noop o args kw s = (r, s') -> gstep s s'
    | gstep_unwrap s x r s' : unwrap_ref x s = (r, s') -> gstep s s'
    | gstep_load s b hid r s' : load_ref b hid s = (r, s') -> gstep s s'
    | gstep_mget s hids b r s' : mget_call sel hids b s = (r, s') -> gstep s s'
    | gstep_commit s f o r s' : commit_storage bigA f o s = (r, s') -> gstep s s'
    | gstep_clear s b r s' : clear_storage b s = (r, s') -> gstep s s'
    | gstep_drop s hids r s' : drop_calls hids s = (r, s') -> gstep s s'
    | gstep_cleanup s r s' : cleanup_refs s = (r, s') -> gstep s s'
    | gstep_allow s b : gstep s (St (s_tabs s) (s_alias s) b (s_log s))
    | gstep_reopen s : gstep s (reopen s)
    | gstep_crash s f o torn :
        gstep s (St (open_db (crash_disk bigA (fun _ => false) (fun _ => false) f o torn (s_tabs s)))
                    None true (s_log s)).
  Inductive gsteps : st -> st -> Prop :=
    | gsteps_nil s : gsteps s s
    | gsteps_cons s1 s2 s3 : gstep s1 s2 -> gsteps s2 s3 -> gsteps s1 s3.
  (** the states of a program that starts with a new storage *)
  Definition greach (s : st) : Prop :=
    exists overflow : bool,
      gsteps (St (open_db (DB (PDict ∅ (if overflow then Some ∅ else None)) (PDict ∅ None) (PDict ∅ None) []))
                 None true []) s.

  (** The rows by which a storage records calls: in the cache, in the database, or in the object
      that [call_cache] still refers to after a [clear] *)
  Definition recorded_row (s : st) (r : crow) : Prop :=
    r ∈ mc_rows (cc_cache (t_calls (s_tabs s))) \/ r ∈ cc_pers (t_calls (s_tabs s)) \/
    exists m, s_alias s = Some m /\ r ∈ mc_rows m.
End outputs.
