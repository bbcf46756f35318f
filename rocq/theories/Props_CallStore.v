(** C13 (calls), C17, C23, C24. *)
From stdpp Require Import base strings gmap list.
From Verif Require Import Base PyDict CallStore Spec_CallStore CallStore_proofs.

(** C17 and C13 for the call table: whatever the sequence of saves, reads, commits,
    drops of unsaved calls, cache clears and re-opens of the database, whatever the order in which SQLite
    returns rows ([sel]) and commits write calls, a read returns exactly what was
    saved (op, ids, versions, input and output dictionaries), commits succeed, and
    after re-opening exactly the committed calls are there. *)
Theorem C17_call_table_returns_what_was_saved :
  forall sel os bs s',
    (forall l, sel l ≡ₚ l) ->
    (forall c, KSave c ∈ os -> call_ok c) ->
    ksteps sel (cc_open []) os bs s' ->
    bs = (kspec_run (∅, ∅) os).1.
Proof. intros sel os bs s' Hsel. exact (call_table_refines sel Hsel os bs s'). Qed.
Print Assumptions C17_call_table_returns_what_was_saved.

Theorem C17_runs_exist : forall sel s os, exists bs s', ksteps sel s os bs s'.
Proof. exact ksteps_total. Qed.
Print Assumptions C17_runs_exist.

Definition C17_call : cdata :=
  CData "f" "cid1" "hid1" [("x", ("cx", "hx")); ("y", ("cy", "hy"))] [("output_0", ("co", "ho"))] None None.
Definition C17_call2 : cdata :=
  CData "g" "cid2" "hid2" [("z", ("co", "ho"))] [("output_0", ("c2", "h2"))] (Some "v1") None.

(** save, commit, save another, re-open: the first call is read back from rows in reverse
    order, the second is gone *)
Example C17_example :
  call_ok C17_call /\ call_ok C17_call2 /\
  exists s', ksteps (@reverse _) (cc_open [])
    [KSave C17_call; KCommit; KSave C17_call2; KReopen; KGet "hid1"; KExists "hid2"]
    [KBUnit; KBDone true; KBUnit; KBUnit; KBVal (Some (info C17_call)); KBBool false] s'.
Proof.
  split; [split; [apply (bool_decide_unpack _); vm_compute; exact I|done]|].
  split; [split; [apply (bool_decide_unpack _); vm_compute; exact I|done]|].
  destruct (ksteps_total (@reverse _) (cc_open [])
    [KSave C17_call; KCommit; KSave C17_call2; KReopen; KGet "hid1"; KExists "hid2"]) as (bs & s' & H).
  exists s'. enough (bs = [KBUnit; KBDone true; KBUnit; KBUnit; KBVal (Some (info C17_call)); KBBool false]) as <- by done.
  eapply C17_call_table_returns_what_was_saved in H.
  - rewrite H. reflexivity.
  - intros l. apply reverse_Permutation.
  - intros c Hc.
    assert (c = C17_call \/ c = C17_call2) as [->| ->].
    { repeat (apply elem_of_cons in Hc as [Hc|Hc]; [try discriminate; injection Hc; auto|]).
      by apply elem_of_nil in Hc. }
    all: split; [apply (bool_decide_unpack _); vm_compute; exact I|done].
Qed.

(** The side condition is needed: (a) an output that shares its name with an input
    overwrites the input's row (this happens for [__make_dict__] with a key "dict", or
    for a keyword argument called "output_0"); (b) a call without inputs and outputs
    has no rows, its commit raises KeyError. *)
Theorem C17_name_clash_refuted :
  exists c, cc_get (fun l => l) (d_hid c) (cc_save c (cc_open [])) =
              Ok (CData (d_op c) (d_cid c) (d_hid c) [] (d_outs c) (d_sem c) (d_cont c)) /\
            d_ins c <> [].
Proof.
  exists (CData "f" "c" "h" [("output_0", ("cx", "hx"))] [("output_0", ("co", "ho"))] None None).
  split; [vm_compute; reflexivity|done].
Qed.
Print Assumptions C17_name_clash_refuted.
Theorem C17_no_rows_refuted :
  exists c, cc_exists (d_hid c) (cc_save c (cc_open [])) = true /\
    cc_get (fun l => l) (d_hid c) (cc_save c (cc_open [])) = Err EKeyError /\
    (cc_commit [d_hid c] (cc_save c (cc_open []))).1 = Err EKeyError.
Proof. exists (CData "f" "c" "h" [] [] None None). split_and!; vm_compute; reflexivity. Qed.
Print Assumptions C17_no_rows_refuted.

(** C23: the calls come back in the order of the requested ids, one per requested
    id, wherever each of them is found.  [m] describes the recorded calls. *)
Theorem C23_batch_reads_preserve_order :
  forall sel (cache : mcalls) (t : list crow) (m : gmap string cinfo) hids,
    (forall l, sel l ≡ₚ l) ->
    (forall hid, hid ∈ hids -> is_Some (m !! hid)) ->
    (forall hid, hid ∈ hids -> hid ∈ mc_hids cache -> holds (mc_rows cache) hid (m !! hid)) ->
    (forall hid, hid ∈ hids -> hid ∉ mc_hids cache -> holds t hid (m !! hid)) ->
    exists ds, mget_datas sel hids cache t = Ok ds /\
      Forall2 (fun hid d => m !! hid = Some (info d)) hids ds.
Proof. intros sel cache t m hids Hsel. exact (mget_ordered sel Hsel cache t m hids). Qed.
Print Assumptions C23_batch_reads_preserve_order.

(** one call in the cache, one in the database, asked for alternately *)
Example C23_example :
  let cache := mc_save C17_call2 mc_empty in
  let t := rows_of C17_call in
  mget_datas (@reverse _) ["hid1"; "hid2"; "hid1"] cache t =
    Ok [CData "f" "cid1" "hid1" [("y", ("cy", "hy")); ("x", ("cx", "hx"))] [("output_0", ("co", "ho"))] None None;
        C17_call2;
        CData "f" "cid1" "hid1" [("y", ("cy", "hy")); ("x", ("cx", "hx"))] [("output_0", ("co", "ho"))] None None].
Proof. vm_compute. reflexivity. Qed.

(** C24: for every table, the loops terminate (no [EFuel]) and return exactly the refs and
    calls reachable backwards / forwards. *)
Theorem C24_dependencies_exact :
  forall (t : list crow) (R C : gset string),
    exists refs calls, get_dependencies R C t = Ok (refs, calls) /\
      (forall r, r ∈ refs <-> anc_ref t R C r) /\ (forall c, c ∈ calls <-> anc_call t R C c).
Proof. exact get_dependencies_exact. Qed.
Print Assumptions C24_dependencies_exact.
Theorem C24_dependents_exact :
  forall (t : list crow) (R C : gset string),
    exists refs calls, get_dependents R C t = Ok (refs, calls) /\
      (forall r, r ∈ refs <-> desc_ref t R C r) /\ (forall c, c ∈ calls <-> desc_call t R C c).
Proof. exact get_dependents_exact. Qed.
Print Assumptions C24_dependents_exact.

(** two calls in a row *)
Example C24_example :
  let t := rows_of C17_call ++ rows_of C17_call2 in
  exists refs calls, get_dependencies {["h2"]} ∅ t = Ok (refs, calls) /\
    elements refs ≡ₚ ["h2"; "ho"; "hx"; "hy"] /\ elements calls ≡ₚ ["hid1"; "hid2"].
Proof.
  eexists _, _. split; [vm_compute; reflexivity|].
  split; apply (bool_decide_unpack _); vm_compute; exact I.
Qed.
