(** Specification for C13/C17/C23/C24 on the call table: one dictionary from call ids
    to what was recorded, plus its last committed state; provenance as a graph. *)
From stdpp Require Import base strings gmap list.
From Verif Require Import Base PyDict CallStore.

(** What a reader can see of a recorded call: dictionaries have no order. *)
Record cinfo := CInfo {
  i_op : string; i_cid : string; i_hid : string;
  i_ins : gmap string ids; i_outs : gmap string ids;
  i_sem : option string; i_cont : option string;
}.
Definition info (c : cdata) : cinfo :=
  CInfo (d_op c) (d_cid c) (d_hid c) (list_to_map (d_ins c)) (list_to_map (d_outs c)) (d_sem c) (d_cont c).

(** The calls the property ranges over: distinct names, inputs and outputs do not share a
    name, and the call has at least one input or output. *)
Definition call_ok (c : cdata) : Prop :=
  NoDup (map fst (d_ins c) ++ map fst (d_outs c)) /\ d_ins c ++ d_outs c <> [].

(** Table [t] records for [hid] exactly the call described by [o]: its rows are,
    in some order, the rows of a call that looks like [o]. *)
Definition holds (t : list crow) (hid : string) (o : option cinfo) : Prop :=
  match o with
  | None => rows_for hid t = []
  | Some i => exists c, call_ok c /\ d_hid c = hid /\ info c = i /\ rows_for hid t ≡ₚ rows_of c
  end.

(** Operations: [KSave] is the guarded save of storage.py:340-350 ([save_call] returns
    at once for a known hid); [KDrop] drops a call that is not in the database (and
    does nothing if it is there); [KReopen] abandons the process and opens the database
    again. *)
Inductive kop :=
  | KSave (c : cdata) | KGet (hid : string) | KExists (hid : string) | KDrop (hid : string)
  | KCommit | KClear | KReopen.
Inductive kobs :=
  | KBVal (o : option cinfo) | KBBool (b : bool) | KBDone (ok : bool) | KBUnit.

(** The ideal table: (current contents, contents at the last commit). *)
Definition kstate : Type := gmap string cinfo * gmap string cinfo.
Definition kspec_step (s : kstate) (o : kop) : kobs * kstate :=
  match o with
  | KSave c => (KBUnit, (match s.1 !! d_hid c with
                         | Some _ => s.1 | None => <[d_hid c := info c]> s.1 end, s.2))
  | KGet hid => (KBVal (s.1 !! hid), s)
  | KExists hid => (KBBool (bool_decide (is_Some (s.1 !! hid))), s)
  | KDrop hid => match s.1 !! hid, s.2 !! hid with
                 | Some _, None => (KBDone true, (delete hid s.1, s.2))
                 | _, _ => (KBDone false, s)
                 end
  | KCommit => (KBDone true, (s.1, s.1))
  | KClear => (KBUnit, s)
  | KReopen => (KBUnit, (s.2, s.2))
  end.
Fixpoint kspec_run (s : kstate) (os : list kop) : list kobs * kstate :=
  match os with
  | [] => ([], s)
  | o :: os => let (b, s) := kspec_step s o in
               let (bs, s) := kspec_run s os in (b :: bs, s)
  end.

(** Running the operations on the code (CallStore.v).  The order of a commit is arbitrary. *)
Inductive kstep (sel : list crow -> list crow) : ccalls -> kop -> kobs -> ccalls -> Prop :=
  | ks_save_known s c : cc_exists (d_hid c) s = true -> kstep sel s (KSave c) KBUnit s
  | ks_save_new s c : cc_exists (d_hid c) s = false -> kstep sel s (KSave c) KBUnit (cc_save c s)
  | ks_get_ok s hid c : cc_get sel hid s = Ok c ->
      kstep sel s (KGet hid) (KBVal (Some (info c))) s
  | ks_get_err s hid e : cc_get sel hid s = Err e -> kstep sel s (KGet hid) (KBVal None) s
  | ks_exists s hid : kstep sel s (KExists hid) (KBBool (cc_exists hid s)) s
  | ks_drop s hid r s' : sql_exists hid (cc_pers s) = false -> cc_drop hid s = (r, s') ->
      kstep sel s (KDrop hid) (KBDone (match r with Ok _ => true | Err _ => false end)) s'
  | ks_drop_not s hid : sql_exists hid (cc_pers s) = true -> kstep sel s (KDrop hid) (KBDone false) s
  | ks_commit s order r s' :
      order ≡ₚ elements (cc_dirty s) -> cc_commit order s = (r, s') ->
      kstep sel s KCommit (KBDone (match r with Ok _ => true | Err _ => false end)) s'
  | ks_clear s r s' : cc_clear false s = (r, s') -> kstep sel s KClear KBUnit s'
  | ks_reopen s : kstep sel s KReopen KBUnit (cc_open (cc_pers s)).
Inductive ksteps (sel : list crow -> list crow) : ccalls -> list kop -> list kobs -> ccalls -> Prop :=
  | kss_nil s : ksteps sel s [] [] s
  | kss_cons s o b s1 os bs s2 :
      kstep sel s o b s1 -> ksteps sel s1 os bs s2 -> ksteps sel s (o :: os) (b :: bs) s2.

(** * Provenance: the graph recorded in the rows *)

(** call [c] has output / input ref [r] *)
Definition makes (t : list crow) (c r : string) : Prop :=
  exists row, row ∈ t /\ r_hid row = c /\ r_rhid row = r /\ r_dir row = DOut.
Definition uses (t : list crow) (c r : string) : Prop :=
  exists row, row ∈ t /\ r_hid row = c /\ r_rhid row = r /\ r_dir row = DIn.

(** Reachability in a graph of refs and calls: [rc r c] is an edge from ref [r]
    to call [c], [cr c r] an edge from call [c] to ref [r]; start from the refs [R] and the
    calls [C]. *)
Inductive reach_ref (rc cr : string -> string -> Prop) (R C : gset string) : string -> Prop :=
  | rr_start r : r ∈ R -> reach_ref rc cr R C r
  | rr_step c r : reach_call rc cr R C c -> cr c r -> reach_ref rc cr R C r
with reach_call (rc cr : string -> string -> Prop) (R C : gset string) : string -> Prop :=
  | rc_start c : c ∈ C -> reach_call rc cr R C c
  | rc_step r c : reach_ref rc cr R C r -> rc r c -> reach_call rc cr R C c.

(** backwards: from a ref to the calls that made it, from a call to its inputs *)
Definition anc_ref (t : list crow) := reach_ref (fun r c => makes t c r) (uses t).
Definition anc_call (t : list crow) := reach_call (fun r c => makes t c r) (uses t).
(** forwards: from a ref to the calls that use it, from a call to its outputs *)
Definition desc_ref (t : list crow) := reach_ref (fun r c => uses t c r) (makes t).
Definition desc_call (t : list crow) := reach_call (fun r c => uses t c r) (makes t).
