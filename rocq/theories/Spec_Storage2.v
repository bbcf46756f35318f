(** Specification for C20, C21, C27 and C28: what deleting, forbidding and saving should do,
    for arbitrary states of the tables. *)
From stdpp Require Import base strings gmap list.
From Verif Require Import Base PyDict Returns DictStore CallStore Spec_CallStore Commit Refs Args Ident Storage Spec_Storage.

(** * Saving (C28) *)

(** a ref and all refs inside it *)
Fixpoint nodes (r : ref) : list ref :=
  r :: match r with
       | RList _ _ (Some l) => concat (map nodes l)
       | RDict _ _ (Some l) => concat (map (fun kr => nodes kr.2) l)
       | _ => []
       end.
Definition call_refs (c : call) : list ref := map snd (c_ins c) ++ map snd (c_outs c).

(** A family of calls where identifiers identify: the same history id means the same ref, the same
    content id the same atom, the same call id the same call, the same op name the same op. *)
Record consistent (cs : list call) : Prop := {
  co_refs : forall r r', r ∈ concat (map nodes (concat (map call_refs cs))) ->
                         r' ∈ concat (map nodes (concat (map call_refs cs))) -> rhid r = rhid r' -> r = r';
  co_atoms : forall c h h' v v', RAtom c h (Some v) ∈ concat (map nodes (concat (map call_refs cs))) ->
                                 RAtom c h' (Some v') ∈ concat (map nodes (concat (map call_refs cs))) -> v = v';
  co_calls : forall c c', c ∈ cs -> c' ∈ cs -> c_hid c = c_hid c' -> c = c';
  co_ops : forall c c', c ∈ cs -> c' ∈ cs -> op_name (c_op c) = op_name (c_op c') -> c_op c = c_op c';
}.

(** The same tables: caches, marks and database are equal, and every call has the same rows in the
    call cache (the rows of different calls may be interleaved differently). *)
Record same_tables (s s' : st) : Prop := {
  sm_atoms : t_atoms (s_tabs s) = t_atoms (s_tabs s');
  sm_shapes : t_shapes (s_tabs s) = t_shapes (s_tabs s');
  sm_ops : t_ops (s_tabs s) = t_ops (s_tabs s');
  sm_dirty : cc_dirty (t_calls (s_tabs s)) = cc_dirty (t_calls (s_tabs s'));
  sm_pers : cc_pers (t_calls (s_tabs s)) = cc_pers (t_calls (s_tabs s'));
  sm_hids : mc_hids (cc_cache (t_calls (s_tabs s))) = mc_hids (cc_cache (t_calls (s_tabs s')));
  sm_rows : forall hid, rows_for hid (mc_rows (cc_cache (t_calls (s_tabs s)))) =
                        rows_for hid (mc_rows (cc_cache (t_calls (s_tabs s'))));
  sm_rest : s_alias s = s_alias s' /\ s_allow s = s_allow s' /\ s_log s = s_log s';
}.

(** * Reading (C11, C27) *)

(** [s'] is [s] after reading: nothing was executed or recorded, shapes and ops
    and everything on disk are the same, only atoms may have been marked for writing. *)
Record only_read (s s' : st) : Prop := {
  or_log : s_log s' = s_log s;
  or_allow : s_allow s' = s_allow s;
  or_alias : s_alias s' = s_alias s;
  or_calls : t_calls (s_tabs s') = t_calls (s_tabs s);
  or_shapes_dirty : cd_dirty (t_shapes (s_tabs s')) = cd_dirty (t_shapes (s_tabs s));
  or_ops_dirty : cd_dirty (t_ops (s_tabs s')) = cd_dirty (t_ops (s_tabs s));
  or_shapes : forall h, (cd_get h (t_shapes (s_tabs s'))).1 = (cd_get h (t_shapes (s_tabs s))).1;
  or_ops : forall h, (cd_get h (t_ops (s_tabs s'))).1 = (cd_get h (t_ops (s_tabs s))).1;
  or_db : db_of (s_tabs s') = db_of (s_tabs s);
}.

(** * Deleting (C20, C21) *)

(** A table of recorded calls without those in [D] *)
Definition without (D : gset string) (m : gmap string cinfo) : gmap string cinfo :=
  filter (fun kv => kv.1 ∉ D) m.
