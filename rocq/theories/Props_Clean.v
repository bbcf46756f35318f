(** C22, C18: [cleanup_refs] removes exactly the refs that no recorded call mentions. *)
From stdpp Require Import base strings gmap list.
From Verif Require Import Base PyDict Returns DictStore CallStore Spec_CallStore Commit Spec_Commit Refs Args Ident
  Storage Spec_Storage Spec_Atoms Spec_Cleanup Storage_atoms3 Storage_atoms5 Storage_clean Props_Storage2 Props_Atoms.

(** * C22, in any state: a shape in the database goes iff no row of the call table in the database mentions its history
    id; an atom in the database goes iff no row mentions its content id and no remaining shape has it.
    Nothing else changes. *)
Theorem C22_removed_exactly : forall s, exists s', cleanup_refs s = (Ok tt, s') /\
  (forall hid, ((exists r, db_shape s hid r) /\ ~ mentioned s hid -> (get_shape hid s').1 = Err EKeyError) /\
               (~ ((exists r, db_shape s hid r) /\ ~ mentioned s hid) -> (get_shape hid s').1 = (get_shape hid s).1)) /\
  (forall cid, let unused := db_atom s cid /\ ~ mentioned_cid s cid /\ ~ exists h r, db_shape s h r /\ mentioned s h /\ rcid r = cid in
               (unused -> (get_atom cid s').1 = Err EKeyError) /\ (~ unused -> (get_atom cid s').1 = (get_atom cid s).1)) /\
  t_calls (s_tabs s') = t_calls (s_tabs s) /\ t_ops (s_tabs s') = t_ops (s_tabs s) /\
  s_alias s' = s_alias s /\ s_allow s' = s_allow s /\ s_log s' = s_log s.
Proof.
  intros s. exists (cleaned s). split; [apply cleanup_eq|]. split; [|split; [|by destruct s as [[] ? ? ?]]].
  - intros hid. rewrite <-dead_shapes_spec. unfold get_shape, on_tabs, on_shapes. cbn [cleaned set_tabs_as with_tabs s_tabs t_shapes].
    pose proof (drops_get (dead_shapes s) (t_shapes (s_tabs s)) hid) as Hg.
    destruct (cd_get hid (drops (dead_shapes s) (t_shapes (s_tabs s)))) as [r1 d1], (cd_get hid (t_shapes (s_tabs s))) as [r2 d2]. cbn in *.
    split; intros Hx; by case_decide.
  - intros cid. cbv zeta. rewrite <-dead_atoms_spec. unfold get_atom, on_tabs, on_atoms. cbn [cleaned set_tabs_as with_tabs s_tabs t_atoms].
    pose proof (drops_get (dead_atoms s) (t_atoms (s_tabs s)) cid) as Hg.
    destruct (cd_get cid (drops (dead_atoms s) (t_atoms (s_tabs s)))) as [r1 d1], (cd_get cid (t_atoms (s_tabs s))) as [r2 d2]. cbn in *.
    split; intros Hx; by case_decide.
Qed.
Print Assumptions C22_removed_exactly.

Section props.
  Context (H : pyval -> string) (sel : list crow -> list crow) (bigA : pyval -> bool).
  Hypothesis Hinj : Inj (=) (=) H.
  Hypothesis sel_perm : forall l, sel l ≡ₚ l.

  (** * C22 over histories.
      Full statement: in every committed state reachable by op calls, deletions and cleanups, a cleanup keeps every
      recorded call loadable with the same values.  False when lists are involved ([C22_refuted]).  Proved for
      programs whose ops take and return atoms (Spec_Atoms.v), with cleanups anywhere and deletions followed
      by a cleanup (Spec_Cleanup.v). *)
  Theorem C22_cleanup_keeps_calls_partial : forall held s, creach H sel bigA (held, s) -> nothing_dirty s ->
    exists s', cleanup_refs s = (Ok tt, s') /\ (forall hid, recorded s' hid <-> recorded s hid) /\
      forall hid, recorded s hid -> exists d c s1 s2,
        cc_get sel hid (t_calls (s_tabs s)) = Ok d /\ cc_get sel hid (t_calls (s_tabs s')) = Ok d /\
        call_from_data d false s = (Ok c, s1) /\ call_from_data d false s' = (Ok c, s2) /\ loaded H false d c.
  Proof using Hinj sel_perm.
    intros held s Hre Hn. exists (cleaned s). split; [apply cleanup_eq|]. split; [by intros hid; unfold recorded, has_call|].
    intros hid Hr. exact (cleanup_loads H sel bigA Hinj sel_perm _ _ _ Hre Hn Hr).
  Qed.

  (** * C18 over histories with deletions and cleanups: every recorded call can be read. *)
  Theorem C18_with_deletions_partial : forall held s hid in_mem, creach H sel bigA (held, s) -> recorded s hid ->
    exists d c s', cc_get sel hid (t_calls (s_tabs s)) = Ok d /\ d_hid d = hid /\
      call_from_data d in_mem s = (Ok c, s') /\ loaded H in_mem d c.
  Proof using Hinj sel_perm.
    intros held s hid im Hre Hr. destruct (creach_good H sel bigA Hinj sel_perm _ Hre) as [m Hi].
    exact (recorded_loads H sel Hinj sel_perm _ _ _ _ _ Hi Hr).
  Qed.
End props.
Print Assumptions C22_cleanup_keeps_calls_partial.
Print Assumptions C18_with_deletions_partial.

(** [r = inc(3)], [inc(r)], commit; delete the second call and clean up: the atom 5 goes, the first call stays. *)
Definition X_hid : string := P_hid P_inc W_r1.
Definition X_s1 : st := (drop_calls [X_hid] W_s3).2.
Definition X_s : st := (cleanup_refs X_s1).2.
Example C22_instance : creach ser (fun l => l) (fun _ => false) ([W_r1], X_s) /\ nothing_dirty X_s /\
  recorded X_s (P_hid P_inc (P_atom 3)) /\ ~ recorded X_s X_hid /\
  (get_atom (ser (VInt 5)) W_s3).1 = Ok (VInt 5) /\ (get_atom (ser (VInt 5)) X_s).1 = Err EKeyError.
Proof.
  split; [|split; [clean|split; [unfold recorded; vmr|split; [unfold recorded; vm_compute; discriminate|split; vmr]]]].
  exists true. eapply css_cons; [eapply cs_step, W_asteps1|].
  pose proof W_asteps2 as Hst. inversion Hst as [|? ? y ? ? S1 S2]; subst. inversion S2 as [|? ? y' ? ? S3 S4]; subst. inversion S4; subst.
  eapply css_cons; [eapply cs_step, S1|]. eapply css_cons; [eapply cs_step, S3|]. clear.
  eapply css_cons; [|apply css_nil].
  apply (cs_delete _ _ _ _ W_s3 {[X_hid]} {[X_hid]} [X_hid] X_s1 X_s).
  - clean.
  - vmr.
  - apply bd_eq. vmr.
  - by rewrite elements_singleton.
  - apply (run_ok (drop_calls [X_hid]) W_s3 tt). vmr.
  - apply (run_ok cleanup_refs X_s1 tt). vmr.
  - intros r ->%elem_of_list_singleton. split; [right; left|].
    assert (rhid W_r1 ∈ map r_rhid (cc_pers (t_calls (s_tabs X_s)))) as Hx.
    { apply (bool_decide_unpack _). vm_compute. exact I. }
    apply elem_of_list_fmap in Hx as (row & -> & Hrow). by exists row.
Qed.
