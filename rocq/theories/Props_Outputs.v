(** C08: every output has its own identity (storages without versioning). *)
From stdpp Require Import base strings gmap list.
From Verif Require Import Base PyDict Returns DictStore CallStore Spec_CallStore Commit Refs Args Ident Storage Spec_Storage
  Spec_Outputs Storage_outputs Queries Queries_proofs Props_Storage2.

Section props.
  Context (H : pyval -> string) (sel : list crow -> list crow) (bigA : pyval -> bool).
  Hypothesis Hinj : Inj (=) (=) H.

  (** Whatever happens to a storage (Spec_Outputs.v: calls with any arguments, including refs the program made up,
      collections, calls that raise, failing commits, crashes, deletions, cleanups): two recorded outputs with the
      same history id are the same output of the same call.  In particular the outputs of one call have
      different history ids, and outputs of different calls have different history ids. *)
  Theorem C08_output_ids_distinct : forall s r r', greach H sel bigA s ->
    recorded_row s r -> recorded_row s r' -> r_dir r = DOut -> r_dir r' = DOut ->
    r_rhid r = r_rhid r' -> r_hid r = r_hid r' /\ r_name r = r_name r'.
  Proof using Hinj. intros s r r'. apply (greach_outputs H sel bigA). Qed.

  (** Hence a ref has at most one creator in the database and in the cache ... *)
  Theorem C08_one_creator : forall s c c' hid, greach H sel bigA s ->
    let T := t_calls (s_tabs s) in
    (makes (cc_pers T) c hid \/ makes (mc_rows (cc_cache T)) c hid) ->
    (makes (cc_pers T) c' hid \/ makes (mc_rows (cc_cache T)) c' hid) -> c = c'.
  Proof using Hinj.
    intros s c c' hid Hg T Hc Hc'.
    assert (forall c, makes (cc_pers T) c hid \/ makes (mc_rows (cc_cache T)) c hid ->
      exists r, recorded_row s r /\ r_hid r = c /\ r_rhid r = hid /\ r_dir r = DOut) as Hm.
    { intros c0 [(r & Hr & ?)|(r & Hr & ?)]; exists r; (split; [|done]); unfold recorded_row; auto. }
    destruct (Hm c Hc) as (r & Hr & <- & E & D), (Hm c' Hc') as (r' & Hr' & <- & E' & D').
    apply (C08_output_ids_distinct s r r'); auto. congruence.
  Qed.
  (** ... and [get_ref_creator] never raises "Ref ... has multiple creators, this should not happen." (RuntimeError) *)
  Theorem C08_multiple_creators_never_raised : forall s r, greach H sel bigA s ->
    (get_ref_creator sel r s).1 <> Err ERuntime.
  Proof using Hinj. intros s r. apply (ref_creator_unique H sel bigA). Qed.
End props.
Print Assumptions C08_output_ids_distinct.
Print Assumptions C08_one_creator.
Print Assumptions C08_multiple_creators_never_raised.

(** ** Concrete case: [pair(3)] returns a list of two numbers, [inc(7)]; commit *)
Definition O_list : ref := okv P_dummy (P_run P_pair (P_int 3) P_new).1.
Definition O_s1 : st := (call_run ser (fun l => l) P_pair [P_int 3] [] [] P_new).2.
Definition O_s2 : st := (call_run ser (fun l => l) P_inc [P_int 7] [] [] O_s1).2.
Definition O_s3 : st := (P_commit O_s2).2.
Lemma pair_plain : returns_plain P_pair.
Proof.
  intros env ret id v E Hin. cbn in E. repeat case_match; simplify_eq. cbn in Hin. by apply elem_of_list_singleton in Hin.
Qed.
Lemma inc_plain : returns_plain P_inc.
Proof.
  intros env ret id v E Hin. cbn in E. repeat case_match; simplify_eq. cbn in Hin. by apply elem_of_list_singleton in Hin.
Qed.
Lemma O_greach : greach ser (fun l => l) (fun _ => false) O_s3.
Proof.
  exists true. eapply gsteps_cons; [|eapply gsteps_cons; [|eapply gsteps_cons; [|constructor]]].
  - eapply gstep_call; [exact pair_plain|]. unfold O_s1. apply surjective_pairing.
  - eapply gstep_call; [exact inc_plain|]. unfold O_s2. apply surjective_pairing.
  - unfold O_s3, P_commit. eapply gstep_commit. apply surjective_pairing.
Qed.
(** four recorded outputs (of [pair], of two element accesses and of [inc]), and the creator of the list is found *)
Example C08_case :
  greach ser (fun l => l) (fun _ => false) O_s3 /\
  length (filter (fun r => r_dir r = DOut) (cc_pers (t_calls (s_tabs O_s3)))) = 4 /\
  exists c, (get_ref_creator (fun l => l) O_list O_s3).1 = Ok (Some c) /\ c_hid c = P_hid P_pair (P_atom 3).
Proof.
  split; [exact O_greach|]. split; [vmr|]. eexists. split; [vmr|vmr].
Qed.

(** ** Outputs that are [ValuePointer]s
    The claim is about plain values because of this: wrapping a pointer ignores the history id it is given
    (model.py:289-315), so two calls that return the same pointer "create" the same ref, and asking for
    the creator of that ref raises RuntimeError. *)
Definition O_ptr : opdef := OpDef (Op "ptr" NoutAuto None 0 [] false) [Param "x" KPosOrKw None TAtom] RAnnNone
  (fun env => Ok (ROther (AVal (VPtr "p" (VInt 0))))).
Theorem C08_pointer_outputs_refuted :
  exists r s, (P_run O_ptr (P_int 1) ;;; r <- P_run O_ptr (P_int 2) ;; P_commit ;;; retM r)%pym P_new = (Ok r, s) /\
    (get_ref_creator (fun l => l) r s).1 = Err ERuntime.
Proof. eexists _, _. split; [apply (run_ok_ex _ P_dummy); vmr|]. vmr. Qed.
Print Assumptions C08_pointer_outputs_refuted.
