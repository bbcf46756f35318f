(** C18 for programs with collections: everything a recorded call refers to is recorded. *)
From stdpp Require Import base strings gmap list.
From Verif Require Import Base PyDict Returns DictStore CallStore Spec_CallStore Commit Spec_Commit
  Refs Args Ident Storage Spec_Storage Spec_Storage2 Spec_Outputs Spec_Atoms Spec_Integrity Storage_integrity2 Props_Storage2.

(** In every state of a program without deletions and failing commits (ops with any annotations, arguments that are
    or contain refs, calls that raise, cleared caches, new processes), every recorded input and output has a stored shape, the op of every
    recorded call is stored, and so on for the elements of collections.  The hash is arbitrary.
    Missing from C18: that the contents of atoms are stored too ([C18_recorded_call_loads_partial] for programs without collections). *)
Theorem C18_intact_partial (H : pyval -> string) (sel : list crow -> list crow) (bigA : pyval -> bool) (held : list ref) (s : st) :
  ireach H sel bigA (held, s) -> intact s.
Proof. apply ireach_intact. Qed.
Print Assumptions C18_intact_partial.

(** So reading a recorded call without its values succeeds, unless the recursion does not end: refs made by hand can
    contain themselves, by history id. *)
Theorem C18_shapes_load_partial (H : pyval -> string) (sel : list crow -> list crow) (bigA : pyval -> bool)
    (sel_perm : forall l, sel l ≡ₚ l) (held : list ref) (s : st) (hid : string) (d : cdata) :
  ireach H sel bigA (held, s) -> cc_get sel hid (t_calls (s_tabs s)) = Ok d ->
  (exists c, (call_from_data d true s).1 = Ok c) \/ (call_from_data d true s).1 = Err EFuel.
Proof. by apply ireach_loads. Qed.
Print Assumptions C18_shapes_load_partial.

(** An instance: [r = pair(3)] returns a list ref, then [count([r])] is called, everything is committed, and the storage
    is opened in a new process.  The recorded input of [count] is a list with a list of atoms inside. *)
Definition I_call1 : M st (returned ref) := call_run ser (fun l => l) P_pair [P_int 3] [] [].
Definition I_s1 : st := (I_call1 P_new).2.
Definition I_r : ref := match (I_call1 P_new).1 with Ok (ROther x) => x | _ => P_dummy end.
Definition I_call2 : M st (returned ref) := call_run ser (fun l => l) P_count [AList [ARef I_r]] [] [].
Definition I_s2 : st := (I_call2 I_s1).2.
Definition I_s3 : st := (P_commit I_s2).2.
Definition I_state : st := reopen I_s3.
Lemma I_run1 : I_call1 P_new = (Ok (ROther I_r), I_s1).
Proof. unfold I_s1. apply (run_ok I_call1 P_new). unfold I_r. vmr. Qed.
Definition I_r2 : ref := match (I_call2 I_s1).1 with Ok (ROther x) => x | _ => P_dummy end.
Lemma I_run2 : I_call2 I_s1 = (Ok (ROther I_r2), I_s2).
Proof. unfold I_s2. apply (run_ok I_call2 I_s1). unfold I_r2. vmr. Qed.
Lemma I_committed : P_commit I_s2 = (Ok tt, I_s3).
Proof. unfold I_s3. apply (run_ok P_commit I_s2 tt). vmr. Qed.
Lemma I_no_refs : no_refs_returned P_pair /\ no_refs_returned P_count.
Proof.
  split; intros env ret a; cbn; destruct env as [|[k [[[]| | | |]| |]] [|? ?]]; try discriminate;
    intros [= <-] ->%elem_of_list_singleton; reflexivity.
Qed.
Definition I_rows (s : st) : list crow := filter (fun r => r_op r = "count" /\ r_dir r = DIn) (cc_pers (t_calls (s_tabs s))).
Example C18_intact_instance :
  ireach ser (fun l => l) (fun _ => false) ([I_r2; I_r], I_state) /\
  exists row sh e sh', recorded_row I_state row /\ r_op row = "count" /\ r_dir row = DIn /\
    shape_at I_state (r_rhid row) sh /\ e ∈ elements_of sh /\ shape_at I_state (rhid e) sh' /\ length (elements_of sh') = 2.
Proof.
  split.
  - destruct I_no_refs as [N1 N2].
    assert (ireach ser (fun l => l) (fun _ => false) ([I_r], I_s1)) as R1.
    { apply (ir_step _ _ _ ([], P_new)); [apply (ir_new _ _ _ true)|].
      refine (is_call _ _ _ [] P_new P_pair [P_int 3] [] [] (Ok (ROther I_r)) I_s1 N1 _ I_run1).
      intros a r [->%elem_of_list_singleton|[Ha|(p & ->%elem_of_list_singleton & [=])]] Hr; [by apply elem_of_nil in Hr|by apply elem_of_nil in Ha]. }
    assert (ireach ser (fun l => l) (fun _ => false) ([I_r2; I_r], I_s2)) as R2.
    { apply (ir_step _ _ _ _ _ R1). pose proof I_run2 as E2. unfold I_call2 in E2. revert E2.
      generalize I_r2, I_r, I_s1, I_s2. intros r2 r1 s1 s2 E2.
      refine (is_call _ _ _ [r1] s1 P_count [AList [ARef r1]] [] [] (Ok (ROther r2)) s2 N2 _ E2).
      intros a r [->%elem_of_list_singleton|[Ha|(p & ->%elem_of_list_singleton & [=])]] Hr; [exact Hr|by apply elem_of_nil in Ha]. }
    assert (ireach ser (fun l => l) (fun _ => false) ([I_r2; I_r], I_s3)) as R3.
    { apply (ir_step _ _ _ _ _ R2).
      refine (is_commit _ _ _ [I_r2; I_r] I_s2 (fun _ => None) (Orders (elements (cd_dirty (t_atoms (s_tabs I_s2)))) (elements (cd_dirty (t_shapes (s_tabs I_s2))))
            (elements (cd_dirty (t_ops (s_tabs I_s2)))) (elements (cc_dirty (t_calls (s_tabs I_s2))))) I_s3 _ I_committed).
      unfold orders_of. split_and!; reflexivity. }
    apply (ir_step _ _ _ _ _ R3). apply is_reopen. clean.
  - assert (exists row rows, I_rows I_state = row :: rows) as (row & rows & Er) by (eexists _, _; vmr).
    assert (row ∈ I_rows I_state) as Hr by (rewrite Er; left). apply elem_of_list_filter in Hr as [[Ho Hd] Hr].
    assert (exists sh e l sh', shape_at I_state (r_rhid (default row (head (I_rows I_state)))) sh /\ elements_of sh = e :: l /\
              shape_at I_state (rhid e) sh' /\ length (elements_of sh') = 2) as (sh & e & l & sh' & H1 & H2 & H3 & H4).
    { eexists _, _, _, _. unfold shape_at. split_and!; vmr. }
    rewrite Er in H1. cbn [head default from_option id] in H1. exists row, sh, e, sh'.
    split; [right; left; exact Hr|]. split; [exact Ho|]. split; [exact Hd|]. split; [exact H1|].
    split; [rewrite H2; left|]. split; [exact H3|exact H4].
Qed.
