(** C01, C02, C03, C18 for all histories of programs whose ops take and return atoms (Spec_Atoms.v). *)
From stdpp Require Import base strings gmap list.
From Verif Require Import Base PyDict Returns Spec_Returns DictStore CallStore Spec_CallStore Commit Spec_Commit
  Refs Args Ident Storage Spec_Storage Spec_Atoms Storage_atoms Storage_atoms3 Storage_atoms4 Storage_atoms5 Props_Storage2.

(** * Sample programs: [inc] of Props_Storage2.v *)
Lemma inc_atom_op : atom_op P_inc.
Proof.
  split; cbn.
  - by intros p ->%elem_of_list_singleton.
  - done.
  - intros env ret vs E Hv.
    assert (exists z, ret = ROther (AVal (VInt z))) as [z ->].
    { repeat case_match; simplify_eq. eauto. }
    cbn in Hv. destruct Hv as [-> _].
    split; [done|]. intros a ->%elem_of_list_singleton. eexists. split; [done|]. by intros [].
Qed.
Lemma inc_atom_call held a s : (forall r, r ∈ arg_refs a -> r ∈ held) -> (forall b x, a <> AIgn b x) -> ~ pointer a ->
  atom_call held P_inc [a] [] s.
Proof.
  intros Hr Hi Hp. split.
  - intros b r [->%elem_of_list_singleton|[?%elem_of_nil|(p & ->%elem_of_list_singleton & Hd)]]; [auto|done|done].
  - intros b ins s' E.
    assert (ins = [("x", (a, TAtom))]) as ->.
    { destruct a as [v|r|bb x|l|d]; [..|by destruct (Hi bb x)| |]; cbn in E; by injection E as <- <- <-. }
    split_and!.
    + by intros k a' t [= -> -> ->]%elem_of_list_singleton.
    + intros k i ->%elem_of_list_singleton. cbn. done.
    + done.
Qed.
(** [inc(3)]; [inc] of the result; commit; clear the caches *)
Definition W_call (a : arg) : M st (returned ref) := call_run ser (fun l => l) P_inc [a] [] [].
Definition W_s1 : st := (W_call (P_int 3) P_new).2.
Definition W_r1 : ref := RAtom (ser (VInt 4)) (output_hid ser (P_hid P_inc (P_atom 3)) "output_0") (Some (VInt 4)).
Definition W_s2 : st := (W_call (ARef W_r1) W_s1).2.
Definition W_r2 : ref := RAtom (ser (VInt 5)) (output_hid ser (P_hid P_inc W_r1) "output_0") (Some (VInt 5)).
Definition W_s3 : st := (P_commit W_s2).2.
Definition W_s4 : st := (clear_storage false W_s3).2.
Lemma W_step1 : W_call (P_int 3) P_new = (Ok (ROther W_r1), W_s1).
Proof. apply (run_ok (W_call (P_int 3)) P_new (ROther W_r1)). vmr. Qed.
Lemma W_step2 : W_call (ARef W_r1) W_s1 = (Ok (ROther W_r2), W_s2).
Proof. apply (run_ok (W_call (ARef W_r1)) W_s1 (ROther W_r2)). vmr. Qed.
Lemma W_step3 : P_commit W_s2 = (Ok tt, W_s3).
Proof. apply (run_ok P_commit W_s2 tt). vmr. Qed.
Definition W_ev1 := Called P_inc [P_int 3] [] (Ok (ROther W_r1)).
Definition W_ev2 := Called P_inc [ARef W_r1] [] (Ok (ROther W_r2)).
Notation W_asteps := (asteps ser (fun l => l) (fun _ => false)).
Lemma W_asteps1 : astep ser (fun l => l) (fun _ => false) ([], P_new) W_ev1 ([W_r1], W_s1).
Proof.
  apply (as_call ser (fun l => l) (fun _ => false) [] P_new P_inc [P_int 3] [] [] (Ok (ROther W_r1)) W_s1).
  - apply inc_atom_op.
  - apply inc_atom_call; [by intros r ?%elem_of_nil|done|by intros []].
  - constructor.
  - done.
  - exact W_step1.
Qed.
Lemma W_asteps2 : W_asteps ([W_r1], W_s1) [W_ev2; Other] ([W_r2; W_r1], W_s3).
Proof.
  eapply ass_cons; [apply (as_call ser (fun l => l) (fun _ => false) [W_r1] W_s1 P_inc [ARef W_r1] [] [] (Ok (ROther W_r2)) W_s2)|].
  - apply inc_atom_op.
  - apply inc_atom_call; [by intros r Hr|done|by intros []].
  - constructor.
  - done.
  - exact W_step2.
  - eapply ass_cons; [|constructor]. eapply as_commit; [|exact W_step3].
    unfold orders_of. cbn [o_atoms o_shapes o_ops o_calls]. done.
Qed.

Section props.
  Context (H : pyval -> string) (sel : list crow -> list crow) (bigA : pyval -> bool).
  Hypothesis Hinj : Inj (=) (=) H.
  Hypothesis sel_perm : forall l, sel l ≡ₚ l.

  (** * C01
      After any history, a call [o(args, kw)] returned [ret].  Then anything happened: other calls (of any op in
      the scope, also raising ones), commits, cleared caches, new processes.  Now the call is repeated with the same
      arguments (refs may meanwhile be in memory or not).  It returns refs with the same ids, executes
      nothing ([s_log] records executions) and records nothing.
      Partial: ops whose parameters and returns are atoms; no versioning.  The same op has the same
      definition in both calls. *)
  Theorem C01_repeated_call_not_executed_partial :
    forall es0 held s o args kw keys ret s1 es held2 s2 args' kw' keys' r s3,
      areach H sel bigA es0 (held, s) ->
      atom_op o -> atom_call held o args kw s ->
      call_run H sel o args kw keys s = (Ok ret, s1) ->
      asteps H sel bigA (returned_refs (Ok ret) ++ held, s1) es (held2, s2) ->
      same_passed args kw args' kw' -> passes_held held2 o args' kw' ->
      call_run H sel o args' kw' keys' s2 = (r, s3) ->
      exists ret', r = Ok ret' /\ same_ids ret ret' /\ s_log s3 = s_log s2 /\
        forall hid, recorded s3 hid <-> recorded s2 hid.
  Proof using Hinj sel_perm.
    intros es0 held s o args kw keys ret s1 es held2 s2 args' kw' keys' r s3 Hre Hao Hac E1 Hst Hsame Hph E2.
    destruct (areach_good H sel bigA Hinj sel_perm _ _ Hre) as [m Hi].
    exact (repeat_call H sel bigA Hinj sel_perm _ _ _ _ _ _ _ _ _ _ _ _ _ _ _ _ _ Hi Hao Hac E1 Hst Hsame Hph E2).
  Qed.

  (** * C02
      While the caches are kept (the README's claim is false without this, [C02_refuted] in Props_Storage2.v)
      and no call raises, no computation is executed twice: the executions [new] in any stretch of any history
      have pairwise different (op name, op version, contents of the inputs).  Calls with other histories of the
      inputs, commits, reading and loading in between do not matter. *)
  Theorem C02_executed_at_most_once_in_process_partial :
    forall es0 x es y, areach H sel bigA es0 x -> asteps H sel bigA x es y ->
      Forgot ∉ es -> (forall o args kw r, Called o args kw r ∈ es -> exists ret, r = Ok ret) ->
      exists new, s_log y.2 = s_log x.2 ++ new /\ NoDup (map executed new).
  Proof using Hinj sel_perm.
    intros es0 x es y Hre Hst Hf Hok. destruct (areach_good H sel bigA Hinj sel_perm _ _ Hre) as [m Hi].
    destruct (executed_once H sel bigA Hinj sel_perm _ _ _ _ Hi Hst Hf Hok) as (new & E1 & E2 & _). eauto.
  Qed.

  (** * C18
      In every reachable state every recorded call can be read: its rows, its op, and all its inputs and
      outputs, with or without their values; the values are the ones the content ids stand for. *)
  Theorem C18_recorded_call_loads_partial :
    forall es held s hid in_mem, areach H sel bigA es (held, s) -> recorded s hid ->
      exists d c s', cc_get sel hid (t_calls (s_tabs s)) = Ok d /\ d_hid d = hid /\
        call_from_data d in_mem s = (Ok c, s') /\ loaded H in_mem d c.
  Proof using Hinj sel_perm.
    intros es held s hid im Hre Hr. destruct (areach_good H sel bigA Hinj sel_perm _ _ Hre) as [m Hi].
    exact (recorded_loads H sel Hinj sel_perm _ _ _ _ _ Hi Hr).
  Qed.
  (** ... through [mget_call] (storage.py:352-379), which all the reading functions use, as long as the caches of
      the process were never cleared ([C18_after_clear_refuted] below) *)
  Theorem C18_mget_call_partial :
    forall es held s hids in_mem, areach H sel bigA es (held, s) -> s_alias s = None ->
      (forall hid, hid ∈ hids -> recorded s hid) ->
      exists cs s', mget_call sel hids in_mem s = (Ok cs, s') /\
        Forall2 (fun hid c => c_hid c = hid /\ exists d, d_hid d = hid /\ loaded H in_mem d c) hids cs.
  Proof using Hinj sel_perm.
    intros es held s hids im Hre Hal Hr. destruct (areach_good H sel bigA Hinj sel_perm _ _ Hre) as [m Hi].
    exact (mget_loads H sel Hinj sel_perm _ _ _ _ _ Hi Hal Hr).
  Qed.
End props.
Print Assumptions C01_repeated_call_not_executed_partial.
Print Assumptions C02_executed_at_most_once_in_process_partial.
Print Assumptions C18_recorded_call_loads_partial.
Print Assumptions C18_mget_call_partial.

(** ** Concrete cases: [inc(3)], [inc] of the result, commit, clear the caches, [inc(3)] again *)
Lemma W_reach1 : areach ser (fun l => l) (fun _ => false) [W_ev1; W_ev2; Other] ([W_r2; W_r1], W_s3).
Proof. exists true. eapply ass_cons; [exact W_asteps1|exact W_asteps2]. Qed.
Lemma W_asteps3 : W_asteps ([W_r1], W_s1) [W_ev2; Other; Forgot] ([W_r2; W_r1], W_s4).
Proof.
  assert (forall x es y e z, W_asteps x es y -> astep ser (fun l => l) (fun _ => false) y e z -> W_asteps x (es ++ [e]) z) as Happ.
  { intros x es y e z Hs He. induction Hs as [x|x e' y es z' H1 H2 IH]; [by eapply ass_cons; [|constructor]|]. eapply ass_cons; [done|]. by apply IH. }
  apply (Happ _ _ _ _ _ W_asteps2). apply (as_clear ser (fun l => l) (fun _ => false) _ _ (clear_storage false W_s3).1). apply surjective_pairing.
Qed.
Example C01_example :
  exists r, call_run ser (fun l => l) P_inc [P_int 3] [] [] W_s4 = (Ok (ROther r), (W_call (P_int 3) W_s4).2) /\
    rcid r = rcid W_r1 /\ rhid r = rhid W_r1 /\ length (s_log (W_call (P_int 3) W_s4).2) = 2.
Proof. eexists. split; [apply run_ok; vmr|]. split_and!; vmr. Qed.
Example C01_hypotheses :
  areach ser (fun l => l) (fun _ => false) [] ([], P_new) /\ atom_op P_inc /\ atom_call [] P_inc [P_int 3] [] P_new /\
  call_run ser (fun l => l) P_inc [P_int 3] [] [] P_new = (Ok (ROther W_r1), W_s1) /\
  W_asteps (returned_refs (Ok (ROther W_r1)) ++ [], W_s1) [W_ev2; Other; Forgot] ([W_r2; W_r1], W_s4) /\
  same_passed [P_int 3] [] [P_int 3] [] /\ passes_held [W_r2; W_r1] P_inc [P_int 3] [].
Proof.
  split_and!.
  - exists true. constructor.
  - apply inc_atom_op.
  - apply inc_atom_call; [by intros r ?%elem_of_nil|done|by intros []].
  - exact W_step1.
  - exact W_asteps3.
  - split; repeat constructor.
  - apply (inc_atom_call [W_r2; W_r1] (P_int 3) P_new); [by intros r ?%elem_of_nil|done|by intros []].
Qed.
Example C02_hypotheses :
  areach ser (fun l => l) (fun _ => false) [] ([], P_new) /\
  W_asteps ([], P_new) [W_ev1; W_ev2; Other] ([W_r2; W_r1], W_s3) /\
  Forgot ∉ [W_ev1; W_ev2; Other] /\ (forall o args kw r, Called o args kw r ∈ [W_ev1; W_ev2; Other] -> exists ret, r = Ok ret) /\
  length (s_log W_s3) = 2.
Proof.
  split_and!.
  - exists true. constructor.
  - eapply ass_cons; [exact W_asteps1|exact W_asteps2].
  - intros [?|[?|[?|?%elem_of_nil]%elem_of_cons]%elem_of_cons]%elem_of_cons; done.
  - intros o args kw r [E|[E|[E|?%elem_of_nil]%elem_of_cons]%elem_of_cons]%elem_of_cons; try done; injection E as -> -> -> ->; eauto.
  - vmr.
Qed.
Example C18_example :
  areach ser (fun l => l) (fun _ => false) [W_ev1; W_ev2; Other] ([W_r2; W_r1], W_s3) /\ s_alias W_s3 = None /\
  recorded W_s3 (P_hid P_inc (P_atom 3)) /\ recorded W_s3 (P_hid P_inc W_r1) /\
  isok (mget_call (fun l => l) [P_hid P_inc W_r1; P_hid P_inc (P_atom 3)] false W_s3).1 = true.
Proof. split_and!; [exact W_reach1|vmr..]. Qed.
(** After [clear_cache()] the storage's [call_cache] is the abandoned cache (storage_utils.py:780 replaces
    [calls.cache], storage.py:95-97 keeps the old object): a call recorded since then, but not committed,
    cannot be read by [mget_call]. *)
Theorem C18_after_clear_refuted :
  exists s r s', (P_commit ;;; clear_storage false ;;; P_run P_inc (P_int 3))%pym P_new = (Ok r, s) /\
    recorded s (P_hid P_inc (P_atom 3)) /\
    mget_call (fun l => l) [P_hid P_inc (P_atom 3)] true s = (Err EKeyError, s').
Proof. eexists _, _, _. split; [apply run_ok; vmr|]. split; [vmr|]. apply run_err. vmr. Qed.
Print Assumptions C18_after_clear_refuted.
