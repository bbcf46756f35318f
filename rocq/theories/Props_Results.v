(** C03: what an op call returns, memoized or not, is the function's result. *)
From stdpp Require Import base strings gmap list.
From Verif Require Import Base PyDict Returns Spec_Returns DictStore CallStore Spec_CallStore Commit Spec_Commit
  Refs Args Spec_Args Ident Storage Spec_Storage Spec_Atoms Storage_atoms Storage_atoms3 Spec_Results Storage_results
  Props_Storage2 Props_Atoms.

(** * C03
    After any history of calls (of this op and others), commits, reads, cleared caches and new processes: if the
    call [o(args, kw)] returns [out] -- executed, memoized, or found by the contents of its inputs -- then the plain
    function, called on the values of the arguments, returns a value [ret], and unwrapping [out] gives the values in [ret].
    The function is a function of its parameters ([od_fun]); the content hash has no collisions ([Hinj]);
    all calls of the history with this op name and version are calls of this function ([only_definition]).
    Partial: ops that take and return atoms; no starred parameters, nothing ignored (the result may depend on what
    is ignored), no [ValuePointer]s. *)
Theorem C03_result_is_the_functions_partial :
  forall (H : pyval -> string) (sel : list crow -> list crow) (bigA : pyval -> bool),
    Inj (=) (=) H -> (forall l, sel l ≡ₚ l) ->
  forall es held s o args kw keys out s',
    areach H sel bigA es (held, s) -> only_definition o es ->
    plain_op o -> atom_op o -> atom_call held o args kw s -> nothing_ignored args kw ->
    NoDup (map fst kw) -> keys ≡ₚ map fst kw ->
    call_run H sel o args kw keys s = (Ok out, s') ->
    exists ret, plain_returns o args kw s ret /\ stands_for (op_nout (od_op o)) s' out ret.
Proof.
  intros H sel bigA Hinj Hsel es held s o args kw keys out s' Hre Hd Hp Ha Hc Hn Hk Hks E.
  exact (result_is_functions H sel bigA Hinj Hsel es held s o args kw keys out s' Hre Hp Hd Ha Hc Hn Hk Hks E).
Qed.
Print Assumptions C03_result_is_the_functions_partial.

(** ** Concrete case: after [inc(3)], [inc] of the result, commit and clearing the caches, [inc] of the first result again:
    it is not executed and stands for 5 *)
Lemma inc_plain_op : plain_op P_inc.
Proof.
  split; cbn.
  - split; cbn.
    + apply NoDup_singleton.
    + intros i j p q [-> ->]%list_lookup_singleton_Some [-> ->]%list_lookup_singleton_Some. lia.
    + intros i j p q [-> ->]%list_lookup_singleton_Some [-> ->]%list_lookup_singleton_Some. done.
    + intros p ->%elem_of_list_singleton [|]; done.
  - by intros p ->%elem_of_list_singleton.
  - by intros p d ->%elem_of_list_singleton.
  - done.
Qed.
Definition W_es : list event := [W_ev1; W_ev2; Other; Forgot].
Lemma W_reach4 : areach ser (fun l => l) (fun _ => false) W_es ([W_r2; W_r1], W_s4).
Proof. exists true. eapply ass_cons; [exact W_asteps1|exact W_asteps3]. Qed.
Lemma W_definition : only_definition P_inc W_es.
Proof.
  intros o args kw r Hin _ _. repeat (apply elem_of_cons in Hin as [Hin|Hin]; [|]); try done;
    try (injection Hin as -> -> -> ->; split; [done|]; intros a b x ->%elem_of_list_singleton; done).
  by apply elem_of_nil in Hin.
Qed.
Example C03_hypotheses :
  areach ser (fun l => l) (fun _ => false) W_es ([W_r2; W_r1], W_s4) /\ only_definition P_inc W_es /\
  plain_op P_inc /\ atom_op P_inc /\ atom_call [W_r2; W_r1] P_inc [ARef W_r1] [] W_s4 /\ nothing_ignored [ARef W_r1] [] /\
  exists r, call_run ser (fun l => l) P_inc [ARef W_r1] [] [] W_s4 = (Ok (ROther r), (W_call (ARef W_r1) W_s4).2) /\
    length (s_log (W_call (ARef W_r1) W_s4).2) = 2 /\ (unwrap_ref r (W_call (ARef W_r1) W_s4).2).1 = Ok (VInt 5).
Proof.
  split_and!.
  - exact W_reach4.
  - exact W_definition.
  - apply inc_plain_op.
  - apply inc_atom_op.
  - apply inc_atom_call; [|done|by intros []]. intros r ->%elem_of_list_singleton. right. left.
  - by intros a b x ->%elem_of_list_singleton.
  - eexists. split; [apply run_ok; vmr|]. split; vmr.
Qed.

(** ** Outside of the scope the property is false
    (a) The content id of an empty list and of an empty dict are the same (model.py:330-333, 420-424:
    both are the hash of an empty list).  [kind(x)] is computed on an empty list; the call on an empty dict then gets the result. *)
Definition Y_kind : opdef := OpDef (Op "kind" NoutAuto None 0 [] false) [Param "x" KPosOrKw None TAtom] RAnnNone
  (fun env => match env with
              | [(_, BOne (AVal (VList _)))] => Ok (ROther (AVal (VStr "list")))
              | [(_, BOne (AVal (VDict _)))] => Ok (ROther (AVal (VStr "dict")))
              | _ => Err ETypeError end).
Definition Y_mklist : opdef := OpDef (Op "mklist" NoutAuto None 0 [] false) [Param "x" KPosOrKw None TAtom] (RAnnOther (TList TAtom))
  (fun _ => Ok (ROther (AVal (VList [])))).
Definition Y_mkdict : opdef := OpDef (Op "mkdict" NoutAuto None 0 [] false) [Param "x" KPosOrKw None TAtom] (RAnnOther (TDict TAtom TAtom))
  (fun _ => Ok (ROther (AVal (VDict [])))).
Theorem C03_empty_collections_refuted :
  exists ld s, (l <- P_run Y_mklist (P_int 0) ;; d <- P_run Y_mkdict (P_int 0) ;; P_run Y_kind (ARef l) ;;; retM (l, d))%pym P_new = (Ok ld, s) /\
    exists r s', P_run Y_kind (ARef ld.2) s = (Ok r, s') /\ (unwrap_ref r s').1 = Ok (VStr "list") /\
      plain_returns Y_kind [ARef ld.2] [] s (ROther (AVal (VStr "dict"))).
Proof.
  assert (forall x s, (unwrap (ARef x) s).1 = Ok (AVal (VDict [])) -> plain_returns Y_kind [ARef x] [] s (ROther (AVal (VStr "dict")))) as Hp.
  { intros x s Hu. exists [AVal (VDict [])], [], [("x", BOne (AVal (VDict [])))]. split_and!; [|constructor| |done].
    - constructor; [|constructor]. exists (unwrap (ARef x) s).2. by rewrite <-Hu, <-surjective_pairing.
    - apply Args_proofs.py_call_iff. reflexivity. }
  eexists _, _. split; [apply (run_ok_ex _ (P_dummy, P_dummy)); vmr|]. eexists _, _. split; [apply (run_ok_ex _ P_dummy); vmr|].
  split; [vmr|]. apply Hp. vmr.
Qed.
Print Assumptions C03_empty_collections_refuted.
(** (b) A [ValuePointer] has the id of the string it is named by (model.py:289-311): after [inc(ValuePointer('a', 5))], the call
    [inc('a')] returns 6, although the function raises. *)
Theorem C03_pointer_refuted :
  exists s r s', (P_run P_inc (AVal (VPtr "a" (VInt 5))) ;;; retM tt)%pym P_new = (Ok tt, s) /\
    P_run P_inc (AVal (VStr "a")) s = (Ok r, s') /\ (unwrap_ref r s').1 = Ok (VInt 6) /\
    (forall ret, ~ plain_returns P_inc [AVal (VStr "a")] [] s ret).
Proof.
  assert (forall s ret, ~ plain_returns P_inc [AVal (VStr "a")] [] s ret) as Hp.
  { intros s ret (args' & kw' & env & Ha & Hk & Hb & Ef). inversion Hk; subst. inversion Ha as [|? y ? ? [s1 Hy] Ha']; subst. inversion Ha'; subst.
    injection Hy as <- <-. apply Args_proofs.py_call_iff in Hb. cbn in Hb. injection Hb as <-. done. }
  eexists _, _, _. split; [apply run_ok; vmr|]. split; [apply (run_ok_ex _ P_dummy); vmr|]. split; [vmr|]. apply Hp.
Qed.
Print Assumptions C03_pointer_refuted.
