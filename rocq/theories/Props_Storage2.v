(** C20, C21, C27, C28, the effects of C11, and refutations of C02, C19, C22: theorems for arbitrary states of the tables. *)
From stdpp Require Import base strings gmap list.
From Verif Require Import Base PyDict Returns DictStore CallStore Spec_CallStore CallStore_proofs Commit
  Refs Args Ident Storage Spec_Storage Spec_Storage2 Storage_laws Storage_save Storage_drop.

(** * Sample program
    [inc(x)] returns [x + 1], [pair(x) -> MList] returns [[x, x + 1]], [count(x : MList[MList[...]])]
    returns the length. *)
Definition P_inc : opdef := OpDef (Op "inc" NoutAuto None 0 [] false) [Param "x" KPosOrKw None TAtom] RAnnNone
  (fun env => match env with [(_, BOne (AVal (VInt z)))] => Ok (ROther (AVal (VInt (z+1)))) | _ => Err ETypeError end).
Definition P_pair : opdef := OpDef (Op "pair" NoutAuto None 0 [] false) [Param "x" KPosOrKw None TAtom] (RAnnOther (TList TAtom))
  (fun env => match env with [(_, BOne (AVal (VInt z)))] => Ok (ROther (AVal (VList [VInt z; VInt (z+1)]))) | _ => Err ETypeError end).
Definition P_count : opdef := OpDef (Op "count" NoutAuto None 0 [] false) [Param "x" KPosOrKw None (TList (TList TAtom))] RAnnNone
  (fun env => match env with [(_, BOne (AVal (VList l)))] => Ok (ROther (AVal (VInt (Z.of_nat (length l))))) | _ => Err ETypeError end).
Definition P_run (o : opdef) (a : arg) : M st ref :=
  (r <- call_run ser (fun l => l) o [a] [] [] ;; match r with ROther x => retM x | _ => raiseM EAssertion end)%pym.
Definition P_commit : M st unit := fun s =>
  commit_storage (fun _ => false) (fun _ => None)
    (Orders (elements (cd_dirty (t_atoms (s_tabs s)))) (elements (cd_dirty (t_shapes (s_tabs s))))
            (elements (cd_dirty (t_ops (s_tabs s)))) (elements (cc_dirty (t_calls (s_tabs s))))) s.
Definition P_new : st := new_storage true.
Definition P_int (z : Z) : arg := AVal (VInt z).
(** the id of the call [o(a)] *)
Definition P_hid (o : opdef) (r : ref) : string := call_hid ser (od_op o) [("x", r)] None.
Definition P_atom (z : Z) : ref := wrap_atom ser (VInt z) None.
Definition P_deps (hids : list string) : M st (gset string) := fun s => (to_drop (list_to_set hids) true s, s).

(** Witnesses are kept as unevaluated programs. *)
Definition okv {A} (d : A) (r : result A) : A := match r with Ok a => a | Err _ => d end.
Definition isok {A} (r : result A) : bool := match r with Ok _ => true | Err _ => false end.
Lemma run_ok {A} (f : M st A) (s : st) (a : A) : (f s).1 = Ok a -> f s = (Ok a, (f s).2).
Proof. destruct (f s); cbn; congruence. Qed.
Lemma run_ok_ex {A} (f : M st A) (d : A) (s : st) : isok (f s).1 = true -> f s = (Ok (okv d (f s).1), (f s).2).
Proof. destruct (f s) as [[?|?] ?]; cbn; congruence. Qed.
Lemma okv_ok {A} (d : A) (r : result A) : isok r = true -> r = Ok (okv d r).
Proof. destruct r; cbn; congruence. Qed.
Lemma run_err {A} (f : M st A) (s : st) (e : exn) : (f s).1 = Err e -> f s = (Err e, (f s).2).
Proof. destruct (f s); cbn; congruence. Qed.
Lemma bd_eq {A} `{EqDecision A} (x y : A) : bool_decide (x = y) = true -> x = y.
Proof. apply bool_decide_eq_true_1. Qed.
Lemma bd_ne {A} `{EqDecision A} (x y : A) : bool_decide (x = y) = false -> x <> y.
Proof. apply bool_decide_eq_false_1. Qed.
Ltac vmr := vm_compute; reflexivity.
Ltac stt := eexists; split; [apply run_ok; vmr|].
Ltac clean := split_and!; apply bd_eq; vmr.
Definition P_dummy : ref := RAtom "" "" None.

(** * C02
    The README's "never computes the same call twice" is false: content lookups go to the in-memory
    cache only (storage_utils.py:737-742 looks for a ref with that id in the database), so after
    [clear_cache()] (or in a new process) an op is executed again on an input with the same content
    but another history.  Here [inc(3)] is executed twice: directly, and on the result of [inc(2)]. *)
Theorem C02_refuted :
  exists s, (P_run P_inc (P_int 3) ;;; P_commit ;;; clear_storage false ;;;
             r <- P_run P_inc (P_int 2) ;; P_run P_inc (ARef r) ;;; retM tt)%pym P_new = (Ok tt, s) /\
  exists o1 i1 o2 i2 o3 i3, s_log s = [(o1, i1); (o2, i2); (o3, i3)] /\
    op_name o1 = op_name o3 /\ op_version o1 = op_version o3 /\ cid_dict i1 = cid_dict i3.
Proof.
  stt. do 6 eexists. split; [vmr|]. vm_compute. auto.
Qed.
Print Assumptions C02_refuted.
(** ... also across processes *)
Theorem C02_reopen_refuted :
  exists s, (P_run P_inc (P_int 3) ;;; P_commit ;;; modM reopen ;;;
             r <- P_run P_inc (P_int 2) ;; P_run P_inc (ARef r) ;;; retM tt)%pym P_new = (Ok tt, s) /\
  exists o1 i1 o2 i2 o3 i3, s_log s = [(o1, i1); (o2, i2); (o3, i3)] /\
    op_name o1 = op_name o3 /\ op_version o1 = op_version o3 /\ cid_dict i1 = cid_dict i3.
Proof.
  stt. do 6 eexists. split; [vmr|]. vm_compute. auto.
Qed.
Print Assumptions C02_reopen_refuted.

(** * C11, the effects: in 'noop' mode an op call only reads, whatever the state *)
Theorem C11_noop_only_reads :
  forall o args kw s r s', call_noop o args kw s = (r, s') -> only_read s s'.
Proof. intros o args kw s r s' E. pose proof (call_noop_read o args kw s) as H. by rewrite E in H. Qed.
Print Assumptions C11_noop_only_reads.
(** "Leaves the dirty marks unchanged" is false: unwrapping a ref that is not in memory marks its atom
    for writing (storage.py:495), so that for example a following [clear_cache()] outside of a context raises. *)
Theorem C11_dirty_marks_refuted :
  exists s, (P_run P_inc (P_int 3) ;;; r <- P_run P_inc (P_int 3) ;; P_commit ;;; retM r)%pym P_new =
              (Ok (RAtom (ser (VInt 4)) (output_hid ser (P_hid P_inc (P_atom 3)) "output_0") None), s) /\
    nothing_dirty s /\
    exists s', call_noop P_inc [ARef (RAtom (ser (VInt 4)) (output_hid ser (P_hid P_inc (P_atom 3)) "output_0") None)] [] s =
                 (Ok (ROther (AVal (VInt 5))), s') /\
      ~ nothing_dirty s' /\ (clear_storage false s').1 = Err EValueError.
Proof.
  stt. split; [clean|]. stt. split; [|vmr].
  intros [E _]. revert E. apply bd_ne. vmr.
Qed.
Print Assumptions C11_dirty_marks_refuted.

(** * C27
    With new calls forbidden no user function is executed, in any state, for any op and arguments, whether
    the call returns or raises. *)
Theorem C27_nothing_executed :
  forall H sel o args kw keys s r s', s_allow s = false -> call_run H sel o args kw keys s = (r, s') ->
    s_log s' = s_log s /\ s_allow s' = false.
Proof. intros H sel. exact (forbidden_no_execution H sel). Qed.
Print Assumptions C27_nothing_executed.
(** If it returns, it returns the outputs of a call found in the storage; if it raises RuntimeError,
    nothing has been recorded or marked except possibly atoms (see C11). *)
Theorem C27_memoized_or_RuntimeError :
  forall H sel o args kw keys s r s', s_allow s = false -> call_run H sel o args kw keys s = (r, s') ->
    (forall ret, r = Ok ret -> exists ins s1 c outs, only_read s s1 /\ (lookup_call H sel (od_op o) ins s1).1 = Ok (Some c) /\
        get_ordered_outputs (op_onames (od_op o)) (c_outs c) = Ok outs /\ ret = present_outputs outs) /\
    (r = Err ERuntime -> only_read s s').
Proof. intros H sel. exact (forbidden_outcome H sel). Qed.
Print Assumptions C27_memoized_or_RuntimeError.
(** "No call recorded, nothing marked for writing" is false: if only the content of the inputs is known
    the call is recorded under the new history (storage.py:671-695, 1195-1198). *)
Theorem C27_recording_refuted :
  exists r s, (P_run P_inc (P_int 3) ;;; r <- P_run P_inc (P_int 2) ;; P_commit ;;;
               modM (fun s => St (s_tabs s) (s_alias s) false (s_log s)) ;;; retM r)%pym P_new = (Ok r, s) /\
    nothing_dirty s /\ ~ recorded s (P_hid P_inc r) /\
    exists r' s', P_run P_inc (ARef r) s = (Ok r', s') /\ recorded s' (P_hid P_inc r) /\ ~ nothing_dirty s' /\ s_log s' = s_log s.
Proof.
  eexists _, _. split; [apply (run_ok_ex _ P_dummy); vmr|]. split; [clean|].
  split; [unfold recorded; by vm_compute|]. eexists _, _. split; [apply (run_ok_ex _ P_dummy); vmr|]. split; [unfold recorded; vmr|].
  split; [|vmr]. intros (_ & E & _). revert E. apply bd_ne. vmr.
Qed.
Print Assumptions C27_recording_refuted.
(** both outcomes occur *)
Example C27_example :
  exists s, (P_run P_inc (P_int 3) ;;; modM (fun s => St (s_tabs s) (s_alias s) false (s_log s)))%pym P_new = (Ok tt, s) /\
    s_allow s = false /\
    (exists r, (P_run P_inc (P_int 3) s).1 = Ok r) /\ (P_run P_inc (P_int 4) s).1 = Err ERuntime.
Proof.
  stt. split; [vmr|]. split; [eexists|]; vmr.
Qed.

(** * C28 *)
Theorem C28_save_ref_twice : forall r s s', save_ref r s = (Ok tt, s') -> save_ref r s' = (Ok tt, s').
Proof. exact save_ref_twice. Qed.
Print Assumptions C28_save_ref_twice.
(** saving (some of) the calls again changes nothing *)
Theorem C28_save_calls_again : forall cs cs' s s',
  iterM save_call cs s = (Ok tt, s') -> (forall c, c ∈ cs' -> c ∈ cs) -> iterM save_call cs' s' = (Ok tt, s').
Proof. exact save_calls_again. Qed.
Print Assumptions C28_save_calls_again.
(** any order, any number of times *)
Theorem C28_save_order : forall cs cs' s s1,
  consistent cs -> (forall c, c ∈ cs <-> c ∈ cs') ->
  iterM save_call cs s = (Ok tt, s1) -> exists s2, iterM save_call cs' s = (Ok tt, s2) /\ same_tables s1 s2.
Proof. exact save_order. Qed.
Print Assumptions C28_save_order.

Definition C28_call (n : string) (i o : ref) : call :=
  Call (od_op P_inc) ("cid" +:+ n) ("hid" +:+ n) [("x", i)] [("output_0", o)] None None.
Definition C28_a : ref := RAtom "c1" "h1" (Some (VInt 1)).
Definition C28_l : ref := RList "cl" "hl" (Some [C28_a; RAtom "c2" "h2" (Some (VInt 2))]).
Ltac elems H := repeat (apply elem_of_cons in H as [H|H]; [subst|]); [..|by apply elem_of_nil in H].
(** two calls sharing a ref that is also inside a list *)
Example C28_example :
  let c := C28_call "1" C28_l C28_a in
  let c' := C28_call "2" C28_a (RAtom "c2" "h2" (Some (VInt 2))) in
  consistent [c; c'] /\
  exists s, iterM save_call [c; c'] P_new = (Ok tt, s) /\ exists s', iterM save_call [c'; c; c'] P_new = (Ok tt, s').
Proof.
  cbn zeta. split.
  - split.
    + intros r r' H1 H2. elems H1; elems H2; cbn; intros E; try reflexivity; discriminate.
    + intros c h h' v v' H1 H2. apply elem_of_list_In in H1, H2. cbn in H1, H2. intuition congruence.
    + intros c c' H1 H2 E. elems H1; elems H2; try reflexivity; vm_compute in E; discriminate.
    + intros c c' H1 H2 E. elems H1; elems H2; reflexivity.
  - stt. eexists. apply run_ok. vmr.
Qed.
(** Without consistency the order matters: a ref that is saved while not in memory keeps its atom from being
    saved later. *)
Theorem C28_detached_refuted :
  let c := C28_call "1" C28_a C28_a in
  let c' := C28_call "2" (detached C28_a) (detached C28_a) in
  exists s s', iterM save_call [c; c'] P_new = (Ok tt, s) /\ iterM save_call [c'; c] P_new = (Ok tt, s') /\
    (get_atom "c1" s).1 = Ok (VInt 1) /\ (get_atom "c1" s').1 = Err EKeyError.
Proof.
  cbn zeta. eexists _, _. split; [apply run_ok; vmr|]. split; [apply run_ok; vmr|]. split; vmr.
Qed.
Print Assumptions C28_detached_refuted.

(** * C20
    The call table is what any history of saves, commits, cache clears and re-opens leaves, everything is committed, and
    the storage's [call_cache] is still the cache in use ([clear_cache()] breaks this, see C21 below).
    Deleting a set of calls with their dependents deletes exactly the calls reachable from them in the provenance graph; what is
    recorded of the others stays the same; no remaining call uses an output of a deleted one; refs and ops are untouched. *)
Theorem C20_delete_dependents :
  forall sel os bs k s hids D order r s',
    (forall l, sel l ≡ₚ l) -> (forall c, KSave c ∈ os -> call_ok c) ->
    ksteps sel (cc_open []) os bs k -> cc_dirty k = ∅ -> t_calls (s_tabs s) = k -> s_alias s = None ->
    to_drop hids true s = Ok D -> order ≡ₚ elements D -> drop_calls order s = (r, s') ->
    r = Ok tt /\
    (forall h, recorded s' h <-> recorded s h /\ ~ desc_call (cc_pers k) ∅ hids h) /\
    (forall h, recorded s' h -> exists c c', cc_get sel h (t_calls (s_tabs s)) = Ok c /\
                                             cc_get sel h (t_calls (s_tabs s')) = Ok c' /\ info c' = info c) /\
    (forall h h' x, recorded s' h -> recorded s h' -> ~ recorded s' h' -> makes (cc_pers k) h' x -> ~ uses (cc_pers k) h x) /\
    (t_atoms (s_tabs s') = t_atoms (s_tabs s) /\ t_shapes (s_tabs s') = t_shapes (s_tabs s) /\ t_ops (s_tabs s') = t_ops (s_tabs s)).
Proof. intros sel os bs k s hids D order r s' Hsel. exact (drop_dependents sel Hsel os bs k s hids D order r s'). Qed.
Print Assumptions C20_delete_dependents.
(** the set of dependents can always be computed *)
Theorem C20_dependents_defined : forall hids s, exists D, to_drop hids true s = Ok D.
Proof.
  intros hids s. unfold to_drop. destruct (get_dependents_exact (cc_pers (t_calls (s_tabs s))) ∅ hids) as (refs & calls & E & _).
  rewrite E. by eexists.
Qed.
Print Assumptions C20_dependents_defined.

(** [inc(inc(1))], [inc(10)]; deleting [inc(1)] deletes [inc(inc(1))] *)
Example C20_example :
  exists s, (r <- P_run P_inc (P_int 1) ;; P_run P_inc (ARef r) ;;; P_run P_inc (P_int 10) ;;; P_commit)%pym P_new = (Ok tt, s) /\
    s_alias s = None /\ cc_dirty (t_calls (s_tabs s)) = ∅ /\ has_call (P_hid P_inc (P_atom 1)) s = true /\
    exists D, to_drop {[P_hid P_inc (P_atom 1)]} true s = Ok D /\ size D = 2 /\
      exists s', drop_calls (elements D) s = (Ok tt, s') /\
        has_call (P_hid P_inc (P_atom 1)) s' = false /\ has_call (P_hid P_inc (P_atom 10)) s' = true.
Proof.
  stt. split; [vmr|]. split; [apply bd_eq; vmr|]. split; [vmr|].
  lazymatch goal with |- exists D, ?t = Ok D /\ _ => exists (okv ∅ t) end. split; [|split; [vmr|]].
  - apply okv_ok. vmr.
  - stt. split; vmr.
Qed.

(** * C21
    After deleting committed calls ([call_cache] still in use), the table behaves under every further sequence of
    saves, reads, commits, clears and re-opens exactly like an ideal table from which these calls were removed: lookups of their
    ids miss, commits succeed, they do not come back unless saved again. *)
Theorem C21_deleted_are_gone :
  forall sel os bs k s D order r s' os' bs' k',
    (forall l, sel l ≡ₚ l) ->
    (forall c, KSave c ∈ os -> call_ok c) -> (forall c, KSave c ∈ os' -> call_ok c) ->
    ksteps sel (cc_open []) os bs k -> t_calls (s_tabs s) = k -> s_alias s = None ->
    order ≡ₚ elements D -> (forall h, h ∈ D -> h ∉ cc_dirty k) -> drop_calls order s = (r, s') ->
    ksteps sel (t_calls (s_tabs s')) os' bs' k' ->
    r = Ok tt /\
    bs' = (kspec_run (without D (kspec_run (∅, ∅) os).2.1, without D (kspec_run (∅, ∅) os).2.2) os').1.
Proof.
  intros sel os bs k s D order r s' os' bs' k' Hsel. exact (drop_refines sel Hsel os bs k s D order r s' os' bs' k').
Qed.
Print Assumptions C21_deleted_are_gone.
Example C21_example :
  exists s, (P_run P_inc (P_int 1) ;;; P_run P_inc (P_int 10) ;;; P_commit ;;;
             drop_calls [P_hid P_inc (P_atom 1)] ;;; P_run P_inc (P_int 1) ;;; P_commit)%pym P_new = (Ok tt, s) /\
    length (s_log s) = 3.
Proof.
  stt. vmr.
Qed.
(** A call that was not committed yet: its dirty mark stays (storage.py:425-427 goes around
    [CachedCallStorage.drop]), so every later commit raises ValueError. *)
Theorem C21_uncommitted_refuted :
  exists s s' , (P_run P_inc (P_int 1) ;;; drop_calls [P_hid P_inc (P_atom 1)])%pym P_new = (Ok tt, s) /\
    P_commit s = (Err EValueError, s') /\ (P_commit s').1 = Err EValueError.
Proof.
  eexists _, _. split; [apply run_ok; vmr|]. split; [apply run_err; vmr|]. vmr.
Qed.
Print Assumptions C21_uncommitted_refuted.
(** After [clear_cache()] the storage deletes from the abandoned cache object: the call stays. *)
Theorem C21_after_clear_refuted :
  exists s, (P_commit ;;; clear_storage false ;;; P_run P_inc (P_int 1) ;;; P_commit ;;;
             drop_calls [P_hid P_inc (P_atom 1)] ;;; P_run P_inc (P_int 1) ;;; retM tt)%pym P_new = (Ok tt, s) /\
    length (s_log s) = 1 /\ cc_pers (t_calls (s_tabs s)) = [].
Proof.
  stt. split; vmr.
Qed.
Print Assumptions C21_after_clear_refuted.
(** A deleted call whose content is also recorded under another history is not executed again. *)
Theorem C21_content_twin_refuted :
  exists s, (P_run P_inc (P_int 3) ;;; r <- P_run P_inc (P_int 2) ;; P_run P_inc (ARef r) ;;; P_commit ;;;
             drop_calls [P_hid P_inc (P_atom 3)] ;;; retM tt)%pym P_new = (Ok tt, s) /\
    has_call (P_hid P_inc (P_atom 3)) s = false /\
    s_log (P_run P_inc (P_int 3) s).2 = s_log s.
Proof.
  stt. split; vmr.
Qed.
Print Assumptions C21_content_twin_refuted.

(** * C19
    Nested lists do not survive: [load_ref] loads the elements but returns the list of detached ones
    (storage.py:279-284), so unwrapping raises AssertionError. *)
Theorem C19_nested_list_refuted :
  let v := VList [VList [VInt 1]] in
  exists r cs s, construct ser (fun l => l) (TList (TList TAtom)) (AVal v) P_new = (Ok (r, cs), s) /\
    (unwrap_ref r s).1 = Ok v /\
    exists s', (P_run P_count (AVal v) ;;; retM tt)%pym P_new = (Ok tt, s') /\
      exists r' s'', load_ref false (rhid r) s' = (Ok r', s'') /\ rcid r' = rcid r /\ (unwrap_ref r' s'').1 = Err EAssertion.
Proof.
  cbn zeta. eexists _, _, _. split; [apply (run_ok (construct ser _ _ _)); vmr|]. split; [vmr|].
  stt. eexists _, _. split; [apply run_ok; vmr|]. split; vmr.
Qed.
Print Assumptions C19_nested_list_refuted.

(** * C22
    [pair] is computed on [3], then found by content on the result of [inc(2)]: the new list ref shares its elements with
    the old one.  After deleting the first call (with its dependents) and cleaning up, the remaining call cannot be
    loaded: KeyError. *)
Theorem C22_refuted :
  exists r s, (P_run P_pair (P_int 3) ;;; x <- P_run P_inc (P_int 2) ;; r <- P_run P_pair (ARef x) ;; P_commit ;;;
               D <- P_deps [P_hid P_pair (P_atom 3)] ;; drop_calls (elements D) ;;; P_commit ;;; retM (x, r))%pym P_new = (Ok r, s) /\
    nothing_dirty s /\ recorded s (P_hid P_pair r.1) /\
    (mget_call (fun l => l) [P_hid P_pair r.1] true s).1 <> Err EKeyError /\
    (unwrap_ref r.2 s).1 = Ok (VList [VInt 3; VInt 4]) /\
    exists s', cleanup_refs s = (Ok tt, s') /\ recorded s' (P_hid P_pair r.1) /\
      (mget_call (fun l => l) [P_hid P_pair r.1] true s').1 = Err EKeyError /\
      (unwrap_ref r.2 s').1 = Err EKeyError.
Proof.
  eexists _, _. split; [apply (run_ok_ex _ (P_dummy, P_dummy)); vmr|]. split; [clean|]. split; [unfold recorded; vmr|].
  split; [apply (fun H => H : _ <> _); vm_compute; discriminate|]. split; [vmr|].
  stt. split; [unfold recorded; vmr|]. split; vmr.
Qed.
Print Assumptions C22_refuted.
