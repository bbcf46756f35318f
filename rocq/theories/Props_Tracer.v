(** C36: the dependencies of a call are tracked. *)
From stdpp Require Import base strings gmap list.
From Verif Require Import Base Dag Spec_Dag Versioner Spec_Versioner Tracer Spec_Tracer Tracer_proofs.

(** Full statement: for every body [b], if the execution completes
    ([(happens k.1 b).1 = true]) then the call completes and everything in
    [(happens k.1 b).2] is in the trace.  It is false: see the refutations
    below.  It holds for the bodies in which no op is called and no tracked
    function raises; then the trace has nothing else either. *)
Theorem C36_partial :
  forall k rt b ok tr, calm k.1 b -> no_ops b = true -> op_trace k rt b = (ok, tr) ->
  ok = (happens k.1 b).1 /\ t_roots tr = {[k]} /\
  (forall k' n, (k', n) ∈ (k, NCall None rt) :: (happens k.1 b).2 -> k' ∈ dom (t_nodes tr)) /\
  (forall k' n, t_nodes tr !! k' = Some n -> (k', n) ∈ (k, NCall None rt) :: (happens k.1 b).2).
Proof.
  intros k rt b ok tr C N E. pose proof (op_trace_spec k rt b C) as S. rewrite (before_all _ _ N) in S.
  destruct (happens k.1 b) as [ok' d]. destruct S as (ns & E' & [R1 R2]). rewrite E in E'. injection E' as -> ->.
  cbn. split_and!; auto.
  - intros k' n I. apply R2. right. apply elem_of_list_fmap. by exists (k', n).
  - intros k' n I. apply R1 in I as [I|I]; [|done]. by rewrite lookup_empty in I.
Qed.

(** With nested op calls: exactly what happens before the first one is
    tracked. *)
Theorem C36_before_nested_ops_partial :
  forall k rt b ok tr, calm k.1 b -> op_trace k rt b = (ok, tr) ->
  ok = (happens k.1 b).1 /\ t_roots tr = {[k]} /\
  (forall k' n, (k', n) ∈ (k, NCall None rt) :: (before_ops k.1 b).1.2 -> k' ∈ dom (t_nodes tr)) /\
  (forall k' n, t_nodes tr !! k' = Some n -> (k', n) ∈ (k, NCall None rt) :: (before_ops k.1 b).1.2).
Proof.
  intros k rt b ok tr C E. pose proof (op_trace_spec k rt b C) as S. rewrite <-before_ok.
  destruct (before_ops k.1 b) as [[ok' d] on]. destruct S as (ns & E' & [R1 R2]). rewrite E in E'. injection E' as -> ->.
  cbn. split_and!; auto.
  - intros k' n I. apply R2. right. apply elem_of_list_fmap. by exists (k', n).
  - intros k' n I. apply R1 in I as [I|I]; [|done]. by rewrite lookup_empty in I.
Qed.

(** A body with nested helpers, a global and a caught exception. *)
Definition kf : depkey := ("m", "f").
Definition kg : depkey := ("n", "g").
Definition kh : depkey := ("m", "h").
Definition body1 : prog :=
  PSeq (PHelper kg "g" (PSeq (PGlobal "K" "h10" "10") (PHelper kh "h" PSkip)))
       (PSeq (PTry (PSeq (PGlobal "L" "h1" "1") PRaise) (PHelper kh "h" PSkip)) (PGlobal "K" "h2" "2")).
Example body1_calm : calm "m" body1 /\ no_ops body1 = true.
Proof. by vm_compute. Qed.
Example body1_trace : (op_trace kf "f" body1).1 = true /\
  t_nodes (op_trace kf "f" body1).2 =
    {[ kf := NCall None "f"; kg := NCall None "g"; ("n", "K") := NGlobal "h10" "10"; kh := NCall None "h";
       ("m", "L") := NGlobal "h1" "1"; ("m", "K") := NGlobal "h2" "2" ]}.
Proof. split; [by vm_compute|]. apply (bool_decide_unpack _). vm_compute. exact I. Qed.

(** * Refutations *)

(** After a nested op call (a hit here) nothing is tracked any more
    (mandala/storage.py:800-804 sets the active tracer to [None] and nothing
    restores it); and the nested op itself is not a dependency
    ([register_leaf_event] is never called). *)
Definition after_op (hit : bool) : prog :=
  PSeq (POp kg "g" hit true PSkip) (PHelper kh "h" (PGlobal "K" "h10" "10")).
Theorem C36_after_nested_op_refuted :
  exists k rt b, calm k.1 b /\ (happens k.1 b).1 = true /\ (op_trace k rt b).1 = true /\
    exists k' n, (k', n) ∈ (happens k.1 b).2 /\ k' ∉ dom (t_nodes (op_trace k rt b).2).
Proof.
  exists kf, "f", (after_op true). split_and!; try by vm_compute.
  exists kh, (NCall None "h"). split.
  - vm_compute. right. left.
  - apply (bool_decide_unpack _). vm_compute. exact I.
Qed.
Example nested_op_itself_missing :
  kg ∉ dom (t_nodes (op_trace kf "f" (after_op true)).2) /\ kg ∉ dom (t_nodes (op_trace kf "f" (after_op false)).2) /\
  (kg, NCall None "g") ∈ (happens "m" (after_op false)).2.
Proof.
  split_and!.
  - apply (bool_decide_unpack _). vm_compute. exact I.
  - apply (bool_decide_unpack _). vm_compute. exact I.
  - vm_compute. left.
Qed.

(** A helper that raises, caught by the op: the call fails though the function
    returned (dec_impl.py:124-133 has no [finally]; the assertion of
    [register_return] fails). *)
Definition caught : prog := PTry (PHelper kg "g" PRaise) (PHelper kh "h" PSkip).
Theorem C36_caught_exception_refuted :
  exists k rt b, no_ops b = true /\ (happens k.1 b).1 = true /\ (op_trace k rt b).1 = false.
Proof. exists kf, "f", caught. by vm_compute. Qed.

(** End to end: the op [f] calls the op [g], then the helper [h].  After [h] is
    edited, nothing is asked and the stored result of [f] is reused. *)
Definition code1 : gmap depkey node :=
  {[ kf := NCall (Some "def f(x): return h(g(x))") "f"; kg := NCall (Some "def g(x): return x+1") "g";
     kh := NCall (Some "def h(x): return x+1") "h" ]}.
Definition code2 : gmap depkey node := <[ kh := NCall (Some "def h(x): return x+2") "h2" ]> code1.
Definition tr1 : trace := (op_trace kf "f" (after_op true)).2.
Definition st0 := sync_codebase ser code1 (new_versioner true, User [] []).
Definition st1 := finish_call ser tr1 "u" (st0.2.1, code1).
Definition st2 := sync_codebase ser code2 (st1.2.1, User [] []).
Theorem C36_stale_result_refuted :
  exists vs cs b uid v vs1 cs1 k src rt vs2 u2,
    session ser vs cs /\ calm kf.1 b /\
    (* the call runs and is recorded; it calls [k] *)
    (op_trace kf "f" b).1 = true /\ (exists n, (k, n) ∈ (happens kf.1 b).2) /\
    finish_call ser (op_trace kf "f" b).2 uid (vs, cs) = (Ok v, (vs1, cs1)) /\
    (* then the source of [k] changes, and the result is reused unasked *)
    cs1 !! k <> Some (NCall (Some src) rt) /\
    sync_codebase ser (<[k := NCall (Some src) rt]> cs1) (vs1, User [] []) = (Ok tt, (vs2, u2)) /\
    u_asked u2 = [] /\
    lookup_call ser vs2 kf uid (<[k := NCall (Some src) rt]> cs1) = Ok (Some (v_cv v, v_sv v)).
Proof.
  assert (P : match st1.1 with Ok v =>
     lookup_call ser st2.2.1 kf "u" code2 = Ok (Some (v_cv v, v_sv v)) /\ st1.2.2 = code1 /\ st2.1 = Ok tt /\ u_asked st2.2.2 = []
     | Err _ => False end).
  { assert (E : st1.1 = st1.1) by done. destruct st1.1 as [v|] eqn:E1 in |- *; [|exfalso; revert E1; by vm_compute].
    assert (Ev : option_map (fun v => (v_cv v, v_sv v)) (match st1.1 with Ok v => Some v | _ => None end)
      = match lookup_call ser st2.2.1 kf "u" code2 with Ok o => o | _ => None end) by (by vm_compute).
    assert (E2 : match lookup_call ser st2.2.1 kf "u" code2 with Ok _ => true | _ => false end = true) by (by vm_compute).
    split_and!.
    - rewrite E1 in Ev. revert Ev E2. generalize (lookup_call ser st2.2.1 kf "u" code2). clear.
      intros [o|e]; [|done]. cbn. by intros <-.
    - apply (bool_decide_unpack _). vm_compute. exact I.
    - by vm_compute.
    - by vm_compute. }
  destruct st1.1 as [v|] eqn:E1; [|done]. destruct P as (P1 & P2 & P3 & P4).
  exists st0.2.1, code1, (after_op true), "u", v, st1.2.1, st1.2.2, kh, "def h(x): return x+2", "h2", st2.2.1, st2.2.2.
  rewrite P2. fold code2. split; [|split; [|split; [|split; [|split; [|split; [|split; [|split]]]]]]].
  - eapply (se_enter ser (new_versioner true) code1 (User [] []) st0.2.1 st0.2.2).
    + constructor.
    + cbn. rewrite dom_empty_L. apply empty_subseteq.
    + by vm_compute.
  - clear. cbn. auto.
  - by vm_compute.
  - exists (NCall None "h"). vm_compute. right. left.
  - fold tr1. change (finish_call ser tr1 "u" (st0.2.1, code1)) with st1. rewrite <-P2, <-E1. by destruct st1 as [? [? ?]].
  - apply (bool_decide_unpack _). vm_compute. exact I.
  - change (sync_codebase ser code2 (st1.2.1, User [] [])) with st2. rewrite <-P3. by destruct st2 as [? [? ?]].
  - exact P4.
  - exact P1.
Qed.

Print Assumptions C36_partial.
Print Assumptions C36_before_nested_ops_partial.
Print Assumptions C36_after_nested_op_refuted.
Print Assumptions C36_caught_exception_refuted.
Print Assumptions C36_stale_result_refuted.
