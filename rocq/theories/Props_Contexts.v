(** C25, C26: storage contexts. *)
From stdpp Require Import base gmap list numbers.
From Verif Require Import Contexts Spec_Contexts Contexts_proofs.

(** * C25
    For every program on one storage (nested [with s:], [with s(mode):], [with noop():], exceptions, handlers), and
    whichever commits fail, the model does what lexical scoping prescribes: the same op calls in the same modes, one commit at each
    outermost exit (also when the body raised) and no other; at the end no context is active and the mode stack is empty. *)
Theorem C25_lexical_scoping :
  forall i p commits, only_stor i p ->
  exists s', crun p (cinit commits []) = ((lex_run p None commits).1.1, s') /\
    cx_trace s' = (lex_run p None commits).2 /\
    cx_cur s' = None /\ st_stack (stor_of s' i) = [] /\ st_next (stor_of s' i) = MRun.
Proof.
  intros i p cs Ho. destruct (one_storage i p Ho [] cs [] (cinit cs [])) as (s' & E & H).
  - by split.
  - exists s'. destruct H as [H1 H2 H3 H4 H5 H6 H7]. cbn in *. auto.
Qed.
Print Assumptions C25_lexical_scoping.

(** In any nesting: from a state inside blocks with modes [l] (innermost first), a block leaves the context, the
    mode and the stack as they were. *)
Theorem C25_block_restores :
  forall i p l s, only_stor i p -> l <> [] ->
    cx_cur s = Some i -> st_stack (stor_of s i) = l -> st_next (stor_of s i) = top l -> st_hooks (stor_of s i) = [] -> cx_syncs s = [] ->
    let s' := (crun p s).2 in
    cx_cur s' = Some i /\ st_stack (stor_of s' i) = l /\ mode_of (stor_of s' i) = mode_of (stor_of s i) /\
    (exists t, cx_trace s' = cx_trace s ++ t /\ forall j ok, EvCommit j ok ∉ t).
Proof.
  intros i p l s Ho Hl H1 H2 H3 H4 H6. destruct l as [|m l]; [done|].
  destruct (one_storage i p Ho (m :: l) (cx_commits s) (cx_trace s) s) as (s' & E & H).
  - by split.
  - cbn zeta. rewrite E. cbn. destruct H as [G1 G2 G3 G4 G5 G6 G7]. split; [done|]. split; [done|].
    split; [unfold mode_of; by rewrite G2, H2|]. eexists. split; [exact G7|].
    apply nested_no_commit.
Qed.
Print Assumptions C25_block_restores.

(** [with s: op; with noop(): (op; with s: op); op], then an exception: the ops run in modes run, noop, noop, run; one commit. *)
Definition C25_prog : prog :=
  PTry (PWith 7 None (PSeq POp (PSeq (PNoop (PSeq POp (PWith 7 None POp))) (PSeq POp PRaise)))) PSkip.
Example C25_example :
  only_stor 7 C25_prog /\
  (lex_run C25_prog None []).2 =
    [EvOp (Some (7, MRun)); EvOp (Some (7, MNoop)); EvOp (Some (7, MNoop)); EvOp (Some (7, MRun)); EvCommit 7 true] /\
  cx_trace (crun C25_prog (cinit [] [])).2 = (lex_run C25_prog None []).2.
Proof. repeat split; reflexivity. Qed.

(** Two ways out of the hypotheses, both of which break the property.
    A versioned storage whose [sync_code()] raises in [__enter__] (storage.py:1212-1217, for example because the code does
    not parse): the context and the mode stay set for good, so that ops called outside of any block are memoized. *)
Theorem C25_failing_enter_refuted :
  let p := PSeq (PTry (PWith 0 (Some MNoop) PSkip) PSkip) POp in
  (lex_run p None []).2 <> cx_trace (crun p (cinit [] [false])).2 /\
  cx_trace (crun p (cinit [] [false])).2 = [EvOp (Some (0, MNoop))].
Proof. split; [discriminate|reflexivity]. Qed.
Print Assumptions C25_failing_enter_refuted.
(** An exit hook that raises (storage.py:1248-1251): the mode stack is not popped, so later blocks never commit. *)
Theorem C25_failing_hook_refuted :
  let s := CState None {[ 0 := Stor [] MRun [false] ]} [] [] [] in
  let p := PSeq (PTry (PWith 0 None POp) PSkip) (PWith 0 None POp) in
  cx_trace (crun p s).2 = [EvOp (Some (0, MRun)); EvCommit 0 true; EvHook 0 0; EvOp (Some (0, MRun))].
Proof. reflexivity. Qed.
Print Assumptions C25_failing_hook_refuted.

(** * C26
    False: leaving an inner block of another storage clears the active context (storage.py:1243-1244), so the
    rest of the outer block is not memoized at all ... *)
Theorem C26_refuted :
  let p := PWith 1 None (PSeq POp (PSeq (PWith 2 None POp) POp)) in
  cx_trace (crun p (cinit [] [])).2 =
    [EvOp (Some (1, MRun)); EvOp (Some (2, MRun)); EvCommit 2 true; EvOp None; EvCommit 1 true].
Proof. reflexivity. Qed.
Print Assumptions C26_refuted.
(** ... and a block that re-enters an outer storage leaves that one active: ops go to the wrong storage. *)
Theorem C26_wrong_storage_refuted :
  let p := PWith 1 None (PWith 2 None (PSeq (PWith 1 None PSkip) POp)) in
  cx_trace (crun p (cinit [] [])).2 = [EvOp (Some (1, MRun)); EvCommit 2 true; EvCommit 1 true].
Proof. reflexivity. Qed.
Print Assumptions C26_wrong_storage_refuted.

(** What does hold for every nesting of blocks of any number of storages: each storage's modes are lexically scoped, each
    commits exactly when its own outermost block is left, and an op call is ordinary or goes to one of the enclosing
    storages in its mode there.  Missing for the full property: that it goes to the innermost one.  [with noop():] blocks, which act on
    whatever storage is active, are excluded. *)
Theorem C26_modes_and_commits_partial :
  forall p commits, no_noop p ->
  exists s', crun p (cinit commits []) = ((lex_multi p (fun _ => []) commits).1.1, s') /\
    Forall2 event_match (cx_trace s') (lex_multi p (fun _ => []) commits).2 /\
    cx_cur s' = None /\ (forall i, st_stack (stor_of s' i) = []).
Proof.
  intros p cs Ho. destruct (many_storages p Ho (fun _ => []) cs [] (cinit cs [])) as (s' & t & E & H & F).
  - by split; cbn.
  - exists s'. destruct H as [H1 H2 H3 H4 H5 H6 H7]. cbn in *. rewrite H7. split; [done|]. split; [done|].
    split; [|done]. destruct (cx_cur s') as [i|]; [|done]. by destruct (H1 i eq_refl).
Qed.
Print Assumptions C26_modes_and_commits_partial.
Example C26_example :
  let p := PWith 1 (Some MNoop) (PSeq (PWith 2 None (PSeq POp (PWith 1 (Some MRun) POp))) POp) in
  no_noop p /\
  cx_trace (crun p (cinit [] [])).2 = [EvOp (Some (2, MRun)); EvOp (Some (1, MRun)); EvCommit 2 true; EvOp None; EvCommit 1 true] /\
  length (lex_multi p (fun _ => []) []).2 = 5.
Proof. repeat split; reflexivity. Qed.
