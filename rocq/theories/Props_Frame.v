(** C39-C43: consistency of frames, selection, union and intersection, reachability. *)
From stdpp Require Import base strings gmap list relations.
From Verif Require Import Base PyDict Returns Refs Storage Frame Spec_Frame Paths Spec_Paths
  Frame_base Frame_ok Frame_ok2 Frame_ok3 Frame_sel Frame_reach Frame_reach2 Frame_stream Frame_run Paths_proofs.
Local Open Scope pym_scope.

(** * Concrete calls and frames used below *)
Definition mkop (n : string) : op := Op n (NoutInt 1) None 0 [] false.
Definition mkref (h : string) : ref := RAtom ("cid_" +:+ h) h None.
Definition mkcall (o h : string) (ins outs : list (string * string)) : call :=
  Call (mkop o) ("cid_" +:+ h) h (map (fun nh => (nh.1, mkref nh.2)) ins) (map (fun nh => (nh.1, mkref nh.2)) outs) None None.
(** y1 = f(x0), y2 = f(y1), z1 = g(y1), and p, q = k(x0, x0) *)
Definition cf1 : call := mkcall "f" "c1" [("x", "x0")] [("output_0", "y1")].
Definition cf2 : call := mkcall "f" "c2" [("x", "y1")] [("output_0", "y2")].
Definition cg1 : call := mkcall "g" "c3" [("a", "y1")] [("output_0", "z1")].
Definition ck1 : call := mkcall "k" "c4" [("a", "x0"); ("b", "x0")] [("output_0", "p"); ("output_1", "q")].
Definition ch1 : call := mkcall "h" "c5" [("a", "x0")] [("output_0", "w")].
Definition calls0 : list call := [cf1; cf2; cg1; ck1; ch1].
Definition U0 : gmap string call := world_of calls0.
Lemma U0_world : world U0.
Proof. apply worldb_ok. by vm_compute. Qed.

(** x -> f -> y -> g -> z with the first calls of f and g *)
Definition ops1 : list fop :=
  [OpAddVar "x"; OpAddVar "y"; OpAddVar "z"; OpAddFunc "f"; OpAddFunc "g";
   OpAddEdge "x" "f" "x"; OpAddEdge "f" "y" "output_0"; OpAddEdge "y" "g" "a"; OpAddEdge "g" "z" "output_0";
   OpAddCall "f" cf1 false; OpAddCall "g" cg1 false].
Definition from_ops (ops : list fop) : frame := default empty_frame (run_sane calls0 ops empty_frame).
Definition frame1 : frame := from_ops ops1.
Lemma from_ops_ok ops : bool_decide (is_Some (run_sane calls0 ops empty_frame)) = true -> consistent U0 (from_ops ops).
Proof.
  intros H. apply bool_decide_eq_true in H as [F HF]. unfold from_ops. rewrite HF.
  change (default empty_frame (Some F)) with F.
  apply (run_sane_consistent calls0 ops empty_frame F); [by vm_compute|apply empty_consistent|exact HF].
Qed.
Lemma frame1_consistent : consistent U0 frame1.
Proof. apply from_ops_ok. by vm_compute. Qed.

(** * C39 *)

(** Full statement: every sequence of the public building and dropping operations, started from
    the empty frame, keeps [_check] true.  It is false (see the refutations below).  It holds for
    sequences of operations that make sense ([sane], Spec_Frame.v) and return; then the frame is
    even consistent in the stronger sense of [consistent].  [drop_ref] and [drop_call] on their own
    are not covered. *)
Theorem C39_partial : forall ord eord U ops F, orders ord eord -> world U ->
  fruns ord eord U empty_frame ops F -> check F = true /\ consistent U F.
Proof.
  intros ord eord U ops F Ho HU Hr.
  assert (HC : consistent U F).
  { pose proof (empty_consistent U) as H0. revert H0. induction Hr as [|F o F1 ops F2 Hs Hrun _ IH]; intros H0; [done|].
    apply IH. by eapply run_fop_consistent. }
  split; [by eapply consistent_check|done].
Qed.
(** A sequence with every kind of operation. *)
Definition ops2 : list fop := ops1 ++
  [OpAddCall "f" cf2 false; OpAddVar "u"; OpAddRef "u" (mkref "y1") false; OpAddRef "u" (mkref "other") true; OpMergeVars;
   OpRename "z" "zz"; OpCleanup; OpAddVar "m"; OpAddRef "m" (mkref "x0") false; OpMergeInto "m" "x"; OpDropFunc "g"; OpDropVar "zz"; OpDrop ["u"]].
Fixpoint states (ops : list fop) (F : frame) : list frame :=
  match ops with
  | [] => []
  | o :: ops => let F' := (run_fop elements elements o F).2 in F' :: states ops F'
  end.
Lemma run_sane_fruns ops F F' : run_sane calls0 ops F = Some F' -> fruns elements elements U0 F ops F'.
Proof.
  revert F. induction ops as [|o ops IH]; intros F; cbn; [intros [= ->]; constructor|].
  destruct (saneb calls0 F o) eqn:Hs; [|done]. destruct (run_fop elements elements o F) as [[[]|] F1] eqn:Hr; [|done].
  intros H. econstructor; [apply (saneb_ok calls0); [|done]|exact Hr|by apply IH].
  apply (bool_decide_unpack _). by vm_compute.
Qed.
Example C39_instance : fruns elements elements U0 empty_frame ops2 (from_ops ops2) /\
  vnames (from_ops ops2) = {["x"; "y"]} /\ fnames (from_ops ops2) = {["f"]} /\
  f_vs (from_ops ops2) !! "x" = Some {["x0"; "y1"]} /\ f_fs (from_ops ops2) !! "f" = Some {["c1"; "c2"]}.
Proof.
  split.
  - apply run_sane_fruns. unfold from_ops.
    assert (bool_decide (is_Some (run_sane calls0 ops2 empty_frame)) = true) as H by by vm_compute.
    apply bool_decide_eq_true in H as [F HF]. by rewrite HF.
  - split_and!; apply (bool_decide_unpack _); vm_compute; exact I.
Qed.

(** Dropping a variable, renaming it to a new name and merging two variables never raise. *)
Theorem C39_no_failures : forall ord eord U F v w, orders ord eord -> world U -> consistent U F -> v ∈ vnames F ->
  (exists F', drop_var ord eord v F = (Ok tt, F')) /\
  (w ∉ f_nodes F -> exists F', rename_var ord v w F = (Ok tt, F')) /\
  (w ∈ vnames F -> v <> w -> exists F', merge_into ord eord v w F = (Ok tt, F')) /\
  (exists F', merge_vars ord eord F = (Ok tt, F')).
Proof.
  intros ord eord U F v w Ho HU HF Hv. split; [|split; [|split]].
  - destruct (drop_var_total ord eord Ho U HU v F HF Hv) as (F' & HF' & _). eauto.
  - intros Hw. destruct (rename_var_total ord eord Ho U v w F HF Hv Hw) as (F' & HF' & _). eauto.
  - intros Hw Hne. destruct (merge_into_total ord eord Ho U HU v w F HF Hv Hw Hne) as (F' & HF' & _). eauto.
  - destruct (merge_loop_total ord eord Ho U HU (S (size (f_vs F))) F HF) as (F' & HF' & _); [lia|]. eauto.
Qed.
Example C39_no_failures_instance : consistent U0 frame1 /\ "y" ∈ vnames frame1.
Proof. split; [apply frame1_consistent|]. apply (bool_decide_unpack _). by vm_compute. Qed.

(** ** Refutations *)
Lemma pair_of {A B} (p : A * B) a : p.1 = a -> p = (a, p.2).
Proof. destruct p. cbn. by intros ->. Qed.
Ltac concrete := clear; first [apply (bool_decide_unpack _); vm_compute; exact I | by vm_compute].

(** [drop_call] removes the call from [calls] but leaves its id in the function node
    (cf.py:399-418 never touches [fs]). *)
Theorem C39_drop_call_refuted : exists U F F', world U /\ consistent U F /\
  drop_call "f" "c1" F = (Ok tt, F') /\ check F' = false.
Proof.
  exists U0, frame1. eexists. split; [apply U0_world|]. split; [apply frame1_consistent|]. split; [apply pair_of|]; concrete.
Qed.
(** [drop_ref] leaves the calls that use the ref (cf.py:350-364). *)
Theorem C39_drop_ref_refuted : exists U F F', world U /\ consistent U F /\
  drop_ref "y" "y1" F = (Ok tt, F') /\ check F' = false.
Proof.
  exists U0, frame1. eexists. split; [apply U0_world|]. split; [apply frame1_consistent|]. split; [apply pair_of|]; concrete.
Qed.
(** Dropping the output variable of a function and then the function fails: [drop_ref] has
    deleted the creator of the output, which [drop_call] deletes again (cf.py:408); the frame is
    left without the edges, with the call dropped from [calls] but not from its node. *)
Theorem C39_drop_func_refuted : exists U F F1 F2, world U /\ consistent U F /\
  drop_var elements elements "z" F = (Ok tt, F1) /\ consistent U F1 /\
  drop_func elements elements "g" F1 = (Err EKeyError, F2) /\ check F2 = false.
Proof.
  exists U0, frame1. do 2 eexists. split; [apply U0_world|]. split; [apply frame1_consistent|].
  split; [apply pair_of; concrete|]. split; [|split; [apply pair_of|]; concrete].
  eapply (run_fop_consistent elements elements orders_elements U0 U0_world (OpDropVar "z") frame1); [apply frame1_consistent|done|].
  apply pair_of. concrete.
Qed.
(** Dropping a function with a call that reads the same ref twice fails (cf.py:411-413) when the ref
    is also read by another call; here [k(x0, x0)] and [h(x0)]. *)
Definition frame_k : frame := from_ops
  [OpAddVar "x"; OpAddVar "p"; OpAddVar "q"; OpAddVar "w"; OpAddFunc "k"; OpAddFunc "h"; OpAddEdge "x" "k" "a"; OpAddEdge "x" "k" "b";
   OpAddEdge "k" "p" "output_0"; OpAddEdge "k" "q" "output_1"; OpAddEdge "x" "h" "a"; OpAddEdge "h" "w" "output_0";
   OpAddCall "k" ck1 false; OpAddCall "h" ch1 false].
Theorem C39_drop_func_twice_refuted : exists U F F', world U /\ consistent U F /\
  drop_func elements elements "k" F = (Err EKeyError, F') /\ check F' = false.
Proof.
  exists U0, frame_k. eexists. split; [apply U0_world|]. split; [apply from_ops_ok; concrete|].
  split; [apply pair_of|]; concrete.
Qed.
(** After dropping the variable of an input, a call can be added whose consumer entry points to a
    ref that is not in the frame (the label is still there, with no variables; cf.py:379-386). *)
Theorem C39_add_call_refuted : exists U F F1 F2, world U /\ consistent U F /\
  drop_var elements elements "z" F = (Ok tt, F1) /\ drop_var elements elements "y" F1 = (Ok tt, F2) /\ consistent U F2 /\
  U !! "c2" = Some cf2 /\ exists F3, add_call elements true false "f" cf2 F2 = (Ok tt, F3) /\ check F3 = false.
Proof.
  exists U0, frame1. do 2 eexists. split; [apply U0_world|]. split; [apply frame1_consistent|].
  split; [apply pair_of; concrete|]. split; [apply pair_of; concrete|]. split.
  - eapply (run_fop_consistent elements elements orders_elements U0 U0_world (OpDropVar "y")); [|done|apply pair_of; concrete].
    eapply (run_fop_consistent elements elements orders_elements U0 U0_world (OpDropVar "z") frame1); [apply frame1_consistent|done|].
    apply pair_of. concrete.
  - split; [concrete|]. eexists. split; [apply pair_of|]; concrete.
Qed.
(** Renaming a variable to the name of another one overwrites the other (cf.py:256-277 does not
    check the new name). *)
Theorem C39_rename_refuted : exists U F F', world U /\ consistent U F /\
  rename_var elements "x" "z" F = (Ok tt, F') /\ check F' = false.
Proof.
  exists U0, frame1. eexists. split; [apply U0_world|]. split; [apply frame1_consistent|]. split; [apply pair_of|]; concrete.
Qed.

(** * C40 *)

(** Selecting nodes: exactly the nodes, the edges among them and their elements; consistent.  The
    original is not changed since frames are values in the model; in the code the sets of the
    result are new sets, except those of C46. *)
Theorem C40_nodes : forall ord eord U F ns, orders ord eord -> consistent U F -> ns ⊆ f_nodes F ->
  exists R, select_nodes eord ns F = Ok R /\ f_nodes R = ns /\
    (forall v, v ∈ vnames R <-> v ∈ ns /\ v ∈ vnames F) /\
    (forall v h, in_var R v h <-> v ∈ ns /\ in_var F v h) /\
    (forall f c, in_func R f c <-> f ∈ ns /\ in_func F f c) /\
    (forall s d l, has_edge R s d l <-> has_edge F s d l /\ s ∈ ns /\ d ∈ ns) /\
    f_refs R ⊆ f_refs F /\ f_calls R ⊆ f_calls F /\ consistent U R.
Proof.
  intros ord eord U F ns Ho HF Hns. destruct (select_nodes_total eord ns F Hns) as [R HR].
  destruct (select_nodes_ok ord eord Ho U ns F R HF HR) as [HS HC]. exists R. split; [done|].
  split; [by eapply selected_nodes|]. split; [intros v; rewrite (sl_v _ _ _ HS), elem_of_intersection; tauto|].
  split; [apply HS|]. split; [apply HS|]. split; [apply HS|]. split; [apply HS|]. split; [by eapply select_nodes_calls|done].
Qed.
Example C40_nodes_instance : ({["x"; "f"; "z"]} : sset) ⊆ f_nodes frame1 /\ consistent U0 frame1.
Proof. split; [concrete|apply frame1_consistent]. Qed.

(** Restricting to given elements: the nodes and edges stay, the elements are the given ones.
    Full statement: the result is also consistent.  False, see below; [_check] holds when the
    elements are closed along the edges. *)
Theorem C40_subsets_partial : forall U F elts, world U -> consistent U F -> dom elts = f_nodes F ->
  (forall n x, smrel elts n x -> in_node F n x) ->
  exists R, select_subsets elts F = Ok R /\ vnames R = vnames F /\ fnames R = fnames F /\
    (forall n x, in_node R n x <-> smrel elts n x) /\
    (forall s d l, has_edge R s d l <-> has_edge F s d l) /\
    (edge_closed F (smrel elts) -> check R = true).
Proof.
  intros U F elts HU HF Hd Hin. destruct (select_subsets_ok U elts F HF Hd Hin) as (R & HR & [R1 R2 R3 R4 R5 R6 R7 R8]).
  exists R. split; [done|]. split; [done|]. split; [done|].
  assert (Hiff : forall n x, in_node R n x <-> smrel elts n x).
  { intros n x. unfold in_node. rewrite R3, R4. split; [tauto|]. intros Hx. assert (n ∈ dom elts) as Hn by by eapply smrel_dom.
    rewrite Hd in Hn. unfold f_nodes in Hn. apply elem_of_union in Hn as [?|?]; auto. }
  split; [done|]. split; [done|]. intros Hcl. by eapply (subsets_check U).
Qed.
Definition closed_elts : setmap := <["x" := {["x0"]}]> (<["f" := {["c1"]}]> (<["y" := {["y1"]}]> (<["g" := ∅]> {["z" := {["z1"]}]}))).
Lemma elts_in elts : map_Forall (fun n (X : sset) => X ⊆ default ∅ (f_sets frame1 !! n)) elts -> forall n x, smrel elts n x -> in_node frame1 n x.
Proof.
  intros Hall n x (X & HX & Hx). apply (smrel_sets U0 frame1 n x frame1_consistent). specialize (Hall n X HX x Hx).
  unfold smrel. destruct (f_sets frame1 !! n) as [Y|]; [by exists Y|]. by apply not_elem_of_empty in Hall.
Qed.
Example C40_subsets_instance : dom closed_elts = f_nodes frame1 /\
  (forall n x, smrel closed_elts n x -> in_node frame1 n x) /\ edge_closed frame1 (smrel closed_elts) /\
  exists n x, in_node frame1 n x /\ ~ smrel closed_elts n x.
Proof.
  split; [concrete|]. split; [|split].
  - apply elts_in. concrete.
  - intros f c cl l h v Hf Hc Hcl.
    assert (Hcs : map_Forall (fun c cl => c = "c1" /\ cl = cf1 \/ c = "c3") (f_calls frame1)) by concrete.
    destruct (Hcs c cl Hcl) as [[-> ->]| ->]; clear Hcs.
    + assert (f = "f") as ->.
      { destruct Hf as (X & HX & Hx). assert (Hfs : map_Forall (fun f (X : sset) => "c1" ∈ X -> f = "f") (f_fs frame1)) by concrete. by apply (Hfs f X). }
      split.
      * intros (n & r & Hn & <- & <-) He. cbn in Hn. apply elem_of_list_singleton in Hn as [= -> ->].
        assert (v = "x") as ->; [|exists {["x0"]}; split; [concrete|by apply elem_of_singleton]].
        destruct He as (m & X & Hm & HX & Hf').
        assert (Ho : map_Forall (fun v (m : setmap) => map_Forall (fun l (X : sset) => "f" ∈ X -> v = "x") m) (f_out frame1)) by concrete.
        by apply (Ho v m Hm _ X HX).
      * intros (n & r & Hn & <- & <-) He. cbn in Hn. apply elem_of_list_singleton in Hn as [= -> ->].
        assert (v = "y") as ->; [|exists {["y1"]}; split; [concrete|by apply elem_of_singleton]].
        destruct He as (m & X & Hm & HX & Hf').
        assert (f_out frame1 !! "f" = Some {["output_0" := {["y"]}]}) as Em by concrete.
        rewrite Em in Hm. injection Hm as <-. apply lookup_singleton_Some in HX as [_ <-]. by apply elem_of_singleton in Hf'.
    + destruct Hc as (X & HX & Hx).
      assert (He : map_Forall (fun n (X : sset) => "c3" ∉ X) closed_elts) by concrete. by destruct (He f X HX).
  - exists "g", "c3". split; [right; exists {["c3"]}; split; [concrete|by apply elem_of_singleton]|].
    intros (X & HX & Hx). assert (He : map_Forall (fun n (X : sset) => "c3" ∉ X) closed_elts) by concrete. by destruct (He "g" X HX).
Qed.

(** The result of a restriction need not satisfy [_check]: here the input of a call is left out. *)
Definition open_elts : setmap := <["x" := ∅]> closed_elts.
Theorem C40_subsets_refuted : exists U F elts R, world U /\ consistent U F /\ dom elts = f_nodes F /\
  (forall n x, smrel elts n x -> in_node F n x) /\ select_subsets elts F = Ok R /\ check R = false.
Proof.
  exists U0, frame1, open_elts.
  destruct (select_subsets open_elts frame1) as [R|] eqn:HR.
  2:{ exfalso. assert (match select_subsets open_elts frame1 with Ok _ => true | Err _ => false end = true) as Hok by concrete. rewrite HR in Hok. discriminate Hok. }
  exists R. split; [apply U0_world|]. split; [apply frame1_consistent|]. split; [concrete|]. split.
  - apply elts_in. concrete.
  - split; [reflexivity|]. assert (match select_subsets open_elts frame1 with Ok R => check R | Err _ => true end = false) as Hc by concrete. rewrite HR in Hc. exact Hc.
Qed.
(** Even when it does, the index from refs to variables is stale (cf.py:664-667 copies the sets as
    they are), and the next operation breaks the frame: here a ref that two variables had is kept in
    one of them, and dropping that one leaves the ref in [refs]. *)
Definition frame_two : frame := from_ops [OpAddVar "x"; OpAddVar "u"; OpAddRef "x" (mkref "x0") false; OpAddRef "u" (mkref "x0") false].
Definition one_elts : setmap := <["x" := {["x0"]}]> {["u" := ∅]}.
Theorem C40_subsets_stale_refuted : exists U F elts R, world U /\ consistent U F /\
  select_subsets elts F = Ok R /\ check R = true /\
  exists R', drop_var elements elements "x" R = (Ok tt, R') /\ check R' = false.
Proof.
  exists U0, frame_two, one_elts.
  destruct (select_subsets one_elts frame_two) as [R|] eqn:HR.
  2:{ exfalso. assert (match select_subsets one_elts frame_two with Ok _ => true | Err _ => false end = true) as Hok by concrete. rewrite HR in Hok. discriminate Hok. }
  exists R. split; [apply U0_world|]. split; [apply from_ops_ok; concrete|]. split; [reflexivity|].
  assert (match select_subsets one_elts frame_two with
    | Ok R => check R && match (drop_var elements elements "x" R).1 with Ok _ => true | Err _ => false end && negb (check (drop_var elements elements "x" R).2)
    | Err _ => false end = true) as Hc by concrete.
  rewrite HR in Hc. apply andb_true_iff in Hc as [[H1 H2]%andb_true_iff H3]. clear HR. split; [exact H1|].
  exists (drop_var elements elements "x" R).2. split; [|by apply negb_true_iff].
  apply pair_of. by destruct (drop_var elements elements "x" R).1 as [[]|].
Qed.

Print Assumptions C39_partial.
Print Assumptions C39_no_failures.
Print Assumptions C39_drop_call_refuted.
Print Assumptions C39_drop_ref_refuted.
Print Assumptions C39_drop_func_refuted.
Print Assumptions C39_drop_func_twice_refuted.
Print Assumptions C39_add_call_refuted.
Print Assumptions C39_rename_refuted.
Print Assumptions C40_nodes.
Print Assumptions C40_subsets_partial.
Print Assumptions C40_subsets_refuted.
Print Assumptions C40_subsets_stale_refuted.
