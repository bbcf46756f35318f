(** C51: expanding a frame forwards. *)
From stdpp Require Import base strings gmap list relations.
From Verif Require Import Base PyDict Returns Refs Storage Frame Spec_Frame FrameExpand Spec_Expand Spec_Forward
  Frame_base Frame_names Frame_ok Frame_ok2 Frame_ok3 Frame_sel Frame_stream Frame_run Expand_proofs Expand_forward Forward_loop Props_Frame Props_Expand.
Local Open Scope pym_scope.

(** Full statement: [expand_forward] adds every recorded call that takes a value of the given variables as input, with its
    outputs, and keeps the frame.  It is false for values that already have a consumer in the frame
    ([C51_all_consumers_refuted]) and for elements of lists ([C51_lists_refuted]).  One pass
    ([expand_forward(varnames=A, reuse_existing=False)], with or without [skip_existing], and without names the non-recursive
    loop) on variables with no elements of lists succeeds, keeps the frame, and adds exactly the consumers of the values of
    [A] that have none, each in a new function connected to all its inputs in [A] and to new variables with its outputs.
    New edges at the old variables leave [A] only and go to such consumers. *)
Theorem C51_expand_forward_partial : forall ord eord gord creators consumers U F A skip,
  orders ord eord -> (forall l, gord l ≡ₚ l) -> world U -> consumer_answers U consumers ->
  consistent U F -> tidy F -> names_apart_out U F -> not_in_lists U A F -> A ⊆ vnames F -> A <> ∅ ->
  exists F', expand_step ord eord gord creators consumers Forward false skip A F = (Ok tt, F') /\
    (A = vnames F -> forall k, expand_loop ord eord gord creators consumers Forward false skip false (S k) F = (Ok tt, F')) /\
    consistent U F' /\ check F' = true /\ kept_in F F' /\
    (forall c, c ∈ dom (f_calls F') <-> c ∈ dom (f_calls F) \/ exists cl, missing_consumer U A F c cl) /\
    (forall h, h ∈ dom (f_refs F') <-> h ∈ dom (f_refs F) \/
      exists c cl l, missing_consumer U A F c cl /\ (skip = true -> c ∉ dom (f_calls F)) /\ call_output cl l h) /\
    (forall c cl, missing_consumer U A F c cl -> (skip = true -> c ∉ dom (f_calls F)) ->
      exists f, f ∉ fnames F /\ in_func F' f c /\
        (forall l h v, call_input cl l h -> v ∈ A -> in_var F v h -> has_edge F' v f l) /\
        (forall l h, call_output cl l h -> exists v, v ∉ vnames F /\ has_edge F' f v l /\ in_var F' v h)) /\
    (forall v f l, v ∈ vnames F -> has_edge F' v f l -> has_edge F v f l \/
      (v ∈ A /\ exists c cl h, missing_consumer U A F c cl /\ in_func F' f c /\ call_input cl l h /\ in_var F v h)) /\
    (forall v f l, v ∈ vnames F -> has_edge F' f v l -> has_edge F f v l).
Proof.
  intros ord eord gord creators consumers U F A skip Ho Hg HU Hco HC HTF (isv & N1 & N2 & N3 & N4) HL HA Hne.
  destruct (expand_forward_ok ord eord Ho U HU isv N3 N4 gord Hg creators consumers Hco A skip F) as (F' & E & HC' & HK & H1); [by split|done..|].
  exists F'. split; [done|]. split; [|split; [done|]; split; [by eapply consistent_check|]; done].
  intros -> k. cbn [expand_loop]. rewrite bindM_getM, (bindM_step _ _ _ _ _ E), bindM_getM. by case_decide.
Qed.

(** [expand_forward(recursive=True, reuse_existing=False)] on all variables, when no list is recorded: it ends, keeps the frame
    and adds exactly the future of the values without a consumer; then every value with recorded consumers has one. *)
Theorem C51_recursive_partial : forall ord eord gord creators consumers U F,
  orders ord eord -> (forall l, gord l ≡ₚ l) -> world U -> acyclic U -> no_lists U -> consumer_answers U consumers ->
  consistent U F -> names_apart_out U F -> vnames F <> ∅ ->
  exists n F', (forall k, n <= k -> expand_loop ord eord gord creators consumers Forward false false true k F = (Ok tt, F')) /\
    consistent U F' /\ check F' = true /\ kept_in F F' /\
    (forall h, h ∈ dom (f_refs F') <-> h ∈ dom (f_refs F) \/ future U F h) /\
    (forall c, c ∈ dom (f_calls F') <-> c ∈ dom (f_calls F) \/ future_call U F c) /\
    (forall v h c cl l, in_var F' v h -> U !! c = Some cl -> call_input cl l h -> connected_consumer F' v h).
Proof.
  intros ord eord gord creators consumers U F Ho Hg HU [rank Hrank] HNL Hco HC (isv & N1 & N2 & N3 & N4) Hne.
  destruct (forward_ok ord eord Ho U HU HNL isv N3 N4 gord Hg creators consumers Hco rank Hrank F) as (n & F' & E & HK' & HK & _ & HR & Hc & Hend); [by split|done|].
  exists n, F'. split; [done|]. split; [apply HK'|]. split; [destruct HK'; by eapply consistent_check|]. split; [done|]. split; [done|]. split; [done|].
  intros v h c cl l. by apply (no_pending U HU F').
Qed.

Definition consumers_of (cs : list call) (X : sset) : list call := filter (fun c => Exists (fun nr => rhid nr.2 ∈ X) (c_ins c)) cs.
Lemma consumers_answers cs : worldb cs = true -> consumer_answers (world_of cs) (consumers_of cs).
Proof.
  unfold worldb. intros Hw. do 2 (apply andb_prop in Hw as [Hw _]). apply bool_decide_eq_true in Hw. intros X. unfold consumers_of. split.
  - apply NoDup_filter. by eapply NoDup_fmap_1.
  - intros c. rewrite elem_of_list_filter, Exists_exists, world_of_elem by done. split.
    + intros [([n r] & Hnr & Hx) Hc]. split; [done|]. exists (name_proj (c_op c) n), (rhid r). split; [|done]. exists n, r. done.
    + intros [[Hc _] (l & h & (n & r & Hnr & _ & <-) & Hx)]. split; [|done]. by exists (n, r).
Qed.
(** the kind of a name shows in its first letter *)
Definition head_in (a : string) (v : string) : bool := match v with String b _ => bool_decide (String b "" = a) | EmptyString => false end.
Lemma next_free_head used w fuel a : forall i n, head_in a w = true -> next_free used w fuel i = Ok n -> head_in a n = true.
Proof.
  induction fuel as [|fuel IH]; intros i n Hw; cbn; [done|]. case_decide; [by apply IH|]. intros [= <-]. by destruct w.
Qed.
Lemma heads_apart a b v : a <> b -> head_in a v = true -> head_in b v = true -> False.
Proof. destruct v as [|x v]; cbn; [done|]. intros Hab ?%bool_decide_eq_true ?%bool_decide_eq_true. congruence. Qed.
Lemma new_fname_head o G f a : head_in a o = true -> get_new_fname o G = Ok f -> head_in a f = true.
Proof. intros Ho. unfold get_new_fname. case_decide; [by apply next_free_head|]. by intros [= <-]. Qed.

(** The calls of Props_Expand.v: y2 = f(y1) and z = g(y1) consume y1.  The frame has a variable holding y1. *)
Definition frameD : frame := default empty_frame (run_sane chain [OpAddVar "v"; OpAddRef "v" (mkref "y1") true] empty_frame).
Lemma chain_consistent ops : consistent UC (default empty_frame (run_sane chain ops empty_frame)).
Proof.
  destruct (run_sane chain ops empty_frame) as [F|] eqn:E; [|apply empty_consistent].
  change (default empty_frame (Some F)) with F. apply (run_sane_consistent chain ops empty_frame F); [by vm_compute|apply empty_consistent|exact E].
Qed.
Lemma chain_names F : vnames F = {["v"]} -> (forall f, f ∈ fnames F -> head_in "v" f = false) -> names_apart_out UC F.
Proof.
  intros Hv Hf. exists (fun v => head_in "v" v = true). rewrite Hv.
  split; [by intros v ->%elem_of_singleton|]. split; [intros f ?%Hf; congruence|]. split.
  - intros c cl l h G v HU (n & r & Hnr & Hl & _) Hn. apply chain_calls in HU. assert (l = "output_0") as -> by (each HU; each Hnr; by vm_compute).
    change (next_free_name (dom (f_vs G)) "var" 0 = Ok v) in Hn. by eapply (next_free_head _ "var"); [|exact Hn].
  - intros c cl G f HU Hn Hx. apply chain_calls in HU. assert (head_in "f" (op_name (c_op cl)) = true \/ head_in "g" (op_name (c_op cl)) = true) as [Ho|Ho] by (each HU; auto);
    pose proof (new_fname_head _ _ _ _ Ho Hn) as Hy; by eapply heads_apart; [|exact Hx|exact Hy].
Qed.
(** One pass from y1 finds both consumers and their outputs, and not y3. *)
Example C51_instance : world UC /\ consumer_answers UC (consumers_of chain) /\ consistent UC frameD /\ tidy frameD /\
  names_apart_out UC frameD /\ not_in_lists UC {["v"]} frameD /\ ({["v"]} : sset) ⊆ vnames frameD /\
  missing_consumer UC {["v"]} frameD "c4" (mkcall "g" "c4" [("x", "y1")] [("output_0", "z")]) /\
  let F' := (expand_step elements elements id no_consumers (consumers_of chain) Forward false false {["v"]} frameD).2 in
  dom (f_refs F') = {["y1"; "y2"; "z"]} /\ dom (f_calls F') = {["c2"; "c4"]}.
Proof.
  assert (Hno : forall f c, ~ in_func frameD f c).
  { assert (Hn : f_fs frameD = ∅) by concrete. intros f c (X & HX & _). rewrite Hn in HX. by rewrite lookup_empty in HX. }
  assert (Hv : vnames frameD = {["v"]}) by concrete. assert (Hf : fnames frameD = ∅) by concrete.
  split; [apply UC_world|]. split; [apply consumers_answers; by vm_compute|]. split; [apply chain_consistent|].
  split; [by intros f c cl ?%Hno|]. split; [apply chain_names; [done|]; rewrite Hf; by intros f ?%elem_of_empty|].
  split; [intros c cl l h v HU _ _ _; apply chain_calls in HU; by each HU|]. split; [by rewrite Hv|]. split; [|cbv zeta; split; concrete].
  split; [concrete|]. exists "x", "y1", "v". split; [by exists "x", (mkref "y1"); split; [left|]|]. split; [by apply elem_of_singleton|].
  split; [exists {["y1"]}; split; concrete|]. intros (f & c & cl & l & _ & Hc & _). by apply (Hno f c).
Qed.

(** The hypotheses of [C51_recursive_partial] hold, and expanding y1 recursively finds y3 too. *)
Example C51_recursive_instance : acyclic UC /\ no_lists UC /\ vnames frameD <> ∅ /\ future UC frameD "y3" /\
  let F' := (expand_loop elements elements id no_consumers (consumers_of chain) Forward false false true 5 frameD).2 in
  dom (f_refs F') = {["y1"; "y2"; "y3"; "z"]} /\ dom (f_calls F') = {["c2"; "c3"; "c4"]}.
Proof.
  split; [apply UC_acyclic|]. split; [intros c cl HU; apply chain_calls in HU; by each HU|]. split; [concrete|]. split; [|cbv zeta; split; concrete].
  eapply (future_output _ _ "y2" "c3" (mkcall "f" "c3" [("x", "y2")] [("output_0", "y3")]) "x" "output_0"); [|concrete|by exists "x", (mkref "y2"); split; [left|]|by exists "output_0", (mkref "y3"); split; [left|]].
  eapply (future_output _ _ "y1" "c2" (mkcall "f" "c2" [("x", "y1")] [("output_0", "y2")]) "x" "output_0"); [|concrete|by exists "x", (mkref "y1"); split; [left|]|by exists "output_0", (mkref "y2"); split; [left|]].
  apply (future_start _ _ "v"); [exists {["y1"]}; split; concrete|]. intros (f & c & cl & l & _ & (X & HX & _) & _).
  assert (f_fs frameD = ∅) as Hn by concrete. rewrite Hn, lookup_empty in HX. discriminate HX.
Qed.

(** A value with one consumer in the frame is not expanded further: z = g(y1) is recorded, y1 is in the frame with its
    consumer y2 = f(y1), and no way of expanding forwards finds the call of g. *)
Definition frameE : frame := default empty_frame (run_sane chain [OpAddVar "v"; OpAddFunc "f"; OpAddEdge "v" "f" "x";
  OpAddCall "f" (mkcall "f" "c2" [("x", "y1")] [("output_0", "y2")]) true] empty_frame).
Theorem C51_all_consumers_refuted : exists U consumers F, world U /\ consumer_answers U consumers /\ consistent U F /\
  names_apart_out U F /\ not_in_lists U (vnames F) F /\
  exists c cl l h v, U !! c = Some cl /\ call_input cl l h /\ in_var F v h /\
  forall reuse skip recursive k, exists F',
    expand_loop elements elements id no_consumers consumers Forward reuse skip recursive (S k) F = (Ok tt, F') /\ c ∉ dom (f_calls F').
Proof.
  exists UC, (consumers_of chain), frameE. assert (Hv : vnames frameE = {["v"]}) by concrete. assert (Hf : fnames frameE = {["f"]}) by concrete.
  split; [apply UC_world|]. split; [apply consumers_answers; by vm_compute|]. split; [apply chain_consistent|].
  split; [apply chain_names; [done|]; rewrite Hf; by intros f ->%elem_of_singleton|].
  split; [intros c cl l h v HU _ _ _; apply chain_calls in HU; by each HU|].
  exists "c4", (mkcall "g" "c4" [("x", "y1")] [("output_0", "z")]), "x", "y1", "v". split; [concrete|].
  split; [by exists "x", (mkref "y1"); split; [left|]|]. split; [exists {["y1"]}; split; concrete|].
  clear. intros reuse skip recursive k.
  assert (E : exists F', expand_step elements elements id no_consumers (consumers_of chain) Forward reuse skip (dom (f_vs frameE)) frameE = (Ok tt, F') /\
    "c4" ∉ dom (f_calls F') /\ size (f_nodes F') = size (f_nodes frameE)).
  { eexists. split; [apply pair_of; destruct reuse, skip; concrete|]. split; destruct reuse, skip; concrete. }
  destruct E as (F' & E & Hc & Hs). exists F'. split; [|exact Hc].
  cbn [expand_loop]. rewrite bindM_getM, (bindM_step _ _ _ _ _ E), bindM_getM. rewrite decide_True by exact Hs. reflexivity.
Qed.

(** Elements of a list share the label of their edges.  Only the variables of the last element are connected, and then they
    get all the elements: the variable [w] held b only, and holds a and b afterwards. *)
Definition list_calls : list call := [mkcall "__make_list__" "m" [("elts_0", "a"); ("elts_1", "b")] [("list", "L")]].
Definition frameL : frame := default empty_frame (run_sane list_calls [OpAddVar "u"; OpAddVar "w"; OpAddRef "u" (mkref "a") true;
  OpAddRef "w" (mkref "b") true] empty_frame).
Theorem C51_lists_refuted : exists U consumers F F', world U /\ consumer_answers U consumers /\ consistent U F /\ tidy F /\
  names_apart_out U F /\
  expand_step elements elements id no_consumers consumers Forward false false (vnames F) F = (Ok tt, F') /\ ~ kept_in F F' /\
  (exists v h f l, in_var F v h /\ call_input (mkcall "__make_list__" "m" [("elts_0", "a"); ("elts_1", "b")] [("list", "L")]) l h /\
    in_func F' f "m" /\ ~ has_edge F' v f l).
Proof.
  exists (world_of list_calls), (consumers_of list_calls), frameL.
  assert (Hno : forall f c, ~ in_func frameL f c).
  { assert (Hn : f_fs frameL = ∅) by concrete. intros f c (X & HX & _). rewrite Hn in HX. by rewrite lookup_empty in HX. }
  assert (Hv : vnames frameL = {["u"; "w"]}) by concrete. assert (Hf : fnames frameL = ∅) by concrete.
  assert (Hcs : forall c cl, world_of list_calls !! c = Some cl -> cl ∈ list_calls). { intros c cl Hc. by apply (world_of_elem list_calls) in Hc as [? _]; [|concrete]. }
  eexists. split; [apply worldb_ok; by vm_compute|]. split; [apply consumers_answers; by vm_compute|]. split.
  { unfold frameL. destruct (run_sane list_calls _ empty_frame) as [F|] eqn:E; [|apply empty_consistent].
    change (default empty_frame (Some F)) with F. eapply (run_sane_consistent list_calls _ empty_frame F); [by vm_compute|apply empty_consistent|exact E]. }
  split; [by intros f c cl ?%Hno|]. split.
  { exists (fun v => head_in "_" v = false). rewrite Hv, Hf. split; [by intros v [->%elem_of_singleton| ->%elem_of_singleton]%elem_of_union|].
    split; [by intros f ?%elem_of_empty|]. split.
    - intros c cl l h G v HU (n & r & Hnr & Hl & _) Hn. apply Hcs in HU. assert (l = "list") as -> by (each HU; each Hnr; by vm_compute).
      assert (head_in "l" v = true) as Hx.
      { unfold get_new_vname in Hn. cbn in Hn. case_decide; [exact (next_free_head (dom (f_vs G)) "list" (S (size (dom (f_vs G)))) "l" 0 v eq_refl Hn)|]. by injection Hn as <-. }
      destruct (head_in "_" v) eqn:Hy; [|done]. exfalso. by eapply heads_apart; [|exact Hx|exact Hy].
    - intros c cl G f HU Hn Hx. apply Hcs in HU. assert (head_in "_" (op_name (c_op cl)) = true) as Ho by (by each HU).
      pose proof (new_fname_head _ _ _ _ Ho Hn). congruence. }
  split; [apply pair_of; concrete|]. split.
  - intros (Hk & _). destruct (Hk "w") as [_ Hw]; [rewrite Hv; apply elem_of_union; right; by apply elem_of_singleton|].
    destruct (Hw "a") as [(X & HX & Hx) _]; [exists {["a"; "b"]}; split; concrete|].
    assert (f_vs frameL !! "w" = Some {["b"]}) as Hb by concrete. rewrite Hb in HX. injection HX as <-. by apply elem_of_singleton in Hx.
  - exists "u", "a", "__make_list__", "elts". split; [exists {["a"]}; split; concrete|]. split; [by exists "elts_0", (mkref "a"); split; [left|]|].
    split; [exists {["m"]}; split; concrete|]. intros (mm & X & Hm & HX & _).
    match type of Hm with ?a = _ => assert (a = Some ∅) as He by concrete end.
    rewrite He in Hm. injection Hm as <-. rewrite lookup_empty in HX. discriminate HX.
Qed.

Print Assumptions C51_expand_forward_partial.
Print Assumptions C51_recursive_partial.
Print Assumptions C51_all_consumers_refuted.
Print Assumptions C51_lists_refuted.
