(** C41-C43: union and intersection of frames, upstream and downstream, reachable elements. *)
From stdpp Require Import base strings gmap list relations.
From Verif Require Import Base PyDict Returns Refs Storage Frame Spec_Frame Paths Spec_Paths
  Frame_base Frame_ok Frame_ok2 Frame_ok3 Frame_sel Frame_reach Frame_reach2 Frame_stream Frame_run Paths_proofs Paths_loop Props_Frame.
Local Open Scope pym_scope.

(** the rules are monotone, so the least set closed under them is itself closed *)
Lemma reach_closed F dr strong init : closed F dr strong (reach F dr strong init).
Proof.
  destruct dr; split.
  - intros f v l c cl h Hr Hf Hc He Ho Hv P HP HC. pose proof (Hr P HP HC) as Hp. destruct HC as [H1 _]. by eapply (H1 f v l c cl h).
  - intros f c cl Hf Hc Hi P HP HC. pose proof HC as [_ H2]. apply (H2 f c cl Hf Hc). destruct strong.
    + destruct Hi as [Hi1 Hi2]. split; [done|]. intros l h v Hi He. destruct (Hi2 l h v Hi He) as (v' & He' & Hr). exists v'. split; [done|by apply Hr].
    + destruct Hi as (v & l & h & He & Hr & Hcr). exists v, l, h. split; [done|]. split; [by apply Hr|done].
  - intros f v l c cl h Hr Hf Hc He Ho Hv P HP HC. pose proof (Hr P HP HC) as Hp. destruct HC as [H1 _]. by eapply (H1 f v l c cl h).
  - intros f c cl Hf Hc Hi P HP HC. pose proof HC as [_ H2]. apply (H2 f c cl Hf Hc). destruct strong.
    + destruct Hi as [Hi1 Hi2]. split; [done|]. intros l h v Hi He. destruct (Hi2 l h v Hi He) as (v' & He' & Hr). exists v'. split; [done|by apply Hr].
    + destruct Hi as (l & h & v & Hi & He & Hr). exists l, h, v. split; [done|]. split; [done|by apply Hr].
Qed.
Lemma closed_iff F dr strong (P Q : string -> string -> Prop) : (forall n x, P n x <-> Q n x) -> closed F dr strong P -> closed F dr strong Q.
Proof.
  intros HPQ. destruct dr; intros [H1 H2]; split.
  - intros f v l c cl h Hr Hf Hc He Ho Hv. apply HPQ. eapply (H1 f v l c cl h); [by apply HPQ|done..].
  - intros f c cl Hf Hc Hi. apply HPQ, (H2 f c cl Hf Hc). destruct strong.
    + destruct Hi as [Hi1 Hi2]. split; [done|]. intros l h v Hi He. destruct (Hi2 l h v Hi He) as (v' & He' & Hr). exists v'. split; [done|by apply HPQ].
    + destruct Hi as (v & l & h & He & Hr & Hcr). exists v, l, h. split; [done|]. split; [by apply HPQ|done].
  - intros f v l c cl h Hr Hf Hc He Ho Hv. apply HPQ. eapply (H1 f v l c cl h); [by apply HPQ|done..].
  - intros f c cl Hf Hc Hi. apply HPQ, (H2 f c cl Hf Hc). destruct strong.
    + destruct Hi as [Hi1 Hi2]. split; [done|]. intros l h v Hi He. destruct (Hi2 l h v Hi He) as (v' & He' & Hr). exists v'. split; [done|by apply HPQ].
    + destruct Hi as (l & h & v & Hi & He & Hr). exists l, h, v. split; [done|]. split; [done|by apply HPQ].
Qed.

(** * C41 *)

(** Union.  What the code returns, when it returns, has at every node the union of the elements,
    and all edges of both.  Full statement: it always returns, and the result is consistent.  False,
    see below; it holds when the frames agree on the edges of the functions they share and do not
    use the same name for a variable and a function. *)
Theorem C41_union_partial : forall U F G, world U -> consistent U F -> consistent U G ->
  (forall R, frame_union F G = Ok R ->
    (forall v, v ∈ vnames R <-> v ∈ vnames F \/ v ∈ vnames G) /\ (forall f, f ∈ fnames R <-> f ∈ fnames F \/ f ∈ fnames G) /\
    (forall v h, in_var R v h <-> in_var F v h \/ in_var G v h) /\ (forall f c, in_func R f c <-> in_func F f c \/ in_func G f c) /\
    (forall s d l, has_edge R s d l <-> has_edge F s d l \/ has_edge G s d l) /\ check R = true) /\
  (compatible F G -> exists R, frame_union F G = Ok R /\ consistent U R).
Proof.
  intros U F G HU HF HG. split.
  - intros R HR. unfold frame_union in HR. destruct (check (union_data F G)) eqn:Hc; [|done]. injection HR as <-.
    split; [intros v; by rewrite union_data_vnames, elem_of_union|]. split; [intros v; by rewrite union_data_fnames, elem_of_union|].
    split; [apply union_data_var|]. split; [apply union_data_func|]. split; [apply union_data_edge|done].
  - intros Hc. pose proof (union_data_consistent U F G HU HF HG Hc) as HR. exists (union_data F G). split; [|done].
    unfold frame_union. by rewrite (consistent_check U _ HU HR).
Qed.
(** The laws.  Where the same ref occurs in both frames it has to be the same object ([agree]; the
    code keeps the left one); the other indexes agree because both frames are of one storage. *)
Theorem C41_union_laws : forall U F G K, world U -> consistent U F -> consistent U G ->
  frame_union F F = Ok F /\
  (agree (f_refs F) (f_refs G) -> frame_union F G = frame_union G F) /\
  (forall FG GK R, frame_union F G = Ok FG -> frame_union G K = Ok GK -> frame_union FG K = Ok R <-> frame_union F GK = Ok R).
Proof.
  intros U F G K HU HF HG. split; [|split].
  - unfold frame_union. by rewrite union_data_idem, (consistent_check U F HU HF).
  - intros Hr. destruct (consistent_agree U F G HU HF HG) as [H1 H2]. unfold frame_union. by rewrite (union_data_comm F G H1 Hr H2).
  - intros FG GK R H1 H2. unfold frame_union in H1, H2. destruct (check (union_data F G)); [|done]. destruct (check (union_data G K)); [|done].
    injection H1 as <-. injection H2 as <-. unfold frame_union. by rewrite union_data_assoc.
Qed.
Lemma sub_sets (a b : setmap) : map_Forall (fun v (X : sset) => X ⊆ default ∅ (b !! v)) a ->
  forall v h, (exists X, a !! v = Some X /\ h ∈ X) -> exists X, b !! v = Some X /\ h ∈ X.
Proof.
  intros Ha v h (X & HX & Hx). specialize (Ha v X HX h Hx). destruct (b !! v) as [Y|]; [by exists Y|]. by apply not_elem_of_empty in Ha.
Qed.
Lemma agree_by (a b : gmap string ref) : map_Forall (fun k x => default x (b !! k) = x) a -> agree a b.
Proof. intros Ha k x y Hx Hy. specialize (Ha k x Hx). cbn in Ha. by rewrite Hy in Ha. Qed.
(** the same graph, with one more call *)
Definition ops3 : list fop := ops1 ++ [OpAddCall "f" cf2 false].
Definition frame3 : frame := from_ops ops3.
Example C41_instance : consistent U0 frame1 /\ consistent U0 frame3 /\ compatible frame1 frame3 /\ aligned frame1 frame3 /\
  agree (f_refs frame1) (f_refs frame3) /\ frame1 <> frame3.
Proof.
  split; [apply frame1_consistent|]. split; [apply from_ops_ok; concrete|].
  assert (Ho : f_out frame1 = f_out frame3) by concrete.
  split; [split; [concrete|concrete|]|].
  { intros. unfold has_edge. rewrite Ho. split; apply iff_refl. }
  split; [|split; [|intros E; assert (f_calls frame1 <> f_calls frame3) as Hne by concrete; apply Hne; rewrite E; reflexivity]].
  - clear Ho. split.
    + intros h v _ Hv _. exists v. split; [exact Hv|]. revert v h Hv. apply sub_sets. concrete.
    + intros h v _ Hv _. exists v. split; [exact Hv|]. revert v h Hv. apply sub_sets. concrete.
  - apply agree_by. concrete.
Qed.
(** Two consistent frames of one storage whose union raises [AssertionError]: they have the function
    f with the same label leading to variables of different names. *)
Definition frame4 : frame := from_ops
  [OpAddVar "u"; OpAddVar "w"; OpAddFunc "f"; OpAddEdge "u" "f" "x"; OpAddEdge "f" "w" "output_0"; OpAddCall "f" cf2 false].
Theorem C41_union_refuted : exists U F G, world U /\ consistent U F /\ consistent U G /\ agree (f_refs F) (f_refs G) /\ frame_union F G = Err EAssertion.
Proof.
  exists U0, frame1, frame4. split; [apply U0_world|]. split; [apply frame1_consistent|]. split; [apply from_ops_ok; concrete|].
  split.
  - apply agree_by. concrete.
  - unfold frame_union. assert (check (union_data frame1 frame4) = false) as -> by concrete. done.
Qed.

(** Intersection, which is never checked: at every node the common elements, the common edges, and
    the laws.  Full statement: the result is consistent.  False, see below; it holds when what the
    frames have in common is also in a common node. *)
Theorem C41_intersection_partial : forall U F G, world U -> consistent U F -> consistent U G ->
  (forall v h, in_var (frame_inter F G) v h <-> in_var F v h /\ in_var G v h) /\
  (forall f c, in_func (frame_inter F G) f c <-> in_func F f c /\ in_func G f c) /\
  (forall s d l, has_edge (frame_inter F G) s d l <-> has_edge F s d l /\ has_edge G s d l) /\
  (vnames F ## fnames G -> fnames F ## vnames G -> aligned F G -> consistent U (frame_inter F G)).
Proof.
  intros U F G HU HF HG. split; [apply inter_var|]. split; [apply inter_func|]. split; [apply inter_edge|].
  by apply inter_consistent.
Qed.
Theorem C41_intersection_laws : forall U F G K, world U -> consistent U F -> consistent U G ->
  frame_inter F F = F /\ (agree (f_refs F) (f_refs G) -> frame_inter F G = frame_inter G F) /\
  frame_inter F (frame_inter G K) = frame_inter (frame_inter F G) K.
Proof.
  intros U F G K HU HF HG. split; [apply frame_inter_idem|]. split; [|apply frame_inter_assoc].
  intros Hr. destruct (consistent_agree U F G HU HF HG) as [H1 H2]. by apply frame_inter_comm.
Qed.
(** One ref in variables of different names: it stays in [refs] but is in no variable. *)
Theorem C41_intersection_refuted : exists U F G, world U /\ consistent U F /\ consistent U G /\ agree (f_refs F) (f_refs G) /\
  compatible F G /\ check (frame_inter F G) = false.
Proof.
  exists U0, (from_ops [OpAddVar "a"; OpAddRef "a" (mkref "x0") false]), (from_ops [OpAddVar "b"; OpAddRef "b" (mkref "x0") false]).
  split; [apply U0_world|]. split; [apply from_ops_ok; concrete|]. split; [apply from_ops_ok; concrete|].
  split; [|split; [|concrete]].
  - apply agree_by. concrete.
  - split; [concrete|concrete|]. intros f Hf. exfalso. revert Hf.
    assert (fnames (from_ops [OpAddVar "a"; OpAddRef "a" (mkref "x0") false]) = ∅) as -> by concrete. apply not_elem_of_empty.
Qed.

(** * C42 *)

(** [upstream] and [downstream] always return; they keep exactly the nodes that reach, or are
    reachable from, the given ones, the edges among them, and all elements of the given nodes. *)
Theorem C42_stream : forall ord eord U F dr strong ns, orders ord eord -> world U -> consistent U F -> tidy F -> ns ⊆ f_nodes F ->
  exists R, stream ord eord dr strong ns F = Ok R /\
    (forall m, m ∈ f_nodes R <-> exists n, n ∈ ns /\ rtc (nstep F dr) n m) /\
    (forall s d l, has_edge R s d l <-> has_edge F s d l /\ s ∈ f_nodes R /\ d ∈ f_nodes R) /\
    (forall n x, in_node R n x -> in_node F n x) /\ (forall n x, n ∈ ns -> in_node R n x <-> in_node F n x).
Proof.
  intros ord eord U F dr strong ns Ho HU HF HT Hns.
  destruct (stream_ok ord eord Ho U HU dr strong ns F HF HT Hns) as (keep & R1 & R & HR & Hk & HS & HC & Hks & view & HV & Hv).
  exists R. split; [done|]. pose proof (selected_nodes keep F R1 HS Hks) as Hn.
  assert (HnR : f_nodes R = keep) by (unfold f_nodes in *; by rewrite (rs_v _ _ _ HV), (rs_f _ _ _ HV)).
  rewrite HnR. split; [done|]. split; [intros s d l; by rewrite (rs_edge _ _ _ HV), (sl_edge _ _ _ HS)|].
  assert (HT1 : tidy R1) by (eapply selected_tidy; [done|apply HS|done]).
  assert (Hin : forall n x, in_node R n x -> in_node R1 n x).
  { intros n x Hx. assert (smrel view n x) as Hx'. { destruct Hx as [Hx|Hx]; [apply (rs_var _ _ _ HV) in Hx|apply (rs_func _ _ _ HV) in Hx]; tauto. }
    apply Hv in Hx'. specialize (Hx' (fun n x => in_node R1 n x)). apply Hx'; [tauto|].
    clear -HC HT1. destruct dr; split; intros; first [by left|by right]. }
  split.
  - intros n x Hx. apply Hin in Hx. by apply (selected_in_node keep F R1 n x HS) in Hx as [_ ?].
  - intros n x Hnn. split; [intros Hx; apply Hin in Hx; by apply (selected_in_node keep F R1 n x HS) in Hx as [_ ?]|].
    intros Hx. assert (n ∈ keep) as Hnk by (apply Hk; eauto using rtc_refl).
    assert (in_node R1 n x) as Hx1 by by apply (selected_in_node keep F R1 n x HS).
    assert (smrel view n x) as Hx2 by (apply Hv; intros P HP _; by apply HP).
    destruct Hx1 as [Hx1|Hx1]; [left; apply (rs_var _ _ _ HV)|right; apply (rs_func _ _ _ HV)]; (split; [by eapply smrel_dom|done]).
Qed.

Lemma frame_tidy F : forallb (fun cc : string * call => negb (is_make_list (c_op cc.2))) (map_to_list (f_calls F)) = true -> tidy F.
Proof.
  intros Hall f c cl _ Hc Hm. rewrite forallb_forall in Hall. specialize (Hall (c, cl)). exfalso.
  assert (negb (is_make_list (c_op cl)) = true) as Hn. { apply Hall. apply elem_of_list_In, elem_of_map_to_list. exact Hc. }
  rewrite Hm in Hn. discriminate Hn.
Qed.
Example C42_stream_instance : tidy frame1 /\ ({["y"]} : sset) ⊆ f_nodes frame1 /\ consistent U0 frame1 /\ nstep frame1 Back "y" "f" /\ ~ nstep frame1 Back "y" "g".
Proof.
  split; [apply frame_tidy; concrete|]. split; [concrete|]. split; [apply frame1_consistent|]. split.
  - exists "output_0", {["output_0" := {["y"]}]}, {["y"]}. split; [concrete|]. split; [concrete|by apply elem_of_singleton].
  - intros (l & m & X & Hm & HX & Hy). assert (map_Forall (fun l (X : sset) => "y" ∉ X) (default ∅ (f_out frame1 !! "g"))) as Ha by concrete.
    rewrite Hm in Ha. exact (Ha l X HX Hy).
Qed.
(** The result of [upstream] need not satisfy [_check]: from p and z, the call of k is kept because of
    its output p, q is kept as a node because it leads to z, but the element q is not. *)
Definition frame5 : frame := from_ops
  [OpAddVar "x"; OpAddVar "p"; OpAddVar "q"; OpAddVar "z"; OpAddFunc "k"; OpAddFunc "g"; OpAddEdge "x" "k" "a"; OpAddEdge "x" "k" "b";
   OpAddEdge "k" "p" "output_0"; OpAddEdge "k" "q" "output_1"; OpAddEdge "q" "g" "a"; OpAddEdge "g" "z" "output_0"; OpAddCall "k" ck1 false].
Theorem C42_upstream_check_refuted : exists U F R, world U /\ consistent U F /\ tidy F /\
  stream elements elements Back false {["p"; "z"]} F = Ok R /\ check R = false.
Proof.
  destruct (stream elements elements Back false {["p"; "z"]} frame5) as [R|] eqn:HR.
  - exists U0, frame5, R. split; [apply U0_world|]. split; [clear; apply from_ops_ok; concrete|]. split; [clear; apply frame_tidy; concrete|].
    split; [exact HR|].
    assert (match stream elements elements Back false {["p"; "z"]} frame5 with Ok R => check R | _ => true end = false) as Hc by concrete.
    rewrite HR in Hc. exact Hc.
  - assert (match stream elements elements Back false {["p"; "z"]} frame5 with Ok R => true | _ => false end = true) as Hc by concrete.
    rewrite HR in Hc. discriminate Hc.
Qed.

(** [midstream] on frames without cycles: returns (given a recursion limit above the number of nodes)
    and keeps exactly the nodes on a path between two different given nodes. *)
Theorem C42_midstream_acyclic : forall ord eord U F fuel strong ns, orders ord eord -> world U -> consistent U F -> tidy F ->
  (forall n, n ∈ ns -> n ∈ f_nodes F) -> acyclic (gstep F) -> size (f_nodes F) <= fuel ->
  exists R, midstream ord eord fuel strong ns F = Ok R /\
    (forall n, n ∈ f_nodes R <-> exists s d p, s ∈ ns /\ d ∈ ns /\ s <> d /\ simple_path (gstep F) s d p /\ n ∈ s :: p) /\
    (forall s d l, has_edge R s d l <-> has_edge F s d l /\ s ∈ f_nodes R /\ d ∈ f_nodes R).
Proof.
  intros ord eord U F fuel strong ns Ho HU HF HT Hns Hac Hf.
  destruct (midstream_nodes_total ord eord Ho U fuel ns F HF Hac Hns Hf) as [keep Hk].
  destruct (midstream_nodes_bounds ord eord Ho U HU fuel ns F keep HF Hk) as [B1 B2].
  destruct (midstream_ok ord eord Ho U HU fuel strong ns F keep HF HT Hns Hk) as (R1 & R & HR & Hks & HS & HC & view & HV & _).
  exists R. split; [done|]. pose proof (selected_nodes keep F R1 HS Hks) as Hn.
  assert (HnR : f_nodes R = keep) by (unfold f_nodes in *; by rewrite (rs_v _ _ _ HV), (rs_f _ _ _ HV)).
  rewrite HnR. split; [|intros s d l; by rewrite (rs_edge _ _ _ HV), (sl_edge _ _ _ HS)].
  intros n. split.
  - intros Hn'. apply B2 in Hn' as (s & d & Hs & Hd & Hne & H1 & H2). exists s, d. 
    destruct (node_on_simple (gstep F) s n d Hac H1 H2) as (p & Hp & Hnp). exists p. done.
  - intros (s & d & p & Hs & Hd & Hne & Hp & Hnp). by apply (B1 s d p n).
Qed.
(** On any frame, if [midstream] returns: it keeps the nodes of every simple path, and only nodes of walks. *)
Theorem C42_midstream_partial : forall ord eord U F fuel strong ns R, orders ord eord -> world U -> consistent U F -> tidy F ->
  (forall n, n ∈ ns -> n ∈ f_nodes F) -> midstream ord eord fuel strong ns F = Ok R ->
  (forall s d p n, s ∈ ns -> d ∈ ns -> s <> d -> simple_path (gstep F) s d p -> n ∈ s :: p -> n ∈ f_nodes R) /\
  (forall n, n ∈ f_nodes R -> exists s d, s ∈ ns /\ d ∈ ns /\ s <> d /\ rtc (gstep F) s n /\ rtc (gstep F) n d).
Proof.
  intros ord eord U F fuel strong ns R Ho HU HF HT Hns HR.
  destruct (midstream_nodes ord fuel ns F) as [keep|] eqn:Hk; [|by unfold midstream in HR; rewrite Hk in HR].
  destruct (midstream_nodes_bounds ord eord Ho U HU fuel ns F keep HF Hk) as [B1 B2].
  destruct (midstream_ok ord eord Ho U HU fuel strong ns F keep HF HT Hns Hk) as (R1 & R' & HR' & Hks & HS & HC & view & HV & _).
  rewrite HR' in HR. injection HR as ->. pose proof (selected_nodes keep F R1 HS Hks) as Hn.
  assert (HnR : f_nodes R = keep) by (unfold f_nodes in *; by rewrite (rs_v _ _ _ HV), (rs_f _ _ _ HV)).
  by rewrite HnR.
Qed.
(** On a frame with cycles it may recurse for ever, whatever the recursion limit. *)
Definition frame_loop : frame := from_ops
  [OpAddVar "q"; OpAddVar "b"; OpAddVar "z"; OpAddFunc "f"; OpAddFunc "k"; OpAddEdge "q" "f" "a"; OpAddEdge "b" "f" "b";
   OpAddEdge "f" "b" "output_0"; OpAddEdge "f" "q" "output_1"; OpAddEdge "b" "k" "a"; OpAddEdge "k" "q" "output_0"; OpAddEdge "k" "z" "output_1"].
Theorem C42_midstream_refuted : exists U F ns, world U /\ consistent U F /\ tidy F /\ (forall n, n ∈ ns -> n ∈ f_nodes F) /\
  (exists p, simple_path (gstep F) "q" "z" p) /\
  forall fuel strong, midstream elements elements fuel strong ns F = Err EFuel.
Proof.
  exists U0, frame_loop, ["q"; "z"]. split; [apply U0_world|]. split; [apply from_ops_ok; concrete|]. split; [apply frame_tidy; concrete|].
  split; [|split].
  - assert (Forall (fun n => n ∈ f_nodes frame_loop) ["q"; "z"]) as Ha by concrete. rewrite Forall_forall in Ha. exact Ha.
  - exists ["f"; "b"; "k"; "z"]. split; [|split; [concrete|reflexivity]].
    split; [|split; [|split; [|split; [|exact I]]]].
    + exists "a", {["a" := {["f"]}]}, {["f"]}. split; [concrete|split; [concrete|concrete]].
    + exists "output_0", (<["output_0" := {["b"]}]> {["output_1" := {["q"]}]}), {["b"]}. split; [concrete|split; [concrete|concrete]].
    + exists "a", (<["a" := {["k"]}]> {["b" := {["f"]}]}), {["k"]}. split; [concrete|split; [concrete|concrete]].
    + exists "output_1", (<["output_0" := {["q"]}]> {["output_1" := {["z"]}]}), {["z"]}. split; [concrete|split; [concrete|concrete]].
  - intros fuel strong.
    assert (graph_of frame_loop = Ok loop_graph) as Hg by concrete.
    unfold midstream, midstream_nodes.
    assert (distinct_pairs ["q"; "z"] = [("q", "z"); ("z", "q")]) as -> by concrete.
    cbn [edges_between_all]. change (("q", "z").1) with "q". change (("q", "z").2) with "z".
    assert (edges_between elements fuel "q" "z" frame_loop = Err EFuel) as ->; [|reflexivity].
    unfold edges_between. rewrite Hg. exact (loop_diverges fuel).
Qed.

(** * C43 *)

(** The reachable elements are the least set that contains the initial ones and is closed under the
    rules ([closed], Spec_Frame.v); the computation always ends ([Err EFuel] is never returned: the
    fuel is one more than the number of elements of the frame). *)
Theorem C43 : forall ord eord U F init dr strong, orders ord eord -> world U -> consistent U F -> tidy F ->
  (forall n x, smrel init n x -> in_node F n x) ->
  exists st, get_reachable_elts ord eord init dr strong F = Ok st /\
    (* contains the initial elements, is closed *)
    (forall n x, smrel init n x -> smrel st n x) /\ closed F dr strong (smrel st) /\
    (* and is contained in every such set *)
    (forall P : string -> string -> Prop, (forall n x, smrel init n x -> P n x) -> closed F dr strong P -> forall n x, smrel st n x -> P n x).
Proof.
  intros ord eord U F init dr strong Ho HU HF HT Hin.
  destruct (get_reachable_elts_ok ord eord Ho U HU F HF HT init dr strong Hin) as (st & Hst & _ & Hr).
  exists st. split; [done|]. split; [intros n x Hx; apply Hr; intros P HP _; by apply HP|]. split.
  - eapply closed_iff; [|apply (reach_closed F dr strong (smrel init))]. intros n x. symmetry. apply Hr.
  - intros P HP HC n x Hx. apply Hr in Hx. by apply Hx.
Qed.
(** [drop_unreachable] keeps the elements reachable (backwards) from those that no element of an
    adjacent node leads to. *)
Theorem C43_drop_unreachable : forall ord eord U F dr strong, orders ord eord -> world U -> consistent U F -> tidy F ->
  exists R, drop_unreachable ord eord dr strong F = Ok R /\ vnames R = vnames F /\ fnames R = fnames F /\
    (forall s d l, has_edge R s d l <-> has_edge F s d l) /\
    forall n x, in_node R n x <-> reach F dr strong (fun n x => in_node F n x /\
        ~ exists s d l, has_edge F s d l /\ n = match dr with Forward => d | Back => s end /\
            link F dr (s, d, l) (in_node F (other dr (s, d, l))) x) n x.
Proof.
  intros ord eord U F dr strong Ho HU HF HT. destruct (drop_unreachable_ok ord eord Ho U HU dr strong F HF HT) as (R & view & HR & HV & Hv).
  exists R. split; [done|]. split; [apply HV|]. split; [apply HV|]. split; [apply HV|]. intros n x. rewrite <-Hv. unfold in_node.
  rewrite (rs_var _ _ _ HV), (rs_func _ _ _ HV). split; [tauto|]. intros Hx.
  assert (in_node F n x) as [Hn|Hn].
  { apply Hv in Hx. apply (Hx (fun n x => in_node F n x)); [tauto|]. clear. destruct dr; split; intros; first [by left|by right]. }
  - left. split; [by eapply smrel_dom|done].
  - right. split; [by eapply smrel_dom|done].
Qed.
(** With both calls of f, forwards from x0 everything is reached; without x0 nothing. *)
Example C43_instance : consistent U0 frame3 /\ tidy frame3 /\
  get_reachable_elts elements elements {["x" := {["x0"]}]} Forward true frame3 =
    Ok (<["x" := {["x0"]}]> (<["f" := {["c1"]}]> (<["y" := {["y1"]}]> (<["g" := {["c3"]}]> {["z" := {["z1"]}]})))).
Proof. split; [apply from_ops_ok; concrete|]. split; [apply frame_tidy; concrete|]. concrete. Qed.

Print Assumptions C41_union_partial.
Print Assumptions C41_union_laws.
Print Assumptions C41_union_refuted.
Print Assumptions C41_intersection_partial.
Print Assumptions C41_intersection_laws.
Print Assumptions C41_intersection_refuted.
Print Assumptions C42_stream.
Print Assumptions C42_upstream_check_refuted.
Print Assumptions C42_midstream_acyclic.
Print Assumptions C42_midstream_partial.
Print Assumptions C42_midstream_refuted.
Print Assumptions C43.
Print Assumptions C43_drop_unreachable.
