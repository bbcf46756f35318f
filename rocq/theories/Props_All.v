(** C52: expanding a frame in both directions. *)
From stdpp Require Import base strings gmap list relations.
From Verif Require Import Base PyDict Returns Refs Storage Frame Spec_Frame FrameExpand FrameExpandAll Spec_Expand Spec_Forward Spec_All
  Frame_base Frame_names Frame_ok Frame_ok2 Frame_ok3 Frame_sel Frame_stream Frame_run Expand_proofs Expand_forward Forward_loop Expand_all_proofs
  Props_Frame Props_Expand Props_Forward.
Local Open Scope pym_scope.

(** Full statement: [expand_all] ends, keeps the frame, and then everything recorded about the values of the frame is in it:
    every value is connected to its creator and consumers, and every call has all its inputs.  The last part is false
    ([C52_inputs_refuted]), and so is finding all consumers ([C51_all_consumers_refuted]).  With [reuse_existing=False],
    [skip_existing=False] and no recorded lists it ends after at most two rounds, every value is connected to its creator and to a consumer if there are
    any, and it adds exactly the history of the values and then the future of the values without a consumer. *)
Theorem C52_expand_all_partial : forall ord eord gord creators consumers U F,
  orders ord eord -> (forall l, gord l ≡ₚ l) -> world U -> acyclic U -> no_lists U -> answers U creators -> consumer_answers U consumers ->
  consistent U F -> inputs_known F -> names_apart_both U F -> vnames F <> ∅ ->
  exists n F1 F', (forall inner fuel, n <= inner -> 2 <= fuel -> expand_all ord eord gord creators consumers false false inner fuel F = (Ok tt, F')) /\
    consistent U F' /\ check F' = true /\ kept_in F F' /\ all_connected U F' /\
    (forall k, n <= k -> expand_loop ord eord gord creators consumers Back false false true k F = (Ok tt, F1)) /\
    (forall h, h ∈ dom (f_refs F') <-> history U (fun h => h ∈ dom (f_refs F)) h \/ future U F1 h) /\
    (forall c, c ∈ dom (f_calls F') <-> c ∈ dom (f_calls F) \/ history_call U (fun h => h ∈ dom (f_refs F)) c \/ future_call U F1 c).
Proof.
  intros ord eord gord creators consumers U F Ho Hg HU [rank Hrank] HNL Hcr Hco HC HI (isv & N1 & N2 & N3 & N4) Hne.
  destruct (expand_all_ok ord eord Ho U HU gord Hg creators consumers Hcr Hco isv) with (rank := rank) (F := F) as (n & F1 & F' & E & HC' & HK & HA & H1 & H2); try done.
  - intros c cl l h G v HUc Hi. apply (N3 c cl l h G v HUc). by left.
  - intros c cl l h G v HUc Hi. apply (N3 c cl l h G v HUc). by right.
  - exists n, F1, F'. split; [intros; by apply E|]. split; [done|]. split; [by eapply consistent_check|]. done.
Qed.

(** A frame in which every value is connected is not changed, with any options. *)
Theorem C52_nothing_new : forall ord eord gord creators consumers U F reuse skip inner fuel,
  orders ord eord -> (forall l, gord l ≡ₚ l) -> world U -> answers U creators -> consumer_answers U consumers ->
  consistent U F -> tidy F -> vnames F <> ∅ -> all_connected U F ->
  expand_all ord eord gord creators consumers reuse skip (S inner) (S fuel) F = (Ok tt, F).
Proof.
  intros ord eord gord creators consumers U F reuse skip inner fuel Ho Hg HU Hcr Hco HC HTF Hne HA. eapply all_settled; try done.
  - intros v h c cl l Hv HUc. by apply (HA v h c cl l).
  - intros v h c cl l Hv HUc. by apply (HA v h c cl l).
Qed.

(** * From y1, both ways: x0 and c1 behind it, c2, c3, c4 ahead *)
Lemma frameD_names : names_apart_both UC frameD.
Proof.
  assert (Hv : vnames frameD = {["v"]}) by concrete. assert (Hf : fnames frameD = ∅) by concrete.
  exists (fun v => is_fg v = false). rewrite Hv, Hf. split; [by intros v ->%elem_of_singleton|]. split; [by intros f ?%elem_of_empty|]. split.
  - intros c cl l h G v HU Hl Hn. apply chain_calls in HU. destruct Hl as [(n & r & Hnr & Hl & _)|(n & r & Hnr & Hl & _)].
    + assert (l = "x") as -> by (each HU; each Hnr; by vm_compute).
      unfold get_new_vname in Hn. cbn in Hn. case_decide; [by apply (next_free_x (dom (f_vs G)) (S (size (dom (f_vs G)))) 0)|]. by simplify_eq.
    + assert (l = "output_0") as -> by (each HU; each Hnr; by vm_compute). change (next_free_name (dom (f_vs G)) "var" 0 = Ok v) in Hn.
      assert (head_in "v" v = true) as Hx by (by eapply (next_free_head _ "var"); [|exact Hn]). destruct v as [|a w]; [done|]. cbn in Hx.
      apply bool_decide_eq_true in Hx. injection Hx as ->. by rewrite is_fg_head.
  - intros c cl G f HU Hn. apply chain_calls in HU. assert (is_fg (op_name (c_op cl)) = true) as Ho by (by each HU). rewrite not_false_iff_true.
    unfold get_new_fname in Hn. case_decide; [by eapply (next_free_kind _ _ _ _ _ Ho Hn)|]. by simplify_eq.
Qed.
Example C52_instance : inputs_known frameD /\ names_apart_both UC frameD /\
  let F' := (expand_all elements elements id (creators_of chain) (consumers_of chain) false false 6 2 frameD).2 in
  dom (f_refs F') = {["x0"; "y1"; "y2"; "y3"; "z"]} /\ dom (f_calls F') = {["c1"; "c2"; "c3"; "c4"]}.
Proof.
  split; [|split; [apply frameD_names|cbv zeta; split; concrete]].
  intros f c cl l h (X & HX & _). assert (f_fs frameD = ∅) as Hn by concrete. rewrite Hn, lookup_empty in HX. discriminate HX.
Qed.
(** such frames exist: the theorem above makes them *)
Example C52_nothing_new_instance : exists F, consistent UC F /\ tidy F /\ vnames F <> ∅ /\ all_connected UC F.
Proof.
  destruct C51_instance as (W & CA & CD & _). destruct C51_recursive_instance as (AC & NL & NE & _). destruct C52_instance as (IK & NB & _).
  destruct (C52_expand_all_partial elements elements id (creators_of chain) (consumers_of chain) UC frameD) as (n & F1 & F' & _ & HC & _ & HK & HA & _); try done.
  - apply creators_answers. by vm_compute.
  - exists F'. split; [done|]. split; [by eapply no_lists_tidy|]. split; [|done]. intros He. destruct HK as [HK _].
    destruct (HK "v") as [Hv _]; [assert (Hv : vnames frameD = {["v"]}) by concrete; rewrite Hv; by apply elem_of_singleton|]. rewrite He in Hv. by apply elem_of_empty in Hv.
Qed.

(** o = f(a, b) is found from a, but the other input b is not: forward expansion makes variables for outputs only, and
    o is then connected to its creator, so backward expansion does not look at it. *)
Definition two_inputs : list call := [mkcall "f" "c1" [("x", "a"); ("y", "b")] [("output_0", "o")]].
Definition frameA : frame := default empty_frame (run_sane two_inputs [OpAddVar "v"; OpAddRef "v" (mkref "a") true] empty_frame).
Theorem C52_inputs_refuted : exists U creators consumers F, world U /\ acyclic U /\ no_lists U /\ answers U creators /\ consumer_answers U consumers /\
  consistent U F /\ inputs_known F /\
  forall reuse skip, exists F', expand_all elements elements id creators consumers reuse skip 4 3 F = (Ok tt, F') /\
    exists c cl l h, c ∈ dom (f_calls F') /\ U !! c = Some cl /\ call_input cl l h /\ h ∉ dom (f_refs F').
Proof.
  exists (world_of two_inputs), (creators_of two_inputs), (consumers_of two_inputs), frameA.
  assert (Hcs : forall c cl, world_of two_inputs !! c = Some cl -> cl ∈ two_inputs). { intros c cl Hc. by apply (world_of_elem two_inputs) in Hc as [? _]; [|concrete]. }
  split; [apply worldb_ok; by vm_compute|]. split.
  { exists (fun h => if decide (h = "o") then 1 else 0). intros c cl l h l' h' HU (n & r & Hnr & _ & <-) (n' & r' & Hnr' & _ & <-). apply Hcs in HU.
    each HU; each Hnr; each Hnr'; vm_compute; lia. }
  split; [intros c cl HU; apply Hcs in HU; by each HU|]. split; [apply creators_answers; by vm_compute|]. split; [apply consumers_answers; by vm_compute|]. split.
  { unfold frameA. destruct (run_sane two_inputs _ empty_frame) as [F|] eqn:E; [|apply empty_consistent].
    change (default empty_frame (Some F)) with F. eapply (run_sane_consistent two_inputs _ empty_frame F); [by vm_compute|apply empty_consistent|exact E]. }
  split.
  { intros f c cl l h (X & HX & _). assert (f_fs frameA = ∅) as Hn by concrete. rewrite Hn, lookup_empty in HX. discriminate HX. }
  clear. intros reuse skip. eexists. split; [apply pair_of; destruct reuse, skip; concrete|].
  exists "c1", (mkcall "f" "c1" [("x", "a"); ("y", "b")] [("output_0", "o")]), "y", "b". split; [destruct reuse, skip; concrete|]. split; [concrete|].
  split; [by exists "y", (mkref "b"); split; [right; left|]|]. destruct reuse, skip; concrete.
Qed.

Print Assumptions C52_expand_all_partial.
Print Assumptions C52_nothing_new.
Print Assumptions C52_inputs_refuted.
