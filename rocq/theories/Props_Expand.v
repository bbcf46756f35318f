(** C44: expanding a frame backwards. *)
From stdpp Require Import base strings gmap list relations.
From Verif Require Import Base PyDict Returns Refs Storage Frame Spec_Frame FrameExpand Spec_Expand
  Frame_base Frame_names Frame_ok Frame_ok2 Frame_ok3 Frame_sel Frame_stream Frame_run Expand_proofs Props_Frame.
Local Open Scope pym_scope.

(** Full statement: [expand_back(recursive=True)] ends with the frame plus exactly the history of its
    values, and the frame is consistent.  It is false for the default [reuse_existing=True] (see
    [C44_reuse_refuted]); proved for [reuse_existing=False], on all variables, when the names of
    variables and functions are apart.  The storage's answers may come in any order. *)
Theorem C44_expand_back_partial : forall ord eord gord creators consumers U F,
  orders ord eord -> (forall l, gord l ≡ₚ l) -> world U -> acyclic U -> tidy_calls U -> answers U creators ->
  consistent U F -> tidy F -> inputs_known F -> names_apart U F -> vnames F <> ∅ ->
  exists n F', (forall k, n <= k -> expand_loop ord eord gord creators consumers Back false false true k F = (Ok tt, F')) /\
    consistent U F' /\ check F' = true /\ kept_in F F' /\
    (forall h, h ∈ dom (f_refs F') <-> history U (fun h => h ∈ dom (f_refs F)) h) /\
    (forall c, c ∈ dom (f_calls F') <-> c ∈ dom (f_calls F) \/ history_call U (fun h => h ∈ dom (f_refs F)) c).
Proof.
  intros ord eord gord creators consumers U F Ho Hg HU [rank Hrank] HT Hcr HC HTF HI (isv & N1 & N2 & N3 & N4) Hne.
  destruct (expand_back_ok ord eord Ho U HU isv N3 N4 HT gord Hg creators consumers Hcr rank Hrank F) as (n & F' & E & HC' & HK & HR & Hc); [|done|].
  { by split. }
  exists n, F'. split; [done|]. split; [done|]. split; [by eapply consistent_check|]. done.
Qed.

(** One pass ([expand_back(varnames=A, reuse_existing=False)], with or without [skip_existing], and without names the
    non-recursive loop): it succeeds, keeps the frame, and adds exactly the creators of the values of [A] that are not
    connected to their creator, with the inputs of these creators; without [skip_existing] every value of [A] with a recorded
    creator is connected to it afterwards.  New edges at the old variables come from such creators and go into [A] only. *)
Theorem C44_expand_pass_partial : forall ord eord gord creators consumers U F A skip,
  orders ord eord -> (forall l, gord l ≡ₚ l) -> world U -> tidy_calls U -> answers U creators ->
  consistent U F -> tidy F -> inputs_known F -> names_apart U F -> A ⊆ vnames F -> A <> ∅ ->
  exists F', expand_step ord eord gord creators consumers Back false skip A F = (Ok tt, F') /\
    (A = vnames F -> forall k, expand_loop ord eord gord creators consumers Back false skip false (S k) F = (Ok tt, F')) /\
    consistent U F' /\ check F' = true /\ kept_in F F' /\
    (forall c, c ∈ dom (f_calls F') <-> c ∈ dom (f_calls F) \/ exists cl, missing_creator U A F c cl) /\
    (forall h, h ∈ dom (f_refs F') <-> h ∈ dom (f_refs F) \/ exists c cl l, missing_creator U A F c cl /\ call_input cl l h) /\
    (skip = false -> forall v h c cl l, v ∈ A -> in_var F v h -> U !! c = Some cl -> call_output cl l h -> connected_creator F' v h) /\
    (forall f v l, v ∈ vnames F -> has_edge F' f v l -> has_edge F f v l \/
      (v ∈ A /\ exists c cl h, missing_creator U A F c cl /\ in_func F' f c /\ call_output cl l h /\ in_var F v h)) /\
    (forall v f l, v ∈ vnames F -> has_edge F' v f l -> has_edge F v f l).
Proof.
  intros ord eord gord creators consumers U F A skip Ho Hg HU HT Hcr HC HTF HI (isv & N1 & N2 & N3 & N4) HA Hne.
  destruct (expand_pass_ok ord eord Ho U HU isv N3 N4 HT gord Hg creators consumers Hcr A skip F) as (F' & E & HC' & HK & H1 & H2 & H3); [by split|done|done|].
  exists F'. split; [done|]. split; [|split; [done|]; split; [by eapply consistent_check|]; done].
  intros -> k. cbn [expand_loop]. rewrite bindM_getM, (bindM_step _ _ _ _ _ E), bindM_getM. by case_decide.
Qed.

(** * A chain of calls: y1 = f(x0), y2 = f(y1), y3 = f(y2), and z = g(y1) *)
Definition chain : list call :=
  [mkcall "f" "c1" [("x", "x0")] [("output_0", "y1")]; mkcall "f" "c2" [("x", "y1")] [("output_0", "y2")];
   mkcall "f" "c3" [("x", "y2")] [("output_0", "y3")]; mkcall "g" "c4" [("x", "y1")] [("output_0", "z")]].
Definition UC : gmap string call := world_of chain.
(** the frame with one variable holding y3 *)
Definition frameC : frame := default empty_frame (run_sane chain [OpAddVar "v"; OpAddRef "v" (mkref "y3") true] empty_frame).
Definition creators_of (cs : list call) (X : sset) : list call := filter (fun c => Exists (fun nr => rhid nr.2 ∈ X) (c_outs c)) cs.
Definition no_consumers (X : sset) : list call := [].


Lemma creators_answers cs : worldb cs = true -> answers (world_of cs) (creators_of cs).
Proof.
  unfold worldb. intros Hw. do 2 (apply andb_prop in Hw as [Hw _]). apply bool_decide_eq_true in Hw. intros X. unfold creators_of. split.
  - apply NoDup_filter. by eapply NoDup_fmap_1.
  - intros c. rewrite elem_of_list_filter, Exists_exists, world_of_elem by done. split.
    + intros [([n r] & Hnr & Hx) Hc]. split; [done|]. exists (name_proj (c_op c) n), (rhid r). split; [|done]. exists n, r. done.
    + intros [[Hc _] (l & h & (n & r & Hnr & _ & <-) & Hx)]. split; [|done]. by exists (n, r).
Qed.

Definition is_fg (v : string) : bool := String.prefix "f" v || String.prefix "g" v.
Lemma is_fg_head a w : is_fg (String a w) = is_fg (String a "").
Proof. unfold is_fg. cbn [String.prefix]. assert (String.prefix "" w = true) as -> by by destruct w. done. Qed.
Lemma next_free_kind used w fuel : forall i n, is_fg w = true -> next_free used w fuel i = Ok n -> is_fg n = true.
Proof.
  induction fuel as [|fuel IH]; intros i n Hw; cbn; [done|]. case_decide; [by apply IH|]. intros [= <-]. destruct w as [|a w]; [done|].
  unfold numbered. change (is_fg (String a (w +:+ "_" +:+ pretty.pretty i)) = true). rewrite is_fg_head in *. done.
Qed.
Lemma next_free_x used fuel : forall i n, next_free used "x" fuel i = Ok n -> is_fg n = false.
Proof. induction fuel as [|fuel IH]; intros i n; cbn; [done|]. case_decide; [by apply IH|]. by intros [= <-]. Qed.

Lemma chain_calls c cl : UC !! c = Some cl -> cl ∈ chain.
Proof. intros Hc. by apply (world_of_elem chain) in Hc as [? _]; [|concrete]. Qed.
Ltac each H := cbn in H; repeat (apply elem_of_cons in H as [H|H]; [first [injection H as -> -> | subst]|]); [..|by apply elem_of_nil in H].

Lemma UC_world : world UC.
Proof. apply worldb_ok. by vm_compute. Qed.
Lemma UC_acyclic : acyclic UC.
Proof.
  exists (fun h => if decide (h = "y1") then 1 else if decide (h = "y2") then 2 else if decide (h = "y3") then 3 else if decide (h = "z") then 2 else 0).
  intros c cl l h l' h' HU (n & r & Hnr & _ & <-) (n' & r' & Hnr' & _ & <-). apply chain_calls in HU.
  each HU; each Hnr; each Hnr'; vm_compute; lia.
Qed.
Lemma UC_tidy : tidy_calls UC.
Proof. intros c cl HU. apply chain_calls in HU. each HU; by vm_compute. Qed.
Lemma frameC_consistent : consistent UC frameC.
Proof.
  unfold frameC. destruct (run_sane chain [OpAddVar "v"; OpAddRef "v" (mkref "y3") true] empty_frame) as [F|] eqn:E; [|apply empty_consistent].
  change (default empty_frame (Some F)) with F. apply (run_sane_consistent chain [OpAddVar "v"; OpAddRef "v" (mkref "y3") true] empty_frame F); [by vm_compute|apply empty_consistent|exact E].
Qed.
Lemma frameC_names : names_apart UC frameC.
Proof.
  exists (fun v => is_fg v = false).
  assert (Hv : vnames frameC = {["v"]}) by concrete. assert (Hf : fnames frameC = ∅) by concrete. rewrite Hv, Hf.
  split; [by intros v ->%elem_of_singleton|]. split; [by intros f ?%elem_of_empty|]. split.
  - intros c cl l h G v HU (n & r & Hnr & Hl & _) Hn. apply chain_calls in HU. assert (l = "x") as -> by (each HU; each Hnr; by vm_compute).
    unfold get_new_vname in Hn. cbn in Hn. case_decide; [by apply (next_free_x (dom (f_vs G)) (S (size (dom (f_vs G)))) 0)|]. by simplify_eq.
  - intros c cl G f HU Hn. apply chain_calls in HU. assert (is_fg (op_name (c_op cl)) = true) as Ho by (by each HU). rewrite not_false_iff_true.
    unfold get_new_fname in Hn. case_decide; [by eapply (next_free_kind _ _ _ _ _ Ho Hn)|]. by simplify_eq.
Qed.
Lemma frameC_nofuncs : f_fs frameC = ∅.
Proof. concrete. Qed.
(** The hypotheses of [C44_expand_back_partial] hold; the result has the chain and not [z]. *)
Example C44_instance : world UC /\ acyclic UC /\ tidy_calls UC /\ answers UC (creators_of chain) /\
  consistent UC frameC /\ tidy frameC /\ inputs_known frameC /\ names_apart UC frameC /\ vnames frameC <> ∅ /\
  let F' := (expand_loop elements elements id (creators_of chain) no_consumers Back false false true 5 frameC).2 in
  dom (f_refs F') = {["x0"; "y1"; "y2"; "y3"]} /\ dom (f_calls F') = {["c1"; "c2"; "c3"]}.
Proof.
  assert (Hno : forall f c, ~ in_func frameC f c). { intros f c (X & HX & _). rewrite frameC_nofuncs in HX. by rewrite lookup_empty in HX. }
  split; [apply UC_world|]. split; [apply UC_acyclic|]. split; [apply UC_tidy|].
  split; [apply creators_answers; by vm_compute|]. split; [apply frameC_consistent|].
  split; [by intros f c cl ?%Hno|]. split; [by intros f c cl l h ?%Hno|]. split; [apply frameC_names|].
  split; [concrete|]. cbv zeta. split; concrete.
Qed.

(** One pass from y3 finds its creator c3 and the input y2, nothing more. *)
Example C44_pass_instance :
  let F' := (expand_step elements elements id (creators_of chain) no_consumers Back false false {["v"]} frameC).2 in
  ({["v"]} : sset) ⊆ vnames frameC /\ missing_creator UC {["v"]} frameC "c3" (mkcall "f" "c3" [("x", "y2")] [("output_0", "y3")]) /\
  dom (f_refs F') = {["y2"; "y3"]} /\ dom (f_calls F') = {["c3"]}.
Proof.
  assert (Hno : forall f c, ~ in_func frameC f c). { intros f c (X & HX & _). rewrite frameC_nofuncs in HX. by rewrite lookup_empty in HX. }
  cbv zeta. split; [assert (Hv : vnames frameC = {["v"]}) by concrete; by rewrite Hv|]. split; [|split; concrete].
  split; [concrete|]. exists "output_0", "y3", "v". split; [by exists "output_0", (mkref "y3"); split; [left|]|]. split; [by apply elem_of_singleton|].
  split; [exists {["y3"]}; split; concrete|]. intros (f & c & cl & l & _ & Hf & _). by apply (Hno f c).
Qed.

(** With the default [reuse_existing=True] the second pass adds the call c2 to the function made for c3
    and its input y1 to the variable made for y2; no node is new, so the loop stops.  The call c1, which
    made y1, is missing, and the frame does not pass its own [_check]. *)
Theorem C44_reuse_refuted : exists U creators F k F', world U /\ acyclic U /\ tidy_calls U /\ answers U creators /\
  consistent U F /\ tidy F /\ inputs_known F /\ names_apart U F /\ vnames F <> ∅ /\
  expand_loop elements elements id creators no_consumers Back true false true k F = (Ok tt, F') /\
  (exists c, history_call U (fun h => h ∈ dom (f_refs F)) c /\ c ∉ dom (f_calls F')) /\ check F' = false.
Proof.
  destruct C44_instance as (A1 & A2 & A3 & A4 & A5 & A6 & A7 & A8 & A9 & _).
  exists UC, (creators_of chain), frameC, 5. eexists. do 9 (split; [assumption|]). clear A1 A2 A3 A4 A5 A6 A7 A8 A9.
  split; [apply pair_of; concrete|]. split; [|concrete].
  exists "c1". split; [|concrete].
  exists "y1", (mkcall "f" "c1" [("x", "x0")] [("output_0", "y1")]), "output_0". split; [|split; [concrete|by exists "output_0", (mkref "y1"); split; [left|]]].
  eapply (history_input _ _ "y2" "c2" (mkcall "f" "c2" [("x", "y1")] [("output_0", "y2")]) "output_0" "x"); [|concrete|by exists "output_0", (mkref "y2"); split; [left|]|by exists "x", (mkref "y1"); split; [left|]].
  eapply (history_input _ _ "y3" "c3" (mkcall "f" "c3" [("x", "y2")] [("output_0", "y3")]) "output_0" "x"); [|concrete|by exists "output_0", (mkref "y3"); split; [left|]|by exists "x", (mkref "y2"); split; [left|]].
  apply history_start. concrete.
Qed.

Print Assumptions C44_expand_back_partial.
Print Assumptions C44_expand_pass_partial.
Print Assumptions C44_reuse_refuted.
