(** C45: the table extracted from a frame. *)
From stdpp Require Import base strings gmap list relations.
From Verif Require Import Base PyDict Refs Storage Frame Spec_Frame Paths Spec_Expand FrameHistory Spec_History
  Frame_base Frame_ok Frame_run History_proofs Props_Frame Props_Frame2.

(** Full statement: every row of [cf.df()] collects, for one chosen value, exactly the values and calls
    of the frame in its transitive history.  This is so for the table of one variable
    ([get_history_df]): it has one row per value, with exactly the value's history. *)
Theorem C45_history_rows : forall ord eord U F v X, orders ord eord -> world U -> Spec_Expand.acyclic U -> consistent U F -> tidy F ->
  f_vs F !! v = Some X ->
  exists n, forall k, n <= k -> exists t, history_df ord eord k true F v = Ok t /\ Forall2 (row_of F v) (ord X) (t_rows t).
Proof.
  intros ord eord U F v X Ho HU HA HF HT HX.
  destruct (history_df_ends ord eord Ho U HU F HF HT v HA) as [n Hn]; [by apply elem_of_dom_2 in HX|].
  exists n. intros k Hk. destruct (Hn k Hk) as [t Et]. exists t. split; [done|].
  destruct (history_df_ok ord eord Ho U HU F HF HT k v t Et) as (X' & HX' & _ & H). rewrite HX in HX'. by injection HX' as <-.
Qed.
Print Assumptions C45_history_rows.

(** The joint table of several variables, in the order of [vs]: every row combines whole histories of values
    of different variables, nothing else, and with the outer join every value has a row containing its
    history.  Missing: that the combined values are related ([C45_refuted]). *)
Theorem C45_joint_rows_partial : forall ord eord U F fuel outer vs t, orders ord eord -> world U -> consistent U F -> tidy F -> NoDup vs ->
  joint_history_df ord eord fuel true outer F vs = Ok t ->
  (forall row, row ∈ t_rows t -> combines F vs row) /\
  (outer = true -> forall v h, v ∈ vs -> in_var F v h -> exists row r, row ∈ t_rows t /\ row_of F v h r /\ r ⊆ row).
Proof.
  intros ord eord U F fuel outer vs t Ho HU HF HT Hnd Ht.
  destruct (joint_ok ord eord Ho U HU F HF HT fuel outer vs t Hnd Ht) as [H1 H2]. split; [intros row Hrow; by apply H1|].
  intros E v h Hv Hin. destruct (H2 E v h Hv Hin) as (row & Hrow & r & Hr & Hs). by exists row, r.
Qed.
Print Assumptions C45_joint_rows_partial.

(** Whatever the join: two values combined in a row agree wherever both have a history. *)
Theorem C45_no_conflict : forall ord eord U F fuel outer vs t row n x, orders ord eord -> world U -> consistent U F -> tidy F -> NoDup vs ->
  joint_history_df ord eord fuel true outer F vs = Ok t -> row ∈ t_rows t -> smrel row n x ->
  exists v h, v ∈ vs /\ in_var F v h /\ past F (v, h) (n, x) /\ forall y, smrel row n y <-> past F (v, h) (n, y).
Proof.
  intros ord eord U F fuel outer vs t row n x Ho HU HF HT Hnd Ht Hrow Hx.
  destruct (joint_ok ord eord Ho U HU F HF HT fuel outer vs t Hnd Ht) as [H1 _].
  destruct (H1 row Hrow) as [(ch & _ & _ & H3 & H4) _]. destruct (H4 n x Hx) as (v & h & Hch & Hp).
  destruct (H3 v h Hch) as (Hv & Hin & r & [Hr _] & Hs). exists v, h. split; [done|]. split; [done|]. split; [done|].
  assert (smrel r n x) as (X & HX & _) by by apply Hr. pose proof (lookup_weaken _ _ _ _ HX Hs) as HX'.
  intros y. rewrite <-Hr. unfold smrel. rewrite HX, HX'. done.
Qed.
Print Assumptions C45_no_conflict.

(** [cf.df(nodes)] is the joint table of the restricted frame, whenever that frame is consistent (it need not
    be, see [C40_subsets_stale_refuted]). *)
Theorem C45_df_partial : forall ord eord sortn U F fuel outer ns t, orders ord eord -> world U -> length ns <> 1 ->
  (forall R X, NoDup (sortn R X) /\ forall v, v ∈ sortn R X -> v ∈ X) ->
  df ord eord sortn fuel outer ns F = Ok t ->
  exists R, midstream ord eord fuel true (if decide (ns = []) then ord (f_nodes F) else ns) F = Ok R /\
    (consistent U R -> tidy R -> forall row, row ∈ t_rows t -> combines R (elements (vnames R)) row).
Proof.
  intros ord eord sortn U F fuel outer ns t Ho HU Hl Hs. destruct ns as [|n [|n' ns]]; [|done|]; unfold df;
    (destruct (midstream _ _ _ _ _ _) as [R|] eqn:ER; [|done]); cbn;
    (destruct (get_sink_elts _ _ _) as [sinks|]; [|done]); cbn; intros Ht; exists R; (split; [done|]); intros HC HT row Hrow;
    destruct (Hs R (filter (fun v => default ∅ (sinks !! v) <> ∅) (vnames R))) as [Hnd Hin];
    destruct (C45_joint_rows_partial ord eord U R fuel outer _ t Ho HU HC HT Hnd Ht) as [H1 _];
    (eapply combines_weaken; [|by apply H1]); intros v [_ Hv]%Hin%elem_of_filter; by apply elem_of_elements.
Qed.
Print Assumptions C45_df_partial.

(** * x -> f -> y -> g -> z and k: x, x -> p, q, with the results of f and k extracted together *)
Definition opsH : list fop :=
  [OpAddVar "x"; OpAddVar "y"; OpAddVar "z"; OpAddVar "p"; OpAddFunc "f"; OpAddFunc "g"; OpAddFunc "k";
   OpAddEdge "x" "f" "x"; OpAddEdge "f" "y" "output_0"; OpAddEdge "y" "g" "a"; OpAddEdge "g" "z" "output_0";
   OpAddEdge "x" "k" "a"; OpAddEdge "k" "p" "output_0";
   OpAddCall "f" cf1 false; OpAddCall "g" cg1 false; OpAddCall "k" ck1 false].
Definition frameH : frame := from_ops opsH.
Definition sort_any (R : frame) (X : sset) : list string := elements X.
Definition rows_of (t : result table) : list (list (string * list string)) :=
  match t with Ok t => map (fun r : setmap => map (fun kX => (kX.1, elements kX.2)) (map_to_list r)) (t_rows t) | Err _ => [] end.

Definition rankH (h : string) : nat := if String.eqb h "x0" then 0 else if String.eqb h "y1" then 1 else 2.
Lemma U0_acyclic : Spec_Expand.acyclic U0.
Proof.
  exists rankH. intros c cl l h l' h' Hc (n & r & Hr & _ & <-) (n' & r' & Hr' & _ & <-).
  assert (forallb (fun cl => forallb (fun o : string * ref => forallb (fun i : string * ref => Nat.ltb (rankH (rhid i.2)) (rankH (rhid o.2))) (c_ins cl)) (c_outs cl)) calls0 = true) as HA by by vm_compute.
  assert (cl ∈ calls0) as Hcl by (apply (world_of_elem calls0) in Hc as [? _]; [done|by concrete]).
  rewrite forallb_forall in HA. specialize (HA cl (proj1 (elem_of_list_In _ _) Hcl)). cbn in HA.
  rewrite forallb_forall in HA. specialize (HA _ (proj1 (elem_of_list_In _ _) Hr)). cbn in HA.
  rewrite forallb_forall in HA. specialize (HA _ (proj1 (elem_of_list_In _ _) Hr')). cbn in HA. by apply Nat.ltb_lt in HA.
Qed.
Example C45_instance : world U0 /\ Spec_Expand.acyclic U0 /\ consistent U0 frameH /\ tidy frameH /\
  rows_of (history_df elements elements 20 true frameH "z") =
    [[("x", ["x0"]); ("z", ["z1"]); ("f", ["c1"]); ("y", ["y1"]); ("g", ["c3"])]] /\
  rows_of (df elements elements sort_any 20 true [] frameH) =
    [[("p", ["p"]); ("x", ["x0"]); ("z", ["z1"]); ("f", ["c1"]); ("y", ["y1"]); ("k", ["c4"]); ("g", ["c3"])]].
Proof.
  split; [apply U0_world|]. split; [apply U0_acyclic|]. split; [apply from_ops_ok; concrete|]. split; [apply frame_tidy; concrete|].
  split; by vm_compute.
Qed.

(** Two values without any common history end up in one row: [a2] and [b2] have no creator in the frame, so
    both have a null in the shared column [x], and [pandas.merge] matches nulls. *)
Definition opsN : list fop :=
  [OpAddVar "x"; OpAddVar "a"; OpAddVar "b"; OpAddFunc "f"; OpAddFunc "h";
   OpAddEdge "x" "f" "x"; OpAddEdge "f" "a" "output_0"; OpAddEdge "x" "h" "a"; OpAddEdge "h" "b" "output_0";
   OpAddCall "f" cf1 false; OpAddCall "h" ch1 false;
   OpAddRef "a" (mkref "a2") false; OpAddRef "b" (mkref "b2") false].
Definition frameN : frame := from_ops opsN.
Theorem C45_refuted : exists U F t row, world U /\ Spec_Expand.acyclic U /\ consistent U F /\ tidy F /\
  df elements elements sort_any 20 true [] F = Ok t /\ row ∈ t_rows t /\
  smrel row "a" "a2" /\ smrel row "b" "b2" /\
  forall e, ~ (past F ("a", "a2") e /\ past F ("b", "b2") e).
Proof.
  exists U0, frameN.
  destruct (df elements elements sort_any 20 true [] frameN) as [t|] eqn:Et.
  2:{ exfalso. assert (match df elements elements sort_any 20 true [] frameN with Ok _ => true | Err _ => false end = true) as H by by vm_compute.
      rewrite Et in H. discriminate H. }
  exists t, (<["a" := {["a2"]}]> {["b" := {["b2"]}]}). split; [apply U0_world|]. split; [apply U0_acyclic|].
  split; [apply from_ops_ok; concrete|]. split; [apply frame_tidy; concrete|]. split; [done|]. split.
  - assert (match df elements elements sort_any 20 true [] frameN with
      | Ok t => bool_decide ((<["a" := {["a2"]}]> {["b" := {["b2"]}]} : setmap) ∈ t_rows t) | Err _ => false end = true) as H by by vm_compute.
    rewrite Et in H. by apply bool_decide_eq_true in H.
  - split; [exists {["a2"]}; split; [done|by apply elem_of_singleton]|]. split; [exists {["b2"]}; split; [done|by apply elem_of_singleton]|].
    assert (forall v h e, f_creator frameN !! h = None -> past frameN (v, h) e -> e = (v, h)) as Hno.
    { intros v h e Hn Hp. apply rtc_inv in Hp as [<-|(y & Hb & _)]; [done|]. exfalso.
      inversion Hb as [? ? ? c ? Hc|? ? ? c ? ? ? ? ? Hc]; subst; by rewrite Hn in Hc. }
    intros e [H1 H2]. apply Hno in H1; [|by vm_compute]. apply Hno in H2; [|by vm_compute]. subst. discriminate H2.
Qed.
Print Assumptions C45_refuted.
