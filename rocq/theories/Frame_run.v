(** Running a list of operations on a frame with executable checks, used to show concrete frames
    consistent. *)
From stdpp Require Import base strings gmap list.
From Verif Require Import Base PyDict Returns Refs Storage Frame Spec_Frame Frame_base Frame_ok Frame_ok2 Frame_ok3.

Global Instance nout_eq_dec : EqDecision nout.
Proof. solve_decision. Defined.
Global Instance op_eq_dec : EqDecision op.
Proof. solve_decision. Defined.
Global Instance call_eq_dec : EqDecision call.
Proof. solve_decision. Defined.

(** a storage with the given calls *)
Definition world_of (cs : list call) : gmap string call := list_to_map (map (fun c => (c_hid c, c)) cs).
Definition worldb (cs : list call) : bool :=
  bool_decide (NoDup (map c_hid cs)) &&
  bool_decide (NoDup (mjoin (map (fun c => map (fun nr => rhid nr.2) (c_outs c)) cs))) &&
  forallb (fun c => bool_decide (NoDup (map fst (c_ins c))) && bool_decide (NoDup (map fst (c_outs c)))) cs.

Lemma world_of_elem cs h c : NoDup (map c_hid cs) -> world_of cs !! h = Some c <-> c ∈ cs /\ c_hid c = h.
Proof.
  intros Hnd. unfold world_of. rewrite <-elem_of_list_to_map.
  - rewrite elem_of_list_fmap. split; [intros (c' & [= -> ->] & ?)|intros [? <-]]; eauto.
  - change (NoDup (map fst (map (fun c => (c_hid c, c)) cs))). by rewrite map_map.
Qed.
Lemma worldb_ok cs : worldb cs = true -> world (world_of cs).
Proof.
  unfold worldb. intros H. apply andb_prop in H as [H H3]. apply andb_prop in H as [H1 H2].
  apply bool_decide_eq_true in H1, H2. split.
  - intros h c Hc. by apply world_of_elem in Hc as [_ ?].
  - intros h1 h2 c1 c2 l1 l2 h Hc1 Hc2 (n1 & r1 & Hr1 & _ & Hh1) (n2 & r2 & Hr2 & _ & Hh2).
    apply world_of_elem in Hc1 as [Hc1 <-], Hc2 as [Hc2 <-]; [|done..].
    assert (c1 = c2) as ->; [|done]. clear H1 H3. revert Hc1 Hc2.
    induction cs as [|c cs IH]; intros Hc1 Hc2; [by apply elem_of_nil in Hc1|].
    cbn in H2. apply NoDup_app in H2 as (_ & Hd & H2).
    assert (Hin : forall c' n r, c' ∈ cs -> (n, r) ∈ c_outs c' -> rhid r ∈ mjoin (map (fun c => map (fun nr => rhid nr.2) (c_outs c)) cs)).
    { intros c' n r Hc' Hr. apply elem_of_list_join. eexists. split; [|apply elem_of_list_fmap; by exists c'].
      apply elem_of_list_fmap. by exists (n, r). }
    assert (Hin0 : forall n r, (n, r) ∈ c_outs c -> rhid r ∈ map (fun nr : string * ref => rhid nr.2) (c_outs c)).
    { intros n r Hr. apply elem_of_list_fmap. by exists (n, r). }
    apply elem_of_cons in Hc1 as [->|Hc1], Hc2 as [->|Hc2]; [done| | |by apply IH].
    + exfalso. apply (Hd h); [rewrite <-Hh1; by eapply Hin0|rewrite <-Hh2; by eapply Hin].
    + exfalso. apply (Hd h); [rewrite <-Hh2; by eapply Hin0|rewrite <-Hh1; by eapply Hin].
  - intros h c Hc. apply world_of_elem in Hc as [Hc _]; [|done].
    apply forallb_forall with (x := c) in H3; [|by apply elem_of_list_In]. apply andb_prop in H3 as [H3 H4].
    by apply bool_decide_eq_true in H3, H4.
Qed.

Definition saneb (cs : list call) (F : frame) (o : fop) : bool :=
  match o with
  | OpAddVar v => bool_decide (v ∉ f_nodes F)
  | OpAddFunc f => bool_decide (f ∉ f_nodes F)
  | OpAddEdge s d l =>
      (bool_decide (s ∈ vnames F) && bool_decide (f_fs F !! d = Some ∅)) ||
      (bool_decide (d ∈ vnames F) && bool_decide (f_fs F !! s = Some ∅))
  | OpAddRef _ _ _ => true
  | OpAddCall f c _ =>
      bool_decide (c ∈ cs) &&
      forallb (fun nr => bool_decide (default ∅ (f_inp F !! f) !! name_proj (c_op c) nr.1 <> Some ∅)) (c_ins c) &&
      forallb (fun nr => bool_decide (default ∅ (f_out F !! f) !! name_proj (c_op c) nr.1 <> Some ∅)) (c_outs c)
  | OpDropVar _ | OpDropFunc _ | OpDrop _ => true
  | OpRename v w => bool_decide (w ∉ f_nodes F)
  | OpMergeInto v w => bool_decide (v ∈ vnames F) && bool_decide (w ∈ vnames F) && bool_decide (v <> w)
  | OpMergeVars => true
  | OpCleanup => true
  end.
Lemma saneb_ok cs F o : NoDup (map c_hid cs) -> saneb cs F o = true -> sane (world_of cs) F o.
Proof.
  intros Hnd. destruct o; cbn; try done.
  - apply bool_decide_eq_true.
  - apply bool_decide_eq_true.
  - intros [H|H]%orb_prop; apply andb_prop in H as [H1 H2]; apply bool_decide_eq_true in H1, H2; auto.
  - intros H. apply andb_prop in H as [H H3]. apply andb_prop in H as [H1 H2]. apply bool_decide_eq_true in H1.
    split; [by apply world_of_elem|]. split.
    + intros l h (n & r & Hr & <- & _). apply forallb_forall with (x := (n, r)) in H2; [|by apply elem_of_list_In].
      by apply bool_decide_eq_true in H2.
    + intros l h (n & r & Hr & <- & _). apply forallb_forall with (x := (n, r)) in H3; [|by apply elem_of_list_In].
      by apply bool_decide_eq_true in H3.
  - apply bool_decide_eq_true.
  - intros H. apply andb_prop in H as [H H3]. apply andb_prop in H as [H1 H2]. by apply bool_decide_eq_true in H1, H2, H3.
Qed.

Fixpoint run_sane (cs : list call) (ops : list fop) (F : frame) : option frame :=
  match ops with
  | [] => Some F
  | o :: ops =>
      if saneb cs F o then
        match run_fop elements elements o F with (Ok _, F') => run_sane cs ops F' | (Err _, _) => None end
      else None
  end.

Lemma orders_elements : orders elements elements.
Proof. split; intros; done. Qed.
Lemma empty_consistent U : consistent U empty_frame.
Proof.
  assert (He : forall s d l, ~ has_edge empty_frame s d l) by (intros s d l (m & X & Hm & _); done).
  assert (He' : forall s d l, ~ has_in_edge empty_frame s d l) by (intros s d l (m & X & Hm & _); done).
  assert (Hv : forall s d, ~ in_var empty_frame s d) by (intros s d (X & Hm & _); done).
  assert (Hf : forall s d, ~ in_func empty_frame s d) by (intros s d (X & Hm & _); done).
  split.
  - unfold f_nodes, vnames, fnames. cbn. rewrite !dom_empty_L. set_solver.
  - unfold f_nodes, vnames, fnames. cbn. rewrite !dom_empty_L. set_solver.
  - intros x Hx. unfold vnames in Hx. cbn in Hx. set_solver.
  - intros s d l. split; intros H; exfalso; [by eapply He|by eapply He'].
  - intros s d l H. by destruct (He s d l).
  - intros h. cbn. split; [set_solver|]. intros [v H]. by destruct (Hv v h).
  - intros h. cbn. split; [set_solver|]. intros [v H]. by destruct (Hf v h).
  - intros h r H. cbn in H. by rewrite lookup_empty in H.
  - cbn. apply map_empty_subseteq.
  - cbn. by rewrite !dom_empty_L.
  - intros h v. split; [intros (X & HX & _); cbn in HX; by rewrite lookup_empty in HX|intros H; by destruct (Hv v h)].
  - cbn. by rewrite !dom_empty_L.
  - intros h v. split; [intros (X & HX & _); cbn in HX; by rewrite lookup_empty in HX|intros H; by destruct (Hf v h)].
  - intros f c cl l h v H. by destruct (Hf f c).
  - intros f c cl l h v H. by destruct (Hf f c).
  - intros h c H. cbn in H. by rewrite lookup_empty in H.
  - intros h c H. cbn in H. by rewrite lookup_empty in H.
  - intros f c cl l h v H. by destruct (Hf f c).
  - intros f c cl l h v H. by destruct (Hf f c).
Qed.
Lemma run_sane_consistent cs ops F F' : worldb cs = true -> consistent (world_of cs) F -> run_sane cs ops F = Some F' ->
  consistent (world_of cs) F'.
Proof.
  intros Hw. assert (Hnd : NoDup (map c_hid cs)). { unfold worldb in Hw. do 2 (apply andb_prop in Hw as [Hw _]). by apply bool_decide_eq_true in Hw. }
  revert F. induction ops as [|o ops IH]; intros F HF; cbn; [by intros [= ->]|].
  destruct (saneb cs F o) eqn:Hs; [|done]. destruct (run_fop elements elements o F) as [[[]|] F1] eqn:Hr; [|done].
  apply IH. eapply (run_fop_consistent elements elements orders_elements (world_of cs)); [by apply worldb_ok|done| |done].
  by apply saneb_ok.
Qed.
