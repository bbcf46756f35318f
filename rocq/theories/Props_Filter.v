(** C53: filtering a frame by the values of its variables. *)
From stdpp Require Import base strings gmap list relations.
From Verif Require Import Base PyDict Returns Refs Storage Frame FrameHistory FrameFilter Spec_Frame Spec_Filter
  Frame_base Frame_run Filter_proofs Props_Frame Props_Frame2.

(** Full statement: for every frame and every test, [isin] returns a consistent frame with the same
    nodes and edges, whose refs are those that pass the test and whose calls are those that consume
    or create one of them.  False in three ways, see below.  It holds, except for the consistency
    of the result, when no two edges join the same nodes and every function node has an edge.  The
    result satisfies [_check] when the test takes or leaves whole calls. *)
Theorem C53_isin_partial : forall ord eord U F keep, orders ord eord -> world U -> consistent U F -> tidy F ->
  simple_graph F -> no_lone_function F ->
  exists R, isin ord eord keep F = Ok R /\ vnames R = vnames F /\ fnames R = fnames F /\
    (forall v h, in_var R v h <-> keeps F keep v h) /\
    (forall f c, in_func R f c <-> in_func F f c /\ touches F keep f c) /\
    (forall s d l, has_edge R s d l <-> has_edge F s d l) /\
    (whole_calls F keep -> check R = true).
Proof. intros ord eord U F keep Ho HU HF HT HS HN. by eapply isin_ok. Qed.

Lemma simple_graph_dec F :
  Forall (fun e => Forall (fun e' : edge3 => (e.1 = e'.1 -> e.2 = e'.2) /\ ~ (e.1.1 = e'.1.2 /\ e.1.2 = e'.1.1)) (edges_list F)) (edges_list F) ->
  simple_graph F.
Proof.
  intros H. assert (H' : forall a b l a' b' l', has_edge F a b l -> has_edge F a' b' l' ->
    ((a, b) = (a', b') -> l = l') /\ ~ (a = b' /\ b = a')).
  { intros a b l a' b' l' H1%elem_of_edges_list H2%elem_of_edges_list. rewrite Forall_forall in H. specialize (H _ H1).
    rewrite Forall_forall in H. exact (H _ H2). }
  split.
  - intros a b l l' H1 H2. by apply (H' _ _ _ _ _ _ H1 H2).
  - intros a b l l' H1 H2. by apply (H' _ _ _ _ _ _ H1 H2).
Qed.
Lemma no_lone_dec F : set_Forall (fun f => Exists (fun e : edge3 => e.1.1 = f \/ e.1.2 = f) (edges_list F)) (fnames F) -> no_lone_function F.
Proof.
  intros H f Hf. specialize (H f Hf). apply Exists_exists in H as ([[s d] l] & He & Hsd). apply elem_of_edges_list in He.
  destruct Hsd as [Hs|Hd]; cbn in *; subst; eauto.
Qed.

(** Keeping the one value [z1] of the chain x -> f -> y -> g -> z keeps the call of g only. *)
Definition is_hid (h : string) (r : ref) : bool := bool_decide (rhid r = h).
Example C53_instance : world U0 /\ consistent U0 frame1 /\ tidy frame1 /\ simple_graph frame1 /\ no_lone_function frame1 /\
  match isin elements elements (is_hid "z1") frame1 with
  | Ok R => bool_decide (f_vs R = <["x" := ∅]> (<["y" := ∅]> {["z" := {["z1"]}]}) /\ f_fs R = <["f" := ∅]> {["g" := {["c3"]}]})
  | Err _ => false
  end = true.
Proof.
  split; [apply U0_world|]. split; [apply frame1_consistent|]. split; [apply frame_tidy; concrete|].
  split; [apply simple_graph_dec; concrete|]. split; [apply no_lone_dec; concrete|concrete].
Qed.

(** Leaving out a value no call uses takes whole calls. *)
Definition frame_spare : frame := from_ops (ops1 ++ [OpAddVar "u"; OpAddRef "u" (mkref "other") true]).
Definition not_other (r : ref) : bool := negb (is_hid "other" r).
Example C53_whole_instance : consistent U0 frame_spare /\ tidy frame_spare /\ simple_graph frame_spare /\ no_lone_function frame_spare /\
  whole_calls frame_spare not_other /\ in_var frame_spare "u" "other" /\ ~ keeps frame_spare not_other "u" "other".
Proof.
  assert (HC : consistent U0 frame_spare) by (apply from_ops_ok; concrete).
  split; [exact HC|]. split; [apply frame_tidy; concrete|]. split; [apply simple_graph_dec; concrete|]. split; [apply no_lone_dec; concrete|].
  split; [|split].
  - assert (Hio : map_Forall (fun _ cl => Forall (fun nr : string * ref => rhid nr.2 <> "other") (c_ins cl ++ c_outs cl)) (f_calls frame_spare)) by concrete.
    assert (Hk : forall v h, in_var frame_spare v h -> h <> "other" -> keeps frame_spare not_other v h).
    { intros v h Hv Hh. split; [done|]. assert (h ∈ dom (f_refs frame_spare)) as [r Hr]%elem_of_dom by (apply (k_refs _ _ HC); eauto).
      exists r. split; [done|]. apply (k_refkey _ _ HC) in Hr. unfold not_other, is_hid. apply negb_true_iff, bool_decide_eq_false. congruence. }
    intros f c cl l h v Hc _ Hcl. specialize (Hio c cl Hcl). cbn in Hio. rewrite Forall_forall in Hio.
    split; intros Hi He.
    + apply Hk; [exact (k_ins _ _ HC f c cl l h v Hc Hcl Hi He)|]. destruct Hi as (n & r & Hr & _ & <-). apply (Hio (n, r)), elem_of_app. by left.
    + apply Hk; [exact (k_outs _ _ HC f c cl l h v Hc Hcl Hi He)|]. destruct Hi as (n & r & Hr & _ & <-). apply (Hio (n, r)), elem_of_app. by right.
  - exists {["other"]}. split; [concrete|by apply elem_of_singleton].
  - intros (_ & r & Hr & Hk). apply (k_refkey _ _ HC) in Hr. unfold not_other, is_hid in Hk. rewrite bool_decide_eq_true_2 in Hk; done.
Qed.

(** The result need not satisfy [_check]: the call of g is kept without its input. *)
Theorem C53_check_refuted : exists U F R, world U /\ consistent U F /\ tidy F /\ simple_graph F /\ no_lone_function F /\
  isin elements elements (is_hid "z1") F = Ok R /\ check R = false.
Proof.
  destruct (isin elements elements (is_hid "z1") frame1) as [R|] eqn:HR.
  - exists U0, frame1, R. destruct C53_instance as (H1 & H2 & H3 & H4 & H5 & _). split; [exact H1|]. split; [exact H2|]. split; [exact H3|].
    split; [exact H4|]. split; [exact H5|]. split; [exact HR|].
    assert (match isin elements elements (is_hid "z1") frame1 with Ok R => check R | _ => true end = false) as Hc by concrete.
    rewrite HR in Hc. exact Hc.
  - exfalso. assert (match isin elements elements (is_hid "z1") frame1 with Ok _ => true | Err _ => false end = true) as Hok by concrete.
    rewrite HR in Hok. discriminate Hok.
Qed.

(** A function node without edges makes [isin] fail, whatever the test. *)
Definition frame_lone : frame := from_ops [OpAddVar "x"; OpAddRef "x" (mkref "x0") false; OpAddFunc "f"].
Theorem C53_lone_refuted : exists U F, world U /\ consistent U F /\ tidy F /\ simple_graph F /\
  isin elements elements (fun _ => true) F = Err EAssertion.
Proof.
  exists U0, frame_lone. split; [apply U0_world|]. split; [apply from_ops_ok; concrete|]. split; [apply frame_tidy; concrete|].
  split; [apply simple_graph_dec; concrete|]. by vm_compute.
Qed.

(** p = k(x0, x1), with both arguments in one variable: the call that consumes the value kept is
    lost for one of the two values, since the entry of one edge replaces that of the other
    (cf.py:581-586). *)
Definition ck2 : call := mkcall "k" "c6" [("a", "x0"); ("b", "x1")] [("output_0", "p")].
Definition U2 : gmap string call := world_of [ck2].
Definition frame_two_labels : frame := default empty_frame (run_sane [ck2]
  [OpAddVar "x"; OpAddFunc "k"; OpAddEdge "x" "k" "a"; OpAddEdge "x" "k" "b"; OpAddCall "k" ck2 false] empty_frame).
Lemma two_labels_consistent : consistent U2 frame_two_labels.
Proof.
  unfold frame_two_labels. destruct (run_sane [ck2] _ empty_frame) as [F|] eqn:HF; [|apply empty_consistent].
  change (consistent (world_of [ck2]) F). eapply run_sane_consistent; [by vm_compute|apply empty_consistent|exact HF].
Qed.
Lemma two_labels_touches h l : (h, l) ∈ [("x0", "a"); ("x1", "b")] -> in_func frame_two_labels "k" "c6" /\ touches frame_two_labels (is_hid h) "k" "c6".
Proof.
  intros Hh. split; [exists {["c6"]}; split; [concrete|by apply elem_of_singleton]|]. left. exists "x", l, h, ck2.
  assert (He : forall l, l = "a" \/ l = "b" -> has_edge frame_two_labels "x" "k" l).
  { intros l' Hl. apply elem_of_edges_list. destruct Hl as [->| ->]; concrete. }
  assert (Hi : forall h, h = "x0" \/ h = "x1" -> keeps frame_two_labels (is_hid h) "x" h).
  { intros h' Hh'. split; [exists {["x0"; "x1"]}; split; [concrete|destruct Hh' as [->| ->]; concrete]|].
    exists (mkref h'). split; [destruct Hh' as [->| ->]; concrete|unfold is_hid; by apply bool_decide_eq_true]. }
  apply elem_of_cons in Hh as [[= -> ->]|[[= -> ->]|[]%elem_of_nil]%elem_of_cons].
  - split; [auto|]. split; [auto|]. split; [concrete|]. exists "a", (mkref "x0"). split; [left|done].
  - split; [auto|]. split; [auto|]. split; [concrete|]. exists "b", (mkref "x1"). split; [right; left|done].
Qed.
Theorem C53_two_labels_refuted : exists U F keep R f c, world U /\ consistent U F /\ tidy F /\ no_lone_function F /\
  isin elements elements keep F = Ok R /\ in_func F f c /\ touches F keep f c /\ ~ in_func R f c.
Proof.
  assert (Hx : exists h l, (h, l) ∈ [("x0", "a"); ("x1", "b")] /\
    match isin elements elements (is_hid h) frame_two_labels with Ok R => bool_decide (f_fs R !! "k" = Some ∅) | Err _ => false end = true).
  { first [exists "x0", "a"; split; [left|concrete]|exists "x1", "b"; split; [right; left|concrete]]. }
  destruct Hx as (h & l & Hhl & Hx). destruct (two_labels_touches h l Hhl) as [H1 H2].
  destruct (isin elements elements (is_hid h) frame_two_labels) as [R|] eqn:HR; [|discriminate Hx]. apply bool_decide_eq_true in Hx as Hk. clear Hx.
  exists U2, frame_two_labels, (is_hid h), R, "k", "c6". split; [apply worldb_ok; by vm_compute|]. split; [apply two_labels_consistent|].
  split; [clear; apply frame_tidy; concrete|]. split; [clear; apply no_lone_dec; concrete|]. split; [exact HR|]. split; [exact H1|]. split; [exact H2|].
  intros (X & HX & Hc). rewrite Hk in HX. injection HX as <-. by apply not_elem_of_empty in Hc.
Qed.

Print Assumptions C53_isin_partial.
Print Assumptions C53_check_refuted.
Print Assumptions C53_lone_refuted.
Print Assumptions C53_two_labels_refuted.
