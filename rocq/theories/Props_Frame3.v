(** C46-C48: working on copies, generated names, merging variables. *)
From stdpp Require Import base strings gmap list relations pretty.
From Verif Require Import Base PyDict Returns Refs Storage Frame Spec_Frame Frame_base Frame_ok Frame_ok2 Frame_ok3 Frame_sel
  Frame_run Frame_names Props_Frame.
Local Open Scope pym_scope.

(** * C47 *)

(** Full statement: a generated name is not the name of any node.  It is only compared to the names
    of its own kind, so this is false (below).  What holds: the search for a name ends, the name is
    not one of the existing variables (functions), and adding the variable keeps all variables. *)
Theorem C47_partial : forall hint F,
  (exists n, get_new_vname hint F = Ok n /\ n ∉ vnames F) /\
  (exists n, get_new_fname hint F = Ok n /\ n ∉ fnames F) /\
  (exists v F', new_var hint F = (Ok v, F') /\ v ∉ vnames F /\ vnames F' = vnames F ∪ {[v]} /\
    (forall u h, in_var F' u h <-> in_var F u h) /\ f_fs F' = f_fs F).
Proof.
  intros hint F. split; [apply get_new_vname_ok|]. split; [apply get_new_fname_ok|].
  destruct (get_new_vname_ok hint F) as (n & Hn & Hf). exists n.
  assert (new_var hint F = (Ok n, set_out (<[n := ∅]> (f_out F)) (set_inp (<[n := ∅]> (f_inp F)) (set_vs (<[n := ∅]> (f_vs F)) F)))) as ->.
  { unfold new_var. rewrite bindM_getM. rewrite (bindM_liftR _ _ _ n) by done. reflexivity. }
  eexists. split; [done|]. split; [done|]. split; [|split; [|done]].
  - unfold vnames. cbn. rewrite dom_insert_L. clear. set_solver.
  - intros u h. unfold in_var. cbn. destruct (decide (u = n)) as [->|Hne]; [|by rewrite lookup_insert_ne].
    rewrite lookup_insert. split; intros (X & HX & Hh).
    + injection HX as <-. by apply not_elem_of_empty in Hh.
    + exfalso. apply Hf. apply elem_of_dom. eauto.
Qed.
(** If moreover no function has the name, the new variable is a new node and nothing is overwritten:
    the frame stays consistent. *)
Theorem C47_new_node : forall U hint F v F', consistent U F -> new_var hint F = (Ok v, F') -> v ∉ fnames F ->
  v ∉ f_nodes F /\ consistent U F' /\ (forall s d l, has_edge F' s d l <-> has_edge F s d l).
Proof.
  intros U hint F v F' HF Hn Hv. destruct (get_new_vname_ok hint F) as (n & Hg & Hf).
  assert (Hadd : add_var v F = (Ok tt, F') /\ n = v).
  { unfold new_var in Hn. rewrite bindM_getM in Hn. rewrite (bindM_liftR _ _ _ n) in Hn by done.
    unfold bindM in Hn. destruct (add_var n F) as [[[]|] F1] eqn:E; [|done]. unfold retM in Hn. injection Hn as -> ->. done. }
  destruct Hadd as [Hadd ->]. assert (v ∉ f_nodes F) as Hvn by (unfold f_nodes; clear -Hv Hf; set_solver).
  split; [done|]. split; [by eapply add_var_consistent|].
  intros s d l. unfold add_var, modM in Hadd. injection Hadd as <-. unfold has_edge. cbn.
  destruct (decide (s = v)) as [->|Hne]; [|by rewrite lookup_insert_ne]. rewrite lookup_insert. split.
  - intros (m & X & [= <-] & HX & _). by rewrite lookup_empty in HX.
  - intros (m & X & Hm & _). exfalso. apply Hvn. rewrite <-(k_out _ _ HF). apply elem_of_dom. eauto.
Qed.

Example C47_instance : new_var "y_0" frame1 = (Ok "y_0", (new_var "y_0" frame1).2) /\ new_var "y" frame1 = (Ok "y_0", (new_var "y" frame1).2) /\
  "y_0" ∉ fnames frame1 /\ get_new_vname "output_0" frame1 = Ok "var_0".
Proof. split; [apply pair_of; concrete|]. split; [apply pair_of; concrete|]. split; concrete. Qed.
(** A generated variable takes the name of a function and its adjacency is overwritten. *)
Theorem C47_refuted : exists U F F', world U /\ consistent U F /\ new_var "f" F = (Ok "f", F') /\ "f" ∈ fnames F /\
  has_in_edge F "x" "f" "x" /\ ~ has_in_edge F' "x" "f" "x".
Proof.
  exists U0, frame1. eexists. split; [apply U0_world|]. split; [apply frame1_consistent|]. split; [apply pair_of; concrete|].
  split; [concrete|]. split.
  - exists {["x" := {["x"]}]}, {["x"]}. split; [concrete|split; concrete].
  - intros (m & X & Hm & HX & _). assert (f_inp (new_var "f" frame1).2 !! "f" = Some ∅) as E by concrete.
    rewrite E in Hm. injection Hm as <-. rewrite lookup_empty in HX. discriminate HX.
Qed.
(** So a frame made from an op that has an input with the op's own name has one node that is both. *)
Theorem C47_from_op_refuted : exists o c F, (c_op c) = o /\ from_op elements o [c] = Ok F /\ "x" ∈ vnames F /\ "x" ∈ fnames F.
Proof.
  exists (mkop "x"), (mkcall "x" "c1" [("x","x0")] [("output_0","y1")]).
  destruct (from_op elements (mkop "x") [mkcall "x" "c1" [("x","x0")] [("output_0","y1")]]) as [F|] eqn:E.
  - exists F. split; [reflexivity|]. split; [reflexivity|].
    assert (match from_op elements (mkop "x") [mkcall "x" "c1" [("x","x0")] [("output_0","y1")]] with
      Ok F => bool_decide ("x" ∈ vnames F) && bool_decide ("x" ∈ fnames F) | Err _ => false end = true) as H by concrete.
    rewrite E in H. apply andb_true_iff in H as [H1%bool_decide_eq_true H2%bool_decide_eq_true]. split; assumption.
  - assert (match from_op elements (mkop "x") [mkcall "x" "c1" [("x","x0")] [("output_0","y1")]] with Ok F => true | Err _ => false end = true) as H by concrete.
    rewrite E in H. discriminate H.
Qed.

(** * C48 *)

(** Merging [v] into another variable [w]: returns; [v] is gone, [w] has the elements of both, all
    others are as before, and every edge at [v] is now at [w]. *)
Theorem C48_merge_into : forall ord eord U F v w, orders ord eord -> world U -> consistent U F ->
  v ∈ vnames F -> w ∈ vnames F -> v <> w ->
  exists F', merge_into ord eord v w F = (Ok tt, F') /\ consistent U F' /\
    vnames F' = vnames F ∖ {[v]} /\ (forall h, in_var F' w h <-> in_var F v h \/ in_var F w h) /\
    (forall u h, u <> v -> u <> w -> in_var F' u h <-> in_var F u h) /\ f_fs F' = f_fs F /\
    (forall s d l, has_edge F' s d l <-> exists s0 d0, has_edge F s0 d0 l /\
      s = (if decide (s0 = v) then w else s0) /\ d = (if decide (d0 = v) then w else d0)).
Proof.
  intros ord eord U F v w Ho HU HF Hv Hw Hne. destruct (merge_into_total ord eord Ho U HU v w F HF Hv Hw Hne) as (F' & HF' & [M1 M2 M3 M4 _ _ _ _] & HC).
  exists F'. split; [done|]. split; [done|]. split; [done|]. split; [|split; [|split; [done|exact M3]]].
  - intros h. rewrite M2. naive_solver.
  - intros u h H1 H2. rewrite M2. naive_solver.
Qed.
(** [merge_vars] ends, every ref that was in a variable is in one afterwards, together with all the
    others of its variable, functions are as before, and no variable is strictly contained in another. *)
Theorem C48_merge_vars : forall ord eord U F, orders ord eord -> world U -> consistent U F ->
  exists F', merge_vars ord eord F = (Ok tt, F') /\ consistent U F' /\ vnames F' ⊆ vnames F /\ f_fs F' = f_fs F /\
    f_refs F' = f_refs F /\
    (forall v h, in_var F v h -> exists w, in_var F' w h /\ forall k, in_var F v k -> in_var F' w k) /\
    (forall v w, v ∈ vnames F' -> w ∈ vnames F' -> (forall h, in_var F' v h -> in_var F' w h) -> forall h, in_var F' w h -> in_var F' v h).
Proof.
  intros ord eord U F Ho HU HF. destruct (merge_loop_total ord eord Ho U HU (S (size (f_vs F))) F HF) as (F' & H1 & HC & Hb & Hv & Hf & Hr & Hc & Hin); [lia|].
  exists F'. split; [done|]. split; [done|]. split; [done|]. split; [done|]. split; [done|]. split; [done|].
  intros v w Hv' Hw' Hsub h Hh. destruct (decide (v = w)) as [->|Hne]; [done|].
  specialize (Hb v w Hv' Hw'). unfold strictly_below in Hb.
  unfold vnames in Hv', Hw'. apply elem_of_dom in Hv' as [X HX], Hw' as [Y HY]. rewrite HX, HY in Hb. cbn in Hb.
  assert (X ⊆ Y) as HXY. { intros k Hk. destruct (Hsub k) as (Y' & HY' & Hk'); [by exists X|]. congruence. }
  assert (~ size X < size Y) as Hsz.
  { intros Hlt. rewrite !bool_decide_true in Hb by done. rewrite !andb_true_r in Hb.
    apply negb_false_iff, String.eqb_eq in Hb. done. }
  destruct Hh as (Y' & HY' & Hh). assert (Y' = Y) as -> by congruence. exists X. split; [done|].
  destruct (decide (h ∈ X)) as [?|Hn]; [done|]. exfalso. apply Hsz. apply subset_size. split; [done|]. intros HYX. by apply Hn, HYX.
Qed.
Example C48_instance : consistent U0 frame_two /\ "x" ∈ vnames frame_two /\ "u" ∈ vnames frame_two /\
  (exists F, merge_into elements elements "x" "u" frame_two = (Ok tt, F) /\ vnames F = {["u"]}).
Proof.
  split; [apply from_ops_ok; concrete|]. split; [concrete|]. split; [concrete|].
  eexists. split; [apply pair_of|]; concrete.
Qed.
(** Merging a variable into itself is not refused and drops it with all its elements: not a merge. *)
Theorem C48_self_refuted : exists U F F', world U /\ consistent U F /\ in_var F "y" "y1" /\
  merge_into elements elements "y" "y" F = (Ok tt, F') /\ "y" ∉ vnames F' /\ "y1" ∉ dom (f_refs F').
Proof.
  exists U0, frame1. eexists. split; [apply U0_world|]. split; [apply frame1_consistent|].
  split; [exists {["y1"]}; split; concrete|]. split; [apply pair_of|split]; concrete.
Qed.

(** * C46 *)

(** [merge_into] without [inplace] moves the refs in the frame it is called on (cf.py:1984-1988 uses
    [self] instead of the copy): that frame is changed, and the refs are lost in the result. *)
Definition frame_merge : frame := from_ops
  [OpAddVar "x"; OpAddVar "u"; OpAddRef "x" (mkref "a") false; OpAddRef "u" (mkref "b") false].
Theorem C46_merge_into_refuted : exists U F F' R, world U /\ consistent U F /\
  merge_into_copy elements elements "x" "u" F = (Ok R, F') /\
  ~ in_var F' "x" "a" /\ in_var F "x" "a" /\ vnames R = {["u"]} /\ ~ in_var R "u" "a".
Proof.
  destruct (merge_into_copy elements elements "x" "u" frame_merge) as [[R|] F'] eqn:E.
  - exists U0, frame_merge, F', R. split; [apply U0_world|]. split; [clear; apply from_ops_ok; concrete|]. split; [exact E|].
    assert (match merge_into_copy elements elements "x" "u" frame_merge with
      (Ok R, F') => bool_decide ("a" ∉ default ∅ (f_vs F' !! "x")) && bool_decide (vnames R = {["u"]}) && bool_decide ("a" ∉ default ∅ (f_vs R !! "u")) | _ => false end = true) as H by concrete.
    rewrite E in H. apply andb_true_iff in H as [[H1 H2]%andb_true_iff H3].
    apply bool_decide_eq_true in H1, H2, H3.
    split; [|split; [clear; exists {["a"]}; split; concrete|split; [exact H2|]]].
    + intros (X & HX & Hx). rewrite HX in H1. apply H1. exact Hx.
    + intros (X & HX & Hx). rewrite HX in H3. apply H3. exact Hx.
  - assert (match merge_into_copy elements elements "x" "u" frame_merge with (Ok R, _) => true | _ => false end = true) as H by concrete.
    rewrite E in H. discriminate H.
Qed.

Print Assumptions C47_partial.
Print Assumptions C47_new_node.
Print Assumptions C47_refuted.
Print Assumptions C47_from_op_refuted.
Print Assumptions C48_merge_into.
Print Assumptions C48_merge_vars.
Print Assumptions C48_self_refuted.
Print Assumptions C46_merge_into_refuted.
