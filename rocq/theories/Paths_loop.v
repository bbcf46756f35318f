(** [get_edges_in_paths] on a graph with cycles: a graph on which it recurses for ever. *)
From stdpp Require Import base strings gmap list relations.
From Verif Require Import Base PyDict Refs Storage Frame Frame_base Paths Spec_Paths Paths_proofs.

Section general.
  Context (ord : sset -> list string) (Hord : forall X, ord X ≡ₚ elements X) (g : gmap string sset) (stop : string).

  Lemma ep_fuel_mono fuel : forall fuel' node path st st', fuel <= fuel' ->
    ep_dfs ord g stop fuel node path st = Ok st' -> ep_dfs ord g stop fuel' node path st = Ok st'.
  Proof.
    induction fuel as [|fuel IH]; intros [|fuel'] node path st st' Hf; [done|done|lia|]. rewrite !ep_dfs_S. case_decide; [done|].
    destruct (at_key node g) as [ns|]; [|done]. cbn [bindR result_bind].
    assert (forall l st st', ep_loop (ep_dfs ord g stop fuel) node path l st = Ok st' ->
      ep_loop (ep_dfs ord g stop fuel') node path l st = Ok st') as Hl.
    { induction l as [|nb l IHl]; intros s s'; cbn [ep_loop]; [done|].
      case_decide; [|case_decide; [|by apply IHl]].
      - destruct (ep_dfs ord g stop fuel nb _ s) as [s1|] eqn:E1; [|done]. rewrite (IH fuel' _ _ _ s1); [|lia|done]. apply IHl.
      - destruct (ep_dfs ord g stop fuel nb _ s) as [s1|] eqn:E1; [|done]. rewrite (IH fuel' _ _ _ s1); [|lia|done]. apply IHl. }
    destruct (ep_loop (ep_dfs ord g stop fuel) node path (ord ns) _) as [s1|] eqn:E; [|done]. by rewrite (Hl _ _ _ E).
  Qed.

  Lemma ep_path_ext fuel : forall node p p' st, (forall e, e ∈ p <-> e ∈ p') ->
    ep_dfs ord g stop fuel node p st = ep_dfs ord g stop fuel node p' st.
  Proof.
    induction fuel as [|fuel IH]; intros node p p' st Hp; [done|]. rewrite !ep_dfs_S. case_decide.
    - do 3 f_equal. apply set_eq. intros e. by rewrite !elem_of_list_to_set.
    - destruct (at_key node g) as [ns|]; [|done]. cbn [bindR result_bind].
      assert (forall l st, ep_loop (ep_dfs ord g stop fuel) node p l st = ep_loop (ep_dfs ord g stop fuel) node p' l st) as Hl; [|by rewrite Hl].
      induction l as [|nb l IHl]; intros s; cbn [ep_loop]; [done|].
      assert (forall e, e ∈ p ++ [(node, nb)] <-> e ∈ p' ++ [(node, nb)]) as Hp' by (intros e; by rewrite !elem_of_app, Hp).
      rewrite (IH nb _ _ s Hp'). case_decide as H1.
      + destruct (ep_dfs ord g stop fuel nb _ s); [apply IHl|done].
      + case_decide as H2; case_decide as H3; rewrite ?Hp in *; try tauto.
        * destruct (ep_dfs ord g stop fuel nb _ s); [apply IHl|done].
        * apply IHl.
  Qed.

  (** on a graph with all its nodes, the only error is to run out of stack *)
  Lemma ep_error (Hcl : forall u v, step g u v -> v ∈ dom g) fuel : forall node path st e,
    node ∈ dom g -> ep_dfs ord g stop fuel node path st = Err e -> e = EFuel.
  Proof.
    induction fuel as [|fuel IH]; intros node path st e Hn; [by intros [= <-]|]. rewrite ep_dfs_S. case_decide; [done|].
    apply elem_of_dom in Hn as [ns Hns]. rewrite (proj2 (at_key_ok _ _ _) Hns). cbn [bindR result_bind].
    assert (forall l st e, (forall x, x ∈ l -> x ∈ dom g) -> ep_loop (ep_dfs ord g stop fuel) node path l st = Err e -> e = EFuel) as Hl.
    { induction l as [|nb l IHl]; intros s e' Hd; cbn [ep_loop]; [done|].
      case_decide; [|case_decide].
      - destruct (ep_dfs ord g stop fuel nb _ s) as [s1|] eqn:E1; cbn [bindR result_bind].
        + apply IHl. intros; apply Hd; by right.
        + intros [= <-]. eapply IH; [|done]. apply Hd. left.
      - destruct (ep_dfs ord g stop fuel nb _ s) as [s1|] eqn:E1; cbn [bindR result_bind].
        + apply IHl. intros; apply Hd; by right.
        + intros [= <-]. eapply IH; [|done]. apply Hd. left.
      - apply IHl. intros; apply Hd; by right. }
    destruct (ep_loop _ _ _ _ _) as [s1|] eqn:E; [done|]. intros [= <-]. eapply Hl; [|done].
    intros x Hx. apply (Hcl node). exists ns. split; [done|]. rewrite (Hord ns) in Hx. by apply elem_of_elements in Hx.
  Qed.
End general.

(** q -> f -> {b, q}, b -> {f, k}, k -> {q, z}: from q to z *)
Definition loop_graph : gmap string sset :=
  <["q" := {["f"]}]> (<["b" := {["f"; "k"]}]> (<["z" := ∅]> (<["f" := {["b"; "q"]}]> {["k" := {["q"; "z"]}]}))).
(** the edges found when the configuration comes back: all but those into a visited node *)
Definition loop_valid : gset edge2 := {[("f", "q"); ("f", "b"); ("k", "z"); ("q", "f"); ("b", "k")]}.
Definition loop_path : list edge2 := [("q", "f"); ("f", "q")].


(** one lap q -> f -> (b, then q again) *)
Lemma loop_lap fuel p p' V V' :
  ep_dfs elements loop_graph "z" 12 "b" ((p ++ [("q", "f")]) ++ [("f", "b")]) ({["f"]} ∪ ({["q"]} ∪ ∅), V) = Ok (∅, V') ->
  (forall e, e ∈ (p ++ [("q", "f")]) ++ [("f", "q")] <-> e ∈ p') ->
  (forall fuel', fuel' < fuel -> forall st, ep_dfs elements loop_graph "z" fuel' "q" p' (∅, V') <> Ok st) ->
  forall st, ep_dfs elements loop_graph "z" fuel "q" p (∅, V) <> Ok st.
Proof.
  intros Hb Hp IH st. destruct fuel as [|fuel]; [done|]. rewrite ep_dfs_S.
  rewrite decide_False by done. assert (at_key "q" loop_graph = Ok {["f"]}) as -> by (apply (bool_decide_unpack _); by vm_compute).
  cbn [bindR result_bind]. assert (elements ({["f"]} : sset) = ["f"]) as -> by (apply (bool_decide_unpack _); by vm_compute).
  cbn [ep_loop fst snd]. rewrite decide_True by (apply (bool_decide_unpack _); by vm_compute).
  enough (forall s, ep_dfs elements loop_graph "z" fuel "f" (p ++ [("q", "f")]) ({["q"]} ∪ ∅, V) <> Ok s) as Hf.
  { destruct (ep_dfs elements loop_graph "z" fuel "f" _ _) as [s|] eqn:E; [exfalso; exact (Hf s eq_refl)|done]. }
  clear st. intros st. destruct fuel as [|fuel]; [done|]. rewrite ep_dfs_S. rewrite decide_False by done.
  assert (at_key "f" loop_graph = Ok {["b"; "q"]}) as -> by (apply (bool_decide_unpack _); by vm_compute).
  cbn [bindR result_bind]. assert (elements ({["b"; "q"]} : sset) = ["b"; "q"]) as -> by (apply (bool_decide_unpack _); by vm_compute).
  cbn [ep_loop fst snd]. rewrite decide_True by (apply (bool_decide_unpack _); by vm_compute).
  destruct (ep_dfs elements loop_graph "z" fuel "b" _ _) as [s1|] eqn:E1; [|done]. cbn [bindR result_bind].
  apply (ep_fuel_mono _ _ _ _ (12 + fuel)) in E1; [|lia].
  apply (ep_fuel_mono _ _ _ _ (12 + fuel)) in Hb; [|lia]. rewrite E1 in Hb. injection Hb as ->.
  cbn [fst snd]. rewrite decide_True by (clear; set_solver).
  rewrite (ep_path_ext _ _ _ _ _ _ p' _ Hp).
  destruct (ep_dfs elements loop_graph "z" fuel "q" p' _) as [s|] eqn:E; [|done]. exfalso. refine (IH fuel _ s E). lia.
Qed.

(** reaching [q] again with the same visited nodes, the same edges found and the same edges on the path *)
Lemma loop_again fuel : forall st, ep_dfs elements loop_graph "z" fuel "q" loop_path (∅, loop_valid) <> Ok st.
Proof.
  induction fuel as [fuel IH] using lt_wf_ind. apply (loop_lap fuel loop_path loop_path loop_valid loop_valid); [| |exact IH].
  - apply (bool_decide_unpack _). by vm_compute.
  - intros e. unfold loop_path. clear. set_solver.
Qed.

Lemma loop_graph_closed u v : step loop_graph u v -> v ∈ dom loop_graph.
Proof.
  intros (X & HX & Hv).
  assert (map_Forall (fun _ (X : sset) => X ⊆ dom loop_graph) loop_graph) as Hall by (apply (bool_decide_unpack _); by vm_compute).
  by apply (Hall _ _ HX).
Qed.

(** the recursion from [q] to [z] never ends *)
Lemma loop_diverges fuel : get_edges_in_paths elements fuel loop_graph "q" "z" = Err EFuel.
Proof.
  unfold get_edges_in_paths. destruct (ep_dfs _ _ _ _ _ _ _) as [s|e] eqn:E.
  - exfalso. revert s E.
    apply (loop_lap fuel [] loop_path ∅ (loop_valid ∖ {[("f", "q")]})).
    + apply (bool_decide_unpack _). by vm_compute.
    + done.
    + intros fuel' _. apply (loop_lap fuel' loop_path loop_path _ loop_valid); [| |intros ? _; apply loop_again].
      * apply (bool_decide_unpack _). by vm_compute.
      * intros e. unfold loop_path. clear. set_solver.
  - cbn. f_equal. eapply (ep_error elements ltac:(done) loop_graph "z" loop_graph_closed); [|exact E].
    apply (bool_decide_unpack _). by vm_compute.
Qed.
