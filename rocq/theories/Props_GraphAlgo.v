(** C37, C38: strongly connected components and topological sorts, for every finite graph. *)
From stdpp Require Import base strings list gmap relations sorting numbers.
From Verif Require Import Base GraphAlgo Spec_GraphAlgo GraphAlgo_proofs Tarjan_proofs Topsort_proofs Kahn_proofs.

(** * C37
    [NoDup (nodes_of g)]: the keys of a dictionary are distinct.  [closed g]: as the docstring requires, every neighbour is a key
    (otherwise the code raises KeyError).  The blocks partition the nodes, and are the classes of mutual reachability. *)
Theorem C37_sccs_exact :
  forall (A : Type) `{Countable A} (leA : relation A) `{!RelDecision leA} (g : graph (A:=A)),
    closed g -> NoDup (nodes_of g) ->
    exists cs, find_sccs leA g = Ok cs /\ mjoin cs ≡ₚ nodes_of g /\
      forall c, c ∈ cs -> c <> [] /\ forall x y, x ∈ c -> (y ∈ c <-> reach g x y /\ reach g y x).
Proof.
  intros A ? ? leA ? g Hc N. destruct (find_sccs_ok g Hc leA N) as (cs & E & Hj & Hs & _). exists cs. auto.
Qed.
Print Assumptions C37_sccs_exact.

(** "Ensure that the output is deterministic" (utils.py:369): the result does not depend on the order in which the dictionary and
    the sets are iterated over. *)
Theorem C37_deterministic :
  forall (A : Type) `{Countable A} (leA : relation A) `{!RelDecision leA}
    `{!Transitive leA} `{!AntiSymm (=) leA} `{!Total leA} (g g' : graph (A:=A)),
    closed g -> closed g' -> NoDup (nodes_of g) -> nodes_of g ≡ₚ nodes_of g' ->
    (forall x y, edge g x y <-> edge g' x y) -> find_sccs leA g = find_sccs leA g'.
Proof. intros A ? ? leA ? ? ? ? g g'. exact (find_sccs_det leA g g'). Qed.
Print Assumptions C37_deterministic.

(** [1 -> 2 -> 3 -> 1, 3 -> 4 -> 5 -> 4, 6 -> 6, 6 -> 1] *)
Definition C37_graph : graph (A:=nat) := [(6, [6; 1]); (4, [5]); (1, [2]); (3, [4; 1]); (5, [4]); (2, [3])].
Example C37_example :
  closed C37_graph /\ NoDup (nodes_of C37_graph) /\ find_sccs le C37_graph = Ok [[1; 2; 3]; [4; 5]; [6]].
Proof.
  split_and!.
  - intros x y (l & E & Hy). apply gget_elem in E. unfold C37_graph in E.
    repeat (apply elem_of_cons in E as [[= -> ->]|E]; [set_solver|]). by apply elem_of_nil in E.
  - apply (bool_decide_unpack _). vm_compute. exact I.
  - vm_compute. reflexivity.
Qed.

(** * C38 *)
(** On an acyclic graph [topological_sort] lists every node (also neighbours that are not keys) once, with all edges
    pointing forward. *)
Theorem C38_topological_sort :
  forall (A : Type) `{Countable A} (leA : relation A) `{!RelDecision leA} (g : graph (A:=A)),
    acyclic g -> NoDup (nodes_of g) ->
    exists l, topological_sort leA g = Ok l /\ NoDup l /\
      (forall x, x ∈ l <-> x ∈ nodes_of g \/ exists y, edge g y x) /\
      (forall x y, edge g x y -> before x y l).
Proof.
  intros A ? ? leA ? g Hac N. destruct (topological_sort_ok g Hac leA N) as (l & E & Nl & Hl & Hb).
  exists l. split; [done|]. split; [done|]. split; [|done]. intros x. rewrite Hl. unfold all_nodes.
  rewrite elem_of_list_to_set, elem_of_app. apply or_iff_compat_l. rewrite elem_of_list_join. split.
  - intros (k & Hx & Hk). apply elem_of_list_fmap in Hk as ([y k'] & -> & Hin). exists y, k'. split; [by apply gget_nodup|done].
  - intros (y & k & Ek & Hx). exists k. split; [done|]. apply gget_elem in Ek. apply elem_of_list_fmap. by exists (y, k).
Qed.
Print Assumptions C38_topological_sort.
Example C38_example : topological_sort le [(1, [3]); (2, [1; 3]); (3, [4])] = Ok [2; 1; 3; 4].
Proof. vm_compute. reflexivity. Qed.

(** [almost_topological_sort] on any graph: every node once, and whenever there is a path from [x] to [y] but none back (they
    are in different components), [x] comes first. *)
Theorem C38_almost_topological_sort :
  forall (A : Type) `{Countable A} (leA : relation A) `{!RelDecision leA} (g : graph (A:=A)),
    closed g -> NoDup (nodes_of g) ->
    exists l, almost_topological_sort leA g = Ok l /\ l ≡ₚ nodes_of g /\
      forall x y, reach g x y -> ~ reach g y x -> before x y l.
Proof. intros A ? ? leA ? g. exact (almost_ok leA g). Qed.
Print Assumptions C38_almost_topological_sort.
Example C38_almost_example : almost_topological_sort le C37_graph = Ok [6; 1; 2; 3; 4; 5].
Proof. vm_compute. reflexivity. Qed.

(** [ComputationFrame.topsort_modulo_sccs] (Kahn's algorithm, and the above if that leaves nodes out) on any frame
    graph, with several labelled edges between the same nodes. *)
Theorem C38_topsort_modulo_sccs :
  forall (A : Type) `{Countable A} (L : Type) (leA : relation A) `{!RelDecision leA} (nodes : list A) (o : outmap (A:=A) (L:=L)),
    owf nodes o ->
    exists l, topsort_modulo_sccs leA nodes o = Ok l /\ l ≡ₚ nodes /\
      forall x y, rtc (oedge o) x y -> ~ rtc (oedge o) y x -> before x y l.
Proof. intros A ? ? L leA ? nodes o. exact (topsort_ok leA o nodes). Qed.
Print Assumptions C38_topsort_modulo_sccs.

(** In particular, without cycles all edges point forward. *)
Theorem C38_topsort_acyclic :
  forall (A : Type) `{Countable A} (L : Type) (leA : relation A) `{!RelDecision leA} (nodes : list A) (o : outmap (A:=A) (L:=L)),
    owf nodes o -> (forall x, ~ tc (oedge o) x x) ->
    exists l, topsort_modulo_sccs leA nodes o = Ok l /\ l ≡ₚ nodes /\ forall x y, oedge o x y -> before x y l.
Proof.
  intros A ? ? L leA ? nodes o Hw Hac. destruct (topsort_ok leA o nodes Hw) as (l & E & Hl & Hb). exists l. split; [done|]. split; [done|].
  intros x y Hxy. apply Hb; [by apply rtc_once|]. intros Hyx. apply (Hac x). eapply tc_rtc_r; [by apply tc_once|done].
Qed.
Print Assumptions C38_topsort_acyclic.

(** variables [a, b], function [f] with two inputs; with and without a cycle through [f] *)
Definition C38_out : outmap (A:=string) (L:=string) := [("a", [("x", ["f"]); ("y", ["f"])]); ("f", [("output_0", ["b"])]); ("b", [])].
Definition C38_cycle : outmap (A:=string) (L:=string) := [("a", [("x", ["f"])]); ("f", [("output_0", ["b"])]); ("b", [("y", ["f"; "g"])]); ("g", [])].
Definition strle (a b : string) : Prop := String.leb a b = true.
Global Instance strle_dec : RelDecision strle.
Proof. intros a b. unfold strle. apply _. Defined.
Example C38_frame_example :
  owf ["f"; "b"; "a"] C38_out /\
  topsort_modulo_sccs strle ["f"; "b"; "a"] C38_out = Ok ["a"; "f"; "b"] /\
  topsort_modulo_sccs strle ["g"; "f"; "b"; "a"] C38_cycle = Ok ["a"; "b"; "f"; "g"].
Proof.
  split; [|split; vm_compute; reflexivity]. split_and!.
  - apply (bool_decide_unpack _). vm_compute. exact I.
  - apply (bool_decide_unpack _). vm_compute. exact I.
  - intros x Hx. cbn in *. set_solver.
  - intros x y (d & lbl & ys & Hd & Hl & Hy). unfold C38_out in Hd.
    repeat (apply elem_of_cons in Hd as [[= -> ->]|Hd]; [
      repeat (apply elem_of_cons in Hl as [[= -> ->]|Hl]; [set_solver|]); by apply elem_of_nil in Hl|]). by apply elem_of_nil in Hd.
Qed.
