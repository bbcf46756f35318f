(** What the graph algorithms should compute (C37, C38). *)
From stdpp Require Import base list gmap relations sorting.
From Verif Require Import Base GraphAlgo.

Section spec.
  Context {A : Type} `{Countable A}.

  (** [y] is a neighbour of [x] *)
  Definition edge (g : graph) (x y : A) : Prop := exists l, gget x g = Some l /\ y ∈ l.
  (** a path from [x] to [y] *)
  Definition reach (g : graph) : relation A := rtc (edge g).
  Definition nodes_of (g : graph) : list A := map fst g.
  (** every neighbour is itself a key of the dictionary *)
  Definition closed (g : graph) : Prop := forall x y, edge g x y -> y ∈ nodes_of g.
  Definition acyclic (g : graph) : Prop := forall x, ~ tc (edge g) x x.
  Definition same_scc (g : graph) (x y : A) : Prop := reach g x y /\ reach g y x.

  Definition before (x y : A) (l : list A) : Prop := exists l1 l2 l3, l = l1 ++ x :: l2 ++ y :: l3.

  (** Graphs of computation frames: an edge with some label. *)
  Definition oedge {L} (o : outmap (A:=A) (L:=L)) (x y : A) : Prop :=
    exists d lbl ys, (x, d) ∈ o /\ (lbl, ys) ∈ d /\ y ∈ ys.
  Definition owf {L} (nodes : list A) (o : outmap (A:=A) (L:=L)) : Prop :=
    NoDup nodes /\ NoDup (map fst o) /\ (forall x, x ∈ map fst o -> x ∈ nodes) /\ (forall x y, oedge o x y -> y ∈ nodes).
End spec.
