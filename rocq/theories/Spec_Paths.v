(** Paths of a graph given by a step relation. *)
From stdpp Require Import base strings list relations.

(** [ns] is a path from its first node to its last one, following the steps *)
Fixpoint chain (R : string -> string -> Prop) (a : string) (ns : list string) : Prop :=
  match ns with [] => True | b :: ns => R a b /\ chain R b ns end.
(** a simple path from [a] to [b]: [a :: ns], no node twice, ending in [b] *)
Definition simple_path (R : string -> string -> Prop) (a b : string) (ns : list string) : Prop :=
  chain R a ns /\ NoDup (a :: ns) /\ last (a :: ns) = Some b.
(** the edge [(u, v)] occurs in the path [a :: ns] *)
Definition edge_of (a : string) (ns : list string) (u v : string) : Prop :=
  exists l1 l2, a :: ns = l1 ++ u :: v :: l2.

Definition on_simple_path (R : string -> string -> Prop) (a b u v : string) : Prop :=
  exists ns, simple_path R a b ns /\ edge_of a ns u v.
(** some walk from [a] to [b] goes through the edge *)
Definition on_walk (R : string -> string -> Prop) (a b u v : string) : Prop :=
  rtc R a u /\ R u v /\ rtc R v b.
Definition acyclic (R : string -> string -> Prop) : Prop := forall n, ~ tc R n n.
