(** What filtering a frame by its values should return. *)
From stdpp Require Import base strings gmap list.
From Verif Require Import Base PyDict Refs Storage Frame Spec_Frame.

(** [h] is a ref of variable [v] that passes the test *)
Definition keeps (F : frame) (keep : ref -> bool) (v h : string) : Prop :=
  in_var F v h /\ exists r, f_refs F !! h = Some r /\ keep r = true.

(** Call [c] of function [f] consumes, along an edge, a ref that passes the test, or it is the
    creator of such a ref of a variable the function has an edge to. *)
Definition touches (F : frame) (keep : ref -> bool) (f c : string) : Prop :=
  (exists v l h cl, has_edge F v f l /\ keeps F keep v h /\ f_calls F !! c = Some cl /\ call_input cl l h) \/
  (exists v l h, has_edge F f v l /\ keeps F keep v h /\ f_creator F !! h = Some c).

(** There is at most one edge between two nodes. *)
Definition simple_graph (F : frame) : Prop :=
  (forall a b l l', has_edge F a b l -> has_edge F a b l' -> l = l') /\
  (forall a b l l', has_edge F a b l -> ~ has_edge F b a l').
(** No function node is on its own. *)
Definition no_lone_function (F : frame) : Prop :=
  forall f, f ∈ fnames F -> exists v l, has_edge F v f l \/ has_edge F f v l.

(** The test takes or leaves whole calls: with a call that touches a kept value, the values it reads
    and writes along the edges are all kept. *)
Definition whole_calls (F : frame) (keep : ref -> bool) : Prop :=
  forall f c cl l h v, in_func F f c -> touches F keep f c -> f_calls F !! c = Some cl ->
    (call_input cl l h -> has_edge F v f l -> keeps F keep v h) /\
    (call_output cl l h -> has_edge F f v l -> keeps F keep v h).
