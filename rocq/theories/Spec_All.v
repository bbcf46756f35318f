(** What expanding a computation frame in both directions should do. *)
From stdpp Require Import base strings gmap list.
From Verif Require Import Base PyDict Refs Storage Frame Spec_Frame FrameExpand Spec_Expand Spec_Forward.

(** [names_apart] and [names_apart_out] at once: an op is not called like an input or an output of an op *)
Definition names_apart_both (U : gmap string call) (F : frame) : Prop := exists is_var : string -> Prop,
  (forall v, v ∈ vnames F -> is_var v) /\ (forall f, f ∈ fnames F -> ~ is_var f) /\
  (forall c cl l h G v, U !! c = Some cl -> call_input cl l h \/ call_output cl l h -> get_new_vname l G = Ok v -> is_var v) /\
  (forall c cl G f, U !! c = Some cl -> get_new_fname (op_name (c_op cl)) G = Ok f -> ~ is_var f).

(** every value with a recorded creator is connected to it, and every value with recorded consumers to one of them *)
Definition all_connected (U : gmap string call) (F : frame) : Prop := forall v h c cl l, in_var F v h -> U !! c = Some cl ->
  (call_output cl l h -> connected_creator F v h) /\ (call_input cl l h -> connected_consumer F v h).
