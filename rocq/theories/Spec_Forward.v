(** What expanding a computation frame forwards should do. *)
From stdpp Require Import base strings gmap list.
From Verif Require Import Base PyDict Refs Storage Frame Spec_Frame FrameExpand.

(** [h] in the variable [v] is connected to a call of the frame that takes it as input *)
Definition connected_consumer (F : frame) (v h : string) : Prop :=
  exists f c cl l, has_edge F v f l /\ in_func F f c /\ f_calls F !! c = Some cl /\ call_input cl l h.
(** a recorded call that takes as input a value of one of the variables [A] which is not connected to any consumer *)
Definition missing_consumer (U : gmap string call) (A : sset) (F : frame) (c : string) (cl : call) : Prop :=
  U !! c = Some cl /\ exists l h v, call_input cl l h /\ v ∈ A /\ in_var F v h /\ ~ connected_consumer F v h.

(** Names of variables can be told from names of functions, and the generated names (cf.py:2157-2184) are
    of the right kind: an op is not called like an output of an op. *)
Definition names_apart_out (U : gmap string call) (F : frame) : Prop := exists is_var : string -> Prop,
  (forall v, v ∈ vnames F -> is_var v) /\ (forall f, f ∈ fnames F -> ~ is_var f) /\
  (forall c cl l h G v, U !! c = Some cl -> call_output cl l h -> get_new_vname l G = Ok v -> is_var v) /\
  (forall c cl G f, U !! c = Some cl -> get_new_fname (op_name (c_op cl)) G = Ok f -> ~ is_var f).

(** the storage returns, in any order, the calls that take some of the given refs as input *)
Definition consumer_answers (U : gmap string call) (consumers : sset -> list call) : Prop := forall X,
  NoDup (consumers X) /\ forall c, c ∈ consumers X <-> U !! c_hid c = Some c /\ exists l h, call_input c l h /\ h ∈ X.

(** no value of the variables [A] is an element of a recorded list *)
Definition not_in_lists (U : gmap string call) (A : sset) (F : frame) : Prop :=
  forall c cl l h v, U !! c = Some cl -> call_input cl l h -> v ∈ A -> in_var F v h -> is_make_list (c_op cl) = false.

(** The refs in the recorded future of the frame: its values without a consumer, and the outputs of the calls that take a
    ref of the future as input. *)
Inductive future (U : gmap string call) (F : frame) : string -> Prop :=
  | future_start v h : in_var F v h -> ~ connected_consumer F v h -> future U F h
  | future_output h c cl l l' h' : future U F h -> U !! c = Some cl -> call_input cl l h -> call_output cl l' h' -> future U F h'.
(** the calls that take them as input *)
Definition future_call (U : gmap string call) (F : frame) (c : string) : Prop :=
  exists h cl l, future U F h /\ U !! c = Some cl /\ call_input cl l h.
(** no recorded call builds a list *)
Definition no_lists (U : gmap string call) : Prop := forall c cl, U !! c = Some cl -> is_make_list (c_op cl) = false.
