(** What expanding a computation frame backwards should do. *)
From stdpp Require Import base strings gmap list.
From Verif Require Import Base PyDict Refs Storage Frame Spec_Frame FrameExpand.

(** The refs in the recorded history of the refs in [S]: [S] itself and the inputs of the calls that
    created a ref of the history. *)
Inductive history (U : gmap string call) (S : string -> Prop) : string -> Prop :=
  | history_start h : S h -> history U S h
  | history_input h c cl l l' h' : history U S h -> U !! c = Some cl -> call_output cl l h -> call_input cl l' h' ->
      history U S h'.
(** the calls that created them *)
Definition history_call (U : gmap string call) (S : string -> Prop) (c : string) : Prop :=
  exists h cl l, history U S h /\ U !! c = Some cl /\ call_output cl l h.

(** A recorded history has no cycles: inputs come before outputs. *)
Definition acyclic (U : gmap string call) : Prop :=
  exists rank : string -> nat, forall c cl l h l' h', U !! c = Some cl -> call_output cl l h -> call_input cl l' h' -> rank h' < rank h.

(** the calls building lists have inputs [elts_0], [elts_1], ... and no such output *)
Definition tidy_calls (U : gmap string call) : Prop := forall c cl, U !! c = Some cl -> is_make_list (c_op cl) = true ->
  (forall n r, (n, r) ∈ c_ins cl -> String.prefix "elts_" n = true) /\
  (forall n r, (n, r) ∈ c_outs cl -> String.prefix "elts_" n = false /\ n <> "elts").

(** the frame has a variable for every input of its calls *)
Definition inputs_known (F : frame) : Prop := forall f c cl l h, in_func F f c -> f_calls F !! c = Some cl ->
  call_input cl l h -> exists v, has_edge F v f l.

(** Names of variables can be told from names of functions, and the generated names (cf.py:2157-2184) are
    of the right kind: an op is not called like a parameter of an op. *)
Definition names_apart (U : gmap string call) (F : frame) : Prop := exists is_var : string -> Prop,
  (forall v, v ∈ vnames F -> is_var v) /\ (forall f, f ∈ fnames F -> ~ is_var f) /\
  (forall c cl l h G v, U !! c = Some cl -> call_input cl l h -> get_new_vname l G = Ok v -> is_var v) /\
  (forall c cl G f, U !! c = Some cl -> get_new_fname (op_name (c_op cl)) G = Ok f -> ~ is_var f).

(** the storage returns, in any order, the calls that created some of the given refs *)
Definition answers (U : gmap string call) (creators : sset -> list call) : Prop := forall X,
  NoDup (creators X) /\ forall c, c ∈ creators X <-> U !! c_hid c = Some c /\ exists l h, call_output c l h /\ h ∈ X.

(** [F] is still there, unchanged, in [F'] *)
Definition kept_in (F F' : frame) : Prop :=
  (forall v, v ∈ vnames F -> v ∈ vnames F' /\ forall h, in_var F' v h <-> in_var F v h) /\
  (forall f, f ∈ fnames F -> f ∈ fnames F' /\ forall c, in_func F' f c <-> in_func F f c) /\
  (forall s d l, has_edge F s d l -> has_edge F' s d l) /\
  f_calls F ⊆ f_calls F'.

(** [h] in the variable [v] is connected to a call of the frame that created it *)
Definition connected_creator (F : frame) (v h : string) : Prop :=
  exists f c cl l, has_edge F f v l /\ in_func F f c /\ f_calls F !! c = Some cl /\ call_output cl l h.
(** a recorded call that created a value of one of the variables [A] which is not connected to its creator *)
Definition missing_creator (U : gmap string call) (A : sset) (F : frame) (c : string) (cl : call) : Prop :=
  U !! c = Some cl /\ exists l h v, call_output cl l h /\ v ∈ A /\ in_var F v h /\ ~ connected_creator F v h.
