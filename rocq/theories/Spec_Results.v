(** Specification for C03: what the plain function returns on the values of the arguments. *)
From stdpp Require Import base strings gmap list.
From Verif Require Import Base PyDict Returns Spec_Returns Refs Args Spec_Args Ident Storage Spec_Storage Spec_Atoms.

(** Ops of the theorem: no starred parameters, defaults are plain values, nothing is ignored. *)
Record plain_op (o : opdef) : Prop := {
  po_sig : sig_ok (od_sig o);
  po_kinds : forall p, p ∈ od_sig o -> p_kind p <> KVarPos /\ p_kind p <> KVarKw;
  po_defaults : forall p d, p ∈ od_sig o -> p_default p = Some d -> exists v, d = AVal v;
  po_ignore : op_ignore (od_op o) = [];
}.
(** No argument is marked [Ignore] *)
Definition nothing_ignored (args : list arg) (kw : pydict arg) : Prop :=
  forall a b x, a ∈ args ++ map snd kw -> a <> AIgn b x.

(** In the history, calls of an op with the name and version of [o] are calls of [o] itself
    (nobody changed the function without changing the version) and ignore nothing *)
Definition only_definition (o : opdef) (es : list event) : Prop :=
  forall o' args kw r, Called o' args kw r ∈ es ->
    op_name (od_op o') = op_name (od_op o) -> op_version (od_op o') = op_version (od_op o) ->
    o' = o /\ nothing_ignored args kw.

(** [w] is the value of the argument [a]: refs are replaced by their values *)
Definition unwrapped (s : st) (a w : arg) : Prop := exists s', unwrap a s = (Ok w, s').

(** The plain function, called on the values of the arguments, returns [ret] *)
Definition plain_returns (o : opdef) (args : list arg) (kw : pydict arg) (s : st) (ret : returned arg) : Prop :=
  exists args' kw' env, Forall2 (unwrapped s) args args' /\
    Forall2 (fun x y => x.1 = y.1 /\ unwrapped s x.2 y.2) kw kw' /\
    py_binds (od_sig o) args' kw' env /\ od_fun o env = Ok ret.

(** What an op call returned, [out], stands for the function's return value [ret]: one ref (or a
    tuple of refs) whose values in the state [s] are the values in [ret]. *)
Definition stands_for (n : nout) (s : st) (out : returned ref) (ret : returned arg) : Prop :=
  exists vals refs, returned_values n ret (map AVal vals) /\ presents refs out /\
    Forall2 (fun r v => exists s', unwrap_ref r s = (Ok v, s')) refs vals.
