(** What it means that two calls bind their parameters alike, or differ only in ignored
    values, and when names of inputs clash. *)
From stdpp Require Import base strings gmap list.
From Verif Require Import Base PyDict Returns Refs Args Spec_Args.

(** Two call ids computed from the same input ids *)
Definition ids_of (H : pyval -> string) (o : op) (sem : option string) (ins : pydict ref) : string * string :=
  (call_cid H o ins sem, call_hid H o ins sem).

(** The value is marked by the user: [Ignore(x)] *)
Definition marked (a : arg) : Prop := exists b x, a = AIgn b x.

(** Two values bound to the same parameter that differ only where ignored. *)
Inductive differ_ignored (ignore : list string) (p : param arg) : bval arg -> bval arg -> Prop :=
  | di_same a : differ_ignored ignore p (BOne a) (BOne a)
  | di_param a a' : p_name p ∈ ignore -> differ_ignored ignore p (BOne a) (BOne a')
  | di_marked a a' : marked a -> marked a' -> differ_ignored ignore p (BOne a) (BOne a')
  | di_tuple l l' : Forall2 (fun a a' => a = a' \/ (marked a /\ marked a')) l l' ->
      differ_ignored ignore p (BTuple l) (BTuple l')
  | di_dict d d' : Forall2 (fun a a' => a.1 = a'.1 /\ (a.2 = a'.2 \/ (marked a.2 /\ marked a'.2))) d d' ->
      differ_ignored ignore p (BDict d) (BDict d').

(** Two ways to bind the parameters of a signature that differ only in ignored values *)
Definition calls_differ_ignored (ignore : list string) (sig : list (param arg)) (e e' : pydict (bval arg)) : Prop :=
  length e = length sig /\ length e' = length sig /\
  forall i p kv kv', sig !! i = Some p -> e !! i = Some kv -> e' !! i = Some kv' ->
    kv.1 = p_name p /\ kv'.1 = p_name p /\ differ_ignored ignore p kv.2 kv'.2.

(** What the function should receive for what the user passed: the value itself, without
    the marker. *)
Definition unmarked (a : arg) : arg := match a with AIgn _ x => x | _ => a end.

(** Plain values: no markers, no refs, no [ValuePointer]s at the top *)
Definition plain_atom (a : arg) : Prop := exists v, a = AVal v /\ forall i o, v <> VPtr i o.
Definition plain_bval (v : bval arg) : Prop :=
  match v with
  | BOne a => plain_atom a
  | BTuple l => Forall plain_atom l
  | BDict d => Forall (fun ka => plain_atom ka.2) d
  end.

(** The names under which the storage keeps the inputs clash: an element [i] of [*args]
    is kept as [args_i], and the keyword arguments of [**kw] as themselves. *)
Definition names_clash (sig : list (param arg)) (e : pydict (bval arg)) : Prop :=
  (exists p i q, p ∈ sig /\ p_kind p = KVarPos /\ q ∈ sig /\ p_name q = p_name p +:+ "_" +:+ dec i) \/
  (exists p i q d k, p ∈ sig /\ p_kind p = KVarPos /\ q ∈ sig /\ p_kind q = KVarKw /\
     dget (p_name q) e = Some (BDict d) /\ k ∈ map fst d /\ k = p_name p +:+ "_" +:+ dec i) \/
  (exists p q d k, p ∈ sig /\ p_kind p = KPosOnly /\ q ∈ sig /\ p_kind q = KVarKw /\
     dget (p_name q) e = Some (BDict d) /\ k ∈ map fst d /\ k = p_name p).

(** Two computations from states [s], [s'] have related outcomes: both raise the same
    exception, or both return and the results are related by [R]; the final
    states are related by [RS]. *)
Definition outcome_rel {St A B} (RS : St -> St -> Prop) (R : A -> B -> Prop)
    (x : result A * St) (y : result B * St) : Prop :=
  RS x.2 y.2 /\
  match x.1, y.1 with Ok a, Ok b => R a b | Err e, Err e' => e = e' | _, _ => False end.

(** [un] behaves alike in all states of the set [G] and does not leave it: think of the states of
    a storage that differ only in what is cached. *)
Definition stable {St} (un : arg -> M St arg) (G : St -> Prop) : Prop :=
  forall a s, G s -> G (un a s).2 /\ forall s', G s' -> (un a s).1 = (un a s').1.
Definition both {St} (G : St -> Prop) : St -> St -> Prop := fun s s' => G s /\ G s'.

(** The argument counts as the default [d] of a new parameter ([NewArgDefault(d)]): the
    marked default itself (parameter not passed), the value [d], or a ref to it. *)
Definition is_default {St} (un : arg -> M St arg) (G : St -> Prop) (d a : arg) : Prop :=
  marked a \/ (exists v, d = AVal v /\ (forall i o, v <> VPtr i o) /\
                (a = AVal v \/ exists r, a = ARef r /\ forall s, G s -> (un a s).1 = Ok (AVal v))).
(** The argument is another value, or a ref to another value. *)
Definition not_default {St} (un : arg -> M St arg) (G : St -> Prop) (d a : arg) : Prop :=
  ~ marked a /\ exists w, (match a with ARef _ => forall s, G s -> (un a s).1 = Ok w | _ => w = a end) /\
     w <> d /\ forall i o, d <> AVal (VPtr i o).
