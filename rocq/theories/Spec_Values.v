(** Specification for C07, values of collection types: when two values are the same input. *)
From stdpp Require Import base strings list.
From Verif Require Import Base PyDict Returns.

(** The elements of a value passed for a parameter annotated [MList]: of a list or of a tuple *)
Definition seq_of (v : pyval) (l : list pyval) : Prop := v = VList l \/ v = VTuple l.

(** Values of a type, without [ValuePointer]s where an atom is expected *)
Fixpoint value_of (t : ty) (v : pyval) : Prop :=
  match t with
  | TAtom => forall i o, v <> VPtr i o
  | TList t => exists l, seq_of v l /\ Forall (value_of t) l
  | TDict _ t => exists d, v = VDict d /\ forall k x, dget k d = Some x -> value_of t x
  | _ => False
  end.
(** Equal as values of a type: atoms must be equal, lists (tuples) have related elements in the same order,
    dictionaries the same keys with related values *)
Fixpoint same_value (t : ty) (v v' : pyval) : Prop :=
  match t with
  | TAtom => v = v'
  | TList t => exists l l', seq_of v l /\ seq_of v' l' /\ Forall2 (same_value t) l l'
  | TDict _ t => exists d d', v = VDict d /\ v' = VDict d' /\
                   forall k, option_Forall2 (same_value t) (dget k d) (dget k d')
  | _ => False
  end.
