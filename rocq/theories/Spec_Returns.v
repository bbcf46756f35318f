(** Specification vocabulary for C09: independent of how outputs are named,
    stored or sorted. *)
From stdpp Require Import base strings list.
From Verif Require Import Base Returns.

(** What the user means by "the function returned the values [vs]": a
    tuple of that many values (allowed by [nout]), or a single non-tuple. *)
Definition returned_values {A} (n : nout) (r : returned A) (vs : list A) : Prop :=
  match r with
  | RTuple l => vs = l /\ (n = NoutAuto \/ n = NoutVar \/ n = NoutInt (length l))
  | ROther a => vs = [a] /\ n = NoutAuto
  end.

(** The output names of an op fit a function returning [k] values: generic
    names, or exactly [k] distinct custom names. *)
Definition names_fit (names : option (list string)) (k : nat) : Prop :=
  match names with
  | None => True
  | Some ns => NoDup ns /\ length ns = k
  end.

(** What the user gets for the outputs [vs]: a single one as such, otherwise a tuple. *)
Definition presents {A} (vs : list A) (r : returned A) : Prop :=
  match r with
  | ROther a => vs = [a]
  | RTuple l => l = vs /\ length vs <> 1
  end.
