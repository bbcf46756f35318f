(** Insertion-ordered Python dictionaries with string keys, as association
    lists.  Models the built-in [dict]: [d[k] = v] keeps the position of an
    existing key and appends a new one. *)
From stdpp Require Import base strings list.
From Verif Require Import Base.

Notation pydict A := (list (string * A)).

Section pydict.
  Context {A : Type}.

  (** [d.get(k)] *)
  Fixpoint dget (k : string) (d : pydict A) : option A :=
    match d with
    | [] => None
    | (k', v) :: d => if decide (k = k') then Some v else dget k d
    end.

  (** [d[k] = v] *)
  Fixpoint dset (k : string) (v : A) (d : pydict A) : pydict A :=
    match d with
    | [] => [(k, v)]
    | (k', v') :: d => if decide (k = k') then (k, v) :: d else (k', v') :: dset k v d
    end.

  (** [del d[k]] (of a dictionary that has the key) *)
  Fixpoint ddel (k : string) (d : pydict A) : pydict A :=
    match d with
    | [] => []
    | (k', v') :: d => if decide (k = k') then d else (k', v') :: ddel k d
    end.

  (** [k in d] *)
  Definition dmem (k : string) (d : pydict A) : bool := bool_decide (is_Some (dget k d)).

  (** [d.update(l)], and with [d = {}] the comprehension [{k: v for k, v in l}] *)
  Definition dupdate (d : pydict A) (l : list (string * A)) : pydict A :=
    fold_left (fun d kv => dset kv.1 kv.2 d) l d.
  Definition dict_of (l : list (string * A)) : pydict A := dupdate [] l.

  (** [d[k]], raising KeyError *)
  Definition dindex (k : string) (d : pydict A) : result A := of_option EKeyError (dget k d).
End pydict.
