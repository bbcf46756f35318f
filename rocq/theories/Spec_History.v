(** What the history of a value in a frame is, and what a row of the extracted table should be. *)
From stdpp Require Import base strings gmap list relations.
From Verif Require Import Base PyDict Refs Storage Frame Spec_Frame FrameHistory.

(** An element of a frame: a node and the history id of a ref or call in it.  [before F x y]: [y]
    directly precedes [x], a ref of a variable.  Its creator is in a function node that leads to the
    variable; the creator's inputs are in the variables that lead to that function node. *)
Inductive before (F : frame) : string * string -> string * string -> Prop :=
  | before_call v h f c : v ∈ vnames F -> f_creator F !! h = Some c -> in_func F f c -> gstep F f v ->
      before F (v, h) (f, c)
  | before_input v h f c cl w l r : v ∈ vnames F -> f_creator F !! h = Some c -> in_func F f c -> gstep F f v ->
      f_calls F !! c = Some cl -> has_edge F w f l -> call_input cl l r ->
      before F (v, h) (w, r).
(** the transitive history, [x] included *)
Definition past (F : frame) : string * string -> string * string -> Prop := rtc (before F).

(** the row collects exactly the history of [h] of the variable [v] *)
Definition row_of (F : frame) (v h : string) (r : setmap) : Prop :=
  (forall n x, smrel r n x <-> past F (v, h) (n, x)) /\ (forall n X, r !! n = Some X -> X <> ∅).

(** The row combines the whole histories of some values, at most one per variable of [vs]: every one
    of the histories is there, and no cell holds anything else than what each history has in its place. *)
Definition combines (F : frame) (vs : list string) (row : setmap) : Prop :=
  exists chosen : list (string * string),
    chosen <> [] /\ NoDup (map fst chosen) /\
    (forall v h, (v, h) ∈ chosen -> v ∈ vs /\ in_var F v h /\ exists r, row_of F v h r /\ r ⊆ row) /\
    (forall n x, smrel row n x -> exists v h, (v, h) ∈ chosen /\ past F (v, h) (n, x)).
