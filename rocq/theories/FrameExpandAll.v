(** Expanding a computation frame in both directions.  Models mandala/cf.py:1192-1213 [expand_all], with [inplace=True]
    (otherwise it does the same on a copy).  [verbose] is not modelled; [while True] is given fuel, here and in the
    two expansions. *)
From stdpp Require Import base strings gmap list.
From Verif Require Import Base PyDict Refs Storage Frame FrameExpand.
Local Open Scope pym_scope.

Section expand_all.
  Context (ord : sset -> list string) (eord : gset edge3 -> list edge3) (gord : list group -> list group).
  Context (creators consumers : sset -> list call).
  (** 1204, 1208 *)
  Definition frame_size (F : frame) : nat := size (dom (f_refs F)) + size (dom (f_calls F)).
  (** 1205-1212 *)
  Fixpoint expand_all_loop (reuse skip_existing : bool) (inner : nat) (cur_size : nat) (fuel : nat) : M frame unit :=
    match fuel with
    | 0 => raiseM EFuel
    | S fuel =>
        expand_loop ord eord gord creators consumers Back reuse skip_existing true inner ;;;
        expand_loop ord eord gord creators consumers Forward reuse skip_existing true inner ;;;
        F <- getM ;;
        if decide (frame_size F = cur_size) then retM tt
        else expand_all_loop reuse skip_existing inner (frame_size F) fuel
    end.
  Definition expand_all (reuse skip_existing : bool) (inner fuel : nat) : M frame unit :=
    F <- getM ;; expand_all_loop reuse skip_existing inner (frame_size F) fuel.
End expand_all.
