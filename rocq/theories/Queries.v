(** Provenance queries of a storage outside of a context.  Models mandala/storage.py:439-460
    [get_ref_creator], [get_creators], [get_consumers] ([in_context] raises NotImplementedError
    before anything is read: Contexts.v).  The order in which SQLite returns the hids is modelled by
    the order of [elements]; no theorem depends on it. *)
From stdpp Require Import base strings gmap list.
From Verif Require Import Base PyDict DictStore CallStore Commit Refs Args Storage.

Section queries.
  Context (sel : list crow -> list crow).
  (** storage.py:448-453 *)
  Definition get_creators (ref_hids : gset string) : M st (list call) := fun s =>
    mget_call sel (elements (creator_hids ref_hids (cc_pers (t_calls (s_tabs s))))) true s.
  (** storage.py:455-460 *)
  Definition get_consumers (ref_hids : gset string) : M st (list call) := fun s =>
    mget_call sel (elements (consumer_hids ref_hids (cc_pers (t_calls (s_tabs s))))) true s.
  (** storage.py:439-446 *)
  Definition get_ref_creator (r : ref) : M st (option call) :=
    (cs <- get_creators {[rhid r]} ;;
     match cs with
     | [] => retM None
     | [c] => retM (Some c)
     | _ => raiseM ERuntime
     end)%pym.
End queries.
