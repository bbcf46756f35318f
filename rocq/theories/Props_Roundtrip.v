(** C19: loading a saved ref gives back its ids and its value. *)
From stdpp Require Import base strings gmap list.
From Verif Require Import Base PyDict Returns DictStore CallStore Spec_CallStore Commit Spec_Commit
  Refs Args Ident Storage Spec_Storage Spec_Storage2 Spec_Roundtrip Storage_roundtrip Props_Storage2.

(** After refs were saved (in any order, with reads, commits, cleared caches and new processes in between), each of
    them and each ref inside them can be loaded by its history id: content id and history id are the
    same.  If moreover every list inside it has only atoms as elements, then unwrapping what was loaded gives the value the ref stands for.
    Missing from C19: collections that are elements of lists, where the claim is false ([C19_nested_list_refuted]). *)
Theorem C19_round_trip_partial (H : pyval -> string) (bigA : pyval -> bool) (Hinj : Inj (=) (=) H) (R : list ref) (s : st) (r : ref) :
  saved_refs bigA R s -> proper_refs H R -> r ∈ concat (map nodes R) ->
  exists r' s', load_ref false (rhid r) s = (Ok r', s') /\ rcid r' = rcid r /\ rhid r' = rhid r /\
    (lists_of_atoms r -> exists v, value_of r = Some v /\ (unwrap_ref r' s').1 = Ok v).
Proof. apply round_trip, Hinj. Qed.
Print Assumptions C19_round_trip_partial.

(** Saving proper refs succeeds *)
Theorem C19_save_succeeds (H : pyval -> string) (bigA : pyval -> bool) (Hinj : Inj (=) (=) H) (R : list ref) (s : st) (r : ref) :
  saved_refs bigA R s -> proper_refs H (r :: R) -> (save_ref r s).1 = Ok tt.
Proof. apply save_succeeds, Hinj. Qed.
Print Assumptions C19_save_succeeds.

(** An instance: [{"a": 1, "d": {"l": [1, 2]}}] as a dict ref with a dict ref with a list ref inside, saved, committed and loaded in a new process.
    The atom [1] occurs twice. *)
Definition N_list : ref := RList "cl" "hl" (Some [P_atom 1; P_atom 2]).
Definition N_dict : ref := RDict "cd" "hd" (Some [("a", P_atom 1); ("d", RDict "ce" "he" (Some [("l", N_list)]))]).
Definition N_s1 : st := (save_ref N_dict P_new).2.
Definition N_s2 : st := (P_commit N_s1).2.
Definition N_state : st := reopen N_s2.
Lemma N_saved : save_ref N_dict P_new = (Ok tt, N_s1).
Proof. unfold N_s1. apply (run_ok (save_ref N_dict) P_new tt). vmr. Qed.
Lemma N_committed : P_commit N_s1 = (Ok tt, N_s2).
Proof. unfold N_s2. apply (run_ok P_commit N_s1 tt). vmr. Qed.
Example C19_instance :
  saved_refs (fun _ => false) [N_dict] N_state /\ proper_refs ser [N_dict] /\ lists_of_atoms N_dict /\
  value_of N_dict = Some (VDict (canon [("a", VInt 1); ("d", VDict (canon [("l", VList [VInt 1; VInt 2])]))])).
Proof.
  split_and!.
  - apply sv_reopen; [|clean].
    apply (sv_commit _ _ N_s1 (fun _ => None) (Orders (elements (cd_dirty (t_atoms (s_tabs N_s1)))) (elements (cd_dirty (t_shapes (s_tabs N_s1))))
            (elements (cd_dirty (t_ops (s_tabs N_s1)))) (elements (cc_dirty (t_calls (s_tabs N_s1))))) N_s2);
      [exact (sv_save _ [] P_new N_dict (Ok tt) N_s1 (sv_new _ true) N_saved)| |exact N_committed].
    unfold orders_of. split_and!; reflexivity.
  - split.
    + intros x y Hx Hy Hh. vm_compute in Hx, Hy. repeat (apply elem_of_cons in Hx as [->|Hx]; [repeat (apply elem_of_cons in Hy as [->|Hy]; [first [reflexivity|discriminate Hh]|]); by apply elem_of_nil in Hy|]).
      by apply elem_of_nil in Hx.
    + intros c h v Hx. vm_compute in Hx. repeat (apply elem_of_cons in Hx as [E|Hx]; [first [discriminate E|injection E as -> -> ->; reflexivity]|]).
      by apply elem_of_nil in Hx.
    + intros x Hx. vm_compute in Hx. repeat (apply elem_of_cons in Hx as [->|Hx]; [done|]). by apply elem_of_nil in Hx.
  - intros c h l e Hx He. vm_compute in Hx. repeat (apply elem_of_cons in Hx as [E|Hx]; [first [discriminate E|injection E as -> -> ->]|]).
    + repeat (apply elem_of_cons in He as [->|He]; [by do 3 eexists|]). by apply elem_of_nil in He.
    + by apply elem_of_nil in Hx.
  - vmr.
Qed.
