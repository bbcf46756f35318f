(** Specification for C19: refs that were saved, and the values they stand for. *)
From stdpp Require Import base strings gmap list.
From Verif Require Import Base PyDict Returns DictStore CallStore Commit Spec_Commit Refs Args Ident
  Storage Spec_Storage Spec_Storage2.

(** The Python value a ref stands for; [None] if a part is not in memory *)
Fixpoint value_of (r : ref) : option pyval :=
  match r with
  | RAtom _ _ o => o
  | RList _ _ (Some l) => vs ← mapM value_of l; Some (VList vs)
  | RDict _ _ (Some l) => vs ← mapM (fun kr => v ← value_of kr.2; Some (kr.1, v)) l; Some (VDict (canon vs))
  | RList _ _ None | RDict _ _ None => None
  end.

(** The elements of every list inside [r] are atoms (the values of dicts are arbitrary) *)
Definition lists_of_atoms (r : ref) : Prop :=
  forall c h l e, RList c h (Some l) ∈ nodes r -> e ∈ l -> exists c' h' o, e = RAtom c' h' o.

Section spec.
  Context (H : pyval -> string) (bigA : pyval -> bool).

  (** Refs where identifiers identify: the same history id means the same ref, the content id of an
      atom is the hash of its value; everything is in memory. *)
  Record proper_refs (R : list ref) : Prop := {
    pr_same : forall x y, x ∈ concat (map nodes R) -> y ∈ concat (map nodes R) -> rhid x = rhid y -> x = y;
    pr_hash : forall c h v, RAtom c h (Some v) ∈ concat (map nodes R) -> c = H v;
    pr_memory : forall x, x ∈ concat (map nodes R) ->
      match x with RAtom _ _ None | RList _ _ None | RDict _ _ None => False | _ => True end;
  }.

  (** [saved_refs R s]: starting from a new storage the refs [R] were saved, in any order, with reads,
      commits, cleared caches and new processes in between. *)
  Inductive saved_refs : list ref -> st -> Prop :=
    | sv_new overflow : saved_refs [] (new_storage overflow)
    | sv_save R s r x s' : saved_refs R s -> save_ref r s = (x, s') -> saved_refs (r :: R) s'
    | sv_load R s b r x s' : saved_refs R s -> r ∈ concat (map nodes R) ->
        load_ref b (rhid r) s = (x, s') -> saved_refs R s'
    | sv_commit R s f o s' : saved_refs R s -> orders_of o (s_tabs s) ->
        commit_storage bigA f o s = (Ok tt, s') -> saved_refs R s'
    | sv_clear R s x s' : saved_refs R s -> clear_storage false s = (x, s') -> saved_refs R s'
    | sv_reopen R s : saved_refs R s -> nothing_dirty s -> saved_refs R (reopen s).
End spec.
