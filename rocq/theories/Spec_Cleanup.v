(** Specification for C22: what [cleanup_refs] may remove, and the histories it is used in. *)
From stdpp Require Import base strings gmap list.
From Verif Require Import Base PyDict Returns DictStore CallStore Commit Refs Args Ident Storage Spec_Storage Spec_Atoms.

(** some row of the call table in the database is about the ref with this history id / content id *)
Definition mentioned (s : st) (hid : string) : Prop := exists row, row ∈ cc_pers (t_calls (s_tabs s)) /\ r_rhid row = hid.
Definition mentioned_cid (s : st) (cid : string) : Prop := exists row, row ∈ cc_pers (t_calls (s_tabs s)) /\ r_rcid row = cid.
(** the database has a shape / an atom under this key *)
Definition db_shape (s : st) (hid : string) (r : ref) : Prop := pd_sql (cd_pers (t_shapes (s_tabs s))) !! hid = Some r \/
  exists o, pd_over (cd_pers (t_shapes (s_tabs s))) = Some o /\ o !! hid = Some r.
Definition db_atom (s : st) (cid : string) : Prop := exists v, pd_sql (cd_pers (t_atoms (s_tabs s))) !! cid = Some v \/
  exists o, pd_over (cd_pers (t_atoms (s_tabs s))) = Some o /\ o !! cid = Some v.

Section spec.
  Context (H : pyval -> string) (sel : list crow -> list crow) (bigA : pyval -> bool).

  (** Histories with cleanups, and with deletions (of calls and everything that depends on them, storage.py:380-398)
      each followed by a cleanup.  Both happen in a committed state.  Afterwards the program uses only refs that are
      still in some recorded call. *)
  Inductive cstep : list ref * st -> list ref * st -> Prop :=
    | cs_step x e y : astep H sel bigA x e y -> cstep x y
    | cs_cleanup held s s' held' :
        nothing_dirty s -> cleanup_refs s = (Ok tt, s') ->
        (forall r, r ∈ held' -> r ∈ held /\ mentioned s' (rhid r)) -> cstep (held, s) (held', s')
    | cs_delete held s hids D order s1 s' held' :
        nothing_dirty s -> s_alias s = None -> to_drop hids true s = Ok D -> order ≡ₚ elements D ->
        drop_calls order s = (Ok tt, s1) -> cleanup_refs s1 = (Ok tt, s') ->
        (forall r, r ∈ held' -> r ∈ held /\ mentioned s' (rhid r)) -> cstep (held, s) (held', s').
  Inductive csteps : list ref * st -> list ref * st -> Prop :=
    | css_nil x : csteps x x
    | css_cons x y z : cstep x y -> csteps y z -> csteps x z.
  Definition creach (x : list ref * st) : Prop := exists overflow, csteps ([], new_storage overflow) x.
End spec.
