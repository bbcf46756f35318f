(** Specification for C12/C13/C16: one ordinary dictionary, with the observations a
    user can make.  Independent of caches, dirty marks, tables and files. *)
From stdpp Require Import base strings gmap list.
From Verif Require Import Base DictStore.

Section spec.
  Context {V : Type}.

  (** What a program can do with a table; [OClear] is [clear()] with default
      arguments. *)
  Inductive dop :=
    | OSet (k : string) (v : V)
    | OGet (k : string)
    | OExists (k : string)
    | ODrop (k : string)
    | OCommit
    | OClear.

  (** What it observes. *)
  Inductive dobs :=
    | BVal (r : option V)   (* result of a get: a value, or "key not found" *)
    | BBool (b : bool)
    | BUnit.

  (** The ideal dictionary. *)
  Definition dict_step (m : gmap string V) (o : dop) : dobs * gmap string V :=
    match o with
    | OSet k v => (BUnit, <[k := v]> m)
    | OGet k => (BVal (m !! k), m)
    | OExists k => (BBool (bool_decide (is_Some (m !! k))), m)
    | ODrop k => (BUnit, delete k m)
    | OCommit | OClear => (BUnit, m)
    end.

  Fixpoint dict_run (m : gmap string V) (os : list dop) : list dobs * gmap string V :=
    match os with
    | [] => ([], m)
    | o :: os => let (b, m) := dict_step m o in
                 let (bs, m) := dict_run m os in (b :: bs, m)
    end.
End spec.
Global Arguments dop : clear implicits.
Global Arguments dobs : clear implicits.

(** Running the operations on the code (DictStore.v). *)
Section run.
  Context {V : Type} (big : V -> bool).
  Implicit Types (d : cdict V).

  (** One operation on the implementation, with its observation.  A commit
      iterates over the dirty keys in an arbitrary order and may fail. *)
  Inductive cd_step : cdict V -> dop V -> dobs V -> cdict V -> Prop :=
    | step_set d k v : cd_step d (OSet k v) BUnit (cd_set k v d)
    | step_get_ok d k v d' : cd_get k d = (Ok v, d') -> cd_step d (OGet k) (BVal (Some v)) d'
    | step_get_err d k e d' : cd_get k d = (Err e, d') -> cd_step d (OGet k) (BVal None) d'
    | step_exists d k : cd_step d (OExists k) (BBool (cd_exists k d)) d
    | step_drop d k : cd_step d (ODrop k) BUnit (cd_drop k d)
    | step_commit d order r d' :
        order ≡ₚ elements (cd_dirty d) -> cd_commit big order d = (r, d') ->
        cd_step d OCommit BUnit d'
    | step_clear d r d' : cd_clear false d = (r, d') -> cd_step d OClear BUnit d'.

  Inductive cd_steps : cdict V -> list (dop V) -> list (dobs V) -> cdict V -> Prop :=
    | steps_nil d : cd_steps d [] [] d
    | steps_cons d o b d1 os bs d2 :
        cd_step d o b d1 -> cd_steps d1 os bs d2 -> cd_steps d (o :: os) (b :: bs) d2.
End run.
