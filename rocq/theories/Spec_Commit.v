(** Specification for C13-C15: the contents of a storage, what a database shows,
    and when a database is intact. *)
From stdpp Require Import base strings gmap list.
From Verif Require Import Base PyDict DictStore Spec_DictStore CallStore Spec_CallStore Commit.

Section spec.
  Context {A S O : Type} (bigA : A -> bool) (bigS : S -> bool) (bigO : O -> bool).

  (** what a user has saved *)
  Record contents := Contents {
    m_atoms : gmap string A; m_shapes : gmap string S;
    m_ops : gmap string O; m_calls : gmap string cinfo;
  }.

  (** A database shows contents: reading any key in a new process gives the
      value, or "not found". *)
  Definition dict_shows {V} (p : pdict V) (m : gmap string V) : Prop :=
    forall k, pd_get k p = of_option EKeyError (m !! k).
  Definition shows (d : db A S O) (m : contents) : Prop :=
    dict_shows (db_atoms d) (m_atoms m) /\ dict_shows (db_shapes d) (m_shapes m) /\
    dict_shows (db_ops d) (m_ops m) /\ (forall hid, holds (db_calls d) hid (m_calls m !! hid)).

  (** A running process sees contents: reading through the caches gives the values. *)
  Definition sees (sel : list crow -> list crow) (s : tabs A S O) (m : contents) : Prop :=
    (forall k, (cd_get k (t_atoms s)).1 = of_option EKeyError (m_atoms m !! k)) /\
    (forall k, (cd_get k (t_shapes s)).1 = of_option EKeyError (m_shapes m !! k)) /\
    (forall k, (cd_get k (t_ops s)).1 = of_option EKeyError (m_ops m !! k)) /\
    (forall hid, match m_calls m !! hid with
                 | Some i => exists c, cc_get sel hid (t_calls s) = Ok c /\ info c = i
                 | None => exists e, cc_get sel hid (t_calls s) = Err e
                 end).

  (** Two databases have the same rows in all SQL tables. *)
  Definition same_rows (d d' : db A S O) : Prop :=
    pd_sql (db_atoms d) = pd_sql (db_atoms d') /\ pd_sql (db_shapes d) = pd_sql (db_shapes d') /\
    pd_sql (db_ops d) = pd_sql (db_ops d') /\ db_calls d = db_calls d'.

  (** A state reached from an arbitrary earlier database by arbitrary table
      operations (reads, writes, drops, commits, clears, in any interleaving); [m] is
      what was saved.  Atoms are content-addressed: [val cid] is the content with id
      [cid]. *)
  Record reached (val : string -> A) (sel : list crow -> list crow) (s : tabs A S O) (m : contents) : Prop := {
    re_atoms : exists p os bs,
      (forall k v, pd_sql p !! k = Some v -> v = val k) /\
      (forall o k v, pd_over p = Some o -> o !! k = Some v -> v = val k) /\
      (forall k v, OSet k v ∈ os -> v = val k) /\
      cd_steps bigA (cd_open p) os bs (t_atoms s) /\ m_atoms m = (dict_run (pd_load_all p) os).2;
    re_shapes : exists sql os bs,
      cd_steps bigS (cd_open (PDict sql None)) os bs (t_shapes s) /\ m_shapes m = (dict_run sql os).2;
    re_ops : exists sql os bs,
      cd_steps bigO (cd_open (PDict sql None)) os bs (t_ops s) /\ m_ops m = (dict_run sql os).2;
    re_calls : exists os bs,
      (forall c, KSave c ∈ os -> call_ok c) /\
      ksteps sel (cc_open []) os bs (t_calls s) /\ m_calls m = (kspec_run (∅, ∅) os).2.1;
  }.

  (** a commit iterates over exactly the dirty keys *)
  Definition orders_of (o : orders) (s : tabs A S O) : Prop :=
    o_atoms o ≡ₚ elements (cd_dirty (t_atoms s)) /\ o_shapes o ≡ₚ elements (cd_dirty (t_shapes s)) /\
    o_ops o ≡ₚ elements (cd_dirty (t_ops s)) /\ o_calls o ≡ₚ elements (cc_dirty (t_calls s)).

  (** Referential integrity of a database: every ref of a recorded call has a shape,
      the ops of recorded calls are stored, and every atom a shape needs can be read and has the
      right content.  [need s] are the cids of the atoms the shape [s] needs. *)
  Definition intact (val : string -> A) (need : S -> list string) (d : db A S O) : Prop :=
    (forall r, r ∈ db_calls d -> (exists s, pd_get (r_rhid r) (db_shapes d) = Ok s) /\
                                 (exists op, pd_get (r_op r) (db_ops d) = Ok op)) /\
    (forall hid s cid, pd_get hid (db_shapes d) = Ok s -> cid ∈ need s ->
        pd_get cid (db_atoms d) = Ok (val cid)).
End spec.
Global Arguments contents : clear implicits.
