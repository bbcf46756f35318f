(** Specification for C18 with collections: what is needed to read a recorded call is recorded too.
    Programs may use any ops, also with [MList] and [MDict] annotations. *)
From stdpp Require Import base strings gmap list.
From Verif Require Import Base PyDict Returns DictStore CallStore Commit Spec_Commit
  Refs Args Ident Storage Spec_Storage Spec_Storage2 Spec_Outputs Spec_Atoms.

(** A collection whose elements are not in memory *)
Definition detached_collection (r : ref) : Prop :=
  match r with RList _ _ None | RDict _ _ None => True | _ => False end.

(** The functions of ops return values, not refs *)
Definition no_refs_returned (o : opdef) : Prop :=
  forall env ret a, od_fun o env = Ok ret -> a ∈ values_of ret -> arg_refs a = [].

Section spec.
  Context (H : pyval -> string) (sel : list crow -> list crow) (bigA : pyval -> bool).

  (** One step of a program that holds some refs.  There are no deletions and no failing commits; calls, reads and
      [clear] may raise.  The program can take elements out of refs, read recorded calls, and make new refs
      with any ids from refs that it has, with [is_make]. *)
  Inductive istep : list ref * st -> list ref * st -> Prop :=
    | is_call held s o args kw keys r s' :
        no_refs_returned o -> passes_held held o args kw ->
        call_run H sel o args kw keys s = (r, s') -> istep (held, s) (returned_refs r ++ held, s')
    | is_noop held s o args kw r s' : call_noop o args kw s = (r, s') -> istep (held, s) (held, s')
    | is_unwrap held s x r s' : unwrap_ref x s = (r, s') -> istep (held, s) (held, s')
    | is_load held s b hid r s' : load_ref b hid s = (Ok r, s') -> istep (held, s) (r :: held, s')
    | is_mget held s hids b cs s' :
        mget_call sel hids b s = (Ok cs, s') -> istep (held, s) (concat (map call_refs cs) ++ held, s')
    | is_element held s r e : r ∈ held -> e ∈ elements_of r -> istep (held, s) (e :: held, s)
    | is_make held s r :
        ~ detached_collection r -> (forall e, e ∈ elements_of r -> e ∈ held) -> istep (held, s) (r :: held, s)
    | is_commit held s f o s' :
        orders_of o (s_tabs s) -> commit_storage bigA f o s = (Ok tt, s') -> istep (held, s) (held, s')
    | is_clear held s r s' : clear_storage false s = (r, s') -> istep (held, s) (held, s')
    | is_allow held s b : istep (held, s) (held, St (s_tabs s) (s_alias s) b (s_log s))
    | is_reopen held s : nothing_dirty s -> istep (held, s) (held, reopen s).
  Inductive ireach : list ref * st -> Prop :=
    | ir_new overflow : ireach ([], new_storage overflow)
    | ir_step x y : ireach x -> istep x y -> ireach y.
End spec.

(** What [shapes[hid]] and [ops[name]] give *)
Definition shape_at (s : st) (hid : string) (sh : ref) : Prop := (cd_get hid (t_shapes (s_tabs s))).1 = Ok sh.
Definition op_at (s : st) (name : string) (o : op) : Prop := (cd_get name (t_ops (s_tabs s))).1 = Ok o.

(** Nothing recorded refers to something that is not recorded: every recorded input or output of a call
    has a shape, the op of the call is there, and the elements of every shape have shapes. *)
Record intact (s : st) : Prop := {
  in_rows : forall row, recorded_row s row ->
    (exists sh, shape_at s (r_rhid row) sh) /\ (exists o, op_at s (r_op row) o);
  in_elements : forall hid sh e, shape_at s hid sh -> e ∈ elements_of sh -> exists sh', shape_at s (rhid e) sh';
  in_attached : forall hid sh, shape_at s hid sh -> ~ detached_collection sh;
}.
