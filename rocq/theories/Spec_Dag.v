(** What a history of edits is, and what the user declared about it. *)
From stdpp Require Import base strings gmap list relations.
From Verif Require Import Base Dag.

Section spec.
Context {T : Type} (hash : T -> string) (present : T -> string).

(** The operations on the history of a component. *)
Inductive dop :=
  | OInit (t : T)
  | OCommit (t : T) (sem : option bool)
  | OCheckout (h : string)
  | OSync (t : T) (sem : option bool).

Definition run_dop (o : dop) : M (dag T * user) unit :=
  match o with
  | OInit t => bindM (init hash t) (fun _ => retM tt)
  | OCommit t sem => bindM (commit_content hash present t sem) (fun _ => retM tt)
  | OCheckout h => checkout h
  | OSync t sem => bindM (sync hash present t sem) (fun _ => retM tt)
  end.

(** Later states: any operations, whether or not they raise, by any users. *)
Inductive later : dag T -> dag T -> Prop :=
  | later_refl d : later d d
  | later_step d o u r d' u' d'' :
      run_dop o (d, u) = (r, (d', u')) -> later d' d'' -> later d d''.

(** The histories built through the operations. *)
Definition history (d : dag T) : Prop := later empty_dag d.

(** The semantic version of a content hash. *)
Definition semantic (d : dag T) (h : string) : option string :=
  c_shash <$> d_commits d !! h.

(** The answer given for a commit: what the caller said, else the user's. *)
Definition decision (sem : option bool) (u : user) : option bool :=
  match sem with
  | Some b => Some b
  | None => match u_answers u with
            | AYes :: _ => Some true
            | ANo :: _ => Some false
            | _ => None
            end
  end.

(** A history together with the pairs (old content, new content) that the
    user declared to be semantically equal: those of the commits answered
    "no". *)
Inductive declared_history : list (string * string) -> dag T -> Prop :=
  | dh_empty : declared_history [] empty_dag
  | dh_init eqs d u t h d' u' :
      declared_history eqs d -> init hash t (d, u) = (Ok h, (d', u')) ->
      declared_history eqs d'
  | dh_checkout eqs d u h d' u' :
      declared_history eqs d -> checkout h (d, u) = (Ok tt, (d', u')) ->
      declared_history eqs d'
  | dh_commit eqs d u t sem hd h b d' u' :
      declared_history eqs d -> commit_content hash present t sem (d, u) = (Ok h, (d', u')) ->
      d_head d = Some hd -> decision sem u = Some b ->
      declared_history (if b then eqs else (hd, h) :: eqs) d'
  | dh_sync_known eqs d u t sem h d' u' :
      declared_history eqs d -> sync hash present t sem (d, u) = (Ok h, (d', u')) ->
      hash t ∈ dom (d_commits d) -> declared_history eqs d'
  | dh_sync_new eqs d u t sem hd h b d' u' :
      declared_history eqs d -> sync hash present t sem (d, u) = (Ok h, (d', u')) ->
      hash t ∉ dom (d_commits d) ->
      d_head d = Some hd -> decision sem u = Some b ->
      declared_history (if b then eqs else (hd, h) :: eqs) d'.

(** Equality of contents as declared: the equivalence generated by the
    answers. *)
Definition declared_equal (eqs : list (string * string)) : string -> string -> Prop :=
  rtsc (fun a b => (a, b) ∈ eqs).
End spec.
