(** Reachable versioners and code states, and what it means for the code to be
    compatible with a recorded version. *)
From stdpp Require Import base strings gmap list.
From Verif Require Import Base Dag Spec_Dag Versioner.

Section spec.
Variable H : pyval -> string.

(** The traces of the tracer have exactly one root, the op that ran. *)
Definition one_root (tr : trace) : Prop := exists k, t_roots tr = {[k]}.

(** The versioners built through the API: synchronizations of the whole code
    or of one component with any code and any user (also aborted ones), ends of
    versioned calls with any trace (also failing ones), removals of semantic
    versions. *)
Inductive vreach : versioner -> Prop :=
  | vr_new strict : vreach (new_versioner strict)
  | vr_sync vs cs u r vs' u' :
      vreach vs -> sync_codebase H cs (vs, u) = (r, (vs', u')) -> vreach vs'
  | vr_component vs k sem cs u r vs' u' :
      vreach vs -> sync_component H k sem cs (vs, u) = (r, (vs', u')) -> vreach vs'
  | vr_call vs cs tr uid r vs' cs' :
      vreach vs -> one_root tr -> finish_call H tr uid (vs, cs) = (r, (vs', cs')) -> vreach vs'
  | vr_drop vs sv : vreach vs -> vreach (drop_semantic_version sv vs).

(** A session (a [with storage] block): the code is synchronized when it is
    entered, with a code state that covers the known components, as
    [guess_code_state] makes it; then calls run. *)
Inductive session : versioner -> code_state -> Prop :=
  | se_enter vs cs u vs' u' :
      vreach vs -> dom (vs_topology vs) ⊆ dom cs ->
      sync_codebase H cs (vs, u) = (Ok tt, (vs', u')) -> session vs' cs
  | se_call vs cs tr uid r vs' cs' :
      session vs cs -> one_root tr -> finish_call H tr uid (vs, cs) = (r, (vs', cs')) ->
      session vs' cs'
  | se_component vs cs k sem cs0 u r vs' u' :
      session vs cs -> sync_component H k sem cs0 (vs, u) = (r, (vs', u')) -> session vs' cs
  | se_drop vs cs sv : session vs cs -> session (drop_semantic_version sv vs) cs.

(** The semantic version of the content that component [k] has in the code. *)
Definition current_semantic (vs : versioner) (cs : code_state) (k : depkey) (s : string) : Prop :=
  exists n h d, cs !! k = Some n /\ node_hash H n = Ok h /\
    vs_dags vs !! k = Some d /\ semantic d h = Some s.

(** The version recorded for a component under a content version. *)
Definition recorded (vs : versioner) (comp : depkey) (cv : string) (v : version) : Prop :=
  exists m, vs_versions vs !! comp = Some m /\ m !! cv = Some v.

(** The code is compatible with a version: every content of every dependency
    recorded for it has the semantic version that the dependency has in the
    code now. *)
Definition compatible (vs : versioner) (cs : code_state) (v : version) : Prop :=
  forall k hs h, v_cexp v !! k = Some hs -> h ∈ hs ->
    exists d s, vs_dags vs !! k = Some d /\ semantic d h = Some s /\ current_semantic vs cs k s.
End spec.
