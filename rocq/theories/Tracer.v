(** Tracing the dependencies of op calls: the decorator-based tracer of
    mandala/deps/tracers/dec_impl.py and its use in
    mandala/storage.py:773-936 [call_internal].

    A program is the control flow of the body of an op, as far as the tracer
    sees it.  Simplified: the edges of the graph are left out; the tracer is
    not strict and tracks globals; the values computed are left out, a program
    says itself which branch is taken, which nested call is a hit and whether
    the end of a nested call (storage.py:881-899) fails; helper generators and
    classes are not modelled. *)
From stdpp Require Import base strings gmap list.
From Verif Require Import Base Dag Versioner.

Inductive prog :=
  | PSkip
  | PRaise
  | PSeq (p q : prog)
  | PTry (p q : prog)                               (* try: p except: q *)
  | PHelper (k : depkey) (rt : string) (b : prog)   (* call of a [@track]ed function *)
  | PGlobal (name h repr : string)                  (* read of a global variable *)
  | POp (k : depkey) (rt : string) (hit fin : bool) (b : prog). (* call of a versioned op *)

(** dec_impl.py:163-186 [DecTracer.__init__]: the call stack (nodes, compared by
    identity: numbered) and the graph. *)
Record tracer := Tracer {
  tc_stack : list (nat * depkey);
  tc_nodes : gmap depkey node;
  tc_roots : gset depkey;
}.
(** dec_impl.py:29-31 [TracerState]: the active tracer, by number.
    [ts_next] is the next free number. *)
Record tstate := TState {
  ts_active : option nat;
  ts_tracers : gmap nat tracer;
  ts_next : nat;
}.
Definition new_tracer : tracer := Tracer [] ∅ ∅.
Definition set_active (a : option nat) (s : tstate) : tstate := TState a (ts_tracers s) (ts_next s).
Definition set_tracer (t : nat) (tc : tracer) (s : tstate) : tstate :=
  TState (ts_active s) (<[t := tc]> (ts_tracers s)) (ts_next s).
Definition get_tracer (t : nat) (s : tstate) : tracer := default new_tracer (ts_tracers s !! t).

(** dec_impl.py:225-253 [register_call]: the number of the new node. *)
Definition register_call (t : nat) (k : depkey) (rt : string) (s : tstate) : nat * tstate :=
  let tc := get_tracer t s in
  let n := ts_next s in
  (n, TState (ts_active s)
        (<[t := Tracer ((n, k) :: tc_stack tc) (<[k := NCall None rt]> (tc_nodes tc))
                  (match tc_stack tc with [] => {[k]} ∪ tc_roots tc | _ => tc_roots tc end)]> (ts_tracers s))
        (S n)).

(** dec_impl.py:267-269 [register_return].  The functions return whether they
    did not raise. *)
Definition register_return (t n : nat) (s : tstate) : bool * tstate :=
  let tc := get_tracer t s in
  match tc_stack tc with
  | (n', _) :: st => if decide (n' = n) then (true, set_tracer t (Tracer st (tc_nodes tc) (tc_roots tc)) s)
                     else (false, s)
  | [] => (false, s)
  end.

(** dec_impl.py:255-265 [register_global_access], called by
    [TrackedDict.__getitem__] (45-81); [add_edge] (model.py:330-335) keeps a node
    that is already there. *)
Definition register_global (t : nat) (name h repr : string) (s : tstate) : bool * tstate :=
  let tc := get_tracer t s in
  match tc_stack tc with
  | [] => (false, s)
  | (_, k) :: _ =>
    let g := (k.1, name) in
    (true, set_tracer t (Tracer (tc_stack tc)
       (match tc_nodes tc !! g with Some _ => tc_nodes tc | None => <[g := NGlobal h repr]> (tc_nodes tc) end)
       (tc_roots tc)) s)
  end.

(** dec_impl.py:124-133, the wrapper that [track] puts around a function. *)
Definition tracked_call (k : depkey) (rt : string) (body : tstate -> bool * tstate) (s : tstate)
    : bool * tstate :=
  match ts_active s with
  | None => body s
  | Some t =>
    let '(n, s1) := register_call t k rt s in
    let '(ok, s2) := body s1 in
    if ok then register_return t n s2 else (false, s2)
  end.

(** storage.py:800-804, 818-820, 866-876 and dec_impl.py:300-305: the active tracer
    is set to none; on a miss the op runs under a new tracer.  Gives the number
    of the new tracer. *)
Definition call_op (k : depkey) (rt : string) (body : tstate -> bool * tstate) (s : tstate)
    : nat * (bool * tstate) :=
  let s := set_active None s in
  let t := ts_next s in
  let s1 := TState (Some t) (<[t := new_tracer]> (ts_tracers s)) (S t) in
  let '(n, s2) := register_call t k rt s1 in
  let '(ok, s3) := tracked_call k rt body s2 in
  let '(ok', s4) := if ok then register_return t n s3 else (false, s3) in
  (t, (ok', set_active None s4)).

Fixpoint prun (p : prog) (s : tstate) : bool * tstate :=
  match p with
  | PSkip => (true, s)
  | PRaise => (false, s)
  | PSeq p q => let '(ok, s1) := prun p s in if ok then prun q s1 else (false, s1)
  | PTry p q => let '(ok, s1) := prun p s in if ok then (true, s1) else prun q s1
  | PHelper k rt b => tracked_call k rt (prun b) s
  | PGlobal name h r =>
    match ts_active s with None => (true, s) | Some t => register_global t name h r s end
  | POp k rt hit fin b =>
    if hit then (true, set_active None s)
    else let '(_, (ok, s1)) := call_op k rt (prun b) s in (ok && fin, s1)
  end.

(** The call of an op from outside of any op: whether it returned up to the
    end of the tracing, and the trace. *)
Definition tinit : tstate := TState None ∅ 0.
Definition op_trace (k : depkey) (rt : string) (b : prog) : bool * trace :=
  let '(t, (ok, s)) := call_op k rt (prun b) tinit in
  let tc := get_tracer t s in (ok, Trace (tc_roots tc) (tc_nodes tc)).
