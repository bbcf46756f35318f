(** What storage contexts should do (C25, C26): lexical scoping. The context of a block is passed down to its body and
    is never modified. *)
From stdpp Require Import base gmap list numbers.
From Verif Require Import Contexts.

(** Outcome of the remaining commits is consumed from a script, as in the model. Result: success, rest of the script,
    events.  [cur] is the enclosing storage and its mode. *)
Definition next_ok (cs : list bool) : bool * list bool := (default true (head cs), tail cs).

Fixpoint lex_run (p : prog) (cur : option (nat * mode)) (cs : list bool) : bool * list bool * list event :=
  match p with
  | POp => (true, cs, [EvOp cur])
  | PRaise => (false, cs, [])
  | PSkip => (true, cs, [])
  | PSeq p q =>
      let '(ok, cs1, t1) := lex_run p cur cs in
      if ok then let '(ok2, cs2, t2) := lex_run q cur cs1 in (ok2, cs2, t1 ++ t2) else (false, cs1, t1)
  | PTry p q =>
      let '(ok, cs1, t1) := lex_run p cur cs in
      if ok then (true, cs1, t1) else let '(ok2, cs2, t2) := lex_run q cur cs1 in (ok2, cs2, t1 ++ t2)
  | PNoop body =>
      (* makes the enclosing storage (if any) transparent *)
      lex_run body (match cur with Some (i, _) => Some (i, MNoop) | None => None end) cs
  | PWith i m body =>
      match cur with
      | None =>
          (* outermost: the body, then one commit, whether or not the body raised *)
          let '(ok, cs1, t1) := lex_run body (Some (i, default MRun m)) cs in
          let '(okc, cs2) := next_ok cs1 in
          (ok && okc, cs2, t1 ++ [EvCommit i okc])
      | Some (_, m0) =>
          (* nested: the given mode, or else that of the enclosing block *)
          lex_run body (Some (i, default m0 m)) cs
      end
  end.

(** The program uses only storage [i]. *)
Fixpoint only_stor (i : nat) (p : prog) : Prop :=
  match p with
  | POp | PRaise | PSkip => True
  | PSeq p q | PTry p q => only_stor i p /\ only_stor i q
  | PNoop b => only_stor i b
  | PWith j _ b => j = i /\ only_stor i b
  end.

(** No [with noop():] block. *)
Fixpoint no_noop (p : prog) : Prop :=
  match p with
  | POp | PRaise | PSkip => True
  | PSeq p q | PTry p q => no_noop p /\ no_noop q
  | PNoop b => False
  | PWith j _ b => no_noop b
  end.

(** For several storages: each keeps its own stack of enclosing blocks. *)
Definition env := nat -> list mode.
Definition push (i : nat) (m : mode) (e : env) : env := fun j => if decide (j = i) then m :: e j else e j.
Definition top (l : list mode) : mode := match l with m :: _ => m | [] => MRun end.

(** Expected events with all storages lexically scoped: op calls carry the enclosing blocks of all storages. *)
Inductive levent := LOp (e : env) | LCommit (i : nat) (ok : bool).

Fixpoint lex_multi (p : prog) (e : env) (cs : list bool) : bool * list bool * list levent :=
  match p with
  | POp => (true, cs, [LOp e])
  | PSkip | PNoop _ => (true, cs, [])
  | PRaise => (false, cs, [])
  | PSeq p q =>
      let '(ok, cs1, t1) := lex_multi p e cs in
      if ok then let '(ok2, cs2, t2) := lex_multi q e cs1 in (ok2, cs2, t1 ++ t2) else (false, cs1, t1)
  | PTry p q =>
      let '(ok, cs1, t1) := lex_multi p e cs in
      if ok then (true, cs1, t1) else let '(ok2, cs2, t2) := lex_multi q e cs1 in (ok2, cs2, t1 ++ t2)
  | PWith i m body =>
      let '(ok, cs1, t1) := lex_multi body (push i (default (top (e i)) m) e) cs in
      match e i with
      | [] => let '(okc, cs2) := next_ok cs1 in (ok && okc, cs2, t1 ++ [LCommit i okc])
      | _ => (ok, cs1, t1)
      end
  end.

(** The commits are exactly those expected; an op call is an ordinary call, or goes to one of the enclosing storages in
    the mode of its innermost block. *)
Definition event_match (x : event) (y : levent) : Prop :=
  match x, y with
  | EvCommit i ok, LCommit i' ok' => i = i' /\ ok = ok'
  | EvOp None, LOp e => True
  | EvOp (Some (i, m)), LOp e => e i <> [] /\ m = top (e i)
  | _, _ => False
  end.
