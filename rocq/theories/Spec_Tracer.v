(** What an execution does, independently of the tracer. *)
From stdpp Require Import base strings gmap list.
From Verif Require Import Base Versioner Tracer.

(** Whether a program (of a function of module [m]) completes, and the
    functions, globals and ops it uses while it runs. *)
Fixpoint happens (m : string) (p : prog) : bool * list (depkey * node) :=
  match p with
  | PSkip => (true, [])
  | PRaise => (false, [])
  | PSeq p q => let '(ok, d) := happens m p in
      if ok then let '(ok', d') := happens m q in (ok', d ++ d') else (false, d)
  | PTry p q => let '(ok, d) := happens m p in
      if ok then (true, d) else let '(ok', d') := happens m q in (ok', d ++ d')
  | PHelper k rt b => let '(ok, d) := happens k.1 b in (ok, (k, NCall None rt) :: d)
  | PGlobal name h r => (true, [((m, name), NGlobal h r)])
  | POp k rt hit fin b =>
      if hit then (true, [(k, NCall None rt)])
      else let '(ok, d) := happens k.1 b in (ok && fin, (k, NCall None rt) :: d)
  end.

(** No tracked function raises (a function may raise and catch inside its own
    body). *)
Fixpoint calm (m : string) (p : prog) : Prop :=
  match p with
  | PSkip | PRaise | PGlobal _ _ _ => True
  | PSeq p q => calm m p /\ ((happens m p).1 = true -> calm m q)
  | PTry p q => calm m p /\ ((happens m p).1 = false -> calm m q)
  | PHelper k _ b => calm k.1 b /\ (happens k.1 b).1 = true
  | POp k _ hit _ b => hit = false -> calm k.1 b
  end.

(** No op is called. *)
Fixpoint no_ops (p : prog) : bool :=
  match p with
  | PSkip | PRaise | PGlobal _ _ _ => true
  | PSeq p q | PTry p q => no_ops p && no_ops q
  | PHelper _ _ b => no_ops b
  | POp _ _ _ _ _ => false
  end.

(** The uses up to the first call of an op: whether the program completes, the
    uses, and whether no op was called. *)
Fixpoint before_ops (m : string) (p : prog) : bool * list (depkey * node) * bool :=
  match p with
  | PSkip => (true, [], true)
  | PRaise => (false, [], true)
  | PSeq p q =>
      let '(ok, d, on) := before_ops m p in
      if ok then let '(ok', d', on') := before_ops m q in (ok', if on then d ++ d' else d, on && on')
      else (false, d, on)
  | PTry p q =>
      let '(ok, d, on) := before_ops m p in
      if ok then (true, d, on)
      else let '(ok', d', on') := before_ops m q in (ok', if on then d ++ d' else d, on && on')
  | PHelper k rt b => let '(ok, d, on) := before_ops k.1 b in (ok, (k, NCall None rt) :: d, on)
  | PGlobal name h r => (true, [((m, name), NGlobal h r)], true)
  | POp k rt hit fin b => ((happens m (POp k rt hit fin b)).1, [], false)
  end.
