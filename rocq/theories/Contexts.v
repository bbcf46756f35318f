(** Storage contexts: [with storage:], [with storage(mode):], [with noop():].

    Models mandala/storage.py:128-129 (mode stack), 159-161 (mode), 1205-1208 (__call__), 1210-1217 (__enter__),
    1236-1255 (__exit__), 1259-1282 (noop), mandala/model.py:244-249 (Op.__call__: which storage, if any, an op
    call goes to) and 497-499 (Context.current_context).
    Storages are numbered. Not modelled: what a commit does (it is an event that may raise, see Commit.v), what [sync_code]
    computes (it may raise), [Context.__enter__/__exit__] (model.py:517-522, not used). *)
From stdpp Require Import base gmap list numbers.

Inductive mode := MRun | MNoop.
Global Instance mode_eq_dec : EqDecision mode.
Proof. solve_decision. Defined.

(** Mutable attributes of one storage: [_mode_stack] (top last in Python, first here) and [_next_mode];
    [sh_hooks] says of each exit hook (storage.py:126) whether it raises. *)
Record stor := Stor { st_stack : list mode; st_next : mode; st_hooks : list bool }.
Definition stor_new : stor := Stor [] MRun [].

(** What is observed: op calls, with the storage and mode they use ([None]: an ordinary call, outside of any
    storage); commits and whether they raised; exit hooks run. *)
Inductive event :=
  | EvOp (where_ : option (nat * mode))
  | EvCommit (sid : nat) (ok : bool)
  | EvHook (sid : nat) (i : nat).

(** [cx_cur] is [Context.current_context] (model.py:499).  [cx_commits] and [cx_syncs] script the outcome of the commits
    and of the [sync_code()] calls to come ([true]: succeeds; past the end: succeeds). *)
Record cstate := CState {
  cx_cur : option nat;
  cx_stors : gmap nat stor;
  cx_commits : list bool;
  cx_syncs : list bool;
  cx_trace : list event }.

Definition stor_of (s : cstate) (i : nat) : stor := default stor_new (cx_stors s !! i).
Definition set_stor (i : nat) (t : stor) (s : cstate) : cstate :=
  CState (cx_cur s) (<[i := t]> (cx_stors s)) (cx_commits s) (cx_syncs s) (cx_trace s).
Definition set_cur (c : option nat) (s : cstate) : cstate :=
  CState c (cx_stors s) (cx_commits s) (cx_syncs s) (cx_trace s).
Definition emit (e : event) (s : cstate) : cstate :=
  CState (cx_cur s) (cx_stors s) (cx_commits s) (cx_syncs s) (cx_trace s ++ [e]).

(** storage.py:159-161 *)
Definition mode_of (t : stor) : mode := match st_stack t with m :: _ => m | [] => MRun end.

(** The functions return whether they raised ([false]). *)

(** storage.py:1205-1208 *)
Definition call_mode (i : nat) (m : mode) (s : cstate) : cstate :=
  let t := stor_of s i in set_stor i (Stor (st_stack t) m (st_hooks t)) s.

(** storage.py:1212-1217, [sync_code()] *)
Definition do_sync (s : cstate) : bool * cstate :=
  (default true (head (cx_syncs s)), CState (cx_cur s) (cx_stors s) (cx_commits s) (tail (cx_syncs s)) (cx_trace s)).

(** storage.py:1210-1217 *)
Definition enter (i : nat) (s : cstate) : bool * cstate :=
  let t := stor_of s i in
  do_sync (set_stor i (Stor (st_next t :: st_stack t) (st_next t) (st_hooks t)) (set_cur (Some i) s)).

(** storage.py:1240, [self.commit()] *)
Definition do_commit (i : nat) (s : cstate) : bool * cstate :=
  let ok := default true (head (cx_commits s)) in
  (ok, emit (EvCommit i ok) (CState (cx_cur s) (cx_stors s) (tail (cx_commits s)) (cx_syncs s) (cx_trace s))).

(** storage.py:1248-1249: hooks in order, a raising one stops the rest *)
Fixpoint run_hooks (i n : nat) (hs : list bool) (s : cstate) : bool * cstate :=
  match hs with
  | [] => (true, s)
  | ok :: hs' => let s' := emit (EvHook i n) s in if ok then run_hooks i (S n) hs' s' else (false, s')
  end.

(** storage.py:1251-1255 *)
Definition pop_mode (i : nat) (s : cstate) : bool * cstate :=
  let t := stor_of s i in
  match st_stack t with
  | [] => (false, s)                                      (* pop from empty list: IndexError *)
  | _ :: rest => (true, set_stor i (Stor rest (match rest with m :: _ => m | [] => MRun end) (st_hooks t)) s)
  end.

(** storage.py:1236-1255: [try] (commit at the topmost level), [finally] *)
Definition exit_ (i : nat) (s : cstate) : bool * cstate :=
  let top := bool_decide (length (st_stack (stor_of s i)) = 1) in
  let '(ok, s1) := if top then do_commit i s else (true, s) in
  let '(okh, s2) := if top then run_hooks i 0 (st_hooks (stor_of s1 i)) (set_cur None s1) else (true, s1) in
  if okh then let '(okp, s3) := pop_mode i s2 in (ok && okp, s3) else (false, s2).

(** storage.py:1270-1275 *)
Definition noop_enter (s : cstate) : bool * cstate :=
  match cx_cur s with None => (true, s) | Some i => enter i (call_mode i MNoop s) end.
(** storage.py:1277-1282 *)
Definition noop_exit (s : cstate) : bool * cstate :=
  match cx_cur s with None => (true, s) | Some i => exit_ i (call_mode i MRun s) end.

(** Programs: sequences of op calls, raising, catching, and the three kinds of [with] block. *)
Inductive prog :=
  | POp
  | PRaise
  | PSkip
  | PSeq (p q : prog)
  | PTry (p q : prog)                      (* try: p except: q *)
  | PWith (i : nat) (m : option mode) (body : prog)   (* with s: / with s(m): *)
  | PNoop (body : prog).                   (* with noop(): *)

(** model.py:244-249 and storage.py:1175-1184: where an op call goes *)
Definition op_target (s : cstate) : option (nat * mode) :=
  match cx_cur s with None => None | Some i => Some (i, mode_of (stor_of s i)) end.

(** [with] statement: no [__exit__] if [__enter__] raises; [__exit__] returns None, so exceptions of the body go on. *)
Definition with_ (en : cstate -> bool * cstate) (ex : cstate -> bool * cstate) (body : cstate -> bool * cstate)
    (s : cstate) : bool * cstate :=
  let '(ok, s1) := en s in
  if ok then let '(okb, s2) := body s1 in let '(oke, s3) := ex s2 in (okb && oke, s3) else (false, s1).

Fixpoint crun (p : prog) (s : cstate) : bool * cstate :=
  match p with
  | POp => (true, emit (EvOp (op_target s)) s)
  | PRaise => (false, s)
  | PSkip => (true, s)
  | PSeq p q => let '(ok, s1) := crun p s in if ok then crun q s1 else (false, s1)
  | PTry p q => let '(ok, s1) := crun p s in if ok then (true, s1) else crun q s1
  | PWith i m body =>
      with_ (fun s => enter i (match m with Some m => call_mode i m s | None => s end)) (exit_ i) (crun body) s
  | PNoop body => with_ noop_enter noop_exit (crun body) s
  end.

(** The state of a fresh process: no context, no storage entered. *)
Definition cinit (commits syncs : list bool) : cstate := CState None ∅ commits syncs [].
