(** The history of one component of the user's code, a git-like DAG of
    contents, modelled from mandala/deps/shallow_versions.py.

    Simplified: contents are of an abstract type [T] with the adapter's two
    methods [get_content_hash] and [get_presentable_content] as parameters
    (see the two concrete adapters at the end); a diff is the pair of
    contents, as in the code; printing is not modelled; the interpreter's
    recursion limit, which bounds [get_content] on long histories, is not
    modelled. *)
From stdpp Require Import base strings gmap list.
From Verif Require Import Base.

(** * The user

    mandala/utils.py:471-482 [ask_user] repeats its question until it gets a
    valid answer; here the user is the list of the valid answers still to come
    and the list of the questions asked so far.  A question of [commit] shows
    the pair (current, new) of presentable contents. *)
Inductive answer := AYes | ANo | AAbort.
Global Instance answer_eq_dec : EqDecision answer.
Proof. solve_decision. Defined.

Record user := User {
  u_answers : list answer;
  u_asked : list (string * string);
}.

(** mandala/utils.py:471-482 [ask_user].  [input] raises when there is no more
    input (EOFError), written [EUser 0]. *)
Definition ask_user (q : string * string) (u : user) : result answer * user :=
  match u_answers u with
  | [] => (Err (EUser 0), User [] (u_asked u ++ [q]))
  | a :: l => (Ok a, User l (u_asked u ++ [q]))
  end.

(** mandala/deps/shallow_versions.py:34-63 [Commit]. *)
Record commit (T : Type) := Commit {
  c_parents : list string;
  c_diffs : list (T * T);
  c_chash : string;
  c_shash : string;
  c_content : option T;
}.
Global Arguments Commit {_} _ _ _ _ _.
Global Arguments c_parents {_} _.
Global Arguments c_diffs {_} _.
Global Arguments c_chash {_} _.
Global Arguments c_shash {_} _.
Global Arguments c_content {_} _.

(** mandala/deps/shallow_versions.py:139-157 [DAG.__init__]. *)
Record dag (T : Type) := Dag {
  d_head : option string;
  d_commits : gmap string (commit T);
  d_initial : option string;
}.
Global Arguments Dag {_} _ _ _.
Global Arguments d_head {_} _.
Global Arguments d_commits {_} _.
Global Arguments d_initial {_} _.

Definition empty_dag {T} : dag T := Dag None ∅ None.

Section dag.
Context {T : Type} (hash : T -> string) (present : T -> string).
Local Open Scope pym_scope.

(** mandala/deps/shallow_versions.py:57-59 [Commit.check_invariants]. *)
Definition commit_check (c : commit T) : bool :=
  bool_decide (length (c_parents c) = length (c_diffs c)) &&
  (bool_decide (0 < length (c_parents c)) || match c_content c with Some _ => true | None => false end).

(** mandala/deps/shallow_versions.py:164-171 [DAG.check_invariants]. *)
Definition dag_check (d : dag T) : bool :=
  match d_head d with None => true | Some h => bool_decide (h ∈ dom (d_commits d)) end &&
  forallb (fun hc : string * commit T =>
    commit_check hc.2 &&
    forallb (fun p => bool_decide (p ∈ dom (d_commits d))) (c_parents hc.2) &&
    bool_decide (c_chash hc.2 = hc.1) &&
    bool_decide (c_shash hc.2 ∈ dom (d_commits d))) (map_to_list (d_commits d)).

(** mandala/deps/shallow_versions.py:20-31,84-87 [get_diff], [apply_diff]: a
    diff is the pair (new, old) and applying it gives its first component. *)
Definition get_diff (a b : T) : T * T := (a, b).
Definition apply_diff (b : T) (diff : T * T) : T := diff.1.

(** mandala/deps/shallow_versions.py:183-192 [DAG.get_content]; the fuel
    stands for the recursion through the parents. *)
Fixpoint get_content_f (fuel : nat) (d : dag T) (h : string) : result T :=
  match fuel with
  | 0 => Err EFuel
  | S fuel =>
    match d_commits d !! h with
    | None => Err EValueError
    | Some c =>
      match c_content c with
      | Some t => Ok t
      | None =>
        match c_parents c with
        | [] => Err EIndexError
        | p :: _ =>
          match get_content_f fuel d p with
          | Err e => Err e
          | Ok b =>
            match c_diffs c with
            | [] => Err EIndexError
            | diff :: _ => Ok (apply_diff b diff)
            end
          end
        end
      end
    end
  end.
Definition get_content (d : dag T) (h : string) : result T :=
  get_content_f (S (size (d_commits d))) d h.

Notation DM := (M (dag T * user)).

(** mandala/deps/shallow_versions.py:194-215 [DAG.init]. *)
Definition init (t : T) : DM string := fun '(d, u) =>
  match d_head d with
  | Some _ => (Err EAssertion, (d, u))
  | None =>
    let h := hash t in
    (Ok h, (Dag (Some h) (<[h := Commit [] [] h h (Some t)]> (d_commits d)) (Some h), u))
  end.

(** mandala/deps/shallow_versions.py:217-227 [DAG.checkout] (with
    [implicit_merge=False], the other value raises). *)
Definition checkout (h : string) : DM unit := fun '(d, u) =>
  match d_commits d !! h with
  | None => (Err EValueError, (d, u))
  | Some _ => (Ok tt, (Dag (Some h) (d_commits d) (d_initial d), u))
  end.

(** mandala/deps/shallow_versions.py:229-290 [DAG.commit]: lines 237-273
    decide whether the change is semantic, asking the user if the caller did
    not say. *)
Definition decide_semantic (h : string) (t : T) (sem : option bool) : DM bool := fun '(d, u) =>
  match sem with
  | Some b => (Ok b, (d, u))
  | None =>
    match get_content d h with
    | Err e => (Err e, (d, u))
    | Ok cur =>
      let (r, u') := ask_user (present cur, present t) u in
      (match r with
       | Err e => Err e
       | Ok AAbort => Err EValueError
       | Ok AYes => Ok true
       | Ok ANo => Ok false
       end, (d, u'))
    end
  end.
Definition commit_content (t : T) (sem : option bool) : DM string := fun '(d, u) =>
  match d_head d with
  | None => (Err EAssertion, (d, u))
  | Some hd =>
    let h := hash t in
    match d_commits d !! h with
    | Some _ => (Err EAssertion, (d, u))
    | None =>
      match d_commits d !! hd with
      | None => (Err EKeyError, (d, u))
      | Some hc =>
        match decide_semantic hd t sem (d, u) with
        | (Err e, du) => (Err e, du)
        | (Ok b, (d1, u1)) =>
          let sh := if b then h else c_shash hc in
          match get_content d1 hd with
          | Err e => (Err e, (d1, u1))
          | Ok cur =>
            let c := Commit [hd] [get_diff t cur] h sh None in
            (Ok h, (Dag (Some h) (<[h := c]> (d_commits d1)) (d_initial d1), u1))
          end
        end
      end
    end
  end.

(** mandala/deps/shallow_versions.py:292-312 [DAG.sync]. *)
Definition sync (t : T) (sem : option bool) : DM string := fun '(d, u) =>
  match d_head d with
  | None => (Err EAssertion, (d, u))
  | Some hd =>
    let h := hash t in
    match
      (if decide (hd = h) then (Ok h, (d, u))
       else match d_commits d !! h with
            | Some _ => (checkout h;;; retM h) (d, u)
            | None => commit_content t sem (d, u)
            end)
    with
    | (Err e, du) => (Err e, du)
    | (Ok r, (d', u')) =>
      if decide (d_head d' = Some h) then (Ok r, (d', u')) else (Err EAssertion, (d', u'))
    end
  end.
End dag.

(** * The two adapters

    [StringContentAdapter] (shallow_versions.py:91-112) and
    [GlobalVariableContentAdapter] (118-136).  A component's content is the
    source of a function, or the pair (content hash, short repr) of a global
    variable. *)
Inductive content := CCode (src : string) | CGlobal (h repr : string).
Global Instance content_eq_dec : EqDecision content.
Proof. solve_decision. Defined.

Definition chash (H : pyval -> string) (c : content) : string :=
  match c with CCode s => H (VStr s) | CGlobal h _ => h end.
Definition cpresent (c : content) : string :=
  match c with CCode s => s | CGlobal _ r => r end.
