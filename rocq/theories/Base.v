(** Base definitions shared by all model files: exceptions as values, a state
    monad that keeps the state after an exception, Python values and the
    content hash. *)
From stdpp Require Import base strings gmap list.

(** * Exceptions as values *)

(** The Python exceptions that the modelled functions can raise.
    [EFuel] is not a Python exception: it marks a fuel-bounded loop that ran
    out of fuel (theorems show it is unreachable where it matters).
    [EUnmodelled] marks inputs outside of the model's scope. *)
Inductive exn :=
  | EKeyError | EValueError | EAssertion | ETypeError | ERuntime
  | ENotImplemented | EIndexError | EIntegrity | EOperational | EUser (n : nat)
  | EFuel | EUnmodelled.

Global Instance exn_eq_dec : EqDecision exn.
Proof. solve_decision. Defined.

Inductive result (A : Type) :=
  | Ok (a : A)
  | Err (e : exn).
Global Arguments Ok {_} _.
Global Arguments Err {_} _.

Global Instance result_eq_dec {A} `{EqDecision A} : EqDecision (result A).
Proof. solve_decision. Defined.

Global Instance result_ret : MRet result := fun A a => Ok a.
Global Instance result_bind : MBind result := fun A B f m =>
  match m with Ok a => f a | Err e => Err e end.
Global Instance result_fmap : FMap result := fun A B f m =>
  match m with Ok a => Ok (f a) | Err e => Err e end.

Definition of_option {A} (e : exn) (o : option A) : result A :=
  match o with Some a => Ok a | None => Err e end.

(** Sequencing of a list of computations that may raise, in order: the
    comprehension [[f(x) for x in l]]. *)
Fixpoint mapR {A B} (f : A -> result B) (l : list A) : result (list B) :=
  match l with
  | [] => Ok []
  | x :: l => y ← f x; ys ← mapR f l; Ok (y :: ys)
  end.

(** * State with exceptions: the state survives an exception, as in Python *)
Definition M (S A : Type) := S -> result A * S.

Definition retM {S A} (a : A) : M S A := fun s => (Ok a, s).
Definition raiseM {S A} (e : exn) : M S A := fun s => (Err e, s).
Definition bindM {S A B} (m : M S A) (f : A -> M S B) : M S B := fun s =>
  match m s with
  | (Ok a, s') => f a s'
  | (Err e, s') => (Err e, s')
  end.
Definition getM {S} : M S S := fun s => (Ok s, s).
Definition putM {S} (s' : S) : M S unit := fun _ => (Ok tt, s').
Definition modM {S} (f : S -> S) : M S unit := fun s => (Ok tt, f s).
Definition liftR {S A} (r : result A) : M S A := fun s => (r, s).

Declare Scope pym_scope.
Delimit Scope pym_scope with pym.
Notation "x <- m ;; k" := (bindM m (fun x => k))
  (at level 100, m at next level, right associativity) : pym_scope.
Notation "' p <- m ;; k" := (bindM m (fun p => k))
  (at level 100, p pattern, m at next level, right associativity) : pym_scope.
Notation "m ;;; k" := (bindM m (fun _ => k))
  (at level 100, right associativity) : pym_scope.

Section mapM.
  Context {S A B : Type} (f : A -> M S B).
  Fixpoint mapM' (l : list A) : M S (list B) :=
    match l with
    | [] => retM []
    | x :: l => bindM (f x) (fun y => bindM (mapM' l) (fun ys => retM (y :: ys)))
    end.
End mapM.

Section iterM.
  Context {S A : Type} (f : A -> M S unit).
  Fixpoint iterM (l : list A) : M S unit :=
    match l with
    | [] => retM tt
    | x :: l => bindM (f x) (fun _ => iterM l)
    end.
End iterM.

(** * Python values

    Plain Python values, up to the insertion order of dictionaries (which
    [joblib.hash], used by mandala/utils.py:71-89, also disregards): a
    dictionary is an association list in a canonical key order.
    [VPtr id obj] is a [ValuePointer] (mandala/model.py:90-122).  Floats,
    arrays, data frames and user-defined classes are not modelled
    separately. *)
Inductive pyval :=
  | VNone
  | VBool (b : bool)
  | VInt (z : Z)
  | VStr (s : string)
  | VList (l : list pyval)
  | VTuple (l : list pyval)
  | VDict (l : list (string * pyval))
  | VPtr (id : string) (obj : pyval).

Section pyval_ind.
  Variable P : pyval -> Prop.
  Hypothesis HNone : P VNone.
  Hypothesis HBool : forall b, P (VBool b).
  Hypothesis HInt : forall z, P (VInt z).
  Hypothesis HStr : forall s, P (VStr s).
  Hypothesis HList : forall l, Forall P l -> P (VList l).
  Hypothesis HTuple : forall l, Forall P l -> P (VTuple l).
  Hypothesis HDict : forall l, Forall (fun kv => P kv.2) l -> P (VDict l).
  Hypothesis HPtr : forall id o, P o -> P (VPtr id o).
  Fixpoint pyval_ind' (v : pyval) : P v :=
    let fix go (l : list pyval) : Forall P l :=
      match l with
      | [] => Forall_nil_2 _
      | x :: l => Forall_cons_2 _ _ _ (pyval_ind' x) (go l)
      end in
    let fix god (l : list (string * pyval)) : Forall (fun kv => P kv.2) l :=
      match l with
      | [] => Forall_nil_2 _
      | (k, x) :: l => Forall_cons_2 (fun kv => P kv.2) (k, x) l (pyval_ind' x) (god l)
      end in
    match v with
    | VNone => HNone
    | VBool b => HBool b
    | VInt z => HInt z
    | VStr s => HStr s
    | VList l => HList l (go l)
    | VTuple l => HTuple l (go l)
    | VDict l => HDict l (god l)
    | VPtr id o => HPtr id o (pyval_ind' o)
    end.
End pyval_ind.

Global Instance pyval_eq_dec : EqDecision pyval.
Proof.
  unfold EqDecision, RelDecision. fix go 1. intros v w.
  destruct v as [| | | |l|l|l|id o], w as [| | | |l'|l'|l'|id' o'];
    try (right; discriminate); try (left; reflexivity).
  - destruct (decide (b = b0)); [left; congruence|right; congruence].
  - destruct (decide (z = z0)); [left; congruence|right; congruence].
  - destruct (decide (s = s0)); [left; congruence|right; congruence].
  - destruct (@list_eq_dec _ go l l'); [left; congruence|right; congruence].
  - destruct (@list_eq_dec _ go l l'); [left; congruence|right; congruence].
  - destruct (@list_eq_dec _ (@prod_eq_dec _ _ _ go) l l'); [left; congruence|right; congruence].
  - destruct (decide (id = id')); [|right; congruence].
    destruct (go o o'); [left; congruence|right; congruence].
Defined.

(** * A concrete collision-free hash

    The theorems are stated for an arbitrary hash function
    [H : pyval -> string] (mandala/utils.py:71-89 [get_content_hash]); those that
    need it assume that [H] is injective.  [ser] below is a concrete
    injective function, used in the examples to show that the assumption
    is satisfiable and to evaluate witnesses. *)
Fixpoint ser_pos (p : positive) : string :=
  match p with
  | xH => "."
  | xO p => "0" +:+ ser_pos p
  | xI p => "1" +:+ ser_pos p
  end.
Definition ser_nat (n : nat) : string := ser_pos (Pos.of_succ_nat n).
Definition ser_str (s : string) : string := ser_nat (String.length s) +:+ s.
Definition ser_Z (z : Z) : string :=
  match z with
  | Z0 => "z"
  | Zpos p => "p" +:+ ser_pos p
  | Zneg p => "n" +:+ ser_pos p
  end.
Fixpoint ser (v : pyval) : string :=
  match v with
  | VNone => "N"
  | VBool b => if b then "T" else "F"
  | VInt z => "I" +:+ ser_Z z
  | VStr s => "S" +:+ ser_str s
  | VList l => "L" +:+ ser_nat (length l) +:+ foldr (fun x r => ser x +:+ r) "" l
  | VTuple l => "U" +:+ ser_nat (length l) +:+ foldr (fun x r => ser x +:+ r) "" l
  | VDict l => "D" +:+ ser_nat (length l) +:+
      foldr (fun kx r => ser_str kx.1 +:+ ser kx.2 +:+ r) "" l
  | VPtr id o => "P" +:+ ser_str id +:+ ser o
  end.

Local Arguments String.append : simpl nomatch.

Lemma ser_pos_prefix p q r r' :
  ser_pos p +:+ r = ser_pos q +:+ r' -> p = q /\ r = r'.
Proof.
  revert q. induction p as [p IH|p IH|]; intros [q|q|]; simpl; intros E;
    try discriminate; injection E as E; auto.
  - apply IH in E as [-> ->]. auto.
  - apply IH in E as [-> ->]. auto.
Qed.

Lemma ser_nat_prefix n m r r' :
  ser_nat n +:+ r = ser_nat m +:+ r' -> n = m /\ r = r'.
Proof.
  intros [E ->]%ser_pos_prefix. split; [|done].
  by apply SuccNat2Pos.inj in E.
Qed.

Lemma string_app_assoc (a b c : string) : (a +:+ b) +:+ c = a +:+ (b +:+ c).
Proof. induction a; simpl; f_equal; auto. Qed.

Lemma string_app_inj_len (a b r r' : string) :
  String.length a = String.length b -> a +:+ r = b +:+ r' -> a = b /\ r = r'.
Proof.
  revert b. induction a as [|x a IH]; intros [|y b]; simpl; intros L E;
    try discriminate; auto.
  simplify_eq/=. destruct (IH b) as [-> ->]; auto.
Qed.

Lemma ser_str_prefix s t r r' :
  ser_str s +:+ r = ser_str t +:+ r' -> s = t /\ r = r'.
Proof.
  unfold ser_str. rewrite !string_app_assoc.
  intros [L E]%ser_nat_prefix. by apply string_app_inj_len.
Qed.

Lemma ser_prefix v w r r' : ser v +:+ r = ser w +:+ r' -> v = w /\ r = r'.
Proof.
  revert w r r'.
  assert (Hlist : forall l l' r r',
    Forall (fun v => forall w r r', ser v +:+ r = ser w +:+ r' -> v = w /\ r = r') l ->
    length l = length l' ->
    foldr (fun x r => ser x +:+ r) "" l +:+ r = foldr (fun x r => ser x +:+ r) "" l' +:+ r' ->
    l = l' /\ r = r').
  { intros l l' r r' Hl. revert l'. induction Hl as [|x l Hx Hl IH];
      intros [|y l']; simpl; intros L E; try discriminate; auto.
    rewrite !string_app_assoc in E. apply Hx in E as [-> E].
    apply IH in E as [-> ->]; auto. }
  induction v as [| | | |l IH|l IH|l IH|id o IH] using pyval_ind';
    intros [| | | |l'|l'|l'|id' o'] r r'; simpl; intros E;
    repeat match goal with b : bool |- _ => destruct b end;
    try discriminate; try (simplify_eq/=; auto; fail).
  - destruct z as [|p|p], z0 as [|q|q]; simpl in E; simplify_eq/=; auto;
      match goal with H : ser_pos _ +:+ _ = _ |- _ => apply ser_pos_prefix in H as [-> ->] end; auto.
  - injection E as E. apply ser_str_prefix in E as [-> ->]. auto.
  - injection E as E. rewrite !string_app_assoc in E.
    apply ser_nat_prefix in E as [L E].
    eapply Hlist in E as [-> ->]; auto.
  - injection E as E. rewrite !string_app_assoc in E.
    apply ser_nat_prefix in E as [L E].
    eapply Hlist in E as [-> ->]; auto.
  - injection E as E. rewrite !string_app_assoc in E.
    apply ser_nat_prefix in E as [L E].
    cut (l = l' /\ r = r'); [intros [-> ->]; auto|].
    clear Hlist. revert l' L E. induction IH as [|[k x] l Hx Hl IH'];
      intros [|[k' y] l']; simpl; intros L E; try discriminate; auto.
    rewrite !string_app_assoc in E. apply ser_str_prefix in E as [-> E].
    simpl in Hx. apply Hx in E as [-> E]. apply IH' in E as [-> ->]; auto.
  - injection E as E. rewrite !string_app_assoc in E.
    apply ser_str_prefix in E as [-> E]. apply IH in E as [-> ->]. auto.
Qed.

Global Instance ser_inj : Inj (=) (=) ser.
Proof.
  intros v w E. apply (ser_prefix v w "" "").
  by rewrite E.
Qed.
