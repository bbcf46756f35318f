(** Specification for C04-C06, C10, C11: what a call of a plain Python function binds
    its parameters to (Python language reference, "Calls" and "Function
    definitions"), stated parameter by parameter. *)
From stdpp Require Import base strings gmap list.
From Verif Require Import Base PyDict Args.

Definition positional (k : kind) : Prop := k = KPosOnly \/ k = KPosOrKw.
Definition by_keyword (k : kind) : Prop := k = KPosOrKw \/ k = KKwOnly.
Global Instance positional_dec k : Decision (positional k).
Proof. unfold positional. apply _. Defined.
Global Instance by_keyword_dec k : Decision (by_keyword k).
Proof. unfold by_keyword. apply _. Defined.

Definition rank (k : kind) : nat :=
  match k with KPosOnly => 0 | KPosOrKw => 1 | KVarPos => 2 | KKwOnly => 3 | KVarKw => 4 end.

Section spec.
  Context {X : Type}.
  Implicit Types (sig : list (param X)) (args : list X) (kw : pydict X).

  (** Signatures Python accepts: distinct names; positional-only before ordinary before [*args]
      before keyword-only before [**kw]; at most one of each starred
      parameter, and these have no default. *)
  Record sig_ok sig : Prop := {
    so_names : NoDup (map p_name sig);
    so_order : forall i j p q, sig !! i = Some p -> sig !! j = Some q -> i < j ->
                 rank (p_kind p) <= rank (p_kind q);
    so_star : forall i j p q, sig !! i = Some p -> sig !! j = Some q -> p_kind p = p_kind q ->
                (p_kind p = KVarPos \/ p_kind p = KVarKw) -> i = j;
    so_nodef : forall p, p ∈ sig -> p_kind p = KVarPos \/ p_kind p = KVarKw -> p_default p = None;
  }.

  Definition npos sig : nat := length (filter (fun p => positional (p_kind p)) sig).
  Definition has_kind (k : kind) sig : Prop := exists p, p ∈ sig /\ p_kind p = k.

  (** names that can be used as keywords *)
  Definition kwnames sig : list string := map p_name (filter (fun p => by_keyword (p_kind p)) sig).

  (** [gets sig args kw i p v]: the [i]-th parameter [p] gets the value [v] *)
  Definition gets sig args kw (i : nat) (p : param X) (v : bval X) : Prop :=
    match p_kind p with
    | KPosOnly => exists x, v = BOne x /\
        (args !! i = Some x \/ (args !! i = None /\ p_default p = Some x))
    | KPosOrKw => exists x, v = BOne x /\
        (args !! i = Some x \/
         (args !! i = None /\ dget (p_name p) kw = Some x) \/
         (args !! i = None /\ dget (p_name p) kw = None /\ p_default p = Some x))
    | KVarPos => v = BTuple (drop (npos sig) args)
    | KKwOnly => exists x, v = BOne x /\
        (dget (p_name p) kw = Some x \/ (dget (p_name p) kw = None /\ p_default p = Some x))
    | KVarKw => v = BDict (filter (fun kx => kx.1 ∉ kwnames sig) (kw : list (string * X)))
    end.

  (** The call [f( *args, **kw)] of a function with signature [sig] is accepted and binds
      the parameters as in [env] (which is in the order of the signature). *)
  Record py_binds sig args kw (env : pydict (bval X)) : Prop := {
    pb_len : length env = length sig;
    pb_val : forall i p, sig !! i = Some p -> exists v, env !! i = Some (p_name p, v) /\ gets sig args kw i p v;
    pb_many : has_kind KVarPos sig \/ length args <= npos sig;
    pb_twice : forall i p, sig !! i = Some p -> p_kind p = KPosOrKw -> i < length args ->
                 dget (p_name p) kw = None;
    pb_extra : has_kind KVarKw sig \/
               forall k x, (k, x) ∈ kw -> exists p, p ∈ sig /\ p_name p = k /\ by_keyword (p_kind p);
  }.

  (** [inspect.Signature.bind] refuses a keyword that is also the name of a positional-only
      parameter, although Python puts it into [**kw] (CPython issue, fixed in 3.13) *)
  Definition no_posonly_kw sig kw : Prop :=
    forall p, p ∈ sig -> p_kind p = KPosOnly -> dget (p_name p) kw = None.

  (** No keyword is the name of a starred or positional-only parameter *)
  Definition kw_plain sig kw : Prop := forall p, p ∈ sig -> dget (p_name p) kw <> None -> by_keyword (p_kind p).

  (** Signatures with the same parameters (perhaps other defaults) *)
  Definition same_params {Y} sig (sig2 : list (param Y)) : Prop :=
    map (fun p => (p_name p, p_kind p)) sig = map (fun p => (p_name p, p_kind p)) sig2.

  (** Environments that are the same up to the order of [**kw] *)
  Inductive bval_eqv : bval X -> bval X -> Prop :=
    | be_one x : bval_eqv (BOne x) (BOne x)
    | be_tup l : bval_eqv (BTuple l) (BTuple l)
    | be_dict d d' : d ≡ₚ d' -> bval_eqv (BDict d) (BDict d').
  Definition env_eqv (e e' : pydict (bval X)) : Prop :=
    Forall2 (fun a b => a.1 = b.1 /\ bval_eqv a.2 b.2) e e'.
End spec.

(** Apply a function to all values. *)
Definition map_kw {X Y} (f : X -> Y) (kw : pydict X) : pydict Y := map (fun kx => (kx.1, f kx.2)) kw.
Definition map_bval {X Y} (f : X -> Y) (v : bval X) : bval Y :=
  match v with BOne x => BOne (f x) | BTuple l => BTuple (map f l) | BDict d => BDict (map_kw f d) end.
Definition map_env {X Y} (f : X -> Y) (e : pydict (bval X)) : pydict (bval Y) :=
  map (fun kv => (kv.1, map_bval f kv.2)) e.
