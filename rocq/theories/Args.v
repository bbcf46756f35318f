(** Binding arguments.  Models
    - Python's [inspect.Signature.bind], [BoundArguments.apply_defaults], [.args], [.kwargs]
      (CPython 3.8-3.12, inspect.py)
    - mandala/utils.py:176-215 [boundargs_to_args_kwargs]
    - mandala/storage.py:704-771 [Storage.parse_args]
    - mandala/storage.py:834-858 the preparation of the function's arguments in
      [Storage.call_internal]. *)
From stdpp Require Import base strings gmap list.
From Verif Require Import Base PyDict Returns Refs.

(** [inspect.Parameter] *)
Inductive kind := KPosOnly | KPosOrKw | KVarPos | KKwOnly | KVarKw.
Global Instance kind_eq_dec : EqDecision kind.
Proof. solve_decision. Defined.
Record param X := Param { p_name : string; p_kind : kind; p_default : option X; p_ann : ty }.
Global Arguments Param {_} _ _ _ _.
Global Arguments p_name {_} _.
Global Arguments p_kind {_} _.
Global Arguments p_default {_} _.
Global Arguments p_ann {_} _.

(** The value of a parameter: an argument, the tuple of a [*args], the dictionary of a [**kwargs]. *)
Inductive bval (X : Type) := BOne (x : X) | BTuple (l : list X) | BDict (d : pydict X).
Global Arguments BOne {_} _.
Global Arguments BTuple {_} _.
Global Arguments BDict {_} _.

Section bind.
  Context {X : Type}.
  Implicit Types (ps sig : list (param X)) (args : list X) (kw : pydict X).

  (** inspect.py, [Signature._bind], first loop: positional arguments.  Returns the
      arguments bound so far and the remaining parameters. *)
  Fixpoint bind_pos ps args kw (acc : pydict (bval X)) : result (pydict (bval X) * list (param X)) :=
    match ps, args with
    | [], [] => Ok (acc, [])
    | [], _ :: _ => Err ETypeError
    | p :: ps', [] =>
        if decide (p_kind p = KVarPos) then Ok (acc, ps')
        else if dmem (p_name p) kw then
          if decide (p_kind p = KPosOnly) then Err ETypeError else Ok (acc, p :: ps')
        else if decide (p_kind p = KVarKw \/ p_default p <> None) then Ok (acc, p :: ps')
        else Err ETypeError
    | p :: ps', a :: args' =>
        match p_kind p with
        | KVarKw | KKwOnly => Err ETypeError
        | KVarPos => Ok (dset (p_name p) (BTuple (a :: args')) acc, ps')
        | k => if dmem (p_name p) kw && bool_decide (k <> KPosOnly) then Err ETypeError
               else bind_pos ps' args' kw (dset (p_name p) (BOne a) acc)
        end
    end.

  (** second loop: keyword arguments *)
  Fixpoint bind_kw ps kw (acc : pydict (bval X)) (kwp : option string) : result (pydict (bval X)) :=
    match ps with
    | [] => match kw with
            | [] => Ok acc
            | _ :: _ => match kwp with Some n => Ok (dset n (BDict kw) acc) | None => Err ETypeError end
            end
    | p :: ps =>
        match p_kind p with
        | KVarKw => bind_kw ps kw acc (Some (p_name p))
        | KVarPos => bind_kw ps kw acc kwp
        | k => match dget (p_name p) kw with
               | None => match p_default p with
                         | None => Err ETypeError
                         | Some _ => bind_kw ps kw acc kwp
                         end
               | Some v => if decide (k = KPosOnly) then Err ETypeError
                           else bind_kw ps (ddel (p_name p) kw) (dset (p_name p) (BOne v) acc) kwp
               end
        end
    end.

  Definition sig_bind sig args kw : result (pydict (bval X)) :=
    r ← bind_pos sig args kw []; bind_kw r.2 kw r.1 None.

  (** [BoundArguments.apply_defaults] *)
  Definition apply_defaults sig (b : pydict (bval X)) : pydict (bval X) :=
    omap (fun p =>
      match dget (p_name p) b with
      | Some v => Some (p_name p, v)
      | None => match p_default p with
                | Some d => Some (p_name p, BOne d)
                | None => match p_kind p with
                          | KVarPos => Some (p_name p, BTuple [])
                          | KVarKw => Some (p_name p, BDict [])
                          | _ => None
                          end
                end
      end) sig.

  Definition bind_full sig args kw : result (pydict (bval X)) :=
    b ← sig_bind sig args kw; Ok (apply_defaults sig b).

  (** Calling a plain Python function [f( *args, **kw)] (Python language reference,
      "Calls"): the value of each parameter, or TypeError. *)
  Definition pos_names sig : list string :=
    map p_name (filter (fun p => p_kind p = KPosOnly \/ p_kind p = KPosOrKw) sig).
  Definition kw_names sig : list string :=
    map p_name (filter (fun p => p_kind p = KPosOrKw \/ p_kind p = KKwOnly) sig).
  Definition py_param sig args kw (i : nat) (p : param X) : result (string * bval X) :=
    let dflt := match p_default p with Some d => Ok (p_name p, BOne d) | None => Err ETypeError end in
    let by_kw := match dget (p_name p) kw with Some x => Ok (p_name p, BOne x) | None => dflt end in
    match p_kind p with
    | KPosOnly => match args !! i with Some x => Ok (p_name p, BOne x) | None => dflt end
    | KPosOrKw =>
        match args !! i with
        | Some x => if dmem (p_name p) kw then Err ETypeError else Ok (p_name p, BOne x)
        | None => by_kw
        end
    | KVarPos => Ok (p_name p, BTuple (drop (length (pos_names sig)) args))
    | KKwOnly => by_kw
    | KVarKw => Ok (p_name p, BDict (filter (fun kx => kx.1 ∉ kw_names sig) (kw : list (string * X))))
    end.
  Definition py_call sig args kw : result (pydict (bval X)) :=
    if negb (existsb (fun p => bool_decide (p_kind p = KVarPos)) sig) &&
       bool_decide (length (pos_names sig) < length args) then Err ETypeError
    else if negb (existsb (fun p => bool_decide (p_kind p = KVarKw)) sig) &&
       existsb (fun kx => bool_decide (kx.1 ∉ kw_names sig)) (kw : list (string * X)) then Err ETypeError
    else mapR (fun ip => py_param sig args kw ip.1 ip.2) (imap pair sig).

  (** [BoundArguments.args] *)
  Fixpoint bound_args ps (b : pydict (bval X)) : list X :=
    match ps with
    | [] => []
    | p :: ps =>
        match p_kind p with
        | KVarKw | KKwOnly => []
        | _ => match dget (p_name p) b with
               | None => []
               | Some (BOne x) => x :: bound_args ps b
               | Some (BTuple l) => l ++ bound_args ps b
               | Some (BDict _) => bound_args ps b (* cannot happen *)
               end
        end
    end.

  (** [BoundArguments.kwargs]: what is stored for one parameter.  A [*args]
      tuple is stored under its name: as an argument it is a tuple value, [tup]. *)
  Context (tup : list X -> X) (dct : pydict X -> X).
  Definition kw_entry (p : param X) (v : bval X) (kw : pydict X) : pydict X :=
    match v with
    | BDict d => if decide (p_kind p = KVarKw) then dupdate kw d else dset (p_name p) (dct d) kw
    | BOne x => dset (p_name p) x kw
    | BTuple l => dset (p_name p) (tup l) kw
    end.
  Fixpoint bound_kwargs ps (b : pydict (bval X)) (started : bool) (kw : pydict X) : pydict X :=
    match ps with
    | [] => kw
    | p :: ps =>
        let k := p_kind p in
        let started' := started || bool_decide (k = KVarKw \/ k = KKwOnly) in
        if started' then
          match dget (p_name p) b with
          | None => bound_kwargs ps b true kw
          | Some v => bound_kwargs ps b true (kw_entry p v kw)
          end
        else match dget (p_name p) b with
             | None => bound_kwargs ps b true kw
             | Some _ => bound_kwargs ps b false kw
             end
    end.

  (** utils.py:176-215 *)
  Fixpoint boundargs_to_args_kwargs ps (b : pydict (bval X)) : result (list X * pydict X) :=
    match ps with
    | [] => Ok ([], [])
    | p :: ps =>
        v ← dindex (p_name p) b;
        r ← boundargs_to_args_kwargs ps b; let (args, kw) := r : list X * pydict X in
        match p_kind p, v with
        | KPosOnly, BOne x | KPosOrKw, BOne x => Ok (x :: args, kw)
        | KVarPos, BTuple l => Ok (l ++ args, kw)
        | KKwOnly, BOne x => Ok (args, dupdate [(p_name p, x)] kw)
        | KVarKw, BDict d => Ok (args, dupdate d kw)
        | _, _ => Err ETypeError (* cannot happen *)
        end
    end.

  (** storage.py:836-848: move the arguments that were passed by keyword out of the
      bound arguments.  [keys] is an enumeration of the set [kwarg_keys]. *)
  Fixpoint take_kwargs (keys : list string) (sig : list (param X)) (b : pydict (bval X)) (kw : pydict X)
    : result (pydict (bval X) * pydict X) :=
    match keys with
    | [] => Ok (b, kw)
    | k :: keys =>
        match dget k b with
        | Some v =>
            let x := match v with BOne x => x | BTuple l => tup l | BDict d => dct d end in
            take_kwargs keys sig (ddel k b) (dset k x kw)
        | None =>
            match find (fun p => bool_decide (p_kind p = KVarKw)) sig with
            | None => Err EAssertion
            | Some p =>
                v ← dindex (p_name p) b;
                match v with
                | BDict d => x ← dindex k d;
                             take_kwargs keys sig (dset (p_name p) (BDict (ddel k d)) b) (dset k x kw)
                | _ => Err ETypeError (* cannot happen *)
                end
            end
        end
    end.

  (** storage.py:834-852: the positional and keyword arguments for the function *)
  Definition function_args sig (b : pydict (bval X)) (keys : list string) : result (list X * pydict X) :=
    r ← take_kwargs keys sig b []; let (b, kw) := r : pydict (bval X) * pydict X in
    Ok (bound_args sig b, dupdate kw (bound_kwargs sig b false [])).
End bind.

Section parse.
  (** the storage's state and [Storage.unwrap] (storage.py:514-522) on one argument *)
  Context {St : Type} (un : arg -> M St arg).

  (** utils.py:51-68 [_conservative_equality_check].  Comparing two [ValuePointer]s
      raises (model.py:114-115).  Values are compared structurally (Python also
      equates e.g. [1] and [True] inside collections: not modelled). *)
  Definition ceq (safe unknown : arg) : result bool :=
    match safe, unknown with
    | AVal (VPtr _ _), AVal (VPtr _ _) => Err ENotImplemented
    | AVal v, AVal w => Ok (bool_decide (v = w))
    | _, _ => Ok false
    end.

  Definition strip (a : arg) : arg := match a with AIgn _ v => v | _ => a end.
  Definition is_ign (a : arg) : bool := match a with AIgn _ _ => true | _ => false end.

  (** storage.py:723-770: one iteration of the loop.  Returns the new bound value and what is
      added to [storage_inputs] (with the annotation). *)
  Definition parse_one (ignore : list string) (p : param arg) (v : bval arg)
    : M St (bval arg * list (string * (arg * ty))) :=
    (match v with
     | BTuple l => (* 724-736 *)
         retM (BTuple (map strip l),
               omap (fun ia => if is_ign ia.2 then None
                               else Some (p_name p +:+ "_" +:+ dec ia.1, (ia.2, p_ann p)))
                    (imap pair l))
     | BDict d => (* 737-745 *)
         retM (BDict (map (fun ka => (ka.1, strip ka.2)) d),
               omap (fun ka => if is_ign ka.2 then None else Some (ka.1, (ka.2, p_ann p))) d)
     | BOne a =>
         let a := if bool_decide (p_name p ∈ ignore) then AIgn false a else a in (* 747-748 *)
         match a with
         | AIgn _ v => retM (BOne v, []) (* 750-752 *)
         | _ =>
             match p_default p with
             | Some (AIgn true d) => (* 753-766 *)
                 w <- match a with ARef _ => un a | _ => retM a end ;;
                 e <- liftR (ceq d w) ;;
                 if e then retM (BOne d, [])
                 else retM (BOne a, [(p_name p, (a, p_ann p))])
             | _ => retM (BOne a, [(p_name p, (a, p_ann p))]) (* 767-770 *)
             end
         end
     end)%pym.

  (** storage.py:722-771 *)
  Fixpoint parse_loop (ignore : list string) (sig : list (param arg)) (b : pydict (bval arg))
      (inputs : pydict (arg * ty)) : M St (pydict (bval arg) * pydict (arg * ty)) :=
    match sig with
    | [] => retM ([], inputs)
    | p :: sig =>
        match dget (p_name p) b with
        | None => parse_loop ignore sig b inputs
        | Some v =>
            (r <- parse_one ignore p v ;;
             rest <- parse_loop ignore sig b (dupdate inputs r.2) ;;
             retM ((p_name p, r.1) :: rest.1, rest.2))%pym
        end
    end.

  (** storage.py:704-771, with [apply_defaults=True] *)
  Definition parse_args (sig : list (param arg)) (ignore : list string) (args : list arg) (kw : pydict arg)
    : M St (pydict (bval arg) * pydict (arg * ty)) :=
    (b <- liftR (bind_full sig args kw) ;; parse_loop ignore sig b [])%pym.
End parse.
