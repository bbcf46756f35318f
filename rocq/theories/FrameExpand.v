(** Expanding a computation frame.  Models mandala/cf.py:
    - 161-170 [ops]
    - 907-949 [_group_calls]
    - 951-1061 [_expand_from_call_groups]
    - 1073-1129 [_expand_unidirectional], and with it [expand_back] (1131-1168) and
      [expand_forward] (1170-1190).

    [creators] and [consumers] are [Storage.get_creators] and [get_consumers] (storage.py:448-460,
    Queries.v), as functions of the set of history ids asked for.  The keys of the groups are the
    op's name and a finite map from labels to sets of variables (the code makes them hashable by sorting);
    the orders of [sorted] are parameters ([ord] for names, [gord] for groups).  [verbose] is not modelled. *)
From stdpp Require Import base strings gmap list.
From Verif Require Import Base PyDict Refs Storage Frame.
Local Open Scope pym_scope.

Notation gkey := (string * setmap)%type.
Notation group := (gkey * list call)%type.
(** ["inputs"] / ["outputs"], and the other one *)
Inductive side := Inputs | Outputs.
Definition dual (sd : side) : side := match sd with Inputs => Outputs | Outputs => Inputs end.
Definition side_refs (sd : side) (c : call) : pydict ref := match sd with Inputs => c_ins c | Outputs => c_outs c end.

(** 926-935: the variables among [avail] in which the refs of a call are found *)
Fixpoint connections (F : frame) (avail : sset) (c : call) (l : list (string * ref)) (acc : setmap) : result setmap :=
  match l with
  | [] => Ok acc
  | nr :: l =>
      if decide (rhid nr.2 ∈ dom (f_refs F)) then
        bindR (at_key (rhid nr.2) (f_refinv F)) (fun X =>
        connections F avail c l (if decide (X ∩ avail = ∅) then acc else <[name_proj (c_op c) nr.1 := X ∩ avail]> acc))
      else connections F avail c l acc
  end.
(** 946-948 *)
Fixpoint add_to_group (k : gkey) (c : call) (gs : list group) : list group :=
  match gs with
  | [] => [(k, [c])]
  | g :: gs => if decide (g.1 = k) then (k, g.2 ++ [c]) :: gs else g :: add_to_group k c gs
  end.
(** 907-949 *)
Fixpoint group_loop (F : frame) (avail : sset) (sd : side) (cs : list call) (gs : list group) : result (list group) :=
  match cs with
  | [] => Ok gs
  | c :: cs =>
      bindR (connections F avail c (side_refs sd c) ∅) (fun m =>
      group_loop F avail sd cs (add_to_group (op_name (c_op c), m) c gs))
  end.
Definition group_calls (F : frame) (cs : list call) (avail : sset) (sd : side) : result (list group) :=
  group_loop F avail sd cs [].

(** 1014-1033: the labels of the calls of a group on one side *)
Definition side_labels (sd : side) (cs : list call) : sset :=
  list_to_set (mjoin (map (fun c => map (fun nr => name_proj (c_op c) nr.1) (side_refs sd c)) cs)).
(** 1042-1045 *)
Definition label_hids (sd : side) (cs : list call) (l : string) : sset :=
  list_to_set (mjoin (map (fun c => map (fun nr => rhid nr.2) (filter (fun nr => name_proj (c_op c) nr.1 = l) (side_refs sd c))) cs)).

Section expand.
  Context (ord : sset -> list string) (eord : gset edge3 -> list edge3) (gord : list group -> list group).
  Context (creators consumers : sset -> list call).

  (** 161-170: [ops()[f].name]; raises if any function is empty *)
  Definition op_name_of (f : string) (F : frame) : result string :=
    if decide (map_Forall (fun _ X => X <> ∅) (f_fs F)) then
      bindR (at_key f (f_fs F)) (fun X =>
      match ord X with
      | [] => Err ENotImplemented
      | h :: _ => bindR (at_key h (f_calls F)) (fun c => Ok (op_name (c_op c)))
      end)
    else Err ENotImplemented.
  (** 991-997, 1047-1050: [X <= Y or (Y <= X and len(Y) != 0)] *)
  Definition matches (X Y : sset) : bool := bool_decide (X ⊆ Y) || (bool_decide (Y ⊆ X) && negb (bool_decide (Y = ∅))).
  Fixpoint find_func (F : frame) (o : string) (hids : sset) (l : list string) : result (option string) :=
    match l with
    | [] => Ok None
    | f :: l =>
        if matches hids (default ∅ (f_fs F !! f)) then Ok (Some f)
        else bindR (op_name_of f F) (fun n => if String.eqb n o then Ok (Some f) else find_func F o hids l)
    end.
  Definition find_var (F : frame) (hids : sset) : option string :=
    list_find (fun v => matches hids (default ∅ (f_vs F !! v)) = true) (ord (dom (f_vs F))) ≫= fun p => Some p.2.

  (** 987-1003 *)
  Definition choose_func (reuse : bool) (o : string) (cs : list call) : M frame string :=
    F <- getM ;;
    m <- (if reuse then liftR (find_func F o (list_to_set (map c_hid cs)) (ord (dom (f_fs F)))) else retM None) ;;
    match m with
    | Some f => retM f
    | None => f <- liftR (get_new_fname o F) ;; add_func f ;;; retM f
    end.
  (** 1005-1012 *)
  Definition glue_edge (sd : side) (allow_existing : bool) (f v l : string) : M frame unit :=
    match sd with Outputs => add_edge allow_existing f v l | Inputs => add_edge allow_existing v f l end.
  Definition glue (sd : side) (reuse : bool) (f : string) (m : setmap) : M frame unit :=
    iterM (fun l => iterM (fun v => glue_edge sd reuse f v l) (ord (default ∅ (m !! l)))) (ord (dom m)).
  (** 1035-1057 *)
  Definition dual_var (sd : side) (reuse : bool) (f : string) (cs : list call) (existing : sset) (l : string) : M frame unit :=
    if decide (l ∈ existing) then retM tt
    else
      F <- getM ;;
      v <- (match (if reuse then find_var F (label_hids (dual sd) cs l) else None) with
            | Some v => retM v
            | None => new_var l
            end) ;;
      glue_edge (dual sd) false f v l.
  (** one iteration of the loop 975-1061 *)
  Definition expand_group (sd : side) (reuse : bool) (g : group) : M frame unit :=
    let '((o, m), cs) := g in
    f <- choose_func reuse o cs ;;
    glue sd reuse f m ;;;
    F <- getM ;;
    lm <- liftR (at_key f (match sd with Outputs => f_inp F | Inputs => f_out F end)) ;;
    iterM (dual_var sd reuse f cs (dom lm)) (ord (side_labels (dual sd) cs)) ;;;
    iterM (fun c => add_call ord true reuse f c) cs.

  (** 1103-1129, with given variables.  [set.union()] of nothing raises TypeError. *)
  Definition expand_step (dr : dir) (reuse skip_existing : bool) (varnames : sset) : M frame unit :=
    F <- getM ;;
    elts <- liftR (match dr with Back => get_source_elts ord eord F | Forward => get_sink_elts ord eord F end) ;;
    let elts := filter (fun kX => kX.1 ∈ varnames) elts in
    if decide (elts = ∅) then raiseM ETypeError
    else
      let hids := union_values elts in
      let cs := match dr with Back => creators hids | Forward => consumers hids end in
      let cs := if skip_existing then filter (fun c => c_hid c ∉ dom (f_calls F)) cs else cs in
      let sd := match dr with Back => Outputs | Forward => Inputs end in
      gs <- liftR (group_calls F cs varnames sd) ;;
      iterM (expand_group sd reuse) (gord gs).
  (** 1084-1102: [varnames] is None.  [while True] is given fuel. *)
  Fixpoint expand_loop (dr : dir) (reuse skip_existing recursive : bool) (fuel : nat) : M frame unit :=
    match fuel with
    | 0 => raiseM EFuel
    | S fuel =>
        F <- getM ;;
        expand_step dr reuse skip_existing (dom (f_vs F)) ;;;
        F' <- getM ;;
        if decide (size (f_nodes F') = size (f_nodes F)) then retM tt
        else if recursive then expand_loop dr reuse skip_existing recursive fuel else retM tt
    end.
End expand.
