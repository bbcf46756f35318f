(** Specification for the storage properties (C01-C03, C08, C11, C18, C27): hashes without
    collisions and cycles, what a program may pass to ops, and the histories of a program. *)
From stdpp Require Import base strings gmap list.
From Verif Require Import Base PyDict Returns Spec_Returns DictStore CallStore Spec_CallStore Commit Spec_Commit
  Refs Args Ident Storage.

(** [s] occurs as a string inside [v] *)
Fixpoint occurs (s : string) (v : pyval) : Prop :=
  match v with
  | VStr s' => s = s'
  | VList l | VTuple l => foldr (fun x P => occurs s x \/ P) False l
  | VDict l => foldr (fun kx P => occurs s kx.2 \/ P) False l
  | _ => False
  end.

(** A content hash without collisions and without cycles: no value contains its own hash, not even
    through other hashes. *)
Definition good_hash (H : pyval -> string) : Prop :=
  Inj (=) (=) H /\ exists rank : string -> nat, forall v s, occurs s v -> rank s < rank (H v).

(** The kinds of refs *)
Inductive kind_of_ref := KindAtom | KindList | KindDict.
Definition rkind (r : ref) : kind_of_ref :=
  match r with RAtom _ _ _ => KindAtom | RList _ _ _ => KindList | RDict _ _ _ => KindDict end.

(** the refs inside an argument *)
Fixpoint arg_refs (a : arg) : list ref :=
  match a with
  | AVal _ => []
  | ARef r => [r]
  | AIgn _ a => arg_refs a
  | AList l => concat (map arg_refs l)
  | ADict d => concat (map (fun ka => arg_refs ka.2) d)
  end.

(** the elements of a collection that is in memory *)
Definition elements_of (r : ref) : list ref :=
  match r with
  | RList _ _ (Some l) => l
  | RDict _ _ (Some l) => map snd l
  | _ => []
  end.

Definition structural_names : list string :=
  ["__make_list__"; "__make_dict__"; "__list_getitem__"; "__dict_getitem__"].

Section spec.
  Context (H : pyval -> string) (sel : list crow -> list crow) (bigA : pyval -> bool).

  (** The code computes the content id of a list from the content ids of its elements, so that for
      example the list [[]] as an atom, as an [MList] and the empty [MDict] have the same content id.  The
      theorems are about programs where that does not happen: there is an assignment [knd] of
      content ids to kinds, and every value is used according to it. *)
  Context (knd : string -> kind_of_ref).
  Definition kinds_ok : Prop :=
    (forall z, knd (H (VInt z)) = KindAtom) /\ (forall s, knd (H (VStr s)) = KindAtom).

  (** The argument can be stored as a value of the type: atoms are not [ValuePointer]s, dictionaries
      are dictionaries (and have no key "dict", see [C17_name_clash_refuted]), content ids are used for one
      kind. *)
  Definition content_kind (t : ty) (a : arg) (k : kind_of_ref) : Prop :=
    forall i, ident H t a = Ok i -> knd i.1 = k.
  Fixpoint fits (t : ty) (a : arg) : Prop :=
    match a with
    | ARef _ => True
    | _ =>
        match t with
        | TAtom => match a with
                   | AVal (VPtr _ _) => False
                   | _ => content_kind t a KindAtom
                   end
        | TList t' => content_kind t a KindList /\
                      forall l, list_elems a = Ok l -> foldr (fun x P => fits t' x /\ P) True l
        | TDict _ t' => content_kind t a KindDict /\
                        forall d, dict_items a = Ok d ->
                          NoDup (map fst d) /\ "dict" ∉ map fst d /\ foldr (fun kx P => fits t' kx.2 /\ P) True d
        | _ => True
        end
    end.

  (** An op in the scope of the theorems: it is not one of the built-in ones, has distinct output
      names, and its function returns as many plain values as there are output names. *)
  Definition op_fits (o : opdef) : Prop :=
    op_name (od_op o) ∉ structural_names /\
    forall env ret vs,
      od_fun o env = Ok ret -> returned_values (op_nout (od_op o)) ret vs ->
      names_fit (op_onames (od_op o)) (length vs) /\
      forall d anns, parse_returns (od_ret o) (op_nout (od_op o)) (op_onames (od_op o)) ret = Ok (d, anns) ->
        forall k a, (k, a) ∈ d -> (exists v, a = AVal v) /\ forall t, dget k anns = Some t -> fits t a.

  (** A call in the scope of the theorems: every ref passed (or used as a default) is held by
      the program, values fit the annotations, no input is named like an output, and the call has
      at least one input or output. *)
  Definition call_fits (held : list ref) (o : opdef) (args : list arg) (kw : pydict arg) (s : st) : Prop :=
    (forall a r, a ∈ args \/ a ∈ map snd kw \/ (exists p, p ∈ od_sig o /\ p_default p = Some a) ->
                 r ∈ arg_refs a -> r ∈ held) /\
    forall b ins s', parse_args unwrap (od_sig o) (op_ignore (od_op o)) args kw s = (Ok (b, ins), s') ->
      (forall k a t, (k, (a, t)) ∈ ins -> fits t a) /\
      (forall k i, k ∈ map fst ins -> k <> dump_output_name i (op_onames (od_op o))) /\
      (ins = [] -> forall env ret, od_fun o env = Ok ret -> ret <> RTuple []).

  Definition returned_refs (r : result (returned ref)) : list ref :=
    match r with Ok (RTuple l) => l | Ok (ROther x) => [x] | Err _ => [] end.

  Definition nothing_dirty (s : st) : Prop :=
    cd_dirty (t_atoms (s_tabs s)) = ∅ /\ cd_dirty (t_shapes (s_tabs s)) = ∅ /\
    cd_dirty (t_ops (s_tabs s)) = ∅ /\ cc_dirty (t_calls (s_tabs s)) = ∅.

  (** One step of a program, which holds some refs: a call of an op (it may return or raise), a call in
      'noop' mode, unwrapping or attaching a ref, taking an element out of a collection,
      loading a ref, committing (whatever the order), clearing the caches, (dis)allowing new
      calls, and closing the storage and opening it again when everything is committed.  There are no
      deletions and no failing commits. *)
  Inductive step : list ref * st -> list ref * st -> Prop :=
    | step_call held s o args kw keys r s' :
        op_fits o -> call_fits held o args kw s ->
        call_run H sel o args kw keys s = (r, s') ->
        step (held, s) (returned_refs r ++ held, s')
    | step_noop held s o args kw r s' :
        call_fits held o args kw s -> call_noop o args kw s = (r, s') -> step (held, s) (held, s')
    | step_unwrap held s x r s' : x ∈ held -> unwrap_ref x s = (r, s') -> step (held, s) (held, s')
    | step_attach held s c h v s' :
        RAtom c h None ∈ held -> unwrap_ref (RAtom c h None) s = (Ok v, s') ->
        step (held, s) (RAtom c h (Some v) :: held, s')
    | step_element held s x e : x ∈ held -> e ∈ elements_of x -> step (held, s) (e :: held, s)
    | step_load held s b hid r s' : load_ref b hid s = (Ok r, s') -> step (held, s) (r :: held, s')
    | step_commit held s f o s' :
        orders_of o (s_tabs s) -> commit_storage bigA f o s = (Ok tt, s') -> step (held, s) (held, s')
    | step_clear held s r s' : clear_storage false s = (r, s') -> step (held, s) (held, s')
    | step_allow held s b : step (held, s) (held, St (s_tabs s) (s_alias s) b (s_log s))
    | step_reopen held s : nothing_dirty s -> step (held, s) (held, reopen s).
  Inductive steps : list ref * st -> list ref * st -> Prop :=
    | steps_nil x : steps x x
    | steps_cons x y z : step x y -> steps y z -> steps x z.

  (** A new storage, with or without an overflow directory *)
  Definition new_storage (overflow : bool) : st :=
    St (open_db (DB (PDict ∅ (if overflow then Some ∅ else None)) (PDict ∅ None) (PDict ∅ None) [])) None true [].
  (** The states of a program that starts with a new storage *)
  Definition reachable (x : list ref * st) : Prop := exists overflow, steps ([], new_storage overflow) x.

  (** Two arguments with the same history: equal values and refs with the same identifiers *)
  Fixpoint same_arg (a a' : arg) : Prop :=
    match a, a' with
    | AVal v, AVal v' => v = v'
    | ARef r, ARef r' => detached r = detached r'
    | AIgn b x, AIgn b' x' => b = b' /\ same_arg x x'
    | AList l, AList l' => (fix go l l' := match l, l' with
                              | [], [] => True | x :: l, x' :: l' => same_arg x x' /\ go l l' | _, _ => False end) l l'
    | ADict l, ADict l' => (fix go l l' := match l, l' with
                              | [], [] => True
                              | x :: l, x' :: l' => x.1 = x'.1 /\ same_arg x.2 x'.2 /\ go l l' | _, _ => False end) l l'
    | _, _ => False
    end.
  Definition same_ids (r r' : returned ref) : Prop :=
    match r, r' with
    | RTuple l, RTuple l' => map (fun x => (rcid x, rhid x)) l = map (fun x => (rcid x, rhid x)) l'
    | ROther x, ROther y => rcid x = rcid y /\ rhid x = rhid y
    | _, _ => False
    end.
  (** the calls a storage has recorded *)
  Definition recorded (s : st) (hid : string) : Prop := has_call hid s = true.
End spec.
