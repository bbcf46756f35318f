(** Specification for C01, C02, C03, C08 and C18 over whole histories, for programs whose ops take and return
    atoms (any Python value that is stored as a whole; parameters and returns without [MList]/[MDict]
    annotations).  Everything else is arbitrary: signatures, histories of refs, repeated and interleaved calls,
    calls that raise, commits, cleared caches, new processes. *)
From stdpp Require Import base strings gmap list.
From Verif Require Import Base PyDict Returns Spec_Returns DictStore CallStore Spec_CallStore Commit Spec_Commit
  Refs Args Spec_Args Ident Storage Spec_Storage.

Definition pointer (a : arg) : Prop := match a with AVal (VPtr _ _) => True | _ => False end.

(** All outputs are stored as atoms *)
Definition atom_returns (t : retann) : Prop :=
  match t with
  | RAnnNone => True
  | RAnnTupleEllipsis t | RAnnOther t => t = TAtom
  | RAnnTuple ts => forall t, t ∈ ts -> t = TAtom
  end.

(** An op in the scope: atoms only; distinct output names, as many as the function returns values;
    the function returns plain values. *)
Record atom_op (o : opdef) : Prop := {
  ao_params : forall p, p ∈ od_sig o -> p_ann p = TAtom;
  ao_returns : atom_returns (od_ret o);
  ao_outputs : forall env ret vs, od_fun o env = Ok ret -> returned_values (op_nout (od_op o)) ret vs ->
    names_fit (op_onames (od_op o)) (length vs) /\ forall a, a ∈ vs -> exists v, a = AVal v /\ ~ pointer a;
}.

(** A call in the scope: every ref passed (or used as a default) is held by the program, no
    [ValuePointer]s are passed, no input is named like an output, and the call has at least one input or output. *)
Definition passes_held (held : list ref) (o : opdef) (args : list arg) (kw : pydict arg) : Prop :=
  forall a r, a ∈ args \/ a ∈ map snd kw \/ (exists p, p ∈ od_sig o /\ p_default p = Some a) ->
              r ∈ arg_refs a -> r ∈ held.
Definition atom_call (held : list ref) (o : opdef) (args : list arg) (kw : pydict arg) (s : st) : Prop :=
  passes_held held o args kw /\
  forall b ins s', parse_args unwrap (od_sig o) (op_ignore (od_op o)) args kw s = (Ok (b, ins), s') ->
    (forall k a t, (k, (a, t)) ∈ ins -> ~ pointer a) /\
    (forall k i, k ∈ map fst ins -> k <> dump_output_name i (op_onames (od_op o))) /\
    (ins = [] -> forall env ret, od_fun o env = Ok ret -> ret <> RTuple []).

(** What happens in a step: an op is called with some outcome, the caches are forgotten
    (cleared or the process ends), or something else. *)
Inductive event :=
  | Called (o : opdef) (args : list arg) (kw : pydict arg) (r : result (returned ref))
  | Forgot
  | Other.

Section spec.
  Context (H : pyval -> string) (sel : list crow -> list crow) (bigA : pyval -> bool).

  (** One step of a program that holds some refs.  [keys] enumerates the set of the keywords used.  There are no deletions and no failing commits. *)
  Inductive astep : list ref * st -> event -> list ref * st -> Prop :=
    | as_call held s o args kw keys r s' :
        atom_op o -> atom_call held o args kw s -> NoDup (map fst kw) -> keys ≡ₚ map fst kw ->
        call_run H sel o args kw keys s = (r, s') ->
        astep (held, s) (Called o args kw r) (returned_refs r ++ held, s')
    | as_noop held s o args kw r s' :
        passes_held held o args kw ->
        call_noop o args kw s = (r, s') -> astep (held, s) Other (held, s')
    | as_unwrap held s x r s' : x ∈ held -> unwrap_ref x s = (r, s') -> astep (held, s) Other (held, s')
    | as_attach held s c h v s' :
        RAtom c h None ∈ held -> unwrap_ref (RAtom c h None) s = (Ok v, s') ->
        astep (held, s) Other (RAtom c h (Some v) :: held, s')
    | as_load held s b hid r s' : load_ref b hid s = (Ok r, s') -> astep (held, s) Other (r :: held, s')
    | as_commit held s f o s' :
        orders_of o (s_tabs s) -> commit_storage bigA f o s = (Ok tt, s') -> astep (held, s) Other (held, s')
    | as_clear held s r s' : clear_storage false s = (r, s') -> astep (held, s) Forgot (held, s')
    | as_allow held s b : astep (held, s) Other (held, St (s_tabs s) (s_alias s) b (s_log s))
    | as_reopen held s : nothing_dirty s -> astep (held, s) Forgot (held, reopen s).
  Inductive asteps : list ref * st -> list event -> list ref * st -> Prop :=
    | ass_nil x : asteps x [] x
    | ass_cons x e y es z : astep x e y -> asteps y es z -> asteps x (e :: es) z.

  (** The states of a program that starts with a new storage, after the events [es] *)
  Definition areach (es : list event) (x : list ref * st) : Prop :=
    exists overflow, asteps ([], new_storage overflow) es x.
End spec.

(** What the log says about executions: op name, op version, contents of the inputs *)
Definition executed (e : op * pydict ref) : string * Z * pyval :=
  (op_name e.1, op_version e.1, cid_dict e.2).

(** The same arguments again; refs may be in memory or not *)
Definition same_passed (args : list arg) (kw : pydict arg) (args' : list arg) (kw' : pydict arg) : Prop :=
  Forall2 same_arg args args' /\ Forall2 (fun x y => x.1 = y.1 /\ same_arg x.2 y.2) kw kw'.

(** A call read from the record [d]: it has the recorded ids, inputs and outputs, and unless only the shapes
    were wanted ([in_mem]) every ref has the value its content id stands for. *)
Record loaded (H : pyval -> string) (in_mem : bool) (d : cdata) (c : call) : Prop := {
  ld_op : op_name (c_op c) = d_op d;
  ld_cid : c_cid c = d_cid d;
  ld_hid : c_hid c = d_hid d;
  ld_ins : map (fun kr => (kr.1, (rcid kr.2, rhid kr.2))) (c_ins c) = d_ins d;
  ld_outs : map (fun kr => (kr.1, (rcid kr.2, rhid kr.2))) (c_outs c) = d_outs d;
  ld_values : in_mem = false -> forall k r, (k, r) ∈ c_ins c ++ c_outs c -> exists h v, r = RAtom (H v) h (Some v);
}.
