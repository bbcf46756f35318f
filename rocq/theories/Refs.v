(** References, arguments and identifiers.  Models
    - mandala/model.py:19-63 [Ref], 289-311 [wrap_atom], 317-370 [ListRef], [DictRef]
    - mandala/model.py:69-122 [_Ignore], [_NewArgDefault], [ValuePointer]
    - mandala/model.py:143-221 [Op] and its identifiers
    - mandala/model.py:408-454 the structural operations.

    [SetRef], [TupleRef] and the set/tuple structs are not modelled: storage.py
    never creates them ([get_struct_builder], storage.py:535-542). *)
From stdpp Require Import base strings gmap list.
From Verif Require Import Base PyDict Returns.

(** model.py:19-63, 317-370.  The third component is [obj] if [in_memory], [None] if
    the ref is detached. *)
Inductive ref :=
  | RAtom (cid hid : string) (o : option pyval)
  | RList (cid hid : string) (o : option (list ref))
  | RDict (cid hid : string) (o : option (list (string * ref))).

Definition rcid (r : ref) : string := match r with RAtom c _ _ | RList c _ _ | RDict c _ _ => c end.
Definition rhid (r : ref) : string := match r with RAtom _ h _ | RList _ h _ | RDict _ h _ => h end.
Definition in_memory (r : ref) : bool :=
  match r with
  | RAtom _ _ o => bool_decide (is_Some o)
  | RList _ _ o => bool_decide (is_Some o)
  | RDict _ _ o => bool_decide (is_Some o)
  end.
(** model.py:30-31 *)
Definition with_hid (hid : string) (r : ref) : ref :=
  match r with
  | RAtom c _ o => RAtom c hid o | RList c _ o => RList c hid o | RDict c _ o => RDict c hid o
  end.
(** model.py:43-47 *)
Definition detached (r : ref) : ref :=
  match r with
  | RAtom c h _ => RAtom c h None | RList c h _ => RList c h None | RDict c h _ => RDict c h None
  end.

(** What a user can pass to an op: a plain value (which may be a [ValuePointer]), a
    ref, a value marked with [Ignore] ([new = false]) or [NewArgDefault] ([new = true])
    (model.py:69-87), or a list/dict containing refs.  Refs inside tuples, sets and
    deeper inside atoms are not modelled. *)
Inductive arg :=
  | AVal (v : pyval)
  | ARef (r : ref)
  | AIgn (new : bool) (a : arg)
  | AList (l : list arg)
  | ADict (l : list (string * arg)).

(** model.py:143-182 [Op], without the function itself; [version] is an int (default
    0, model.py:149). *)
Record op := Op {
  op_name : string; op_nout : nout; op_onames : option (list string);
  op_version : Z; op_ignore : list string; op_structural : bool;
}.

(** Canonical form of a dictionary: joblib's hash does not depend on the
    insertion order. *)
Definition canon {A} (d : list (string * A)) : list (string * A) :=
  map_to_list (list_to_map d : gmap string A).

(** [sorted] on a list of pairs (string, string): any canonical order will do
    (model.py:420-421); keys are distinct *)
Definition sorted_pairs (d : list (string * string)) : pyval :=
  VList (map (fun kv => VTuple [VStr kv.1; VStr kv.2]) (canon d)).

Section ids.
  (** [get_content_hash], utils.py:71-89 *)
  Context (H : pyval -> string).

  (** model.py:289-311 for things that are not refs *)
  Definition wrap_atom (v : pyval) (hid : option string) : ref :=
    match v with
    | VPtr id _ => RAtom (H (VStr id)) (H (VStr id)) (Some (VPtr id VNone))
    | _ => RAtom (H v) (default (H (VStr (H v))) hid) (Some v)
    end.

  Definition hid_dict (inputs : pydict ref) : pyval :=
    VDict (canon (map (fun kr => (kr.1, VStr (rhid kr.2))) inputs)).
  Definition cid_dict (inputs : pydict ref) : pyval :=
    VDict (canon (map (fun kr => (kr.1, VStr (rcid kr.2))) inputs)).

  (** model.py:184-213.  The filter on [_Ignore] objects (184-185) never removes
      anything here: [parse_args] has removed ignored values before. *)
  Definition call_hid (o : op) (inputs : pydict ref) (sem : option string) : string :=
    H (VTuple ([hid_dict inputs; VStr (op_name o); VInt (op_version o)] ++
               match sem with Some s => [VStr s] | None => [] end)).
  Definition call_cid (o : op) (inputs : pydict ref) (sem : option string) : string :=
    H (VTuple ([cid_dict inputs; VStr (op_name o); VInt (op_version o)] ++
               match sem with Some s => [VStr s] | None => [] end)).
  (** model.py:209-216 *)
  Definition pre_call_id (o : op) (inputs : pydict ref) : string :=
    H (VTuple [VStr (op_name o); cid_dict inputs]).
  (** model.py:218-221 *)
  Definition output_hid (chid name : string) : string := H (VTuple [VStr chid; VStr name]).

  (** model.py:408-416: the items are [elts_0], [elts_1], ... *)
  Definition make_list (elts : list ref) : ref :=
    RList (H (VList (map (fun r => VStr (rcid r)) elts)))
          (H (VList (map (fun r => VStr (rhid r)) elts))) (Some elts).
  (** model.py:418-424 *)
  Definition make_dict (items : list (string * ref)) : ref :=
    RDict (H (sorted_pairs (map (fun kr => (kr.1, rcid kr.2)) items)))
          (H (sorted_pairs (map (fun kr => (kr.1, rhid kr.2)) items))) (Some items).
End ids.

(** model.py:449-454 *)
Definition op_make_list : op := Op "__make_list__" NoutAuto (Some ["list"]) 0 [] true.
Definition op_make_dict : op := Op "__make_dict__" NoutAuto (Some ["dict"]) 0 [] true.
Definition op_list_getitem : op := Op "__list_getitem__" NoutAuto (Some ["list_item"]) 0 [] true.
Definition op_dict_getitem : op := Op "__dict_getitem__" NoutAuto (Some ["dict_value"]) 0 [] true.

Section ref_ind.
  Variable P : ref -> Prop.
  Hypothesis HAtom : forall c h o, P (RAtom c h o).
  Hypothesis HListN : forall c h, P (RList c h None).
  Hypothesis HList : forall c h l, Forall P l -> P (RList c h (Some l)).
  Hypothesis HDictN : forall c h, P (RDict c h None).
  Hypothesis HDict : forall c h l, Forall (fun kv => P kv.2) l -> P (RDict c h (Some l)).
  Fixpoint ref_ind' (r : ref) : P r :=
    match r with
    | RAtom c h o => HAtom c h o
    | RList c h None => HListN c h
    | RList c h (Some l) => HList c h l
        ((fix go (l : list ref) : Forall P l :=
            match l with [] => Forall_nil_2 _ | x :: l => Forall_cons_2 _ _ _ (ref_ind' x) (go l) end) l)
    | RDict c h None => HDictN c h
    | RDict c h (Some l) => HDict c h l
        ((fix go (l : list (string * ref)) : Forall (fun kv => P kv.2) l :=
            match l with
            | [] => Forall_nil_2 _
            | (k, x) :: l => Forall_cons_2 (fun kv => P kv.2) (k, x) l (ref_ind' x) (go l)
            end) l)
    end.
End ref_ind.

Global Instance ref_eq_dec : EqDecision ref.
Proof.
  unfold EqDecision, RelDecision. fix go 1. intros v w.
  destruct v as [c h o|c h o|c h o], w as [c' h' o'|c' h' o'|c' h' o']; try (right; discriminate);
    (destruct (decide (c = c')); [|right; congruence]); (destruct (decide (h = h')); [|right; congruence]).
  - destruct (decide (o = o')); [left; congruence|right; congruence].
  - destruct o as [l|], o' as [l'|]; try (right; discriminate); [|left; congruence].
    destruct (@list_eq_dec _ go l l'); [left; congruence|right; congruence].
  - destruct o as [l|], o' as [l'|]; try (right; discriminate); [|left; congruence].
    destruct (@list_eq_dec _ (@prod_eq_dec _ _ _ go) l l'); [left; congruence|right; congruence].
Defined.
