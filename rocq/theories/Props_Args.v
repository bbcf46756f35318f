(** C04, C05, C06, C07, C10 and the argument passing part of C11. *)
From stdpp Require Import base strings gmap list.
From Verif Require Import Base PyDict Returns Refs Args Spec_Args Args_proofs Ident Spec_Ident Ident_proofs
  Spec_Values Ident_values.

(** Sample signature [def f(x, y=2, *, z=3)] and sample [unwrap]: *)
Definition X_x : param arg := Param "x" KPosOrKw None TAtom.
Definition X_y : param arg := Param "y" KPosOrKw (Some (AVal (VInt 2))) TAtom.
Definition X_z : param arg := Param "z" KKwOnly (Some (AVal (VInt 3))) TAtom.
Definition X_sig : list (param arg) := [X_x; X_y; X_z].
Definition X_un (a : arg) : M unit arg :=
  match a with ARef (RAtom _ _ (Some v)) => retM (AVal v) | _ => retM a end.
Definition I (z : Z) : arg := AVal (VInt z).

Ltac dest_ix i := destruct i as [|i]; [|first [discriminate | dest_ix i]].
Ltac small_sig := constructor;
  [apply (bool_decide_unpack _); vm_compute; exact Logic.I
  |let i := fresh in let j := fresh in intros i j ? ? ? ? ?; dest_ix i; dest_ix j; try lia; simplify_eq/=; cbn; lia
  |let i := fresh in let j := fresh in let H := fresh in intros i j ? ? ? ? ? H; dest_ix i; dest_ix j;
     simplify_eq/=; (reflexivity || (destruct H; discriminate) || discriminate)
  |let H := fresh in let K := fresh in intros ? H K;
     repeat (apply elem_of_cons in H as [->|H]; [first [reflexivity | destruct K; discriminate]|]);
     by apply elem_of_nil in H].

Lemma X_sig_ok : sig_ok X_sig.
Proof. small_sig. Qed.
Ltac nodup := apply (bool_decide_unpack _); vm_compute; exact Logic.I.
Ltac no_po := let H := fresh in intros ? H ?; repeat (apply elem_of_cons in H as [->|H]; [first [discriminate | reflexivity]|]);
  by apply elem_of_nil in H.

(** * C04
    Two ways of passing arguments for which Python itself binds the parameters of the plain
    function to the same values (positionally, by keyword in any order, by default)
    are parsed to the same bound values and the same storage inputs, and give the same call ids;
    or both raise the same exception.  (State and [unwrap] are arbitrary.) *)
Theorem C04_same_binding_same_call :
  forall (H : pyval -> string) St (un : arg -> M St arg) sig ignore args kw args2 kw2 env env2 s,
  sig_ok sig -> NoDup (map fst kw) -> NoDup (map fst kw2) ->
  no_posonly_kw sig kw -> no_posonly_kw sig kw2 ->
  py_binds sig args kw env -> py_binds sig args2 kw2 env2 -> env_eqv env env2 ->
  outcome_rel eq (fun r r2 => env_eqv r.1 r2.1 /\ r.2 ≡ₚ r2.2 /\
      forall o sem ids, input_ids H r.2 = Ok ids ->
        exists ids2, input_ids H r2.2 = Ok ids2 /\ ids_of H o sem ids = ids_of H o sem ids2)
    (parse_args un sig ignore args kw s) (parse_args un sig ignore args2 kw2 s).
Proof. exact (@parse_same_ids). Qed.
Print Assumptions C04_same_binding_same_call.

(** [f(1, 5)] and [f(z=3, y=5, x=1)] *)
Example C04_example :
  let env := [("x", BOne (I 1)); ("y", BOne (I 5)); ("z", BOne (I 3))] in
  py_binds X_sig [I 1; I 5] [] env /\
  py_binds X_sig [] [("z", I 3); ("y", I 5); ("x", I 1)] env /\
  env_eqv env env /\ NoDup (map fst [("z", I 3); ("y", I 5); ("x", I 1)]) /\
  no_posonly_kw X_sig [("z", I 3); ("y", I 5); ("x", I 1)] /\
  (parse_args X_un X_sig [] [] [("z", I 3); ("y", I 5); ("x", I 1)] tt).1 =
    Ok (env, [("x", (I 1, TAtom)); ("y", (I 5, TAtom)); ("z", (I 3, TAtom))]).
Proof.
  cbn zeta. split; [apply py_call_iff; reflexivity|]. split; [apply py_call_iff; reflexivity|].
  split; [repeat constructor|]. split; [nodup|]. split; [no_po|]. reflexivity.
Qed.

(** * C05
    Calls that differ only in values marked with [Ignore] or passed for a parameter in
    [ignore_args] have exactly the same storage inputs (hence ids). *)
Theorem C05_ignored_values_do_not_matter :
  forall St (un : arg -> M St arg) sig ignore args kw args2 kw2 env env2 s,
  sig_ok sig -> NoDup (map fst kw) -> NoDup (map fst kw2) ->
  no_posonly_kw sig kw -> no_posonly_kw sig kw2 ->
  py_binds sig args kw env -> py_binds sig args2 kw2 env2 -> calls_differ_ignored ignore sig env env2 ->
  outcome_rel eq (fun r r2 => r.2 = r2.2)
    (parse_args un sig ignore args kw s) (parse_args un sig ignore args2 kw2 s).
Proof. exact (@parse_ignored). Qed.
Print Assumptions C05_ignored_values_do_not_matter.

(** ... while the parameters are bound to the values that were passed, without the marker: seen
    through the unwrapping [val] of values.  (If a parameter is in [ignore_args],
    its value must not be marked in addition, see below.) *)
Theorem C05_function_gets_ignored_values :
  forall St (un : arg -> M St arg) Y (val : arg -> Y),
  (forall r s w s', un (ARef r) s = (Ok w, s') -> val w = val (ARef r)) ->
  forall sig ignore args kw env s b ins s',
  sig_ok sig -> NoDup (map fst kw) -> no_posonly_kw sig kw -> py_binds sig args kw env ->
  (forall p a, p ∈ sig -> p_name p ∈ ignore -> dget (p_name p) env = Some (BOne a) -> ~ marked a) ->
  parse_args un sig ignore args kw s = (Ok (b, ins), s') ->
  map fst b = map p_name sig /\
  map_env val b = map_env (val ∘ unmarked) env.
Proof.
  intros St un Y val Hval sig ignore args kw env s b ins s' H1 H2 H3 H4 H5 H6.
  destruct (parse_bound un val Hval _ _ _ _ _ _ _ _ _ H1 H2 H3 H4 H5 H6) as (? & _ & ?). done.
Qed.
Print Assumptions C05_function_gets_ignored_values.

(** [f(1, Ignore(5), z=7)] and [f(1, Ignore(6), z=8)] with [ignore_args=("z",)] *)
Example C05_example :
  let env := [("x", BOne (I 1)); ("y", BOne (AIgn false (I 5))); ("z", BOne (I 7))] in
  let env2 := [("x", BOne (I 1)); ("y", BOne (AIgn false (I 6))); ("z", BOne (I 8))] in
  py_binds X_sig [I 1; AIgn false (I 5)] [("z", I 7)] env /\
  py_binds X_sig [I 1; AIgn false (I 6)] [("z", I 8)] env2 /\
  calls_differ_ignored ["z"] X_sig env env2 /\
  (parse_args X_un X_sig ["z"] [I 1; AIgn false (I 5)] [("z", I 7)] tt).1 =
    Ok ([("x", BOne (I 1)); ("y", BOne (I 5)); ("z", BOne (I 7))], [("x", (I 1, TAtom))]).
Proof.
  cbn zeta. split; [apply py_call_iff; reflexivity|]. split; [apply py_call_iff; reflexivity|]. split.
  - split; [done|]. split; [done|]. intros i p kv kv' Hi Hv Hv'.
    destruct i as [|[|[|i]]]; simplify_eq/=; (split; [done|]; split; [done|]).
    + constructor.
    + apply di_marked; eexists _, _; reflexivity.
    + apply di_param. left.
  - reflexivity.
Qed.

(** If the parameter is in [ignore_args] and the value is marked with [Ignore] too, the function
    receives the marker object instead of the value (storage.py:747-752 wraps it once
    more and unwraps only once). *)
Theorem C05_double_marker_refuted :
  exists sig ignore args kw env b ins, sig_ok sig /\ NoDup (map fst kw) /\ no_posonly_kw sig kw /\
    py_binds sig args kw env /\ parse_args X_un sig ignore args kw tt = (Ok (b, ins), tt) /\
    map_env (fun a => a) b <> map_env unmarked env.
Proof.
  exists X_sig, ["y"], [I 1; AIgn false (I 5)], [], [("x", BOne (I 1)); ("y", BOne (AIgn false (I 5))); ("z", BOne (I 3))].
  eexists _, _. split; [apply X_sig_ok|]. split; [nodup|]. split; [no_po|]. split; [apply py_call_iff; reflexivity|].
  split; [reflexivity|]. discriminate.
Qed.
Print Assumptions C05_double_marker_refuted.

(** * C06
    Add a parameter [p] with default [NewArgDefault(d)] to an op anywhere in its signature.
    [env] are the bindings of a call of the old op, and the new op is called in
    any way that binds the old parameters alike and [p] to [a].
    (1) If [p] is not passed, or [d] itself or a ref to [d] is passed, the storage
    inputs, hence the ids, are those of the old call. *)
Theorem C06_default_keeps_call :
  forall St (un : arg -> M St arg) (G : St -> Prop), stable un G ->
  forall s1 s2 p d a ignore (e1 e2 : pydict (bval arg)) args args' kw kw' s s',
  sig_ok (s1 ++ p :: s2) -> sig_ok (s1 ++ s2) -> by_keyword (p_kind p) ->
  p_default p = Some (AIgn true d) -> p_name p ∉ ignore ->
  NoDup (map fst kw) -> NoDup (map fst kw') ->
  no_posonly_kw (s1 ++ s2) kw -> no_posonly_kw (s1 ++ p :: s2) kw' ->
  py_binds (s1 ++ s2) args kw (e1 ++ e2) -> length e1 = length s1 ->
  py_binds (s1 ++ p :: s2) args' kw' (e1 ++ (p_name p, BOne a) :: e2) ->
  G s -> G s' -> is_default un G d a ->
  outcome_rel (both G) (fun r' r => r'.2 = r.2)
    (parse_args un (s1 ++ p :: s2) ignore args' kw' s') (parse_args un (s1 ++ s2) ignore args kw s).
Proof.
  intros St un G Hun s1 s2 p d a ignore e1 e2 args args' kw kw' s s' H1 H2 H3 H4 H5 H6 H7 H8 H9 H10 H11 H12 H13 H14.
  exact (proj1 (new_default un G Hun s1 s2 p d a ignore e1 e2 args args' kw kw' s s' H1 H2 H3 H4 H5 H6 H7 H8 H9 H10 H11 H12 H13 H14)).
Qed.
Print Assumptions C06_default_keeps_call.

(** (2) If another value is passed, both ids differ from those of the old call (provided the name
    of the new parameter is not already a name of an input, e.g. [args_0]
    generated from [*args]). *)
Theorem C06_other_value_new_call :
  forall (H : pyval -> string), Inj (=) (=) H ->
  forall St (un : arg -> M St arg) (G : St -> Prop), stable un G ->
  forall s1 s2 p d a ignore (e1 e2 : pydict (bval arg)) args args' kw kw' s s',
  sig_ok (s1 ++ p :: s2) -> sig_ok (s1 ++ s2) -> by_keyword (p_kind p) ->
  p_default p = Some (AIgn true d) -> p_name p ∉ ignore ->
  NoDup (map fst kw) -> NoDup (map fst kw') ->
  no_posonly_kw (s1 ++ s2) kw -> no_posonly_kw (s1 ++ p :: s2) kw' ->
  py_binds (s1 ++ s2) args kw (e1 ++ e2) -> length e1 = length s1 ->
  py_binds (s1 ++ p :: s2) args' kw' (e1 ++ (p_name p, BOne a) :: e2) ->
  G s -> G s' -> not_default un G d a ->
  outcome_rel (both G) (fun r' r => p_name p ∉ map fst r.2 ->
      forall o sem ids ids', input_ids H r.2 = Ok ids -> input_ids H r'.2 = Ok ids' ->
        call_hid H o ids sem <> call_hid H o ids' sem /\ call_cid H o ids sem <> call_cid H o ids' sem)
    (parse_args un (s1 ++ p :: s2) ignore args' kw' s') (parse_args un (s1 ++ s2) ignore args kw s).
Proof. intros H HH St. exact (new_default_ids H). Qed.
Print Assumptions C06_other_value_new_call.

(** [def f(x, y=2, *, z=3)] becomes [def f(x, n=NewArgDefault(7), y=2, *, z=3)]; the old call is
    [f(1, 5)], the new ones [f(1, y=5)], [f(1, 7, 5)], [f(1, wrap(7), 5)], [f(1, 8, 5)] *)
Definition C06_n : param arg := Param "n" KPosOrKw (Some (AIgn true (I 7))) TAtom.
Definition C06_r7 : arg := ARef (RAtom "c7" "h7" (Some (VInt 7))).
Example C06_example :
  sig_ok ([X_x] ++ C06_n :: [X_y; X_z]) /\
  py_binds X_sig [I 1; I 5] [] ([("x", BOne (I 1))] ++ [("y", BOne (I 5)); ("z", BOne (I 3))]) /\
  (py_binds ([X_x] ++ C06_n :: [X_y; X_z]) [I 1] [("y", I 5)]
     ([("x", BOne (I 1))] ++ ("n", BOne (AIgn true (I 7))) :: [("y", BOne (I 5)); ("z", BOne (I 3))]) /\
   is_default X_un (fun _ => True) (I 7) (AIgn true (I 7))) /\
  (py_binds ([X_x] ++ C06_n :: [X_y; X_z]) [I 1; C06_r7; I 5] []
     ([("x", BOne (I 1))] ++ ("n", BOne C06_r7) :: [("y", BOne (I 5)); ("z", BOne (I 3))]) /\
   is_default X_un (fun _ => True) (I 7) C06_r7) /\
  (py_binds ([X_x] ++ C06_n :: [X_y; X_z]) [I 1; I 8; I 5] []
     ([("x", BOne (I 1))] ++ ("n", BOne (I 8)) :: [("y", BOne (I 5)); ("z", BOne (I 3))]) /\
   not_default X_un (fun _ => True) (I 7) (I 8)) /\
  parse_args X_un ([X_x] ++ C06_n :: [X_y; X_z]) [] [I 1; C06_r7; I 5] [] tt =
    (Ok ([("x", BOne (I 1)); ("n", BOne (I 7)); ("y", BOne (I 5)); ("z", BOne (I 3))],
         [("x", (I 1, TAtom)); ("y", (I 5, TAtom)); ("z", (I 3, TAtom))]), tt) /\
  stable X_un (fun _ => True).
Proof.
  split; [small_sig|]. split; [apply py_call_iff; reflexivity|].
  split; [split; [apply py_call_iff; reflexivity|left; by eexists _, _]|].
  split; [split; [apply py_call_iff; reflexivity|]|].
  { right. exists (VInt 7). split; [done|]. split; [done|]. right. eexists. split; [done|]. done. }
  split; [split; [apply py_call_iff; reflexivity|]|].
  { split; [by intros (? & ? & ?)|]. exists (I 8). split; [done|]. split; [done|]. done. }
  split; [reflexivity|]. intros a [] _. split; [done|]. by intros [].
Qed.

(** * C07
    With collision-free hashing, two calls have equal history ids iff op name, version and
    semantic version agree and every named input has the same history id;
    and the same for content ids. *)
Theorem C07_history_id_iff :
  forall (H : pyval -> string), Inj (=) (=) H -> forall o o' ins ins' sem sem',
  call_hid H o ins sem = call_hid H o' ins' sem' <->
  op_name o = op_name o' /\ op_version o = op_version o' /\ sem = sem' /\
  forall k, rhid <$> dget k ins = rhid <$> dget k ins'.
Proof. intros H HH. exact (call_hid_iff H). Qed.
Print Assumptions C07_history_id_iff.

Theorem C07_content_id_iff :
  forall (H : pyval -> string), Inj (=) (=) H -> forall o o' ins ins' sem sem',
  call_cid H o ins sem = call_cid H o' ins' sem' <->
  op_name o = op_name o' /\ op_version o = op_version o' /\ sem = sem' /\
  forall k, rcid <$> dget k ins = rcid <$> dget k ins'.
Proof. intros H HH. exact (call_cid_iff H). Qed.
Print Assumptions C07_content_id_iff.

(** In particular, calls with plain values have the same id iff Python binds the parameters
    alike - for un-annotated parameters, and if names do not clash. *)
Theorem C07_different_bindings_different_calls :
  forall (H : pyval -> string), Inj (=) (=) H -> forall St (un : arg -> M St arg)
    sig args kw args2 kw2 env env2 o sem s,
  sig_ok sig -> (forall p, p ∈ sig -> p_ann p = TAtom) ->
  NoDup (map fst kw) -> NoDup (map fst kw2) -> no_posonly_kw sig kw -> no_posonly_kw sig kw2 ->
  py_binds sig args kw env -> py_binds sig args2 kw2 env2 ->
  (forall kv, kv ∈ env -> plain_bval kv.2) -> (forall kv, kv ∈ env2 -> plain_bval kv.2) ->
  ~ names_clash sig env -> ~ names_clash sig env2 ->
  exists b i ids b2 i2 ids2,
    parse_args un sig [] args kw s = (Ok (b, i), s) /\ input_ids H i = Ok ids /\
    parse_args un sig [] args2 kw2 s = (Ok (b2, i2), s) /\ input_ids H i2 = Ok ids2 /\
    (call_hid H o ids sem = call_hid H o ids2 sem <-> env_eqv env env2) /\
    (call_cid H o ids sem = call_cid H o ids2 sem <-> env_eqv env env2).
Proof. intros H HH St un. exact (bindings_ids H un). Qed.
Print Assumptions C07_different_bindings_different_calls.

Definition C07_sig : list (param arg) := [X_x; Param "args" KVarPos None TAtom; Param "kw" KVarKw None TAtom].
Example C07_example :
  Inj (=) (=) ser /\ sig_ok C07_sig /\
  let env := [("x", BOne (I 1)); ("args", BTuple [I 2]); ("kw", BDict [("a", I 3)])] in
  py_binds C07_sig [I 1; I 2] [("a", I 3)] env /\ (forall kv, kv ∈ env -> plain_bval kv.2) /\
  ~ names_clash C07_sig env.
Proof.
  split; [apply _|]. split; [small_sig|]. cbn zeta. split; [apply py_call_iff; reflexivity|]. split.
  - intros kv Hkv. repeat (apply elem_of_cons in Hkv as [->|Hkv]; [|]); cbn.
    + eexists. split; [reflexivity|done].
    + repeat constructor. eexists. split; [reflexivity|done].
    + repeat constructor. eexists. split; [reflexivity|done].
    + by apply elem_of_nil in Hkv.
  - assert (Hsig : forall p, p ∈ C07_sig -> p = X_x \/ p = Param "args" KVarPos None TAtom \/ p = Param "kw" KVarKw None TAtom).
    { intros p Hp. repeat (apply elem_of_cons in Hp as [->|Hp]; [auto|]). by apply elem_of_nil in Hp. }
    intros [(p & i & q & Hp & Hk & Hq & E)|[(p & i & q & d & k & Hp & Hk & Hq & Hkq & Hd & Hk2 & E)|(p & q & d & k & Hp & Hk & _)]].
    + destruct (Hsig p Hp) as [->|[->| ->]]; try discriminate.
      destruct (Hsig q Hq) as [->|[->| ->]]; discriminate.
    + destruct (Hsig p Hp) as [->|[->| ->]]; try discriminate.
      destruct (Hsig q Hq) as [->|[->| ->]]; try discriminate. cbn in Hd. simplify_eq/=.
      apply elem_of_list_singleton in Hk2. discriminate.
    + destruct (Hsig p Hp) as [->|[->| ->]]; discriminate.
Qed.

(** For annotated parameters: values of collection types (lists, dictionaries, nested in any way) have the same content
    id iff they are the same, and the same history id iff they are the same. *)
Theorem C07_collection_values :
  forall (H : pyval -> string), Inj (=) (=) H -> forall t v v' i i',
  value_of t v -> value_of t v' -> ident H t (AVal v) = Ok i -> ident H t (AVal v') = Ok i' ->
  (i.1 = i'.1 <-> same_value t v v') /\ (i.2 = i'.2 <-> same_value t v v').
Proof. intros H HH. exact (ident_faithful H). Qed.
Print Assumptions C07_collection_values.
(** a dictionary of lists, and the same one with another key *)
Example C07_collection_example :
  let t := TDict TAtom (TList TAtom) in
  let v := VDict [("a", VList [VInt 1; VInt 2])] in let v' := VDict [("b", VList [VInt 1; VInt 2])] in
  value_of t v /\ value_of t v' /\ ~ same_value t v v' /\
  (exists i, ident ser t (AVal v) = Ok i) /\ (exists i, ident ser t (AVal v') = Ok i).
Proof.
  assert (forall k, value_of (TDict TAtom (TList TAtom)) (VDict [(k, VList [VInt 1; VInt 2])])) as Hv.
  { intros k. exists [(k, VList [VInt 1; VInt 2])]. split; [done|]. intros k' x. cbn. destruct (decide (k' = k)); [|done].
    intros [= <-]. exists [VInt 1; VInt 2]. split; [by left|]. repeat constructor; by intros. }
  split; [apply Hv|]. split; [apply Hv|]. split; [|split; eexists; reflexivity].
  intros (d & d' & [= <-] & [= <-] & E). specialize (E "a"). inversion E.
Qed.

(** Without the side conditions it is false.
    (a) an element of [*args] and a keyword argument of the same name: [f(0, 1, args_0=2)] and
        [f(0, 5, args_0=2)] are the same call; *)
Theorem C07_names_clash_refuted :
  exists sig args args2 kw b b2 i, sig_ok sig /\ (forall p, p ∈ sig -> p_ann p = TAtom) /\ NoDup (map fst kw) /\
    parse_args X_un sig [] args kw tt = (Ok (b, i), tt) /\ parse_args X_un sig [] args2 kw tt = (Ok (b2, i), tt) /\
    ~ env_eqv b b2.
Proof.
  exists C07_sig, [I 0; I 1], [I 0; I 5], [("args_0", I 2)]. eexists _, _, _.
  split; [small_sig|]. split.
  { intros p Hp. repeat (apply elem_of_cons in Hp as [->|Hp]; [reflexivity|]). by apply elem_of_nil in Hp. }
  split; [nodup|]. split; [reflexivity|]. split; [reflexivity|].
  intros E. inversion E as [|? ? ? ? _ E2]; subst. inversion E2 as [|? ? ? ? [_ E3] _]; subst. inversion E3.
Qed.
Print Assumptions C07_names_clash_refuted.

(** (b) a keyword that is also the name of a positional-only parameter; *)
Theorem C07_positional_only_clash_refuted :
  exists sig args args2 kw b b2 i, sig_ok sig /\ (forall p, p ∈ sig -> p_ann p = TAtom) /\ NoDup (map fst kw) /\
    parse_args X_un sig [] args kw tt = (Ok (b, i), tt) /\ parse_args X_un sig [] args2 kw tt = (Ok (b2, i), tt) /\
    ~ env_eqv b b2.
Proof.
  exists [Param "a" KPosOnly None TAtom; Param "kw" KVarKw None TAtom], [I 1], [I 5], [("a", I 2)]. eexists _, _, _.
  split; [small_sig|]. split.
  { intros p Hp. repeat (apply elem_of_cons in Hp as [->|Hp]; [reflexivity|]). by apply elem_of_nil in Hp. }
  split; [nodup|]. split; [reflexivity|]. split; [reflexivity|].
  intros E. inversion E as [|? ? ? ? [_ E2] _]; subst. inversion E2.
Qed.
Print Assumptions C07_positional_only_clash_refuted.

(** (c) a [ValuePointer] has the ids of the string that is its name (model.py:289-311); *)
Theorem C07_value_pointer_refuted : forall (H : pyval -> string) o sem k name obj,
  exists ids ids2, input_ids H [(k, (AVal (VPtr name obj), TAtom))] = Ok ids /\
    input_ids H [(k, (AVal (VStr name), TAtom))] = Ok ids2 /\ call_cid H o ids sem = call_cid H o ids2 sem.
Proof. intros. eexists _, _. split; [reflexivity|]. split; reflexivity. Qed.
Print Assumptions C07_value_pointer_refuted.

(** (d) for a parameter annotated [MList], a list and the tuple with the same elements have the
    same ids (storage.py:548 enumerates the value). *)
Theorem C07_list_tuple_refuted : forall (H : pyval -> string) l t,
  ident H (TList t) (AVal (VList l)) = ident H (TList t) (AVal (VTuple l)).
Proof. reflexivity. Qed.
Print Assumptions C07_list_tuple_refuted.

(** * C10
    When the function of an op is run, its parameters get exactly the values that the plain
    function would get, seen through the unwrapping [val] of values and without
    [Ignore] markers; no binding error occurs.  [keys] is any enumeration of the keywords.
    Side conditions (each is needed, see below): no keyword is the name of a starred or
    positional-only parameter; if there is a [*args] parameter, ordinary
    parameters are passed by position or by default. *)
Theorem C10_function_gets_arguments :
  forall St (un : arg -> M St arg) Y (val : arg -> Y),
  (forall r s w s', un (ARef r) s = (Ok w, s') -> val w = val (ARef r)) ->
  forall sig ignore args kw env keys tup dct s b ins s',
  sig_ok sig -> NoDup (map fst kw) -> kw_plain sig kw ->
  (has_kind KVarPos sig -> forall p, p ∈ sig -> p_kind p = KPosOrKw -> dget (p_name p) kw = None) ->
  py_binds sig args kw env ->
  (forall p a, p ∈ sig -> p_name p ∈ ignore -> dget (p_name p) env = Some (BOne a) -> ~ marked a) ->
  keys ≡ₚ map fst kw ->
  parse_args un sig ignore args kw s = (Ok (b, ins), s') ->
  exists args' kw', function_args tup dct sig b keys = Ok (args', kw') /\
    forall sigY, same_params sig sigY -> exists envY,
      py_call sigY (map val args') (map_kw val kw') = Ok envY /\
      env_eqv (map_env (val ∘ unmarked) env) envY.
Proof. intros St un Y val Hval. exact (run_binds un val Hval). Qed.
Print Assumptions C10_function_gets_arguments.

(** Sample [val]: the value of an in-memory ref *)
Definition X_val (a : arg) : arg := match a with ARef (RAtom _ _ (Some v)) => AVal v | _ => a end.

(** [f(wrap(7), z=Ignore(4), extra=8)] for [def f(x, y=2, *, z=3, **kw)] *)
Definition C10_sig : list (param arg) := X_sig ++ [Param "kw" KVarKw None TAtom].
Example C10_example :
  (forall r s w s', X_un (ARef r) s = (Ok w, s') -> X_val w = X_val (ARef r)) /\
  sig_ok C10_sig /\
  let kw := [("z", AIgn false (I 4)); ("extra", I 8)] in
  let env := [("x", BOne C06_r7); ("y", BOne (I 2)); ("z", BOne (AIgn false (I 4))); ("kw", BDict [("extra", I 8)])] in
  NoDup (map fst kw) /\ kw_plain C10_sig kw /\ ~ has_kind KVarPos C10_sig /\
  py_binds C10_sig [C06_r7] kw env /\
  exists b ins args' kw', parse_args X_un C10_sig [] [C06_r7] kw tt = (Ok (b, ins), tt) /\
    function_args AList ADict C10_sig b ["extra"; "z"] = Ok (args', kw') /\
    py_call C10_sig (map X_val args') (map_kw X_val kw') =
      Ok [("x", BOne (I 7)); ("y", BOne (I 2)); ("z", BOne (I 4)); ("kw", BDict [("extra", I 8)])].
Proof.
  split. { intros [c h [v|]|c h o|c h o] s w s' E; cbn in E; inversion E; done. }
  split; [small_sig|]. cbn zeta. split; [nodup|]. split.
  { intros p Hp Hne. repeat (apply elem_of_cons in Hp as [->|Hp]; [first [by left|by right|by destruct Hne]|]).
    by apply elem_of_nil in Hp. }
  split. { intros (p & Hp & Hk). repeat (apply elem_of_cons in Hp as [->|Hp]; [discriminate|]). by apply elem_of_nil in Hp. }
  split; [apply py_call_iff; reflexivity|].
  eexists _, _, _, _. split; [reflexivity|]. split; reflexivity.
Qed.

(** The property as stated in properties.jsonl is false in three corners; in each the plain
    function accepts the call.
    (a) a [*args] parameter and an ordinary parameter passed by keyword,
        [def f(a, *args)] called [f(a=1)]: the function gets an unexpected keyword [args]; *)
Definition binds_differently (sig : list (param arg)) (args : list arg) (kw : pydict arg) : Prop :=
  exists env b ins, py_binds sig args kw env /\ parse_args X_un sig [] args kw tt = (Ok (b, ins), tt) /\
    match function_args AList ADict sig b (map fst kw) with
    | Err _ => True
    | Ok (args', kw') => match py_call sig args' kw' with Err _ => True | Ok env' => ~ env_eqv env env' end
    end.
Theorem C10_star_and_keyword_refuted :
  exists sig args kw, sig_ok sig /\ NoDup (map fst kw) /\ kw_plain sig kw /\ binds_differently sig args kw.
Proof.
  exists [Param "a" KPosOrKw None TAtom; Param "args" KVarPos None TAtom], [], [("a", I 1)].
  split; [small_sig|]. split; [nodup|]. split.
  { intros p Hp Hne. repeat (apply elem_of_cons in Hp as [->|Hp]; [first [by left|by right|by destruct Hne]|]).
    by apply elem_of_nil in Hp. }
  eexists _, _, _. split; [apply py_call_iff; reflexivity|]. split; [reflexivity|]. exact Logic.I.
Qed.
Print Assumptions C10_star_and_keyword_refuted.

(** (b) a keyword argument named like the [**kw] parameter, [def f( **kw)] called [f(kw=5)]:
        the function gets [{'kw': {'kw': 5}}]; *)
Theorem C10_keyword_named_like_star_refuted :
  exists sig args kw, sig_ok sig /\ NoDup (map fst kw) /\ no_posonly_kw sig kw /\
    ~ has_kind KVarPos sig /\ binds_differently sig args kw.
Proof.
  exists [Param "kw" KVarKw None TAtom], [], [("kw", I 5)].
  split; [small_sig|]. split; [nodup|]. split; [no_po|]. split.
  { intros (p & Hp & Hk). repeat (apply elem_of_cons in Hp as [->|Hp]; [discriminate|]). by apply elem_of_nil in Hp. }
  eexists _, _, _. split; [apply py_call_iff; reflexivity|]. split; [reflexivity|]. cbn.
  intros E. inversion E as [|? ? ? ? [_ E2] _]; subst. inversion E2 as [| |? ? E3]; subst.
  apply Permutation_singleton_r in E3. discriminate.
Qed.
Print Assumptions C10_keyword_named_like_star_refuted.

(** (c) a keyword named like a positional-only parameter, [def f(a, /, **kw)] called
        [f(1, a=2)]: the function is called without its positional argument. *)
Theorem C10_keyword_named_like_positional_refuted :
  exists sig args kw, sig_ok sig /\ NoDup (map fst kw) /\ ~ has_kind KVarPos sig /\ binds_differently sig args kw.
Proof.
  exists [Param "a" KPosOnly None TAtom; Param "kw" KVarKw None TAtom], [I 1], [("a", I 2)].
  split; [small_sig|]. split; [nodup|]. split.
  { intros (p & Hp & Hk). repeat (apply elem_of_cons in Hp as [->|Hp]; [discriminate|]). by apply elem_of_nil in Hp. }
  eexists _, _, _. split; [apply py_call_iff; reflexivity|]. split; [reflexivity|]. exact Logic.I.
Qed.
Print Assumptions C10_keyword_named_like_positional_refuted.

(** * C11 (arguments)
    In mode noop the function's parameters get exactly the values the plain function
    would get ([val] removes markers), for every call that [inspect] accepts: also in the corners where C10 fails. *)
Theorem C11_noop_arguments :
  forall St (un : arg -> M St arg) Y (val : arg -> Y),
  (forall r s w s', un (ARef r) s = (Ok w, s') -> val w = val (ARef r)) ->
  forall sig ignore args kw env s b ins s',
  sig_ok sig -> NoDup (map fst kw) -> no_posonly_kw sig kw -> py_binds sig args kw env ->
  (forall k v, (k, v) ∈ env -> map_bval (val ∘ unmarked) v = map_bval val v) ->
  parse_args un sig ignore args kw s = (Ok (b, ins), s') ->
  exists args' kw', boundargs_to_args_kwargs sig b = Ok (args', kw') /\
    forall sigY, same_params sig sigY ->
      py_call sigY (map val args') (map_kw val kw') = Ok (map_env val env).
Proof. intros St un Y val Hval. exact (noop_binds un val Hval). Qed.
Print Assumptions C11_noop_arguments.

Definition X_val2 (a : arg) : arg := X_val (unmarked a).
(** the call of C10 (b), in mode noop *)
Example C11_example :
  let sig := [Param "kw" KVarKw None TAtom] in
  py_binds sig [] [("kw", I 5)] [("kw", BDict [("kw", I 5)])] /\
  (forall k v, (k, v) ∈ [("kw", BDict [("kw", I 5)])] -> map_bval (X_val2 ∘ unmarked) v = map_bval X_val2 v) /\
  exists b ins args' kw', parse_args X_un sig [] [] [("kw", I 5)] tt = (Ok (b, ins), tt) /\
    boundargs_to_args_kwargs sig b = Ok (args', kw') /\
    py_call sig (map X_val2 args') (map_kw X_val2 kw') = Ok [("kw", BDict [("kw", I 5)])].
Proof.
  split; [apply py_call_iff; reflexivity|]. split.
  { intros k v Hv. apply elem_of_list_singleton in Hv. by inversion Hv. }
  eexists _, _, _, _. split; [reflexivity|]. split; reflexivity.
Qed.
