(** Proofs for C01 and C02 over histories of programs with atoms. *)
From stdpp Require Import base strings gmap list.
From Verif Require Import Base PyDict PyDict_proofs Returns Spec_Returns Returns_proofs DictStore Spec_DictStore DictStore_proofs
  CallStore Spec_CallStore CallStore_proofs Commit Spec_Commit Commit_proofs Refs Args Ident Storage Spec_Storage Storage_base
  Storage_laws Storage_tabs Spec_Atoms Atoms_rel Storage_atoms Storage_atoms2 Storage_atoms3.

(** ** The order of the recorded outputs does not matter *)
Definition ids_of (r : ref) : ids := (rcid r, rhid r).
Lemma seq_NoDup_keys {X} (ints : list (nat * X)) : (forall i, i < length ints -> i ∈ map fst ints) -> NoDup (map fst ints).
Proof.
  intros Hc. rewrite NoDup_ListNoDup. apply (NoDup_incl_NoDup (l := seq 0 (length ints))).
  - apply seq_NoDup.
  - rewrite seq_length, map_length. done.
  - intros i Hi. apply in_seq in Hi. apply elem_of_list_In, Hc. lia.
Qed.
Lemma mapR_perm {X Y} (f : X -> result Y) l l' ys : l ≡ₚ l' -> mapR f l = Ok ys -> exists ys', mapR f l' = Ok ys' /\ ys ≡ₚ ys'.
Proof.
  intros Hp. revert ys. induction Hp as [|x l l' _ IH|x y l|l1 l2 l3 _ IH1 _ IH2]; intros ys E.
  - eauto.
  - cbn in *. destruct (f x) as [a|]; [|done]. cbn in *. destruct (mapR f l) as [as_|]; [|done]. injection E as <-.
    destruct (IH _ eq_refl) as (ys' & -> & Hp). eexists. split; [done|]. by constructor.
  - cbn in *. destruct (f y) as [b|]; [|done]. destruct (f x) as [a|]; [|done]. cbn in *. destruct (mapR f l); [|done].
    injection E as <-. eexists. split; [done|]. constructor.
  - destruct (IH1 _ E) as (ys1 & E1 & P1). destruct (IH2 _ E1) as (ys2 & E2 & P2). exists ys2. split; [done|]. by etrans.
Qed.
(** ... and neither do the values *)
Lemma parse_natural {X Y} (f : X -> Y) (d : pydict X) :
  mapR (fun kv : string * Y => i ← parse_output_name kv.1; Ok (i, kv.2)) (map (fun kx => (kx.1, f kx.2)) d) =
  match mapR (fun kv : string * X => i ← parse_output_name kv.1; Ok (i, kv.2)) d with
  | Ok l => Ok (map (fun ix => (ix.1, f ix.2)) l) | Err e => Err e end.
Proof.
  induction d as [|[k x] d IH]; [done|]. cbn [map mapR fst snd]. rewrite IH. clear IH.
  destruct (parse_output_name k); [|done]. cbn. by destruct (mapR _ d).
Qed.
Lemma ordered_natural {X Y} (f : X -> Y) names (d : pydict X) :
  get_ordered_outputs names (map (fun kx => (kx.1, f kx.2)) d) =
  match get_ordered_outputs names d with Ok l => Ok (map f l) | Err e => Err e end.
Proof.
  assert (forall k, dindex k (map (fun kx => (kx.1, f kx.2)) d) = match dindex k d with Ok x => Ok (f x) | Err e => Err e end) as Hd.
  { intros k. unfold dindex. induction d as [|[k' x] d IH]; cbn; [done|]. destruct (decide (k = k')) as [->|Hne]; [done|]. exact IH. }
  destruct names as [ns|]; cbn.
  - induction ns as [|n ns IH]; cbn; [done|]. rewrite Hd. destruct (dindex n d); cbn; [|done]. rewrite IH. clear IH. by destruct (mapR _ ns).
  - set (g := fun kv : string * X => i ← parse_output_name kv.1; Ok (i, kv.2)).
    set (g' := fun kv : string * Y => i ← parse_output_name kv.1; Ok (i, kv.2)).
    pose proof (parse_natural f d) as E. fold g g' in E. rewrite E. clear E.
    destruct (mapR g d) as [ints|]; cbn; [|done]. rewrite map_length.
    assert (forall i, assoc_last i (map (fun ix : nat * X => (ix.1, f ix.2)) ints) = f <$> assoc_last i ints) as Ha.
    { intros i. induction ints as [|[j x] ints IH]; cbn; [done|]. rewrite IH. destruct (assoc_last i ints); cbn; [done|]. by case_decide. }
    induction (seq 0 (length d)) as [|i l IH]; cbn; [done|]. rewrite Ha. destruct (assoc_last i ints); cbn; [|done]. rewrite IH. clear IH. by destruct (mapR _ l).
Qed.
Lemma ordered_perm {X} names (d d' : pydict X) l : NoDup (map fst d) -> d ≡ₚ d' ->
  get_ordered_outputs names d = Ok l -> get_ordered_outputs names d' = Ok l.
Proof.
  intros Hn Hp. destruct names as [ns|]; cbn.
  - intros <-. apply mapR_ext. intros k _. unfold dindex. by rewrite (dget_Permutation k d d').
  - set (g := fun kv : string * X => i ← parse_output_name kv.1; Ok (i, kv.2)).
    destruct (mapR g d) as [ints|] eqn:Ei; [|done]. cbn. intros E.
    destruct (mapR_perm _ _ _ _ Hp Ei) as (ints' & -> & Hpi). cbn. rewrite <-(Permutation_length Hp), <-E.
    assert (length ints = length d) as El. { apply mapR_Ok_inv, Forall2_length in Ei. done. }
    assert (NoDup (map fst ints)) as Hni.
    { apply seq_NoDup_keys. intros i Hi. apply mapR_Ok_inv in E. rewrite El in Hi.
      assert (i ∈ seq 0 (length d)) as Hs by (apply elem_of_seq; lia).
      apply (Forall2_in_l _ _ _ _ E) in Hs as (x & _ & Hx). destruct (assoc_last i ints) eqn:Ea; [|done].
      apply assoc_last_in in Ea. by apply (elem_of_list_fmap_1 fst) in Ea. }
    apply mapR_ext. intros i _. f_equal.
    destruct (assoc_last i ints) as [x|] eqn:Ea.
    + apply assoc_last_in in Ea. apply assoc_last_elem; [by rewrite <-Hpi|by rewrite <-Hpi].
    + destruct (assoc_last i ints') as [x|] eqn:Ea'; [|done]. apply assoc_last_in in Ea'. rewrite <-Hpi in Ea'.
      apply assoc_last_elem in Ea'; [congruence|done].
Qed.
Lemma presented_same names (d d' : pydict ref) ret : NoDup (map fst d) -> NoDup (map fst d') -> idm d = idm d' ->
  presented names d = Ok ret -> exists ret', presented names d' = Ok ret' /\ same_ids ret ret'.
Proof.
  intros Hn Hn' Hi. unfold presented. destruct (get_ordered_outputs names d) as [l|] eqn:E; [|done]. intros [= <-].
  assert (idmap d ≡ₚ idmap d') as Hp.
  { apply list_to_map_inj; [by rewrite idmap_keys..|]. exact Hi. }
  pose proof (ordered_natural ids_of names d) as N1. pose proof (ordered_natural ids_of names d') as N2. rewrite E in N1.
  change (map (fun kx : string * ref => (kx.1, ids_of kx.2)) d) with (idmap d) in N1.
  change (map (fun kx : string * ref => (kx.1, ids_of kx.2)) d') with (idmap d') in N2.
  apply (ordered_perm _ _ (idmap d')) in N1; [|by rewrite idmap_keys|done]. rewrite N1 in N2.
  destruct (get_ordered_outputs names d') as [l'|]; [|done]. injection N2 as N2. eexists. split; [done|].
  destruct l as [|x [|y l]], l' as [|x' [|y' l']]; try done. cbn in *. by injection N2 as -> ->.
Qed.

(** ** Arguments that look the same are parsed the same *)
Section same.
  Context (A A2 : gmap string pyval).
  Definition asim (a a' : arg) : Prop :=
    match a, a' with
    | AVal v, AVal v' => v = v'
    | ARef r, ARef r' => rcid r = rcid r' /\ rhid r = rhid r' /\ A !! rcid r = A2 !! rcid r
    | AIgn _ _, AIgn _ _ | AList _, AList _ | ADict _, ADict _ => True
    | _, _ => False
    end.
  Definition insim (x y : arg * ty) : Prop := asim x.1 y.1 /\ x.2 = y.2.
  Lemma asim_ign a a' : asim a a' -> is_ign a = is_ign a'.
  Proof. by destruct a, a'. Qed.
  Lemma parse_one_same ig p v w : rel_bval asim v w ->
    rel_res (fun x y => rel_dict insim x.2 y.2) (parse_one (pu A) ig p v tt).1 (parse_one (pu A2) ig p w tt).1.
  Proof.
    intros Hv. unfold parse_one. destruct v as [a|l|d], w as [a'|l'|d']; try done.
    - cbn zeta. cbn in Hv.
      set (b := if bool_decide (p_name p ∈ ig) then AIgn false a else a). set (b' := if bool_decide (p_name p ∈ ig) then AIgn false a' else a').
      assert (asim b b') as Hb by (subst b b'; by case_bool_decide). clearbody b b'. clear a a' Hv.
      assert (rel_dict insim [(p_name p, (b, p_ann p))] [(p_name p, (b', p_ann p))]) as Hin by (repeat constructor; exact Hb).
      destruct b as [v|r|? ?|l|d], b' as [v'|r'|? ?|l'|d']; try done; try (cbn; constructor);
        destruct (p_default p) as [[ | |[] d0| | ]|]; try exact Hin; unfold bindM, retM, liftR, pu; unfold retM; cbn [pun].
      + cbn in Hb. subst v'. match goal with |- context [ceq ?x ?y] => destruct (ceq x y) as [[]|] end; [constructor|exact Hin|done].
      + cbn in Hb. destruct Hb as (Hb1 & Hb2 & Hb3). rewrite <-Hb1, <-Hb3.
        match goal with |- context [ceq ?x ?y] => destruct (ceq x y) as [[]|] end; [constructor|exact Hin|done].
      + destruct d0 as [[]| | | |]; exact Hin.
      + destruct d0 as [[]| | | |]; exact Hin.
    - cbn in Hv. unfold retM. cbn [fst snd rel_res].
      cut (forall f, rel_dict insim
        (omap (fun ia : nat * arg => if is_ign ia.2 then None else Some (f ia.1, (ia.2, p_ann p))) (imap pair l))
        (omap (fun ia : nat * arg => if is_ign ia.2 then None else Some (f ia.1, (ia.2, p_ann p))) (imap pair l'))).
      { intros Hc. exact (Hc (fun i => p_name p +:+ "_" +:+ dec i)). }
      enough (forall g : nat -> nat, forall f, rel_dict insim
        (omap (fun ia : nat * arg => if is_ign ia.2 then None else Some (f ia.1, (ia.2, p_ann p))) (imap (fun i => pair (g i)) l))
        (omap (fun ia : nat * arg => if is_ign ia.2 then None else Some (f ia.1, (ia.2, p_ann p))) (imap (fun i => pair (g i)) l'))) as He
        by (exact (He (fun i => i))).
      induction Hv as [|a a' l l' Ha Hl IH]; intros g f; cbn; [constructor|]. rewrite <-(asim_ign _ _ Ha).
      specialize (IH (g ∘ S) f). destruct (is_ign a); [exact IH|]. constructor; [|exact IH]. done.
    - cbn in Hv. unfold retM. cbn [fst snd rel_res].
      induction Hv as [|[k a] [k' a'] l l' [Hk Ha] Hl IH]; cbn; [constructor|]. cbn in Hk, Ha. subst k'. rewrite <-(asim_ign _ _ Ha).
      destruct (is_ign a); [exact IH|]. constructor; [|exact IH]. done.
  Qed.
  Lemma parse_loop_same ig sig bd bd' acc acc' : rel_dict (rel_bval asim) bd bd' -> rel_dict insim acc acc' ->
    rel_res (fun x y => rel_dict insim x.2 y.2) (parse_loop (pu A) ig sig bd acc tt).1 (parse_loop (pu A2) ig sig bd' acc' tt).1.
  Proof.
    intros Hb. revert acc acc'. induction sig as [|p sig IH]; intros acc acc' Hacc; cbn [parse_loop]; [done|].
    pose proof (rel_dget _ (p_name p) _ _ Hb) as Hd. destruct (dget (p_name p) bd) as [v|], (dget (p_name p) bd') as [w|]; try done; [|by apply IH].
    unfold bindM. pose proof (parse_one_same ig p v w Hd) as Ho.
    destruct (parse_one (pu A) ig p v tt) as [[x|e] []], (parse_one (pu A2) ig p w tt) as [[y|e'] []]; cbn [fst] in Ho; try done.
    cbn in Ho. specialize (IH (dupdate acc x.2) (dupdate acc' y.2) ltac:(by apply rel_dupdate)).
    destruct (parse_loop (pu A) ig sig bd _ tt) as [[z|e] []], (parse_loop (pu A2) ig sig bd' _ tt) as [[z'|e'] []]; cbn in *; done.
  Qed.
  Lemma parse_args_same ig sig args args' kw kw' :
    (forall p d, p ∈ sig -> p_default p = Some d -> asim d d) -> Forall2 asim args args' -> rel_dict asim kw kw' ->
    rel_res (fun x y => rel_dict insim x.2 y.2) (parse_args (pu A) sig ig args kw tt).1 (parse_args (pu A2) sig ig args' kw' tt).1.
  Proof.
    intros Hd Ha Hk. unfold parse_args, bindM, liftR. pose proof (rel_bind_full asim sig args args' kw kw' Hd Ha Hk) as Hb.
    destruct (bind_full sig args kw), (bind_full sig args' kw'); cbn in *; try done. apply parse_loop_same; [done|constructor].
  Qed.
End same.

Section atoms4.
  Context (H : pyval -> string) (sel : list crow -> list crow) (bigA : pyval -> bool).
  Hypothesis Hinj : Inj (=) (=) H.
  Hypothesis sel_perm : forall l, sel l ≡ₚ l.
  Notation good := (good H).
  Notation ainv := (ainv H).

  Lemma inputs_same A A2 inputs inputs2 ins : rel_dict (insim A A2) inputs inputs2 -> inputs_are H inputs ins ->
    exists ins2, inputs_are H inputs2 ins2 /\ idmap ins2 = idmap ins.
  Proof.
    intros Hi Ha. revert inputs2 Hi. induction Ha as [|[k [a t]] [k' r] l l' [E Hc] _ IH]; intros inputs2 Hi; inversion Hi as [|x [k2 [a2 t2]] l1 l2 [E2 [Hs Ht]] Hl]; subst.
    - by exists []; split; [constructor|].
    - cbn in *. subst k' k2 t2. destruct (IH _ Hl) as (ins2 & I1 & I2).
      destruct a as [v|r0| | |], a2 as [v2|r2| | |]; try done; cbn in Hs, Hc; subst.
      + exists ((k, wrap_atom H v2 None) :: ins2). split; [by constructor|]. unfold idmap in *. cbn [map fst snd]. by rewrite I2.
      + exists ((k, r2) :: ins2). split; [by constructor|]. destruct Hs as (Hs1 & Hs2 & _). unfold idmap in *. cbn [map fst snd]. rewrite I2, Hs1, Hs2. done.
  Qed.
  Lemma conref_fun a r r' : conref H a r -> conref H a r' -> r = r'.
  Proof. destruct a; cbn [conref]; try done; congruence. Qed.

  Lemma construct_inputs inputs ins m k al b lg : Forall (in_ok H m) inputs -> inputs_are H inputs ins ->
    triple (frozen H m k al b lg) (mapM' (fun kat => rc <- construct H sel kat.2.2 kat.2.1 ;; retM (kat.1, rc))%pym inputs)
      (fun rs => map (fun krc => (krc.1, krc.2.1)) rs = ins /\ concat (map (fun krc => krc.2.2) rs) = []) (fun _ => False).
  Proof.
    intros Hi Ha. eapply triple_mono.
    - apply triple_mapM with (Q := fun x y => x.1 = y.1 /\ conref H x.2.1 y.2.1 /\ y.2.2 = []) (E := fun _ => False).
      intros x Hx. rewrite Forall_forall in Hi. destruct (Hi _ Hx) as [-> _].
      apply (Forall2_in_l _ _ _ _ Ha) in Hx as (y & _ & _ & Hc).
      apply triple_bind with (Q := fun rc => conref H x.2.1 rc.1 /\ rc.2 = []).
      { destruct (x.2.1); try done; cbn [construct]; by apply triple_ret. }
      intros rc [H1 H2]. by apply triple_ret.
    - intros rs Hrs. revert rs Hrs. clear Hi. induction Ha as [|x y l l' [E Hc] _ IH]; intros rs Hrs; inversion Hrs as [|? z ? ? (E1 & Hc1 & Hz) Hl]; subst; [done|].
      destruct (IH _ Hl) as [I1 I2]. cbn. rewrite I1, I2, Hz. split; [|done]. f_equal. rewrite <-E1, E. rewrite (conref_fun _ _ _ Hc1 Hc). by destruct y.
    - done.
  Qed.

  (** a call whose history id is known is found *)
  Lemma call_run_hit held s m o args kw keys r s' bd inputs ins : ainv (held, s) m -> atom_op o -> passes_held held o args kw ->
    (parse_args (pu (m_atoms m)) (od_sig o) (op_ignore (od_op o)) args kw tt).1 = Ok (bd, inputs) ->
    inputs_are H inputs ins -> (forall k a t, (k, (a, t)) ∈ inputs -> ~ pointer a) ->
    is_Some (m_calls m !! call_hid H (od_op o) ins None) ->
    call_run H sel o args kw keys s = (r, s') ->
    exists c, found_by_hid H m (od_op o) ins c /\ r = presented (op_onames (od_op o)) (c_outs c) /\
      frozen H m (t_calls (s_tabs s)) (s_alias s) (s_allow s) (s_log s) s'.
  Proof using Hinj sel_perm.
    intros [Hs Hg Hh] Hao Hr Hx Hins Hp Hsome E. cbn in Hs, Hh.
    pose proof (in_refs_ok H _ _ _ _ _ Hr Hh) as Hrefs.
    pose proof (froz_start H _ _ Hs) as J0. pose proof (sinv_calls H _ _ Hs) as Hk.
    unfold call_run in E. unfold bindM at 1 in E.
    destruct (parse_args_sim H Hinj m _ _ _ _ Hg (op_ignore (od_op o)) _ _ _ Hrefs s J0) as [J1 Hx1].
    destruct (parse_args unwrap (od_sig o) (op_ignore (od_op o)) args kw s) as [[x|e] s1] eqn:Ep; cbn [fst snd] in J1, Hx1; [|by rewrite Hx in Hx1].
    rewrite Hx in Hx1. injection Hx1 as <-.
    pose proof (parse_args_props H m _ _ _ _ _ Hrefs (ao_params _ Hao) Hx) as (Hn & Hi & Hb). cbn [fst snd] in Hn, Hi, Hb, E.
    unfold bindM at 1 in E. unfold call_internal in E. unfold bindM at 1 in E.
    destruct (construct_inputs inputs ins m _ _ _ _ Hi Hins s1 J1) as [J2 Hrs].
    destruct (mapM' _ inputs s1) as [[rs|e] s2]; cbn [fst snd] in J2, Hrs; [|done]. destruct Hrs as [Ers Ecs]. cbn zeta in E. rewrite Ers, Ecs in E.
    destruct (inputs_ok H m Hg _ _ Hn Hi Hp Hins) as [Eki Hiok].
    unfold bindM at 1 in E. destruct (lookup_triple H sel Hinj sel_perm m _ _ _ _ Hg Hk (od_op o) ins Hiok s2 J2) as [J3 Hl].
    destruct (lookup_call H sel (od_op o) ins s2) as [[[c|]|e] s3]; cbn [fst snd] in J3, Hl.
    2: { destruct Hl as [Hl _]. rewrite Hl in Hsome. by destruct Hsome. }
    2: { rewrite Hl in Hsome. by destruct Hsome. }
    destruct Hl as [Hf|Hf].
    2: { destruct Hf as (Hf1 & _ & Hf2 & _). rewrite Hf2 in Hf1. rewrite Hf1 in Hsome. by destruct Hsome. }
    pose proof Hf as (d & Hd & Hok & Ed & Hop & Eh & Ec & Eci & Eco & Ecd).
    assert (save_call c s3 = (Ok tt, s3)) as Esv.
    { unfold save_call, if_st. rewrite (has_call_inv H _ _ _ (fz_inv _ _ _ _ _ _ _ J3)), Eh, Hd.
      rewrite bool_decide_eq_true_2 by eauto. done. }
    unfold retM at 1 in E. cbn [fst snd iterM] in E. unfold bindM, liftR, retM in E. cbn [fst snd] in E. rewrite Esv in E. exists c. split; [done|].
    unfold presented. destruct (get_ordered_outputs _ _); simplify_eq; done.
  Qed.

  (** ** Repeating a call *)
  Lemma run_case_recorded o bd inputs keys s m ret s' m' : good m -> run_case H o bd inputs keys s m (Ok ret) s' m' ->
    exists ins i outs, inputs_are H inputs ins /\ m_calls m' !! call_hid H (od_op o) ins None = Some i /\
      NoDup (map fst outs) /\ idm outs = i_outs i /\ presented (op_onames (od_op o)) outs = Ok ret.
  Proof.
    intros Hg Hc. remember (Ok ret) as r eqn:Er.
    assert (forall c s1 m2, saved_call H c s1 s' m m2 -> 
      m_calls m2 !! c_hid c = Some (info (cdata_of c)) /\ idm (c_outs c) = i_outs (info (cdata_of c))) as Hs.
    { intros c s1 m2 [S1 S2 S3 S4 S5 S6 S7 S8 S9 S10]. by rewrite S4, lookup_insert. }
    destruct Hc as [e s' Hf|ins env e s' ? ? ? Hf|ins c s' Hins Hfound Hf|ins c s1 s' m' Hins Hfound Hf Hsv|ins env c s1 s' m' Hins ? ? ? Hsave Hec Hf Hsv];
      [done|done|..].
    - destruct Hfound as (d & Hd & Hok & Eh & _ & _ & _ & _ & Eco & _). exists ins, (info d), (c_outs c). rewrite <-Eh.
      split_and!; try done.
      + rewrite Eco, refmap_keys. by apply call_ok_NoDup_outs.
      + rewrite Eco. unfold idm. by rewrite idmap_refmap.
    - pose proof Hfound as (_ & [Hok _ _ _] & Eh & _). destruct (Hs _ _ _ Hsv) as (E1 & E2).
      exists ins, (info (cdata_of c)), (c_outs c). rewrite <-Eh. split_and!; try done.
      apply call_ok_NoDup_outs in Hok. cbn in Hok. rewrite map_map in Hok. exact Hok.
    - destruct (Hs _ _ _ Hsv) as (E1 & E2). exists ins, (info (cdata_of c)), (c_outs c).
      assert (c_hid c = call_hid H (od_op o) ins None) as <- by (by destruct Hec as (? & ? & ? & _ & _ & _ & _ & ->)). split_and!; try done.
      destruct Hec as (rr & vals & outs & _ & _ & Hfit & Hout & ->). cbn. by eapply names_fit_keys.
  Qed.

  Lemma same_asim m m2 a a' : good m -> grow m m2 -> refs_ok H m a -> same_arg a a' -> asim (m_atoms m) (m_atoms m2) a a'.
  Proof.
    intros Hg [G _ _ _] Hr Hs. destruct a as [v|r| | |], a' as [v'|r'| | |]; try done. cbn in *.
    assert (rcid r = rcid r' /\ rhid r = rhid r') as [-> ->] by (destruct r, r'; cbn in *; by simplify_eq).
    split_and!; try done. destruct (Hr r ltac:(left)) as (c & h & o & -> & Hsh & _).
    destruct (good_shape H _ _ _ Hg Hsh) as [v Hv]. assert (rcid r' = c) as -> by (destruct r'; cbn in *; by simplify_eq).
    cbn in Hv. rewrite Hv. symmetry. by eapply lookup_weaken.
  Qed.
  Lemma repeat_call held s m o args kw keys ret s1 es held2 s2 args' kw' keys' r s3 : ainv (held, s) m ->
    atom_op o -> atom_call held o args kw s -> call_run H sel o args kw keys s = (Ok ret, s1) ->
    asteps H sel bigA (returned_refs (Ok ret) ++ held, s1) es (held2, s2) ->
    same_passed args kw args' kw' -> passes_held held2 o args' kw' ->
    call_run H sel o args' kw' keys' s2 = (r, s3) ->
    exists ret', r = Ok ret' /\ same_ids ret ret' /\ s_log s3 = s_log s2 /\ forall hid, recorded s3 hid <-> recorded s2 hid.
  Proof using Hinj sel_perm.
    intros Hi Hao Hac E1 Hst [Hsa Hsk] Hph E2.
    pose proof (call_run_out H sel Hinj sel_perm _ _ _ _ _ _ _ _ _ Hi Hao Hac E1) as Hout.
    destruct (parse_args _ _ _ _ _ tt).1 as [[bd inputs]|e] eqn:Hx; [destruct Hout as [m1 Hc]|by destruct Hout]. cbn [fst snd] in Hc.
    destruct (run_case_recorded _ _ _ _ _ _ _ _ _ (ai_good _ _ _ Hi) Hc) as (ins & i & outs & Hins & Hrec & Hndo & Hido & Hpres).
    destruct (run_case_good H _ _ _ _ _ _ _ _ _ _ Hi Hc) as [G1 Hi1].
    destruct (asteps_good H sel bigA Hinj sel_perm _ _ _ _ Hi1 Hst) as (m2 & G2 & Hi2).
    assert (grow m m2) as G by (by etrans).
    pose proof (in_refs_ok H _ _ _ _ _ (proj1 Hac) (ai_held _ _ _ Hi)) as Hrefs.
    assert (rel_res (fun x y => rel_dict (insim (m_atoms m) (m_atoms m2)) x.2 y.2)
      (parse_args (pu (m_atoms m)) (od_sig o) (op_ignore (od_op o)) args kw tt).1
      (parse_args (pu (m_atoms m2)) (od_sig o) (op_ignore (od_op o)) args' kw' tt).1) as Hps.
    { apply parse_args_same.
      - intros p d Hp Hd. pose proof (Hrefs d ltac:(eauto)) as Hrd. destruct d; try done.
        apply (same_asim m); [apply Hi|done|done|done].
      - eapply Forall2_elem; [exact Hsa|]. intros a a' Ha _ Hs. apply (same_asim m); [apply Hi|done|apply Hrefs; auto|done].
      - eapply Forall2_elem; [exact Hsk|]. intros a a' Ha _ [Hs1 Hs]. split; [done|].
        apply (same_asim m); [apply Hi|done|apply Hrefs; right; left; by apply elem_of_list_fmap_1|done]. }
    rewrite Hx in Hps. destruct (parse_args (pu (m_atoms m2)) _ _ args' kw' tt).1 as [[bd2 inputs2]|e] eqn:Hx2; [|done]. cbn in Hps.
    destruct (inputs_same _ _ _ _ _ Hps Hins) as (ins2 & Hins2 & Hid2).
    assert (forall k a t, (k, (a, t)) ∈ inputs -> ~ pointer a) as Hnp.
    { destruct Hi as [Hs Hg Hh]. cbn in Hs. destruct Hac as [_ Hac].
      destruct (parse_args_sim H Hinj m _ _ _ _ Hg (op_ignore (od_op o)) _ _ _ Hrefs s (froz_start H _ _ Hs)) as [_ Hsim].
      destruct (parse_args unwrap (od_sig o) (op_ignore (od_op o)) args kw s) as [[x|e] s'] eqn:Ep; cbn [fst snd] in Hsim.
      - rewrite Hx in Hsim. injection Hsim as <-. by destruct (Hac _ _ _ eq_refl) as (Hp & _).
      - by rewrite Hx in Hsim. }
    assert (call_hid H (od_op o) ins2 None = call_hid H (od_op o) ins None) as Ehid.
    { rewrite !call_hid_chash. unfold idm. by rewrite Hid2. }
    assert (m_calls m2 !! call_hid H (od_op o) ins2 None = Some i) as Hrec2.
    { rewrite Ehid. eapply lookup_weaken; [done|]. apply G2. }
    assert (forall k a t, (k, (a, t)) ∈ inputs2 -> ~ pointer a) as Hnp2.
    { intros k a t Ha. apply (Forall2_in_r _ _ _ _ Hps) in Ha as ([k1 [a1 t1]] & Ha1 & _ & Hs & _). cbn in Hs.
      apply Hnp in Ha1. by destruct a1, a; try done; cbn in *; subst. }
    destruct (call_run_hit _ _ _ _ _ _ _ _ _ _ _ _ Hi2 Hao Hph Hx2 Hins2 Hnp2 (ex_intro _ _ Hrec2) E2) as (c & Hf & -> & J3).
    destruct Hf as (d & Hd & Hok & Eh & _ & _ & _ & _ & Eco & _).
    assert (i = info d) as -> by (rewrite Eh in Hd; congruence).
    destruct (presented_same (op_onames (od_op o)) outs (c_outs c) ret) as (ret' & Hp' & Hsame); [done| | |done|].
    - rewrite Eco, refmap_keys. by apply call_ok_NoDup_outs.
    - rewrite Hido, Eco. unfold idm. by rewrite idmap_refmap.
    - exists ret'. split_and!; [done|done|apply J3|]. intros hid. unfold recorded, has_call.
      destruct J3 as [_ -> _ _ _]. done.
  Qed.
End atoms4.
