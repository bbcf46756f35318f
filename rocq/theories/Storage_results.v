(** Proofs for C03: memoized results are the function's results. *)
From stdpp Require Import base strings gmap list.
From Verif Require Import Base PyDict PyDict_proofs Returns Spec_Returns Returns_proofs DictStore Spec_DictStore DictStore_proofs
  CallStore Spec_CallStore CallStore_proofs Commit Spec_Commit Commit_proofs Refs Args Spec_Args Args_proofs Ident Spec_Ident Ident_proofs
  Storage Spec_Storage Storage_base
  Storage_laws Storage_tabs Spec_Atoms Atoms_rel Storage_atoms Storage_atoms2 Storage_atoms3 Storage_atoms4 Spec_Results.

(** ** Binding *)
Lemma dget_map_kw {X Y} (f : X -> Y) k (kw : pydict X) : dget k (map_kw f kw) = f <$> dget k kw.
Proof. induction kw as [|[k' x] kw IH]; cbn; [done|]. case_decide; [done|apply IH]. Qed.
Lemma binds_map {X} (f : X -> X) sig args kw env :
  (forall p, p ∈ sig -> p_kind p <> KVarPos /\ p_kind p <> KVarKw) ->
  (forall p d, p ∈ sig -> p_default p = Some d -> f d = d) ->
  py_binds sig args kw env -> py_binds sig (map f args) (map_kw f kw) (map_env f env).
Proof.
  intros Hk Hd [L V M T E]. split.
  - unfold map_env. by rewrite map_length.
  - intros i p Hp. destruct (V i p Hp) as (v & Ev & G). exists (map_bval f v).
    split; [unfold map_env; by rewrite list_lookup_fmap, Ev|].
    assert (p ∈ sig) as Hps by (by eapply elem_of_list_lookup_2).
    pose proof (Hd p) as Hd'. destruct (Hk p Hps) as [K1 K2]. unfold gets in *. rewrite list_lookup_fmap, dget_map_kw.
    destruct (p_kind p); try done.
    + destruct G as (x & -> & [G|[G1 G2]]); exists (f x); (split; [done|]).
      * left. by rewrite G.
      * right. rewrite G1. split; [done|]. rewrite G2. f_equal. symmetry. by apply Hd'.
    + destruct G as (x & -> & [G|[[G1 G2]|(G1 & G2 & G3)]]); exists (f x); (split; [done|]).
      * left. by rewrite G.
      * right. left. by rewrite G1, G2.
      * right. right. rewrite G1, G2. split_and!; try done. rewrite G3. f_equal. symmetry. by apply Hd'.
    + destruct G as (x & -> & [G|[G1 G2]]); exists (f x); (split; [done|]).
      * left. by rewrite G.
      * right. rewrite G1. split; [done|]. rewrite G2. f_equal. symmetry. by apply Hd'.
  - destruct M as [M|M]; [by left|right; by rewrite map_length].
  - intros i p Hp Hpk Hi. rewrite map_length in Hi. rewrite dget_map_kw. by rewrite (T i p Hp Hpk Hi).
  - destruct E as [E|E]; [by left|right]. intros k x Hx. apply elem_of_list_fmap in Hx as ([k' x'] & [= -> ->] & Hx). by eapply E.
Qed.
Lemma binds_plain {X} (sig : list (param X)) args kw env : (forall p, p ∈ sig -> p_kind p <> KVarPos /\ p_kind p <> KVarKw) ->
  py_binds sig args kw env -> Forall2 (fun p kv => exists x, kv = (p_name p, BOne x) /\
    (x ∈ args \/ x ∈ map snd kw \/ p_default p = Some x)) sig env.
Proof.
  intros Hk Hb. apply Forall2_same_length_lookup_2; [symmetry; apply Hb|]. intros i p kv Hp Hkv.
  destruct (pb_val _ _ _ _ Hb i p Hp) as (v & Ev & G). assert (kv = (p_name p, v)) as -> by congruence.
  assert (p ∈ sig) as Hps by (by eapply elem_of_list_lookup_2). destruct (Hk p Hps) as [K1 K2].
  assert (forall x, dget (p_name p) kw = Some x -> x ∈ map snd kw) as Hkw.
  { intros x Hx%dget_Some_elem. by apply (elem_of_list_fmap_1 snd) in Hx. }
  unfold gets in G. destruct (p_kind p); try done.
  - destruct G as (x & -> & [G|[G1 G2]]); exists x; split; auto. left. by eapply elem_of_list_lookup_2.
  - destruct G as (x & -> & [G|[[G1 G2]|(G1 & G2 & G3)]]); exists x; split; auto. left. by eapply elem_of_list_lookup_2.
  - destruct G as (x & -> & [G|[G1 G2]]); exists x; split; auto.
Qed.

(** the environment of a call with the values [vs] *)
Definition env_of (sig : list (param arg)) (vs : list pyval) : pydict (bval arg) :=
  zip_with (fun p v => (p_name p, BOne (AVal v))) sig vs.

Section results.
  Context (H : pyval -> string) (sel : list crow -> list crow) (bigA : pyval -> bool).
  Hypothesis Hinj : Inj (=) (=) H.
  Hypothesis sel_perm : forall l, sel l ≡ₚ l.
  Notation good := (good H).
  Notation ainv := (ainv H).

  (** ** The inputs of a plain call *)
  Lemma parse_loop_plain A sig (b : pydict (bval arg)) acc :
    (forall p, p ∈ sig -> exists x, dget (p_name p) b = Some (BOne x) /\ is_ign x = false /\ forall d, p_default p = Some d -> is_ign d = false) ->
    NoDup (map p_name sig) -> (forall p, p ∈ sig -> p_name p ∉ map fst acc) ->
    exists xs, Forall2 (fun p x => dget (p_name p) b = Some (BOne x)) sig xs /\
      parse_loop (pu A) [] sig b acc tt =
        (Ok (zip_with (fun p x => (p_name p, BOne x)) sig xs, acc ++ zip_with (fun p x => (p_name p, (x, p_ann p))) sig xs), tt).
  Proof.
    revert acc. induction sig as [|p sig IH]; intros acc Hb Hn Ha.
    - exists []. split; [constructor|]. cbn. by rewrite app_nil_r.
    - destruct (Hb p ltac:(left)) as (x & Ex & Hx & Hd). apply NoDup_cons in Hn as [Hn1 Hn2].
      assert (dupdate acc [(p_name p, (x, p_ann p))] = acc ++ [(p_name p, (x, p_ann p))]) as Eacc.
      { cbn. clear -Ha. specialize (Ha p ltac:(left)). induction acc as [|[k v] acc IHa]; cbn in *; [done|].
        apply not_elem_of_cons in Ha as [H1 H2]. rewrite decide_False by congruence. f_equal. by apply IHa. }
      destruct (IH (acc ++ [(p_name p, (x, p_ann p))])) as (xs & Hxs & E).
      + intros q Hq. apply Hb. by right.
      + done.
      + intros q Hq. rewrite map_app. cbn. intros [Hin|Hin%elem_of_list_singleton]%elem_of_app.
        * apply (Ha q); [by right|done].
        * apply Hn1. rewrite <-Hin. by apply elem_of_list_fmap_1.
      + exists (x :: xs). split; [by constructor|]. cbn [parse_loop]. rewrite Ex.
        assert (parse_one (pu A) [] p (BOne x) tt = (Ok (BOne x, [(p_name p, (x, p_ann p))]), tt)) as Ep.
        { unfold parse_one. rewrite bool_decide_eq_false_2 by (by intros ?%elem_of_nil).
          destruct x; try done; cbn [p_default]; destruct (p_default p) as [[| |[] ?| |]|]; try done; specialize (Hd _ eq_refl); done. }
        unfold bindM. rewrite Ep. cbn [snd]. rewrite Eacc, E. cbn. f_equal. f_equal. f_equal. by rewrite <-app_assoc.
  Qed.

  Definition np (m : contents pyval ref op) : Prop := forall c v, m_atoms m !! c = Some v -> ~ pointer (AVal v).
  Definition cids (sig : list (param arg)) (vs : list pyval) : gmap string string :=
    list_to_map (zip_with (fun p v => (p_name p, H v)) sig vs).
  Lemma cids_inj sig vs vs' : NoDup (map p_name sig) -> length vs = length sig -> length vs' = length sig ->
    cids sig vs = cids sig vs' -> vs = vs'.
  Proof using Hinj.
    intros Hn L L' E. apply list_eq. intros i. destruct (decide (i < length sig)) as [Hi|Hi].
    2: { rewrite !lookup_ge_None_2 by lia. done. }
    destruct (lookup_lt_is_Some_2 sig i Hi) as [p Hp].
    destruct (lookup_lt_is_Some_2 vs i ltac:(lia)) as [v Hv]. destruct (lookup_lt_is_Some_2 vs' i ltac:(lia)) as [v' Hv'].
    assert (forall ws w, length ws = length sig -> ws !! i = Some w -> cids sig ws !! p_name p = Some (H w)) as Hc.
    { intros ws w Lw Hw. unfold cids. apply elem_of_list_to_map.
      - replace ((zip_with (fun p v => (p_name p, H v)) sig ws).*1) with (map p_name sig); [done|].
        clear -Lw. revert ws Lw. induction sig as [|p sig IH]; intros [|w ws] Lw; cbn in *; try done. f_equal. apply IH. lia.
      - apply elem_of_list_lookup. exists i. rewrite lookup_zip_with, Hp. cbn. by rewrite Hw. }
    pose proof (Hc _ _ L Hv) as E1. pose proof (Hc _ _ L' Hv') as E2. rewrite E in E1. rewrite E1 in E2. injection E2 as E2.
    apply Hinj in E2. by rewrite Hv, Hv', E2.
  Qed.

  Definition val_of (A : gmap string pyval) (x : arg) (v : pyval) : Prop :=
    pun A x = AVal v /\ is_ign x = false /\ ~ pointer (AVal v).
  Lemma input_values s m (sig : list (param arg)) xs ins : sinv H s m -> good m -> np m -> length xs = length sig ->
    inputs_are H (zip_with (fun p x => (p_name p, (x, p_ann p))) sig xs) ins ->
    (forall x, x ∈ xs -> ~ pointer x /\ refs_ok H m x) ->
    exists vs, Forall2 (val_of (m_atoms m)) xs vs /\
      map (fun kr => (kr.1, rcid kr.2)) ins = zip_with (fun p v => (p_name p, H v)) sig vs.
  Proof.
    intros Hs Hg Hnp. revert xs ins. induction sig as [|p sig IH]; intros [|x xs] ins L Hins Hx; try done.
    - exists []. split; [constructor|]. by inversion Hins.
    - cbn in Hins. inversion Hins as [|? [k r] ? ins' [Ek Hc] Hins']; subst. cbn in Ek, Hc. subst k.
      destruct (IH xs ins') as (vs & Hvs & Ei); [cbn in L; lia|done|intros; apply Hx; by right|].
      destruct (Hx x ltac:(left)) as [Hptr Hr].
      assert (exists v, val_of (m_atoms m) x v /\ rcid r = H v) as (v & Hv & Er).
      { destruct x as [v|r'| | |]; try done; cbn in Hc; subst r.
        - exists v. split; [done|]. by destruct v.
        - destruct (Hr r' ltac:(left)) as (c & h & oo & -> & Hsh & Ho). destruct (good_shape H _ _ _ Hg Hsh) as [v Hv]. cbn in Hv.
          exists v. split; [|cbn; symmetry; by apply (atoms_hash H s _ _ _ Hs)].
          split; [cbn; by rewrite Hv|]. split; [done|]. by eapply Hnp. }
      exists (v :: vs). split; [by constructor|]. cbn. by rewrite Er, Ei.
  Qed.
  Lemma plain_inputs s m o args kw bd inputs ins : sinv H s m -> good m -> np m -> plain_op o -> nothing_ignored args kw -> NoDup (map fst kw) ->
    call_refs_ok H m (od_sig o) args kw ->
    (parse_args (pu (m_atoms m)) (od_sig o) (op_ignore (od_op o)) args kw tt).1 = Ok (bd, inputs) ->
    (forall k a t, (k, (a, t)) ∈ inputs -> ~ pointer a) -> inputs_are H inputs ins ->
    exists vs, length vs = length (od_sig o) /\
      py_binds (od_sig o) (map (pun (m_atoms m)) args) (map_kw (pun (m_atoms m)) kw) (env_of (od_sig o) vs) /\
      fst <$> idm ins = cids (od_sig o) vs /\
      forall keys env, keys ≡ₚ map fst kw -> ran m o bd keys env -> env = env_of (od_sig o) vs.
  Proof using Hinj.
    intros Hs Hg Hnp [Psig Pk Pd Pi] Hni Hkw Hr Hp Hptr Hins. rewrite Pi in Hp. set (A := m_atoms m) in *. set (sig := od_sig o) in *.
    pose proof Hp as Hp'. unfold parse_args, bindM, liftR in Hp.
    destruct (bind_full sig args kw) as [env0|] eqn:Eb; [|done].
    pose proof (bind_full_sound _ _ _ _ Psig Hkw Eb) as Hb.
    pose proof (binds_plain _ _ _ _ Pk Hb) as Hpl.
    assert (NoDup (map fst env0)) as Hn0 by (rewrite (binds_names _ _ _ _ Hb); apply Psig).
    destruct (parse_loop_plain A sig env0 []) as (xs & Hxs & El).
    { intros p Hps. apply (Forall2_in_l _ _ _ _ Hpl) in Hps as Hx. destruct Hx as (kv & Hkv & x & -> & Hx). exists x.
      split; [by apply dget_elem|]. split.
      - destruct Hx as [Hx|[Hx|Hx]].
        + destruct x as [| |bb y| |]; try done. destruct (Hni (AIgn bb y) bb y); [apply elem_of_app; by left|done].
        + destruct x as [| |bb y| |]; try done. destruct (Hni (AIgn bb y) bb y); [apply elem_of_app; by right|done].
        + by destruct (Pd _ _ Hps Hx) as [v ->].
      - intros d Hd. by destruct (Pd _ _ Hps Hd) as [v ->]. }
    { apply Psig. }
    { intros ? ? ?%elem_of_nil. done. }
    rewrite El in Hp. cbn [fst app] in Hp. injection Hp as Ebd Einp. rewrite <-Einp in Hins, Hptr.
    pose proof (Forall2_length _ _ _ Hxs) as Lx.
    assert (env0 = zip_with (fun p x => (p_name p, BOne x)) sig xs) as E0.
    { apply list_eq. intros i. rewrite lookup_zip_with. destruct (sig !! i) as [p|] eqn:Ep; cbn.
      - destruct (Forall2_lookup_l _ _ _ _ _ Hxs Ep) as (x & Ex & Hx). destruct (Forall2_lookup_l _ _ _ _ _ Hpl Ep) as (kv & Ekv & y & -> & _).
        rewrite Ex, Ekv. cbn. pose proof (dget_elem _ _ _ Hn0 (elem_of_list_lookup_2 _ _ _ Ekv)). congruence.
      - apply lookup_ge_None in Ep. apply lookup_ge_None_2. by rewrite <-(Forall2_length _ _ _ Hpl). }
    assert (forall x, x ∈ xs -> exists p, p ∈ sig /\ (p_name p, (x, p_ann p)) ∈ zip_with (fun p x => (p_name p, (x, p_ann p))) sig xs /\ (p_name p, BOne x) ∈ env0) as Hxx.
    { intros x [i Hi]%elem_of_list_lookup. destruct (lookup_lt_is_Some_2 sig i) as [p Hps]; [rewrite Lx; by eapply lookup_lt_Some|].
      exists p. split; [by eapply elem_of_list_lookup_2|]. rewrite E0. split; apply elem_of_list_lookup; exists i; by rewrite lookup_zip_with, Hps; cbn; rewrite Hi. }
    destruct (input_values s m sig xs ins Hs Hg Hnp) as (vs & Hvs & Eins); [done|done| |].
    { intros x Hx. destruct (Hxx x Hx) as (p & Hps & Hin & Hen). split; [by eapply Hptr|].
      apply Hr. apply (Forall2_in_r _ _ _ _ Hpl) in Hen as (q & Hq & y & [= Epq <-] & [Hy|[Hy|Hy]]); eauto. }
    pose proof (Forall2_length _ _ _ Hvs) as Lv.
    assert (forall f, (forall x v, val_of A x v -> f x = AVal v) -> map_env f env0 = env_of sig vs) as Hmap.
    { intros f Hf. rewrite E0. unfold map_env, env_of. clear -Hvs Hf Lx. revert Lx. generalize sig. clear sig. induction Hvs as [|x v xs vs Hv _ IH]; intros [|p sg] Lx; try done.
      cbn in *. rewrite (Hf _ _ Hv). f_equal. apply IH. lia. }
    exists vs. split; [congruence|]. split_and!.
    - rewrite <-(Hmap (pun A)); [|by intros ? ? []]. apply binds_map; [done| |done].
      intros p d Hps Hd. by destruct (Pd _ _ Hps Hd) as [v ->].
    - unfold cids. rewrite <-Eins. unfold idm. rewrite <-list_to_map_fmap. f_equal. unfold idmap. rewrite <-list_fmap_compose. done.
    - intros keys env Hkeys (ak & Ea & Ec).
      destruct (run_binds (pu A) (fun a => deref_pointer (pun A a))) with (sig := sig) (ignore := @nil string) (args := args) (kw := kw) (env := env0)
        (keys := keys) (tup := mk_tuple) (dct := mk_dict) (s := tt) (b := bd) (ins := inputs) (s' := tt) as (args' & kw' & Efa & Hcall).
      + intros r [] w [] [= <-]. done.
      + done.
      + done.
      + intros p Hps Hne. destruct (dget (p_name p) kw) as [x|] eqn:Ed; [|done]. apply dget_Some_elem in Ed.
        destruct (pb_extra _ _ _ _ Hb) as [(q & Hq & Hk)|He]; [by destruct (Pk q Hq)|].
        destruct (He _ _ Ed) as (q & Hq & En & Hby). assert (q = p) as ->; [|done].
        apply elem_of_list_lookup in Hq as [i Hi]. apply elem_of_list_lookup in Hps as [j Hj].
        assert (i = j) as ->; [|congruence]. apply (NoDup_lookup (map p_name sig) i j (p_name p)); [apply Psig|..]; rewrite list_lookup_fmap; [by rewrite Hi, <-En|by rewrite Hj].
      + intros (p & Hps & Hk). by destruct (Pk p Hps).
      + done.
      + by intros p a _ ?%elem_of_nil.
      + done.
      + destruct (parse_args (pu A) sig [] args kw tt) as [rr []]. cbn in Hp'. by rewrite Hp'.
      + fold sig in Ea, Ec. fold A in Ec. rewrite Efa in Ea. injection Ea as <-. cbn [fst snd] in Ec.
        destruct (Hcall sig eq_refl) as (envY & E1 & E2).
        assert (Ok envY = Ok env) as Ee. { rewrite <-E1, <-Ec. unfold map_kw. by rewrite !map_map. }
        injection Ee as <-. rewrite (Hmap ((fun a => deref_pointer (pun A a)) ∘ unmarked)) in E2.
        * clear -E2. symmetry. unfold env_of in *. revert E2. generalize sig. intros sg E2.
          remember (zip_with (fun p v => (p_name p, BOne (AVal v))) sg vs) as e eqn:Ee. 
          assert (Forall (fun kv : string * bval arg => exists x, kv.2 = BOne x) e) as Hone.
          { subst e. clear. revert vs. induction sg as [|p sg IH]; intros [|v vs]; cbn; constructor; eauto. }
          clear Ee. unfold env_eqv in E2. revert Hone. induction E2 as [|[k v] [k' v'] e1 e2 [E Hv] _ IH]; intros Hone; [done|].
          apply Forall_cons in Hone as [[x Hx] Hrest]. cbn in *. subst. inversion Hv; subst. f_equal. by apply IH.
        * intros x v (E3 & E4 & E5). destruct x; cbn in E4; try done; unfold compose; cbn [unmarked]; rewrite E3; destruct v; try done; by destruct E5.
  Qed.

  (** ** Every recorded call of [o] holds a result of [o]'s function *)
  Definition sem (o : opdef) (m : contents pyval ref op) : Prop :=
    forall h i, m_calls m !! h = Some i -> i_op i = op_name (od_op o) ->
      i_cid i = chash H (op_version (od_op o)) (op_name (od_op o)) (fst <$> i_ins i) ->
      exists vs fret vals outs, length vs = length (od_sig o) /\ fst <$> i_ins i = cids (od_sig o) vs /\
        od_fun o (env_of (od_sig o) vs) = Ok fret /\ returned_values (op_nout (od_op o)) fret (map AVal vals) /\
        names_fit (op_onames (od_op o)) (length vals) /\ outputs_are H (od_op o) h vals outs /\ i_outs i = idm outs.

  Lemma outputs_are_keys (o : op) ch ch' vals outs outs' : outputs_are H o ch vals outs -> outputs_are H o ch' vals outs' ->
    map fst outs = map fst outs'.
  Proof. intros -> ->. apply list_eq. intros i. rewrite !list_lookup_fmap, !list_lookup_imap. by destruct (vals !! i). Qed.
  Lemma idm_outputs (o : op) ch vals outs k x : names_fit (op_onames o) (length vals) -> outputs_are H o ch vals outs ->
    idm outs !! k = Some x <-> exists i v, vals !! i = Some v /\ k = dump_output_name i (op_onames o) /\ x = (H v, output_hid H ch k).
  Proof.
    intros Hf Ho. destruct (names_fit_keys H _ _ _ _ Hf Ho) as [_ Hn]. split.
    - intros (r & Hr & ->)%idm_inv. rewrite Ho in Hr. apply elem_of_lookup_imap in Hr as (i & v & [= -> ->] & Hv). by exists i, v.
    - intros (i & v & Hv & -> & ->). apply (idm_Some _ _ (RAtom (H v) (output_hid H ch (dump_output_name i (op_onames o))) (Some v)) Hn).
      rewrite Ho. apply elem_of_lookup_imap. by exists i, v.
  Qed.

  Lemma pl_np m s c v : sinv H s m -> np m -> is_Some (m_atoms m !! c) -> H v = c -> ~ pointer (AVal v).
  Proof using Hinj.
    intros Hs Hnp [w Hw] Hv. pose proof (atoms_hash H _ _ _ _ Hs Hw) as Hh. assert (v = w) as ->; [|by eapply Hnp].
    apply Hinj. congruence.
  Qed.
  Lemma run_sem o o' held s m args kw keys bd inputs r s' m' : ainv (held, s) m -> np m -> sem o m ->
    plain_op o -> atom_op o' -> atom_call held o' args kw s -> NoDup (map fst kw) -> keys ≡ₚ map fst kw ->
    (op_name (od_op o') = op_name (od_op o) -> op_version (od_op o') = op_version (od_op o) -> o' = o /\ nothing_ignored args kw) ->
    (parse_args (pu (m_atoms m)) (od_sig o') (op_ignore (od_op o')) args kw tt).1 = Ok (bd, inputs) ->
    (forall k a t, (k, (a, t)) ∈ inputs -> ~ pointer a) ->
    run_case H o' bd inputs keys s m r s' m' -> np m' /\ sem o m'.
  Proof using Hinj sel_perm.
    intros [Hs Hg Hh] Hnp Hsem Hpo Hao [Hr Hac] Hkw Hkeys Hdef Hp Hptr Hc. cbn in Hs, Hh.
    pose proof (in_refs_ok H _ _ _ _ _ Hr Hh) as Hrefs.
    pose proof (parse_args_props H m _ _ _ _ _ Hrefs (ao_params _ Hao) Hp) as (Hn & Hi & _). cbn in Hn, Hi.
    destruct Hc as [e s' Hf|ins env e s' ? ? ? Hf|ins c s' Hins Hfound Hf|ins c s1 s' m' Hins Hfound Hf Hsv|ins env c s1 s' m' Hins Hnf Hran ? Hsave Hec Hf Hsv]; try done.
    - (* found by content *)
      destruct Hfound as (_ & Hsave & Eh & Ec & Ei & Hop & d & Hd & Edc & Hok & Edo & Fo & _).
      pose proof (g_calls _ _ Hg _ _ Hd) as Gd. destruct (cg_ver _ _ _ _ Gd) as (ver & _ & Gc). cbn in Gc.
      rewrite Edc, Ec, call_cid_chash in Gc. apply (chash_inj H Hinj) in Gc as (<- & _ & Hins2).
      split.
      + intros c0 v [Ha|[h Ha]]%(sc_atoms _ _ _ _ _ _ Hsv); [by eapply Hnp|].
        apply elem_of_app in Ha as [Ha|Ha]; apply elem_of_list_fmap in Ha as ([k0 r0] & Er & Ha); cbn in Er; subst r0.
        * pose proof (sv_ok _ _ _ Hsave) as [Hnd _]. apply NoDup_app in Hnd as [Hnd _]. cbn in Hnd. rewrite map_map in Hnd. cbn in Hnd.
          pose proof (idm_Some _ _ _ Hnd Ha) as E1. rewrite Ei in E1. cbn in E1.
          apply (f_equal (fmap fst)) in E1. rewrite <-lookup_fmap, Hins2, lookup_fmap in E1.
          destruct (list_to_map (d_ins d) !! k0) as [[c1 h1]|] eqn:E2; [|done]. cbn in E1. injection E1 as ->.
          pose proof (cg_ins _ _ _ _ Gd k0 _ E2) as Hsh.
          destruct (sv_ins _ _ _ Hsave _ _ Ha) as [(c2 & h2 & o2 & [= <- <- <-] & _ & Hv)].
          eapply (pl_np m s c0); try done. by eapply (good_shape H).
        * apply (Forall2_in_r _ _ _ _ Fo) in Ha as (kv & _ & [=]).
      + intros h i. rewrite (sc_calls _ _ _ _ _ _ Hsv). destruct (decide (c_hid c = h)) as [<-|]; [|rewrite lookup_insert_ne by done; apply Hsem].
        rewrite lookup_insert. intros [= <-]. cbn [i_op i_cid i_ins info cdata_of d_op d_cid d_ins]. intros Eop Ecid.
        change (list_to_map (map (fun kr : string * ref => (kr.1, (rcid kr.2, rhid kr.2))) (c_ins c))) with (idm (c_ins c)) in *.
        rewrite Ec, call_cid_chash, Ei in Ecid. apply (chash_inj H Hinj) in Ecid as (Ev & En & _).
        destruct (Hdef En Ev) as [-> _].
        destruct (Hsem _ _ Hd) as (vs & fret & vals & outs & L & E1 & E2 & E3 & E4 & E5 & E6).
        { cbn. done. }
        { cbn. rewrite Edc, Ec, call_cid_chash. by rewrite Hins2. }
        exists vs, fret, vals, (imap (fun i v => (dump_output_name i (op_onames (od_op o)), RAtom (H v) (output_hid H (c_hid c) (dump_output_name i (op_onames (od_op o)))) (Some v))) vals).
        split_and!; try done; [by rewrite Ei, Hins2, <-E1|]. cbn [i_outs info cdata_of d_outs].
        change (list_to_map (map (fun kr : string * ref => (kr.1, (rcid kr.2, rhid kr.2))) (c_outs c))) with (idm (c_outs c)).
        cbn in E6.
        pose proof (call_ok_NoDup_outs _ Hok) as Hnd.
        pose proof (call_ok_NoDup_outs _ (sv_ok _ _ _ Hsave)) as Hnd2. cbn in Hnd2. rewrite map_map in Hnd2. cbn in Hnd2.
        apply map_eq. intros k. apply option_eq. intros x. pose proof (idm_outputs (od_op o) (c_hid c) vals _ k x E4 eq_refl) as Hio. rewrite Hio. clear Hio.
        split.
        * intros (r0 & Hr0 & ->)%idm_inv. apply (Forall2_in_r _ _ _ _ Fo) in Hr0 as ([k1 [c1 h1]] & Hkv & [= -> ->]). cbn.
          apply elem_of_list_to_map in Hkv; [|done]. rewrite E6 in Hkv. apply (idm_outputs _ _ _ _ _ _ E4 E5) in Hkv as (i & v & Hv & -> & [= -> ->]).
          by exists i, v.
        * intros (i & v & Hv & -> & ->).
          assert (idm outs !! dump_output_name i (op_onames (od_op o)) = Some (H v, output_hid H (d_hid d) (dump_output_name i (op_onames (od_op o))))) as Hx.
          { apply (idm_outputs _ _ _ _ _ _ E4 E5). by exists i, v. }
          rewrite <-E6 in Hx. apply elem_of_list_to_map_2 in Hx. apply (Forall2_in_l _ _ _ _ Fo) in Hx as ([k1 r1] & Hkr & [= -> ->]).
          apply (idm_Some _ _ _ Hnd2 Hkr).
    - (* executed *)
      pose proof Hec as (ret & vals & outs & Ef & Hrv & Hfit & Hout & Ec).
      destruct (inputs_ok H m Hg _ _ Hn Hi Hptr Hins) as [Ek [Hnd Hpl]].
      split.
      + intros c0 v [Ha|[h Ha]]%(sc_atoms _ _ _ _ _ _ Hsv); [by eapply Hnp|]. subst c. cbn [c_ins c_outs] in Ha.
        apply elem_of_app in Ha as [Ha|Ha]; apply elem_of_list_fmap in Ha as ([k0 r0] & Er & Ha); cbn in Er; subst r0.
        * apply (Forall2_in_r _ _ _ _ Hins) in Ha as ([k1 [a t]] & Hx & _ & Hcr). cbn in Hcr.
          pose proof (Hptr _ _ _ Hx) as Hpa. rewrite Forall_forall in Hi. destruct (Hi _ Hx) as [_ Hri]. cbn in Hri.
          destruct a as [w|r'| | |]; try done; cbn in Hcr.
          -- destruct w; try done; by injection Hcr as _ _ ->.
          -- subst r'. destruct (Hri _ ltac:(left)) as (c2 & h2 & o2 & [= <- <- <-] & Hsh & Hv).
             eapply (pl_np m s c0); try done; [by eapply (good_shape H)|by apply Hv].
        * rewrite Hout in Ha. apply elem_of_lookup_imap in Ha as (i & w & [= -> -> -> <-] & Hw).
          destruct (ao_outputs _ Hao _ _ _ Ef Hrv) as [_ Hnp2].
          destruct (Hnp2 (AVal v)) as (v' & [= <-] & Hv'); [|done]. apply elem_of_list_fmap. exists v. split; [done|]. by eapply elem_of_list_lookup_2.
      + intros h i. rewrite (sc_calls _ _ _ _ _ _ Hsv). destruct (decide (c_hid c = h)) as [<-|]; [|rewrite lookup_insert_ne by done; apply Hsem].
        rewrite lookup_insert. intros [= <-]. subst c. cbn [i_op i_cid i_ins info cdata_of d_op d_cid d_ins c_ins c_op c_cid c_hid]. intros Eop Ecid.
        change (list_to_map (map (fun kr : string * ref => (kr.1, (rcid kr.2, rhid kr.2))) ins)) with (idm ins) in *.
        rewrite call_cid_chash in Ecid. apply (chash_inj H Hinj) in Ecid as (Ev & En & _).
        destruct (Hdef En Ev) as [-> Hni].
        destruct (plain_inputs s m o args kw bd inputs ins Hs Hg Hnp Hpo Hni Hkw Hrefs Hp Hptr Hins) as (vs & L & Hb & Ecids & Henv).
        exists vs, ret, vals, outs. split_and!; try done. by rewrite <-(Henv _ _ Hkeys Hran).
  Qed.

  Lemma astep_sem o x e y m : ainv x m -> np m -> sem o m -> plain_op o ->
    (forall o' args kw r, e = Called o' args kw r -> op_name (od_op o') = op_name (od_op o) -> op_version (od_op o') = op_version (od_op o) ->
       o' = o /\ nothing_ignored args kw) ->
    astep H sel bigA x e y -> exists m', ainv y m' /\ np m' /\ sem o m'.
  Proof using Hinj sel_perm.
    intros Hi Hnp Hsem Hpo Hdef Hst. pose proof (astep_other H sel bigA Hinj _ _ _ _ Hi Hst) as Hoth.
    destruct Hst as [held s o' args kw keys r s' Hao Hac Hndk Hkeys E|held s o' args kw r s' Hr E|held s x r s' Hx E|
      held s c h v s' Hx E|held s b hid r s' E|held s f o' s' Ho E|held s r s' E|held s b|held s Hd];
      [|by exists m; split; [apply Hoth|]..].
    pose proof (call_run_out H sel Hinj sel_perm _ _ _ _ _ _ _ _ _ Hi Hao Hac E) as Hout.
    destruct (parse_args (pu _) _ _ _ _ tt).1 as [[bd inputs]|e] eqn:Hp; [destruct Hout as [m' Hc]|destruct Hout as [-> J1]].
    - exists m'. split; [by eapply (run_case_good H)|]. eapply run_sem; try done.
      + intros; by eapply Hdef.
      + destruct Hi as [Hs Hg Hh]. destruct Hac as [Hr Hac].
        destruct (parse_args_sim H Hinj m (t_calls (s_tabs s)) (s_alias s) (s_allow s) (s_log s) Hg (op_ignore (od_op o')) _ _ _
          (in_refs_ok H _ _ _ _ _ Hr Hh) s (froz_start H _ _ Hs)) as [_ Hx].
        destruct (parse_args unwrap _ _ _ _ s) as [[[b2 i2]|e2] s2] eqn:Ep; cbn [fst snd] in Hx; rewrite Hx in Hp; [|done].
        injection Hp as -> ->. by destruct (Hac _ _ _ eq_refl).
    - exists m. split; [|done]. destruct Hi as [Hs Hg Hh]. split; [apply J1|done|done].
  Qed.
  Lemma areach_sem o es y : plain_op o -> only_definition o es -> areach H sel bigA es y -> exists m, ainv y m /\ np m /\ sem o m.
  Proof using Hinj sel_perm.
    intros Hpo Hdef [ov Hs].
    assert (exists m, ainv ([], new_storage ov) m /\ np m /\ sem o m) as (m & H1 & H2 & H3).
    { exists (Contents ∅ ∅ ∅ ∅). split_and!.
      - split; cbn; [apply tabs_new|apply good_empty|by intros ? ?%elem_of_nil].
      - intros c v. cbn. by rewrite lookup_empty.
      - intros h i. cbn. by rewrite lookup_empty. }
    revert m H1 H2 H3. induction Hs as [x|x e y es z Hs1 Hs2 IH]; intros m H1 H2 H3; [eauto|].
    destruct (astep_sem o x e y m H1 H2 H3 Hpo) as (m' & G1 & G2 & G3); [|done|].
    - intros o' args kw r ->. apply (Hdef o' args kw r). left.
    - apply (IH ltac:(intros ? ? ? ? ?; eapply Hdef; by right) m'); done.
  Qed.

  Lemma unwrapped_ok s m a : sinv H s m -> good m -> refs_ok H m a -> unwrapped s a (pun (m_atoms m) a).
  Proof using Hinj.
    intros Hs Hg Hr. destruct (unwrap_triple H Hinj m (t_calls (s_tabs s)) (s_alias s) (s_allow s) (s_log s) Hg a Hr s (froz_start H _ _ Hs)) as [_ Hx].
    unfold unwrapped. destruct (unwrap a s) as [[x|e] s']; cbn in Hx; [|done]. subst x. eauto.
  Qed.
  Lemma result_is_functions es held s o args kw keys out s' : areach H sel bigA es (held, s) -> plain_op o -> only_definition o es ->
    atom_op o -> atom_call held o args kw s -> nothing_ignored args kw -> NoDup (map fst kw) -> keys ≡ₚ map fst kw ->
    call_run H sel o args kw keys s = (Ok out, s') ->
    exists ret, plain_returns o args kw s ret /\ stands_for (op_nout (od_op o)) s' out ret.
  Proof using Hinj sel_perm.
    intros Hre Hpo Hdef Hao Hac Hni Hkw Hkeys E.
    destruct (areach_sem o _ _ Hpo Hdef Hre) as (m & Hi & Hnp & Hsem).
    pose proof (call_run_out H sel Hinj sel_perm _ _ _ _ _ _ _ _ _ Hi Hao Hac E) as Hout.
    destruct (parse_args (pu _) _ _ _ _ tt).1 as [[bd inputs]|e] eqn:Hp; [destruct Hout as [m' Hc]|by destruct Hout].
    cbn [fst snd] in Hc.
    assert (forall k a t, (k, (a, t)) ∈ inputs -> ~ pointer a) as Hptr.
    { destruct Hi as [Hs Hg Hh]. destruct Hac as [Hr Hac].
      destruct (parse_args_sim H Hinj m (t_calls (s_tabs s)) (s_alias s) (s_allow s) (s_log s) Hg (op_ignore (od_op o)) _ _ _
          (in_refs_ok H _ _ _ _ _ Hr Hh) s (froz_start H _ _ Hs)) as [_ Hx].
      destruct (parse_args unwrap _ _ _ _ s) as [[[b2 i2]|e2] s2] eqn:Ep; cbn [fst snd] in Hx; rewrite Hx in Hp; [|done].
      injection Hp as -> ->. by destruct (Hac _ _ _ eq_refl). }
    destruct (run_sem o o held s m args kw keys bd inputs (Ok out) s' m' Hi Hnp Hsem Hpo Hao Hac Hkw Hkeys ltac:(done) Hp Hptr Hc) as [Hnp' Hsem'].
    destruct (run_case_good H _ _ _ _ _ _ _ _ _ _ Hi Hc) as [G [Hs' Hg' Hh']].
    destruct (run_case_recorded H _ _ _ _ _ _ _ _ _ (ai_good _ _ _ Hi) Hc) as (ins & i & outs & Hins & Hrec & Hndo & Hido & Hpres).
    destruct Hi as [Hs Hg Hh]. cbn in Hs, Hh, Hs', Hh'. pose proof Hac as [Hr _].
    pose proof (in_refs_ok H _ _ _ _ _ Hr Hh) as Hrefs.
    pose proof (parse_args_props H m _ _ _ _ _ Hrefs (ao_params _ Hao) Hp) as (Hn & Hii & _). cbn in Hn, Hii.
    destruct (inputs_ok H m Hg _ _ Hn Hii Hptr Hins) as [_ [Hnd Hpl]].
    destruct (plain_inputs s m o args kw bd inputs ins Hs Hg Hnp Hpo Hni Hkw Hrefs Hp Hptr Hins) as (vs & L & Hb & Ecids & _).
    (* the recorded call has the contents of the inputs *)
    pose proof (g_calls _ _ Hg' _ _ Hrec) as Gd. destruct (cg_ver _ _ _ _ Gd) as (ver & Gh & Gc).
    rewrite call_hid_chash in Gh. apply (chash_inj H Hinj) in Gh as (<- & En & Eids).
    assert (fst <$> i_ins i = fst <$> idm ins) as Ecid.
    { apply map_eq. intros k. apply (f_equal (lookup k)) in Eids. rewrite !lookup_fmap in Eids |- *.
      destruct (i_ins i !! k) as [[c1 h1]|] eqn:E1, (idm ins !! k) as [[c2 h2]|] eqn:E2; try done. cbn in *. injection Eids as ->. f_equal.
      pose proof (cg_ins _ _ _ _ Gd _ _ E1) as Hsh. unfold shape_in in Hsh. cbn in Hsh.
      apply idm_inv in E2 as (r & Hrr & [= -> ->]). destruct (Hpl _ _ Hrr) as [(c3 & h3 & o3 & -> & Hs3 & _)]. cbn in *.
      destruct Hs3 as [Hs3|Hs3].
      - unfold shape_in in Hs3. cbn in Hs3. apply (lookup_weaken _ (m_shapes m')) in Hs3; [|apply G]. congruence.
      - destruct (g_shape _ _ Hg' _ _ Hsh) as (c4 & [= <-] & _ & [E4|(ch & k1 & i1 & E4 & _)]).
        + rewrite E4 in Hs3. apply Hinj in Hs3. by injection Hs3.
        + rewrite Hs3 in E4. by apply symmetry, output_hid_not in E4. }
    destruct (Hsem' _ _ Hrec) as (vs2 & fret & vals & outs2 & L2 & F1 & F2 & F3 & F4 & F5 & F6); [done|by rewrite Gc, En|].
    assert (vs2 = vs) as ->. { apply (cids_inj (od_sig o)); [apply Hpo|done|done|]. congruence. }
    exists fret. split.
    - eexists _, _, _. split_and!; [| |exact Hb|done].
      + apply Forall2_fmap_r, Forall_Forall2_diag, Forall_forall. intros a Ha. apply unwrapped_ok; [done|done|]. apply Hrefs. by left.
      + unfold map_kw. apply Forall2_fmap_r, Forall_Forall2_diag, Forall_forall. intros [k a] Ha. cbn. split; [done|].
        apply unwrapped_ok; [done|done|]. apply Hrefs. right. left. by apply (elem_of_list_fmap_1 snd) in Ha.
    - exists vals, (returned_refs (Ok out)).
      assert (presents (returned_refs (Ok out)) out) as Hprs.
      { unfold presented in Hpres. destruct (get_ordered_outputs _ outs) as [l|]; [|done]. injection Hpres as <-. by destruct l as [|x [|y l]]. }
      split; [done|]. split; [done|].
      destruct (names_fit_keys H _ _ _ _ F4 F5) as [_ Hnd2].
      destruct (presented_same _ _ outs2 _ Hndo Hnd2 ltac:(congruence) Hpres) as (out2 & Hp2 & Hsame).
      assert (map rcid (returned_refs (Ok out)) = map H vals) as Hcids.
      { destruct (parse_returns_total (op_nout (od_op o)) (op_onames (od_op o)) fret (map AVal vals) F3) as (d & anns & Epr).
        pose proof (parse_returns_keys _ _ _ _ _ _ _ F3 ltac:(by rewrite map_length) Epr) as Ed.
        assert (outs2 ≡ₚ map (fun kv => (kv.1, match kv.2 with AVal v => RAtom (H v) (output_hid H (call_hid H (od_op o) ins None) kv.1) (Some v) | _ => RAtom "" "" None end)) d) as Hperm.
        { rewrite F5, Ed. match goal with |- ?a ≡ₚ ?b => assert (a = b) as ->; [|done] end. apply list_eq. intros j. rewrite list_lookup_fmap, !list_lookup_imap, list_lookup_fmap. by destruct (vals !! j). }
        destruct (outputs_roundtrip _ _ _ _ _ _ _ (fun k a => match a with AVal v => RAtom (H v) (output_hid H (call_hid H (od_op o) ins None) k) (Some v) | _ => RAtom "" "" None end) _
          F3 ltac:(by rewrite map_length) Epr Hperm) as (_ & _ & Eord).
        unfold presented in Hp2. rewrite Eord in Hp2. injection Hp2 as <-.
        rewrite Ed, zip_with_imap in Hsame.
        set (l := imap _ (map AVal vals)) in Hsame.
        assert (map rcid l = map H vals) as <-.
        { subst l. apply list_eq. intros j. rewrite !list_lookup_fmap, list_lookup_imap, list_lookup_fmap. by destruct (vals !! j). }
        clearbody l. destruct out as [lo|ro]; destruct l as [|x [|y l]]; cbn [present_outputs same_ids] in Hsame; try done.
        - cbn in Hsame. by destruct lo.
        - apply (f_equal (map fst)) in Hsame. rewrite !map_map in Hsame. exact Hsame.
        - destruct Hsame as [Hsame _]. cbn. by rewrite Hsame. }
      apply Forall2_same_length_lookup_2.
      { apply (f_equal length) in Hcids. by rewrite !map_length in Hcids. }
      intros j r v Hj Hv. apply (f_equal (fun l => l !! j)) in Hcids. rewrite !list_lookup_fmap, Hj, Hv in Hcids. injection Hcids as Hcv.
      destruct (unwrap_ref_triple H Hinj m' (t_calls (s_tabs s')) (s_alias s') (s_allow s') (s_log s') Hg' r
        (Hh' r ltac:(apply elem_of_app; left; by eapply elem_of_list_lookup_2)) s' (froz_start H _ _ Hs')) as [_ Hx].
      destruct (unwrap_ref r s') as [[w|e] s2]; cbn in Hx; [|done]. destruct Hx as [_ Hw]. exists s2. f_equal. f_equal. apply Hinj. congruence.
  Qed.
End results.
