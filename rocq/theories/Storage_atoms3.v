(** Proofs for C01-C03, C08, C18 over histories of programs with atoms, part 3: whole calls and histories. *)
From stdpp Require Import base strings gmap list.
From Verif Require Import Base PyDict PyDict_proofs Returns Spec_Returns Returns_proofs DictStore Spec_DictStore DictStore_proofs
  CallStore Spec_CallStore CallStore_proofs Commit Spec_Commit Commit_proofs Refs Args Ident Storage Spec_Storage Storage_base
  Storage_laws Storage_tabs Spec_Atoms Atoms_rel Storage_atoms Storage_atoms2.

Lemma assoc_last_in {X} k (l : list (nat * X)) x : assoc_last k l = Some x -> (k, x) ∈ l.
Proof.
  induction l as [|[i v] l IH]; cbn; [done|]. destruct (assoc_last k l) as [w|].
  - intros [= ->]. right. by apply IH.
  - case_decide; [|done]. intros [= ->]. subst. left.
Qed.
Lemma ordered_elem {X} names (d : pydict X) l : get_ordered_outputs names d = Ok l -> forall x, x ∈ l -> x ∈ map snd d.
Proof.
  destruct names as [ns|]; cbn.
  - intros E%mapR_Ok_inv x Hx. apply (Forall2_in_r _ _ _ _ E) in Hx as (n & _ & Hn). unfold dindex in Hn.
    destruct (dget n d) eqn:Ed; [|done]. injection Hn as ->. apply dget_Some_elem in Ed. by apply (elem_of_list_fmap_1 snd) in Ed.
  - destruct (mapR _ d) as [ints|] eqn:Ei; [|done]. cbn. intros E%mapR_Ok_inv x Hx.
    apply (Forall2_in_r _ _ _ _ E) in Hx as (n & _ & Hn). destruct (assoc_last n ints) as [y|] eqn:Ea; [|done]. injection Hn as ->.
    apply assoc_last_in in Ea. apply mapR_Ok_inv in Ei. apply (Forall2_in_r _ _ _ _ Ei) in Ea as (kv & Hkv & Ek).
    destruct (parse_output_name kv.1); [|done]. injection Ek as <- <-. by apply (elem_of_list_fmap_1 snd).
Qed.
Definition presented (names : option (list string)) (outs : pydict ref) : result (returned ref) :=
  match get_ordered_outputs names outs with Ok l => Ok (present_outputs l) | Err e => Err e end.
Lemma presented_refs names outs r : r ∈ returned_refs (presented names outs) -> r ∈ map snd outs.
Proof.
  unfold presented. destruct (get_ordered_outputs names outs) as [l|] eqn:E; [|by intros ?%elem_of_nil].
  intros Hr. apply (ordered_elem _ _ _ E). destruct l as [|x [|y l]]; exact Hr.
Qed.

Section atoms3.
  Context (H : pyval -> string) (sel : list crow -> list crow) (bigA : pyval -> bool).
  Hypothesis Hinj : Inj (=) (=) H.
  Hypothesis sel_perm : forall l, sel l ≡ₚ l.
  Notation good := (good H).

  Record ainv (x : list ref * st) (m : contents pyval ref op) : Prop := {
    ai_inv : sinv H x.2 m;
    ai_good : good m;
    ai_held : forall r, r ∈ x.1 -> rok H m r;
  }.
  Notation froz m s lg s' := (frozen H m (t_calls (s_tabs s)) (s_alias s) (s_allow s) lg s').
  Lemma froz_start m s : sinv H s m -> froz m s (s_log s) s.
  Proof. intros Hs. by split. Qed.
  Lemma sinv_calls m s : sinv H s m -> calls_inv m (t_calls (s_tabs s)).
  Proof. intros [_ _ _ IC]. exact IC. Qed.

  (** ** What a call does *)
  Inductive run_case (o : opdef) (bd : pydict (bval arg)) (inputs : pydict (arg * ty)) (keys : list string)
      (s : st) (m : contents pyval ref op) : result (returned ref) -> st -> contents pyval ref op -> Prop :=
    | rc_err e s' : froz m s (s_log s) s' -> run_case o bd inputs keys s m (Err e) s' m
    | rc_fail ins env e s' : inputs_are H inputs ins -> not_found H m (t_calls (s_tabs s)) (od_op o) ins -> ran m o bd keys env ->
        froz m s (s_log s ++ [(od_op o, ins)]) s' -> run_case o bd inputs keys s m (Err e) s' m
    | rc_hit ins c s' : inputs_are H inputs ins -> found_by_hid H m (od_op o) ins c -> froz m s (s_log s) s' ->
        run_case o bd inputs keys s m (presented (op_onames (od_op o)) (c_outs c)) s' m
    | rc_content ins c s1 s' m' : inputs_are H inputs ins -> found_by_content H m (od_op o) ins c -> froz m s (s_log s) s1 ->
        saved_call H c s1 s' m m' ->
        run_case o bd inputs keys s m (presented (op_onames (od_op o)) (c_outs c)) s' m'
    | rc_exec ins env c s1 s' m' : inputs_are H inputs ins -> not_found H m (t_calls (s_tabs s)) (od_op o) ins -> ran m o bd keys env ->
        s_allow s = true -> savec H m c -> exec_call H o ins env c -> froz m s (s_log s ++ [(od_op o, ins)]) s1 ->
        saved_call H c s1 s' m m' ->
        run_case o bd inputs keys s m (presented (op_onames (od_op o)) (c_outs c)) s' m'.

  Lemma in_refs_ok (held : list ref) m o (args : list arg) (kw : pydict arg) :
    passes_held held o args kw ->
    (forall r, r ∈ held -> rok H m r) -> call_refs_ok H m (od_sig o) args kw.
  Proof. intros Hh Hr a Ha r Hra. apply Hr. by eapply Hh. Qed.

  Lemma names_fit_keys o ch vals outs : names_fit (op_onames o) (length vals) -> outputs_are H o ch vals outs ->
    map fst outs = map (fun i => dump_output_name i (op_onames o)) (seq 0 (length vals)) /\ NoDup (map fst outs).
  Proof.
    intros Hf ->. assert (map fst (imap (fun i v => (dump_output_name i (op_onames o), RAtom (H v) (output_hid H ch (dump_output_name i (op_onames o))) (Some v))) vals) =
      map (fun i => dump_output_name i (op_onames o)) (seq 0 (length vals))) as E.
    { apply list_eq. intros i. rewrite !list_lookup_fmap, list_lookup_imap. destruct (vals !! i) eqn:E; cbn.
      - rewrite lookup_seq_lt by (by eapply lookup_lt_Some). done.
      - rewrite lookup_seq_ge; [done|]. by apply lookup_ge_None. }
    split; [done|]. rewrite E. by apply names_fit_NoDup.
  Qed.
  Lemma exec_savec m o inputs ins env c : good m -> NoDup (map fst inputs) -> Forall (in_ok H m) inputs ->
    (forall k a t, (k, (a, t)) ∈ inputs -> ~ pointer a) ->
    (forall k i, k ∈ map fst inputs -> k <> dump_output_name i (op_onames (od_op o))) ->
    (inputs = [] -> forall env ret, od_fun o env = Ok ret -> ret <> RTuple []) ->
    inputs_are H inputs ins -> exec_call H o ins env c -> savec H m c.
  Proof.
    intros Hg Hn Hi Hp Hk Hne Hins (ret & vals & outs & Ef & Hrv & Hfit & Hout & ->).
    destruct (inputs_ok H m Hg _ _ Hn Hi Hp Hins) as [Ek [Hnd Hpl]].
    destruct (names_fit_keys _ _ _ _ Hfit Hout) as [Eo Hndo].
    split; cbn [c_hid c_cid c_op c_ins c_outs].
    - unfold call_ok, cdata_of. cbn [d_ins d_outs c_ins c_outs]. split.
      + rewrite !map_map. cbn [fst]. change (NoDup (map fst ins ++ map fst outs)). apply NoDup_app. split; [done|]. split; [|done].
        intros x Hx Hx'. rewrite Ek in Hx. rewrite Eo in Hx'. apply elem_of_list_fmap in Hx' as (i & -> & _). by eapply Hk.
      + intros [E1 E2]%app_eq_nil. apply map_eq_nil in E1, E2. subst ins outs.
        assert (inputs = []) as -> by (inversion Hins; done).
        apply (Hne eq_refl _ _ Ef). unfold outputs_are in Hout. symmetry in Hout. destruct vals; [|done].
        cbn in Hrv. destruct ret as [l|a]; cbn in Hrv; [|by destruct Hrv]. by destruct Hrv as [<- _].
    - exists (op_version (od_op o)). by rewrite call_hid_chash, call_cid_chash.
    - exact Hpl.
    - intros k r Hr. rewrite Hout in Hr. apply elem_of_lookup_imap in Hr as (i & v & [= -> ->] & _). by exists (H v), (Some v).
  Qed.

  Lemma call_run_out held s m o args kw keys r s' : ainv (held, s) m -> atom_op o -> atom_call held o args kw s ->
    call_run H sel o args kw keys s = (r, s') ->
    match (parse_args (pu (m_atoms m)) (od_sig o) (op_ignore (od_op o)) args kw tt).1 with
    | Err e => r = Err e /\ froz m s (s_log s) s'
    | Ok x => exists m', run_case o x.1 x.2 keys s m r s' m'
    end.
  Proof using Hinj sel_perm.
    intros [Hs Hg Hh] Hao [Hr Hac] E. cbn in Hs, Hh.
    pose proof (in_refs_ok _ _ _ _ _ Hr Hh) as Hrefs.
    pose proof (froz_start _ _ Hs) as J0. pose proof (sinv_calls _ _ Hs) as Hk.
    unfold call_run in E. unfold bindM at 1 in E.
    destruct (parse_args_sim H Hinj m _ _ _ _ Hg (op_ignore (od_op o)) _ _ _ Hrefs s J0) as [J1 Hx].
    destruct (parse_args unwrap (od_sig o) (op_ignore (od_op o)) args kw s) as [[[bd inputs]|e] s1] eqn:Ep; cbn [fst snd] in J1, Hx.
    2: { rewrite Hx. injection E as <- <-. done. }
    destruct (Hac _ _ _ eq_refl) as (Hp & Hk1 & Hne).
    pose proof (parse_args_props H m _ _ _ _ _ Hrefs (ao_params _ Hao) Hx) as (Hn & Hi & Hb). cbn in Hn, Hi, Hb.
    rewrite Hx. cbn [fst snd] in E |- *. unfold bindM at 1 in E.
    destruct (call_internal H sel o inputs bd keys s1) as [ri s2] eqn:Ei.
    destruct (call_internal_out H sel Hinj sel_perm m _ _ _ _ Hg Hk _ _ _ _ _ _ _ J1 Hao Hn Hi Hp Hb Ei) as (lg' & J2 & Hout).
    destruct Hout as [e|ins c Hins Hf|ins env rr Hins Hnf Hran Hal Hc].
    - injection E as <- <-. exists m. by apply rc_err.
    - cbn [fst snd iterM] in E. unfold bindM, liftR, retM in E. destruct Hf as [Hf|Hf].
      + destruct Hf as (d & Hd & Hok & Ed & Hop & Eh & Ec & Eci & Eco & Ecd).
        assert (save_call c s2 = (Ok tt, s2)) as Esv.
        { unfold save_call, if_st. rewrite (has_call_inv H _ _ _ (fz_inv _ _ _ _ _ _ _ J2)), Eh, Hd.
          rewrite bool_decide_eq_true_2 by eauto. done. }
        rewrite Esv in E. exists m.
        assert (r = presented (op_onames (od_op o)) (c_outs c) /\ s' = s2) as [-> ->].
        { unfold presented. destruct (get_ordered_outputs _ _); by simplify_eq. }
        eapply rc_hit; [done| |done]. exists d. split_and!; done.
      + pose proof Hf as (Hnew & Hsv & _).
        destruct (save_call_new H sel Hinj sel_perm s2 m c (fz_inv _ _ _ _ _ _ _ J2) Hg Hsv Hnew) as (s3 & m' & Es & Hsc).
        rewrite Es in E. exists m'.
        assert (r = presented (op_onames (od_op o)) (c_outs c) /\ s' = s3) as [-> ->].
        { unfold presented. destruct (get_ordered_outputs _ _); by simplify_eq. }
        by eapply rc_content.
    - destruct rr as [[c cs]|e].
      2: { injection E as <- <-. exists m. by eapply rc_fail. }
      destruct Hc as [Ecs Hec]. cbn in Ecs, Hec. subst cs. cbn [fst snd iterM] in E. unfold bindM, liftR, retM in E.
      pose proof (exec_savec _ _ _ _ _ _ Hg Hn Hi Hp Hk1 Hne Hins Hec) as Hsv.
      assert (c_hid c = call_hid H (od_op o) ins None) as Ech by (by destruct Hec as (? & ? & ? & _ & _ & _ & _ & ->)).
      destruct (save_call_new H sel Hinj sel_perm s2 m c (fz_inv _ _ _ _ _ _ _ J2) Hg Hsv) as (s3 & m' & Es & Hsc).
      { rewrite Ech. apply Hnf. }
      rewrite Es in E. exists m'.
      assert (r = presented (op_onames (od_op o)) (c_outs c) /\ s' = s3) as [-> ->].
      { unfold presented. destruct (get_ordered_outputs _ _); by simplify_eq. }
      by eapply rc_exec.
  Qed.

  Lemma run_case_good o bd inputs keys held s m r s' m' : ainv (held, s) m ->
    run_case o bd inputs keys s m r s' m' -> grow m m' /\ ainv (returned_refs r ++ held, s') m'.
  Proof.
    intros [Hs Hg Hh] Hc. cbn in Hs, Hh.
    assert (forall c s1 m2, saved_call H c s1 s' m m2 -> (forall k x, (k, x) ∈ c_outs c -> exists cc h o, x = RAtom cc h o /\ forall v, o = Some v -> H v = cc) ->
      grow m m2 /\ ainv (returned_refs (presented (op_onames (od_op o)) (c_outs c)) ++ held, s') m2) as Hsaved.
    { intros c s1 m2 [S1 S2 S3 S4 S5 S6 S7 S8 S9 S10 S11] Hat. split; [done|]. split; cbn; [done|done|].
      intros x [Hx|Hx]%elem_of_app; [|by eapply rok_grow, Hh]. apply presented_refs in Hx.
      assert (shape_in m2 (rcid x, rhid x)) as Hsh by (apply S6, elem_of_app; by right).
      apply elem_of_list_fmap in Hx as ([k0 x'] & -> & Hx). destruct (Hat _ _ Hx) as (cc & h & oo & -> & Hv). by exists cc, h, oo. }
    destruct Hc as [e s' Hf|ins env e s' ? ? ? Hf|ins c s' Hins Hfound Hf|ins c s1 s' m' Hins Hfound Hf Hsv|ins env c s1 s' m' Hins ? ? ? Hsave Hec Hf Hsv].
    - split; [done|]. by split; [apply Hf|..].
    - split; [done|]. by split; [apply Hf|..].
    - split; [done|]. split; cbn; [apply Hf|done|]. intros x [Hx|Hx]%elem_of_app; [|by apply Hh].
      apply presented_refs in Hx. destruct Hfound as (d & Hd & Hok & _ & _ & _ & _ & _ & Eco & _). rewrite Eco in Hx.
      unfold refmap in Hx. rewrite map_map in Hx. cbn in Hx. apply elem_of_list_fmap in Hx as ([k0 [c0 h0]] & -> & Hx). cbn.
      exists c0, h0, None. split_and!; [done| |done].
      eapply (cg_outs H m (d_hid d) (info d) (g_calls _ _ Hg _ _ Hd) k0). apply elem_of_list_to_map; [by apply call_ok_NoDup_outs|done].
    - eapply Hsaved; [done|]. intros k0 x Hx. destruct Hfound as (_ & _ & _ & _ & _ & _ & d & _ & _ & _ & _ & Fo & _).
      apply (Forall2_in_r _ _ _ _ Fo) in Hx as (kv & _ & [= -> ->]). eexists _, _, _. split; [done|]. done.
    - eapply Hsaved; [done|]. intros k0 x Hx. destruct Hec as (ret & vals & outs & _ & _ & _ & Ho & ->). cbn in Hx. rewrite Ho in Hx.
      apply elem_of_lookup_imap in Hx as (i & v & [= -> ->] & _). eexists _, _, _. split; [done|]. by intros ? [= ->].
  Qed.

  (** ** Steps that do not record calls *)
  Lemma noop_frozen held s m o args kw r s' : ainv (held, s) m ->
    passes_held held o args kw ->
    call_noop o args kw s = (r, s') -> froz m s (s_log s) s'.
  Proof using Hinj.
    intros [Hs Hg Hh] Hr E. cbn in Hs, Hh.
    pose proof (in_refs_ok _ _ _ _ _ Hr Hh) as Hrefs. pose proof (froz_start _ _ Hs) as J0.
    assert (triple (frozen H m (t_calls (s_tabs s)) (s_alias s) (s_allow s) (s_log s)) (call_noop o args kw) (fun _ => True) (fun _ => True)) as Ht;
      [|by destruct (Ht s J0) as [J1 _]; rewrite E in J1].
    unfold call_noop.
    apply triple_bind with (Q := fun x => (parse_args (pu (m_atoms m)) (od_sig o) (op_ignore (od_op o)) args kw tt).1 = Ok x).
    { eapply triple_mono; [by apply (parse_args_sim H Hinj m _ _ _ _ Hg)|done|done]. }
    intros [bd inputs] Hx.
    assert (forall kv, kv ∈ bd -> bref_ok H m kv.2) as Hb.
    { pose proof Hx as Hx'. unfold parse_args, bindM, liftR in Hx'. destruct (bind_full (od_sig o) args kw) as [b0|] eqn:Eb; [|done].
      pose proof (bound_refs H m _ _ _ _ Hrefs Eb) as Hb0.
      revert Hx'. generalize (@nil (string * (arg * ty))). intros acc. clear Hx. change (od_sig o) with (od_sig o) in *.
      assert (forall p d, p ∈ od_sig o -> p_default p = Some d -> refs_ok H m d) as Hd by (intros p d ? ?; apply Hrefs; eauto).
      clear Eb. revert Hd. generalize (od_sig o). intros sig. revert acc bd. induction sig as [|p sig IH]; intros acc bd Hd; cbn [parse_loop].
      - intros [= <- _]. by intros ? ?%elem_of_nil.
      - assert (forall p d, p ∈ sig -> p_default p = Some d -> refs_ok H m d) as Hd' by (intros; eapply Hd; [by right|done]).
        destruct (dget (p_name p) b0) as [v|] eqn:Ev; [|by apply IH].
        unfold bindM. destruct (parse_one (pu (m_atoms m)) (op_ignore (od_op o)) p v tt) as [[y|e] []] eqn:Ey; [|done].
        destruct (parse_loop (pu (m_atoms m)) _ sig b0 (dupdate acc y.2) tt) as [[z|e] []] eqn:Ez; [|done]. intros [= <- Ezi]. cbn [fst snd].
        intros kv [->|Hkv]%elem_of_cons; [|eapply (IH (dupdate acc y.2) z.1); [done| |done]; rewrite Ez, <-Ezi; by destruct z].
        cbn. refine (parse_one_bound H m (op_ignore (od_op o)) p v y (Hb0 _ (dget_Some_elem _ _ _ Ev)) (fun d => Hd p d ltac:(left)) _). by rewrite Ey. }
    apply triple_bind with (Q := fun ak => Forall (refs_ok H m) ak.1 /\ dP (refs_ok H m) ak.2).
    { apply triple_lift. cbn [fst]. destruct (boundargs_to_args_kwargs (od_sig o) bd) as [ak|] eqn:Ea; [|done].
      eapply (to_args_kwargs_P (refs_ok H m)); [|done]. by apply bref_dP. }
    intros [ar kws] [P1 P2]. cbn [fst snd] in *.
    assert (forall a, refs_ok H m a -> refs_ok H m (unwrap_special_value a)) as Hsp.
    { intros a Ha. destruct a as [[]| | | |]; try exact Ha. }
    apply triple_bind with (Q := fun _ => True).
    { eapply triple_mono; [apply (unwrap_args_triple H Hinj m _ _ _ _ Hg)|done|done].
      apply Forall_fmap. eapply Forall_impl; [done|]. exact Hsp. }
    intros ar' _. apply triple_bind with (Q := fun _ => True).
    { eapply triple_mono; [apply (unwrap_kwargs_triple H Hinj m _ _ _ _ Hg kws unwrap_special_value)|done|done].
      eapply Forall_impl; [done|]. intros x. apply Hsp. }
    intros kw' _. apply triple_bind with (Q := fun _ => True); [apply triple_lift; by destruct (py_call _ _ _)|].
    intros env _. apply triple_lift. by destruct (od_fun o env).
  Qed.

  (** ** Histories *)
  Lemma astep_other x e y m : ainv x m -> astep H sel bigA x e y -> (forall o args kw r, e <> Called o args kw r) -> ainv y m.
  Proof using Hinj.
    intros Hi Hst Hne. destruct Hst as [held s o args kw keys r s' Hao Hac Hndk Hkeys E|held s o args kw r s' Hr E|held s x r s' Hx E|
      held s c h v s' Hx E|held s b hid r s' E|held s f o s' Ho E|held s r s' E|held s b|held s Hd].
    - by destruct (Hne o args kw r).
    - pose proof (noop_frozen _ _ _ _ _ _ _ _ Hi Hr E) as J1. destruct Hi as [Hs Hg Hh]. split; [apply J1|done|done].
    - destruct Hi as [Hs Hg Hh].
      destruct (unwrap_ref_triple H Hinj m _ _ _ _ Hg x (Hh x Hx) s (froz_start _ _ Hs)) as [J1 _]. rewrite E in J1.
      split; [apply J1|done|done].
    - destruct Hi as [Hs Hg Hh].
      destruct (unwrap_ref_triple H Hinj m _ _ _ _ Hg _ (Hh _ Hx) s (froz_start _ _ Hs)) as [J1 Hv]. rewrite E in J1, Hv.
      split; [apply J1|done|]. cbn. intros r [->|Hr]%elem_of_cons; [|by apply Hh].
      destruct (Hh _ Hx) as (c' & h' & o' & [= <- <- <-] & Hsh & _). exists c, h, (Some v). split_and!; [done|done|].
      intros w [= <-]. apply Hv.
    - destruct Hi as [Hs Hg Hh].
      destruct (load_any_triple H Hinj m _ _ _ _ Hg b hid s (froz_start _ _ Hs)) as [J1 Hv]. rewrite E in J1, Hv.
      split; [apply J1|done|]. cbn. intros x [->|Hr]%elem_of_cons; [done|by apply Hh].
    - destruct Hi as [Hs Hg Hh]. split; [|done|done]. cbn in *.
      unfold commit_storage in E. unfold on_tabs in E. destruct (commit_disk _ _ _ f o (s_tabs s)) as [rr t'] eqn:Et.
      injection E as -> <-. by eapply (tabs_commit H bigA Hinj).
    - destruct Hi as [Hs Hg Hh]. split; [|done|done]. cbn in *.
      unfold clear_storage in E. destruct (clear_cache false (s_tabs s)) as [[u|ee] t'] eqn:Et; injection E as <- <-;
        exact (proj1 (tabs_clear H _ _ _ _ Hs Et)).
    - destruct Hi as [Hs Hg Hh]. by split.
    - destruct Hi as [Hs Hg Hh]. split; [|done|done]. cbn in *.
      exact (tabs_reopen H _ _ Hs Hd).
  Qed.
  Lemma astep_good x e y m : ainv x m -> astep H sel bigA x e y -> exists m', grow m m' /\ ainv y m'.
  Proof using Hinj sel_perm.
    intros Hi Hst. pose proof (astep_other _ _ _ _ Hi Hst) as Hoth.
    destruct Hst as [held s o args kw keys r s' Hao Hac Hndk Hkeys E|held s o args kw r s' Hr E|held s x r s' Hx E|
      held s c h v s' Hx E|held s b hid r s' E|held s f o s' Ho E|held s r s' E|held s b|held s Hd];
      [|by exists m; split; [|apply Hoth]..].
    pose proof (call_run_out _ _ _ _ _ _ _ _ _ Hi Hao Hac E) as Hout.
    destruct (parse_args _ _ _ _ _ tt).1 as [x|e]; [destruct Hout as [m' Hc]|destruct Hout as [-> J1]].
    - exists m'. by eapply run_case_good.
    - exists m. split; [done|]. destruct Hi as [Hs Hg Hh]. split; [apply J1|done|done].
  Qed.
  Lemma asteps_good x es y m : ainv x m -> asteps H sel bigA x es y -> exists m', grow m m' /\ ainv y m'.
  Proof using Hinj sel_perm.
    intros Hi Hs. revert m Hi. induction Hs as [x|x e y es z H1 H2 IH]; intros m Hi; [by exists m|].
    destruct (astep_good _ _ _ _ Hi H1) as (m1 & G1 & Hi1). destruct (IH _ Hi1) as (m2 & G2 & Hi2). exists m2. split; [by etrans|done].
  Qed.
  Lemma areach_good es y : areach H sel bigA es y -> exists m, ainv y m.
  Proof using Hinj sel_perm.
    intros [ov Hs]. apply (asteps_good _ _ _ (Contents ∅ ∅ ∅ ∅)) in Hs as (m & _ & Hm); [by exists m|].
    split; cbn; [apply tabs_new|apply good_empty|by intros ? ?%elem_of_nil].
  Qed.
End atoms3.
