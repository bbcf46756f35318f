(** Proofs for C02 and C18 over histories of programs with atoms. *)
From stdpp Require Import base strings gmap list.
From Verif Require Import Base PyDict PyDict_proofs Returns Spec_Returns Returns_proofs DictStore Spec_DictStore DictStore_proofs
  CallStore Spec_CallStore CallStore_proofs Commit Spec_Commit Commit_proofs Refs Args Ident Storage Spec_Storage Storage_base
  Storage_laws Storage_tabs Spec_Atoms Atoms_rel Storage_atoms Storage_atoms2 Storage_atoms3 Storage_atoms4.

Lemma save_rows ks s c : cc_inv ks s -> call_ok c -> ks.1 !! d_hid c = None ->
  mc_rows (cc_cache (cc_save c s)) = mc_rows (cc_cache s) ++ rows_of c.
Proof.
  intros [I1 I2 I3 I4 I5] Hok He.
  assert (Hnc : d_hid c ∉ mc_hids (cc_cache s)).
  { intros HH. apply I1 in HH as [[? ?] _]. congruence. }
  destruct (I2 _ Hnc) as [Hr Hk]. cbn. unfold mc_save. rewrite decide_False by done. cbn. apply fold_upsert.
  - rewrite rows_of_names. apply Hok.
  - intros r r' H1%rows_of_hid H2 E. rewrite rows_for_nil in Hr. apply Hr.
    rewrite <-H1, <-E. by apply elem_of_list_fmap_1.
  - intros r r' H1%rows_of_hid H2%rows_of_hid. congruence.
Qed.
Lemma rows_of_cid c r : r ∈ rows_of c -> r_ccid r = d_cid c.
Proof. unfold rows_of. intros [(x & -> & _)%elem_of_list_fmap|(x & -> & _)%elem_of_list_fmap]%elem_of_app; done. Qed.

Section atoms5.
  Context (H : pyval -> string) (sel : list crow -> list crow) (bigA : pyval -> bool).
  Hypothesis Hinj : Inj (=) (=) H.
  Hypothesis sel_perm : forall l, sel l ≡ₚ l.
  Notation good := (good H).
  Notation ainv := (ainv H).

  Definition seen (s : st) (cid : string) : Prop := cid ∈ map r_ccid (mc_rows (cc_cache (t_calls (s_tabs s)))).
  Lemma saved_seen c s s' m m' : sinv H s m -> saved_call H c s s' m m' -> m_calls m !! c_hid c = None -> call_ok (cdata_of c) ->
    (forall cid, seen s cid -> seen s' cid) /\ seen s' (c_cid c).
  Proof.
    intros Hs [S1 S2 S3 S4 S5 S6 S7 S8 S9 S10] Hnew Hok.
    destruct (sinv_calls H _ _ Hs) as [mc IC]. pose proof (save_rows _ _ _ IC Hok Hnew) as Er. unfold seen. rewrite S7, Er.
    split; [intros cid Hc; rewrite map_app; apply elem_of_app; by left|]. rewrite map_app. apply elem_of_app. right.
    pose proof (rows_of_nonempty _ Hok) as Hne. destruct (rows_of (cdata_of c)) as [|r l] eqn:El; [done|].
    assert (r ∈ rows_of (cdata_of c)) as Hr by (rewrite El; left). apply rows_of_cid in Hr. cbn in Hr. rewrite <-Hr. left.
  Qed.
  Lemma step_seen x e y m : ainv x m -> astep H sel bigA x e y -> e <> Forgot -> (forall o args kw r, e = Called o args kw r -> exists ret, r = Ok ret) ->
    (forall cid, seen x.2 cid -> seen y.2 cid) /\
    (s_log y.2 = s_log x.2 \/ exists o ins, s_log y.2 = s_log x.2 ++ [(o, ins)] /\ ~ seen x.2 (call_cid H o ins None) /\ seen y.2 (call_cid H o ins None)).
  Proof using Hinj sel_perm.
    intros Hi Hst Hnf Hok. destruct Hst as [held s o args kw keys r s' Hao Hac Hndk Hkeys E|held s o args kw r s' Hr E|held s x r s' Hx E|
      held s c h v s' Hx E|held s b hid r s' E|held s f o s' Ho E|held s r s' E|held s b|held s Hd]; cbn [snd].
    - destruct (Hok _ _ _ _ eq_refl) as [ret ->].
      pose proof (call_run_out H sel Hinj sel_perm _ _ _ _ _ _ _ _ _ Hi Hao Hac E) as Hout.
      destruct (parse_args _ _ _ _ _ tt).1 as [x|e] eqn:Hx; [destruct Hout as [m' Hc]|by destruct Hout].
      remember (Ok ret) as r eqn:Er.
      destruct Hc as [e s' Hf|ins env e s' ? ? ? Hf|ins c s' Hins Hfound Hf|ins c s1 s' m' Hins Hfound Hf Hsv|ins env c s1 s' m' Hins Hnf' ? ? Hsave Hec Hf Hsv];
        [done|done|..].
      + destruct Hf as [_ F2 _ _ F5]. unfold seen. rewrite F2, F5. auto.
      + pose proof Hfound as (Hnew & [Hcok _ _ _] & _). destruct (saved_seen _ _ _ _ _ (fz_inv _ _ _ _ _ _ _ Hf) Hsv Hnew Hcok) as [Q1 Q2].
        destruct Hf as [_ F2 _ _ F5]. split; [|left; by rewrite (sc_log _ _ _ _ _ _ Hsv)]. intros cid Hc. apply Q1. unfold seen in *. by rewrite F2.
      + destruct Hnf' as [Hnew Hncont].
        assert (c_hid c = call_hid H (od_op o) ins None /\ c_cid c = call_cid H (od_op o) ins None) as [Eh Ec]
          by (by destruct Hec as (? & ? & ? & _ & _ & _ & _ & ->)).
        assert (call_ok (cdata_of c)) as Hcok.
        { apply Hsave. }
        rewrite <-Eh in Hnew.
        destruct (saved_seen _ _ _ _ _ (fz_inv _ _ _ _ _ _ _ Hf) Hsv Hnew Hcok) as [Q1 Q2].
        destruct Hf as [_ F2 _ _ F5]. split; [intros cid Hc; apply Q1; unfold seen in *; by rewrite F2|].
        right. exists (od_op o), ins. rewrite (sc_log _ _ _ _ _ _ Hsv), F5. split; [done|]. rewrite <-Ec. split; [|done].
        intros Hse. unfold cc_exists_content in Hncont. apply orb_false_elim in Hncont as [Hn _].
        unfold mc_exists_content in Hn. apply bool_decide_eq_false in Hn. rewrite <-Ec in Hn. by apply Hn.
    - pose proof (noop_frozen H Hinj _ _ _ _ _ _ _ _ Hi Hr E) as [_ F2 _ _ F5]. unfold seen. rewrite F2, F5. auto.
    - destruct Hi as [Hs Hg Hh].
      destruct (unwrap_ref_triple H Hinj m _ _ _ _ Hg x (Hh x Hx) s (froz_start H _ _ Hs)) as [J1 _]. rewrite E in J1.
      destruct J1 as [_ F2 _ _ F5]. cbn in F2, F5. unfold seen. rewrite F2, F5. auto.
    - destruct Hi as [Hs Hg Hh].
      destruct (unwrap_ref_triple H Hinj m _ _ _ _ Hg _ (Hh _ Hx) s (froz_start H _ _ Hs)) as [J1 _]. rewrite E in J1.
      destruct J1 as [_ F2 _ _ F5]. cbn in F2, F5. unfold seen. rewrite F2, F5. auto.
    - destruct Hi as [Hs Hg Hh].
      destruct (load_any_triple H Hinj m _ _ _ _ Hg b hid s (froz_start H _ _ Hs)) as [J1 _]. rewrite E in J1.
      destruct J1 as [_ F2 _ _ F5]. cbn in F2, F5. unfold seen. rewrite F2, F5. auto.
    - destruct Hi as [Hs Hg Hh]. cbn in Hs.
      unfold commit_storage in E. unfold on_tabs in E. destruct (commit_disk _ _ _ f o (s_tabs s)) as [rr t'] eqn:Et.
      injection E as -> <-. destruct (tabs_commit H bigA Hinj _ _ _ _ _ Hs Ho Et) as [_ Ec]. unfold seen. cbn. rewrite Ec. auto.
    - done.
    - auto.
    - done.
  Qed.

  (** ** C02: in a process every computation is executed once *)
  Lemma executed_cid o ins o' ins' : executed (o, ins) = executed (o', ins') -> call_cid H o ins None = call_cid H o' ins' None.
  Proof. unfold executed, call_cid. cbn [fst snd]. intros E. assert (op_name o = op_name o' /\ op_version o = op_version o' /\ cid_dict ins = cid_dict ins') as (-> & -> & ->); [|done].
    split_and!; [exact (f_equal (fun x => x.1.1) E)|exact (f_equal (fun x => x.1.2) E)|exact (f_equal snd E)]. Qed.
  Lemma executed_once x es y m : ainv x m -> asteps H sel bigA x es y ->
    Forgot ∉ es -> (forall o args kw r, Called o args kw r ∈ es -> exists ret, r = Ok ret) ->
    exists new, s_log y.2 = s_log x.2 ++ new /\ NoDup (map executed new) /\
      (forall e, e ∈ new -> ~ seen x.2 (call_cid H e.1 e.2 None) /\ seen y.2 (call_cid H e.1 e.2 None)) /\
      forall cid, seen x.2 cid -> seen y.2 cid.
  Proof using Hinj sel_perm.
    intros Hi Hs. revert m Hi. induction Hs as [x|x e y es z H1 H2 IH]; intros m Hi Hnf Hok.
    - exists []. split_and!; [by rewrite app_nil_r|constructor|by intros ? ?%elem_of_nil|done].
    - destruct (astep_good H sel bigA Hinj sel_perm _ _ _ _ Hi H1) as (m1 & G1 & Hi1).
      destruct (step_seen _ _ _ _ Hi H1) as [Hmono Hlog].
      { intros ->. apply Hnf. left. }
      { intros o args kw r ->. eapply Hok. left. }
      destruct (IH _ Hi1) as (new & El & Hn & Hse & Hmono2).
      { intros Hin. apply Hnf. by right. }
      { intros o args kw r Hin. eapply Hok. by right. }
      destruct Hlog as [Hlog|(o & ins & Hlog & Hns & Hsn)].
      + exists new. rewrite El, Hlog. split_and!; [done|done| |auto]. intros e' He'. destruct (Hse _ He') as [A1 A2]. split; [|done].
        intros Hs. by apply A1, Hmono.
      + exists ((o, ins) :: new). split_and!.
        * by rewrite El, Hlog, <-app_assoc.
        * cbn [map]. constructor; [|done]. intros ([o' ins'] & He & Hin)%elem_of_list_fmap. apply Hse in Hin as [A1 _]. cbn in A1.
          by rewrite <-(executed_cid _ _ _ _ He) in A1.
        * intros e' [->|He']%elem_of_cons; [cbn; auto|]. destruct (Hse _ He') as [A1 A2]. split; [|done]. intros Hs. by apply A1, Hmono.
        * auto.
  Qed.

  (** ** C18: recorded calls can be read *)
  Section frozen.
    Context (m : contents pyval ref op) (k : ccalls) (al : option mcalls) (b : bool) (lg : list (op * pydict ref)).
    Context (Hg : good m).
    Notation J := (frozen H m k al b lg).
    Notation A := (m_atoms m).
    Lemma load_refs_any im (d : pydict ids) : (forall kv, kv ∈ d -> shape_in m kv.2) ->
      triple J (load_refs im d) (fun l => idmap l = d /\ (im = false -> forall k r, (k, r) ∈ l -> exists h v, r = RAtom (H v) h (Some v))) (fun _ => False).
    Proof using Hinj Hg.
      intros Hd. apply (triple_J H m k al b lg). intros Hh. unfold load_refs. eapply triple_mono.
      - apply triple_mapM with (Q := fun kv y => exists v, A !! kv.2.1 = Some v /\ y = (kv.1, RAtom kv.2.1 kv.2.2 (if im then None else Some v))). intros [k' [c h]] Hx.
        eapply triple_bind; [apply (load_ref_triple H Hinj m k al b lg Hg c h im); by apply (Hd _ Hx)|]. intros r (v & Hv & ->). apply triple_ret. eauto.
      - intros l Hl. clear Hd. split.
        + unfold idmap. induction Hl as [|[k' [c h]] y l l' (v & _ & ->) _ IH]; cbn in *; [done|]. by rewrite IH.
        + intros -> k' r Hr. apply (Forall2_in_r _ _ _ _ Hl) in Hr as ([k2 [c h]] & _ & v & Hv & [= -> ->]). cbn in *.
          exists h, v. by rewrite (Hh _ _ Hv).
      - done.
    Qed.
    Lemma call_from_data_any im d : m_calls m !! d_hid d = Some (info d) -> call_ok d ->
      triple J (call_from_data d im) (loaded H im d) (fun _ => False).
    Proof using Hinj Hg.
      intros Hi Hok. destruct (g_calls _ _ Hg _ _ Hi) as [_ [o Ho] _ Gi Go]. cbn in Ho, Gi, Go.
      apply triple_bind with (Q := fun o' => o' = o).
      { eapply triple_mono; [apply get_op_triple| |]; cbn; [congruence|]. intros e He. congruence. }
      intros _ ->. eapply triple_bind.
      { apply (load_refs_any im). intros [k' x] Hx. apply (Gi k'). apply elem_of_list_to_map; [by apply call_ok_NoDup_ins|done]. }
      intros l1 [E1 V1]. eapply triple_bind.
      { apply (load_refs_any im). intros [k' x] Hx. apply (Go k'). apply elem_of_list_to_map; [by apply call_ok_NoDup_outs|done]. }
      intros l2 [E2 V2]. apply triple_ret. split; cbn; try done.
      - by apply (g_ops _ _ Hg).
      - intros Him k' r [Hr|Hr]%elem_of_app; eauto.
    Qed.
  End frozen.
  Lemma recorded_info s m hid : sinv H s m -> recorded s hid -> exists i, m_calls m !! hid = Some i.
  Proof. intros Hs Hr. unfold recorded in Hr. rewrite (has_call_inv H _ _ _ Hs) in Hr. apply bool_decide_eq_true in Hr. done. Qed.
  Lemma recorded_loads held s m hid im : ainv (held, s) m -> recorded s hid ->
    exists d c s', cc_get sel hid (t_calls (s_tabs s)) = Ok d /\ d_hid d = hid /\ call_from_data d im s = (Ok c, s') /\ loaded H im d c.
  Proof using Hinj sel_perm.
    intros [Hs Hg _] Hr. cbn in Hs. destruct (recorded_info _ _ _ Hs Hr) as [i Hi].
    destruct (calls_get sel sel_perm _ _ _ _ (sinv_calls H _ _ Hs) Hi) as (d & Ed & <- & Hok).
    pose proof (cg_hid _ _ _ _ (g_calls _ _ Hg _ _ Hi)) as Hhid. cbn in Hhid. rewrite <-Hhid in Hi.
    destruct (call_from_data_any m _ _ _ _ Hg im d Hi Hok s (froz_start H _ _ Hs)) as [_ Hc].
    destruct (call_from_data d im s) as [[c|e] s'] eqn:Ec; [|done]. exists d, c, s'. done.
  Qed.
  Lemma mget_loads held s m hids im : ainv (held, s) m -> s_alias s = None -> (forall hid, hid ∈ hids -> recorded s hid) ->
    exists cs s', mget_call sel hids im s = (Ok cs, s') /\
      Forall2 (fun hid c => c_hid c = hid /\ exists d, d_hid d = hid /\ loaded H im d c) hids cs.
  Proof using Hinj sel_perm.
    intros [Hs Hg _] Hal Hr. cbn in Hs.
    destruct (sinv_calls H _ _ Hs) as [mc [I1 I2 I3 I4 I5]]. cbn in *.
    unfold mget_call, call_cache. rewrite Hal. cbn [default from_option].
    destruct (mget_ordered_ok sel sel_perm (cc_cache (t_calls (s_tabs s))) (cc_pers (t_calls (s_tabs s))) (m_calls m) hids) as (ds & Eds & Hds).
    - intros hid Hh. destruct (recorded_info _ _ _ Hs (Hr _ Hh)) as [i Hi]. eauto.
    - intros hid Hh Hc. by apply I1.
    - intros hid Hh Hc. destruct (I2 _ Hc) as [_ ->]. apply I5.
    - unfold default. cbn [from_option]. rewrite Eds.
      assert (Forall2 (fun hid d => d_hid d = hid /\ m_calls m !! d_hid d = Some (info d) /\ call_ok d) hids ds) as Hds'.
      { eapply Forall2_impl; [exact Hds|]. intros hid d [Hd Hok]. cbn in Hd. pose proof (cg_hid _ _ _ _ (g_calls _ _ Hg _ _ Hd)) as Hhid. cbn in Hhid. by subst. }
      assert (triple (frozen H m (t_calls (s_tabs s)) (s_alias s) (s_allow s) (s_log s)) (mapM' (fun d => call_from_data d im) ds)
        (Forall2 (loaded H im) ds) (fun _ => False)) as Ht.
      { apply triple_mapM. intros d Hd. apply (Forall2_in_r _ _ _ _ Hds') in Hd as (hid & _ & _ & Hi & Hok).
        by apply call_from_data_any. }
      destruct (Ht s (froz_start H _ _ Hs)) as [_ Hcs]. destruct (mapM' _ ds s) as [[cs|e] s']; [|done]. cbn in Hcs.
      exists cs, s'. split; [done|]. clear -Hds' Hcs. revert cs Hcs. induction Hds' as [|hid d l l' [Hd _] _ IH]; intros cs Hcs; inversion Hcs; subst; constructor.
      + split; [by apply (ld_hid _ _ _ _ H2)|]. eauto.
      + auto.
  Qed.
End atoms5.
