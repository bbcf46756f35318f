(** Upstream, downstream, midstream and dropping what is unreachable. *)
From stdpp Require Import base strings gmap list relations.
From Verif Require Import Base PyDict PyDict_proofs Refs Storage Frame Spec_Frame Frame_base Frame_ok Frame_ok2 Frame_sel Frame_reach Frame_reach2
  Paths Spec_Paths Paths_proofs.

Lemma smrel_sets U F n x : consistent U F -> smrel (f_sets F) n x <-> in_node F n x.
Proof.
  intros HF. unfold in_node, in_var, in_func, f_sets, smrel. split.
  - intros (X & HX & Hx). apply lookup_union_Some_raw in HX as [HX|[_ HX]]; eauto.
  - intros [(X & HX & Hx)|(X & HX & Hx)]; exists X; (split; [|done]).
    + rewrite lookup_union_r; [done|]. apply not_elem_of_dom. intros Hf. eapply (k_disj _ _ HF n); [|exact Hf]. apply elem_of_dom. eauto.
    + by apply lookup_union_Some_l.
Qed.
Lemma dom_sets F : dom (f_sets F) = f_nodes F.
Proof. unfold f_sets, f_nodes, vnames, fnames. rewrite dom_union_L. set_solver. Qed.

(** what restricting to given elements gives: same nodes and edges, the given elements *)
Record restricted (elts : setmap) (F R : frame) : Prop := Restricted {
  rs_v : vnames R = vnames F;
  rs_f : fnames R = fnames F;
  rs_var : forall v h, in_var R v h <-> v ∈ vnames F /\ smrel elts v h;
  rs_func : forall f c, in_func R f c <-> f ∈ fnames F /\ smrel elts f c;
  rs_edge : forall s d l, has_edge R s d l <-> has_edge F s d l;
  rs_in_edge : forall s d l, has_in_edge R s d l <-> has_in_edge F s d l;
  rs_refs : forall h r, f_refs R !! h = Some r <-> f_refs F !! h = Some r /\ exists v, in_var R v h;
  rs_calls : forall c cl, f_calls R !! c = Some cl <-> f_calls F !! c = Some cl /\ exists f, in_func R f c;
}.

Section stream.
  Context (ord : sset -> list string) (eord : gset edge3 -> list edge3) (Hords : orders ord eord).
  Context (U : gmap string call) (HU : world U).

  Lemma select_subsets_ok elts F : consistent U F -> dom elts = f_nodes F -> (forall n x, smrel elts n x -> in_node F n x) ->
    exists R, select_subsets elts F = Ok R /\ restricted elts F R.
  Proof.
    intros HF Hd Hin. unfold select_subsets. rewrite decide_True by done. rewrite decide_True.
    2:{ intros n X HX x Hx. apply smrel_default, (smrel_sets U F n x HF), Hin. by exists X. }
    assert (Hv : forall v h, smrel (filter (fun kX : string * sset => kX.1 ∈ vnames F) elts) v h <-> v ∈ vnames F /\ smrel elts v h)
      by (intros; apply smrel_filter).
    assert (Hf : forall v h, smrel (filter (fun kX : string * sset => kX.1 ∈ fnames F) elts) v h <-> v ∈ fnames F /\ smrel elts v h)
      by (intros; apply smrel_filter).
    rewrite decide_True.
    2:{ split.
        - intros h [v Hh]%elem_of_union_values. apply Hv in Hh as [Hvn Hh]. apply Hin in Hh as [Hh|Hh].
          + assert (h ∈ dom (f_refs F)) by (apply (k_refs _ _ HF); eauto). rewrite (k_refinv_dom _ _ HF). by apply elem_of_intersection.
          + apply smrel_dom in Hh. by destruct (k_disj _ _ HF v).
        - intros h [v Hh]%elem_of_union_values. apply Hf in Hh as [Hvn Hh]. apply Hin in Hh as [Hh|Hh].
          + apply smrel_dom in Hh. by destruct (k_disj _ _ HF v).
          + assert (h ∈ dom (f_calls F)) by (apply (k_calls _ _ HF); eauto). rewrite (k_callinv_dom _ _ HF). by apply elem_of_intersection. }
    eexists. split; [done|]. split.
    - unfold vnames at 1. cbn. rewrite dom_filter_key, Hd. unfold f_nodes. clear. set_solver.
    - unfold fnames at 1. cbn. rewrite dom_filter_key, Hd. unfold f_nodes. clear. set_solver.
    - intros. apply Hv.
    - intros. apply Hf.
    - done.
    - done.
    - intros h r. cbn. rewrite map_filter_lookup_Some. cbn. by rewrite elem_of_union_values.
    - intros c cl. cbn. rewrite map_filter_lookup_Some. cbn. by rewrite elem_of_union_values.
  Qed.

  Lemma subsets_check elts F R : consistent U F -> dom elts = f_nodes F -> (forall n x, smrel elts n x -> in_node F n x) ->
    edge_closed F (smrel elts) -> select_subsets elts F = Ok R -> check R = true.
  Proof.
    intros HF Hd Hin Hcl HR. destruct (select_subsets_ok elts F HF Hd Hin) as (R' & HR' & [R1 R2 R3 R4 R5 R6 R7 R8]).
    assert (R' = R) as -> by congruence. clear HR'.
    assert (Hvar : forall v h, in_var R v h -> in_var F v h).
    { intros v h [Hv Hh]%R3. apply Hin in Hh as [?|Hf]; [done|]. apply smrel_dom in Hf. by destruct (k_disj _ _ HF v). }
    assert (Hfun : forall v h, in_func R v h -> in_func F v h).
    { intros v h [Hv Hh]%R4. apply Hin in Hh as [Hf|?]; [|done]. apply smrel_dom in Hf. by destruct (k_disj _ _ HF v). }
    set (rh := union_values (filter (fun kX : string * sset => kX.1 ∈ vnames F) elts)).
    set (ch := union_values (filter (fun kX : string * sset => kX.1 ∈ fnames F) elts)).
    assert (Hrh : forall h, h ∈ rh <-> exists v, in_var R v h).
    { intros h. unfold rh. rewrite elem_of_union_values. setoid_rewrite smrel_filter. by setoid_rewrite R3. }
    assert (Hch : forall h, h ∈ ch <-> exists v, in_func R v h).
    { intros h. unfold ch. rewrite elem_of_union_values. setoid_rewrite smrel_filter. by setoid_rewrite R4. }
    assert (Hrefs : forall h, h ∈ dom (f_refs R) <-> h ∈ rh).
    { intros h. rewrite Hrh, elem_of_dom. split.
      - intros [r Hr]. by apply R7 in Hr as [_ ?].
      - intros [v Hv]. assert (h ∈ dom (f_refs F)) as [r Hr]%elem_of_dom by (apply (k_refs _ _ HF); eauto). exists r. apply R7. eauto. }
    assert (Hcalls : forall h, h ∈ dom (f_calls R) <-> h ∈ ch).
    { intros h. rewrite Hch, elem_of_dom. split.
      - intros [r Hr]. by apply R8 in Hr as [_ ?].
      - intros [v Hv]. assert (h ∈ dom (f_calls F)) as [r Hr]%elem_of_dom by (apply (k_calls _ _ HF); eauto). exists r. apply R8. eauto. }
    assert (f_refinv R = filter (fun kX : string * sset => kX.1 ∈ rh) (f_refinv F) /\
            f_callinv R = filter (fun kX : string * sset => kX.1 ∈ ch) (f_callinv F) /\
            f_creator R = filter (fun hc : string * string => hc.1 ∈ rh /\ hc.2 ∈ ch) (f_creator F) /\
            f_consumers R = fmap (fun X => X ∩ ch) (filter (fun kX : string * sset => kX.1 ∈ rh) (f_consumers F)) /\
            f_inp R = f_inp F /\ f_out R = f_out F) as (E1 & E2 & E3 & E4 & E5 & E6).
    { unfold select_subsets in HR. do 3 (case_decide; [|done]). injection HR as <-. done. }
    assert (Hriv : forall v h, in_var R v h -> smrel (f_refinv R) h v).
    { intros v h Hv. rewrite E1, smrel_filter. split; [apply Hrh; eauto|]. by apply (k_refinv _ _ HF), Hvar. }
    unfold check. repeat (apply andb_true_intro; split).
    - apply bool_decide_eq_true, set_eq. intros h. rewrite elem_of_union_values, Hrefs, Hrh. done.
    - apply bool_decide_eq_true, set_eq. intros h. rewrite elem_of_union_values, Hcalls, Hch. done.
    - apply bool_decide_eq_true, union_values_sub. intros h v Hv. rewrite E1, smrel_filter in Hv. destruct Hv as [_ Hv].
      apply (k_refinv _ _ HF) in Hv. apply smrel_dom in Hv. fold (vnames R). by rewrite R1.
    - apply bool_decide_eq_true, union_values_sub. intros h v Hv. rewrite E2, smrel_filter in Hv. destruct Hv as [_ Hv].
      apply (k_callinv _ _ HF) in Hv. apply smrel_dom in Hv. fold (fnames R). by rewrite R2.
    - apply bool_decide_eq_true. intros h [c Hc]%elem_of_dom. rewrite E3, map_filter_lookup_Some in Hc. apply Hrefs. by destruct Hc as (_ & ? & _).
    - apply bool_decide_eq_true. intros c Hc. apply elem_of_list_to_set, elem_of_list_fmap in Hc as ([h c'] & -> & Hc).
      apply elem_of_map_to_list in Hc. rewrite E3, map_filter_lookup_Some in Hc. apply Hcalls. by destruct Hc as (_ & _ & ?).
    - apply bool_decide_eq_true. intros h Hh. rewrite E4, dom_fmap_L, dom_filter_key in Hh. apply Hrefs. by apply elem_of_intersection in Hh as [_ ?].
    - apply bool_decide_eq_true, union_values_sub. intros h c Hc. rewrite E4, smrel_cut in Hc. apply Hcalls. by destruct Hc as [_ ?].
    - apply Is_true_true, forallb_True, Forall_forall. intros [[s d] l] He. apply elem_of_edges_list, R5, (k_edge _ _ HF) in He.
      cbn. apply andb_True. unfold f_nodes. rewrite R1, R2. split; apply bool_decide_pack; rewrite elem_of_union; tauto.
    - apply check_io_true. intros f c Hc.
      assert (c ∈ dom (f_calls R)) as [cl Hc']%elem_of_dom by (apply Hcalls, Hch; eauto).
      assert (f ∈ dom (f_inp F)) as [m Hm]%elem_of_dom.
      { rewrite (k_inp _ _ HF). apply elem_of_union. right. apply Hfun in Hc. by eapply smrel_dom. }
      exists m, cl. split; [by rewrite E5|]. split; [done|]. intros n r v Hnr Hv.
      assert (in_var R v (rhid r)) as Hv'; [|split; [done|by apply Hriv]].
      assert (He : has_edge F v f (name_proj (c_op cl) n)) by (apply (k_mirror _ _ HF), has_in_edge_arel; by exists m).
      apply R3. split; [destruct (k_edge _ _ HF _ _ _ He) as [[? _]|[_ Hf]]; [done|]; apply Hfun, smrel_dom in Hc; by destruct (k_disj _ _ HF f)|].
      apply R4 in Hc as Hce. destruct (Hcl f c cl (name_proj (c_op cl) n) (rhid r) v) as [HI HO]; [by apply Hfun|apply Hce|by apply R8 in Hc' as [? _]|]. apply HI; [by exists n, r|done].
    - apply check_io_true. intros f c Hc.
      assert (c ∈ dom (f_calls R)) as [cl Hc']%elem_of_dom by (apply Hcalls, Hch; eauto).
      assert (f ∈ dom (f_out F)) as [m Hm]%elem_of_dom.
      { rewrite (k_out _ _ HF). apply elem_of_union. right. apply Hfun in Hc. by eapply smrel_dom. }
      exists m, cl. split; [by rewrite E6|]. split; [done|]. intros n r v Hnr Hv.
      assert (in_var R v (rhid r)) as Hv'; [|split; [done|by apply Hriv]].
      assert (He : has_edge F f v (name_proj (c_op cl) n)) by (apply has_edge_arel; by exists m).
      apply R3. split; [destruct (k_edge _ _ HF _ _ _ He) as [[Hf _]|[_ ?]]; [|done]; apply Hfun, smrel_dom in Hc; by destruct (k_disj _ _ HF f)|].
      apply R4 in Hc as Hce. destruct (Hcl f c cl (name_proj (c_op cl) n) (rhid r) v) as [HI HO]; [by apply Hfun|apply Hce|by apply R8 in Hc' as [? _]|]. apply HO; [by exists n, r|done].
    - apply Is_true_true, forallb_True, Forall_forall. intros [h r] Hr. apply elem_of_map_to_list in Hr. apply R7 in Hr as [Hr _].
      apply bool_decide_pack. symmetry. by eapply (k_refkey _ _ HF).
    - apply Is_true_true, forallb_True, Forall_forall. intros [h c] Hr. apply elem_of_map_to_list in Hr. apply R8 in Hr as [Hr _].
      apply bool_decide_pack. symmetry. eapply (w_key _ HU). by eapply lookup_weaken, HF.
  Qed.

  Lemma selected_tidy ns F R : selected ns F R -> f_calls R ⊆ f_calls F -> tidy F -> tidy R.
  Proof.
    intros HS Hc HT f c cl Hf Hcl Hm. apply (sl_func _ _ _ HS) in Hf as [_ Hf].
    destruct (HT f c cl Hf) as (T1 & T2 & T3); [by eapply lookup_weaken|done|].
    split; [done|]. split; [done|]. intros v l He. apply (T3 v). rewrite !(sl_edge _ _ _ HS) in He. tauto.
  Qed.
  Lemma select_nodes_calls ns F R : select_nodes eord ns F = Ok R -> f_calls R ⊆ f_calls F.
  Proof. unfold select_nodes. case_decide; [|done]. intros [= <-]. cbn. apply map_filter_subseteq. Qed.

  Lemma selected_nodes ns F R : selected ns F R -> ns ⊆ f_nodes F -> f_nodes R = ns.
  Proof. intros HS Hns. unfold f_nodes in *. rewrite (sl_v _ _ _ HS), (sl_f _ _ _ HS). clear -Hns. set_solver. Qed.
  Lemma selected_in_node ns F R n x : selected ns F R -> in_node R n x <-> n ∈ ns /\ in_node F n x.
  Proof. intros HS. unfold in_node. rewrite (sl_var _ _ _ HS), (sl_func _ _ _ HS). tauto. Qed.

  Lemma reach_in_node F dr strong init n x : consistent U F -> tidy F -> (forall n x, smrel init n x -> in_node F n x) ->
    reach F dr strong (smrel init) n x -> in_node F n x.
  Proof.
    intros HF HT Hin Hr. apply (Hr (fun n x => in_node F n x)); [done|].
    destruct dr; split.
    - intros. by left.
    - intros. by right.
    - intros. by left.
    - intros. by right.
  Qed.

  (** ** upstream / downstream *)
  Lemma stream_ok dr strong ns F : consistent U F -> tidy F -> ns ⊆ f_nodes F ->
    exists keep R1 R, stream ord eord dr strong ns F = Ok R /\
      (forall m, m ∈ keep <-> exists n, n ∈ ns /\ rtc (nstep F dr) n m) /\
      selected keep F R1 /\ consistent U R1 /\ keep ⊆ f_nodes F /\
      exists view, restricted view R1 R /\
        forall n x, smrel view n x <-> reach R1 dr strong (fun n x => n ∈ ns /\ in_node R1 n x) n x.
  Proof.
    intros HF HT Hns. destruct (get_reachable_nodes_ok ord eord Hords U F HF dr ns Hns) as (keep & Hk & Hkeep).
    unfold stream. rewrite Hk. change (Ok keep ≫= ?f) with (f keep). cbv beta.
    assert (Hks : keep ⊆ f_nodes F). { intros m Hm. apply Hkeep in Hm. by eapply reachable_sub. }
    destruct (select_nodes_total eord keep F Hks) as [R1 HR1]. pose proof (select_nodes_ok ord eord Hords U _ _ _ HF HR1) as [HS HF1].
    rewrite HR1. change (Ok R1 ≫= ?f) with (f R1). cbv beta.
    assert (HT1 : tidy R1) by (eapply selected_tidy; [done|by eapply select_nodes_calls|done]).
    pose proof (selected_nodes _ _ _ HS Hks) as Hn1.
    set (init := filter _ (f_sets R1)).
    assert (Hinit : forall n x, smrel init n x <-> n ∈ ns /\ in_node R1 n x).
    { intros n x. unfold init. rewrite smrel_filter. by rewrite (smrel_sets U R1 n x HF1). }
    destruct (get_reachable_elts_ok ord eord Hords U HU R1 HF1 HT1 init dr strong) as (view & Hv & Hvd & Hvr).
    { intros n x Hx. by apply Hinit in Hx as [_ ?]. }
    rewrite Hv. change (Ok view ≫= ?f) with (f view). cbv beta.
    destruct (select_subsets_ok view R1 HF1) as (R & HR & HRR).
    { rewrite Hvd. assert (dom init ⊆ f_nodes R1). { unfold init. rewrite dom_filter_key, dom_sets. clear; set_solver. } clear -H. set_solver. }
    { intros n x Hx. apply Hvr in Hx. eapply reach_in_node; [done|done| |done]. intros ? ? Hy. by apply Hinit in Hy as [_ ?]. }
    exists keep, R1, R. split; [done|]. split; [done|]. split; [done|]. split; [done|]. split; [done|].
    exists view. split; [done|]. intros n x. rewrite Hvr. unfold reach. setoid_rewrite Hinit. done.
  Qed.

  (** ** The elements without a computation in the frame *)
  Lemma boundary_ok dr F : consistent U F -> tidy F ->
    exists B, boundary_elts ord eord dr F = Ok B /\ dom B = f_nodes F /\
      forall n x, smrel B n x <-> in_node F n x /\
        ~ exists s d l, has_edge F s d l /\ n = match dr with Forward => d | Back => s end /\
            link F dr (s, d, l) (in_node F (other dr (s, d, l))) x.
  Proof.
    intros HF HT. unfold boundary_elts.
    match goal with |- context [mapR ?b _] => set (body := b) end.
    assert (Hbody : forall n, n ∈ f_nodes F -> exists X, body n = Ok (n, X) /\ forall x, x ∈ X <-> in_node F n x /\
       ~ exists s d l, has_edge F s d l /\ n = match dr with Forward => d | Back => s end /\
            link F dr (s, d, l) (in_node F (other dr (s, d, l))) x).
    { intros n Hn. unfold body. set (es := eord _).
      assert (Hes : forall s d l, (s, d, l) ∈ es <-> has_edge F s d l /\ n = match dr with Forward => d | Back => s end).
      { intros. unfold es. rewrite (eord_elem _ _ Hords). destruct dr; [rewrite elem_of_out_edges|rewrite elem_of_in_edges]; naive_solver. }
      destruct (adj_elts_edges_ok ord eord Hords U HU F HF HT dr es (f_sets F)) as (R & HR & HRx).
      { intros [[s d] l] He. apply Hes in He as [He _]. done. } { intros m x Hx. by apply (smrel_sets U F m x HF). }
      rewrite HR. cbn. eexists. split; [done|]. intros x. rewrite elem_of_difference, HRx, <-smrel_default, (smrel_sets U F n x HF).
      assert (Hl : forall s d l, link F dr (s, d, l) (smrel (f_sets F) (other dr (s, d, l))) x <-> link F dr (s, d, l) (in_node F (other dr (s, d, l))) x).
      { intros. unfold link. destruct dr; cbn; by setoid_rewrite (smrel_sets U F _ _ HF). }
      split; (intros [H1 H2]; split; [done|]; intros H3; apply H2).
      - destruct H3 as (s & d & l & He & Hn' & Hl'). exists (s, d, l). split; [by apply Hes|by apply Hl].
      - destruct H3 as ([[s d] l] & He & Hl'). apply Hes in He as [He Hn']. exists s, d, l. split; [done|]. split; [done|]. by apply Hl. }
    assert (Hmap : forall l, (forall n, n ∈ l -> n ∈ f_nodes F) -> NoDup l -> exists kvs, mapR body l = Ok kvs /\ map fst kvs = l /\
       forall n X, (n, X) ∈ kvs -> forall x, x ∈ X <-> in_node F n x /\
       ~ exists s d l, has_edge F s d l /\ n = match dr with Forward => d | Back => s end /\
            link F dr (s, d, l) (in_node F (other dr (s, d, l))) x).
    { clear - Hbody. induction l as [|n l IH]; intros Hl Hnd.
      - exists []. split; [done|]. split; [done|]. intros ? ? H. by apply elem_of_nil in H.
      - apply NoDup_cons in Hnd as [_ Hnd]. destruct IH as (kvs & Hk & Hf & He); [intros; apply Hl; by right|done|].
        destruct (Hbody n) as (X & HX & HXx); [apply Hl; left|]. exists ((n, X) :: kvs). split.
        + cbn. rewrite HX. cbn. by rewrite Hk.
        + split; [cbn; by rewrite Hf|]. intros n' X' [[= -> ->]|H]%elem_of_cons; [done|by eapply He]. }
    destruct (Hmap (ord (f_nodes F))) as (kvs & Hk & Hf & He).
    { intros n. by rewrite (ord_elem _ _ Hords). } { apply (ord_nodup _ _ Hords). }
    rewrite Hk. cbn. eexists. split; [done|].
    assert (Hnd : NoDup kvs.*1). { change (NoDup (map fst kvs)). rewrite Hf. apply (ord_nodup _ _ Hords). }
    split.
    - rewrite dom_list_to_map_L. change (kvs.*1) with (map fst kvs). rewrite Hf. apply set_eq. intros n.
      by rewrite elem_of_list_to_set, (ord_elem _ _ Hords).
    - intros n x. split.
      + intros (X & HX & Hx). apply elem_of_list_to_map in HX; [|done]. by apply (He _ _ HX).
      + intros Hx. assert (n ∈ map fst kvs) as Hn.
        { rewrite Hf, (ord_elem _ _ Hords). destruct Hx as [[Hx|Hx] _]; apply smrel_dom in Hx; unfold f_nodes, vnames, fnames; clear -Hx; set_solver. }
        apply elem_of_list_fmap in Hn as ([n' X] & -> & HX). exists X. cbn in *. split; [by apply elem_of_list_to_map|].
        by apply (He _ _ HX).
  Qed.

  Lemma drop_unreachable_ok dr strong F : consistent U F -> tidy F ->
    exists R view, drop_unreachable ord eord dr strong F = Ok R /\ restricted view F R /\
      forall n x, smrel view n x <-> reach F dr strong (fun n x => in_node F n x /\
        ~ exists s d l, has_edge F s d l /\ n = match dr with Forward => d | Back => s end /\
            link F dr (s, d, l) (in_node F (other dr (s, d, l))) x) n x.
  Proof.
    intros HF HT. destruct (boundary_ok dr F HF HT) as (B & HB & HBd & HBx). unfold drop_unreachable.
    assert (match dr with Forward => get_source_elts ord eord F | Back => get_sink_elts ord eord F end = Ok B) as -> by by destruct dr.
    change (Ok B ≫= ?f) with (f B). cbv beta.
    destruct (get_reachable_elts_ok ord eord Hords U HU F HF HT B dr strong) as (view & Hv & Hvd & Hvr).
    { intros n x Hx. by apply HBx in Hx as [? _]. }
    rewrite Hv. change (Ok view ≫= ?f) with (f view). cbv beta.
    destruct (select_subsets_ok view F HF) as (R & HR & HRR).
    { rewrite Hvd, HBd. clear; set_solver. }
    { intros n x Hx. apply Hvr in Hx. eapply reach_in_node; [done|done| |done]. intros ? ? Hy. by apply HBx in Hy as [? _]. }
    exists R, view. split; [done|]. split; [done|]. intros n x. rewrite Hvr. unfold reach. setoid_rewrite HBx. done.
  Qed.

  (** ** midstream *)
  Lemma graph_of_ok F : consistent U F -> exists g, graph_of F = Ok g /\ dom g = f_nodes F /\ forall u v, step g u v <-> gstep F u v.
  Proof.
    intros HF. unfold graph_of.
    assert (He : forall s d l, (s, d, l) ∈ edges_list F <-> has_edge F s d l).
    { intros. rewrite <-elem_of_edges. unfold edges. by rewrite elem_of_list_to_set. }
    assert (forallb (fun e : edge3 => bool_decide (e.1.1 ∈ f_nodes F)) (edges_list F) = true) as ->.
    { apply Is_true_true, forallb_True, Forall_forall. intros [[s d] l] Hs. apply bool_decide_spec. cbn.
      apply He, (k_edge _ _ HF) in Hs. unfold f_nodes. apply elem_of_union. tauto. }
    eexists. split; [done|]. set (g := set_to_map _ _).
    assert (Hg : forall n X, g !! n = Some X <-> n ∈ f_nodes F /\
      X = list_to_set (map (fun e : edge3 => e.1.2) (filter (fun e : edge3 => e.1.1 = n) (edges_list F)))).
    { intros n X. unfold g. rewrite lookup_set_to_map by naive_solver. naive_solver. }
    split.
    - apply set_eq. intros n. rewrite elem_of_dom. split.
      + intros [X HX]. by apply Hg in HX as [? _].
      + intros Hn. eexists. by apply Hg.
    - intros u v. unfold step. split.
      + intros (X & HX & Hv). apply Hg in HX as [_ ->]. apply elem_of_list_to_set, elem_of_list_fmap in Hv as ([[s d] l] & -> & H).
        apply elem_of_list_filter in H as [Hs H]. cbn in Hs |- *. subst s. exists l. by apply He.
      + intros (l & Hl). eexists. split.
        * apply Hg. split; [|done]. apply (k_edge _ _ HF) in Hl. unfold f_nodes. apply elem_of_union. tauto.
        * apply elem_of_list_to_set, elem_of_list_fmap. exists (u, v, l). split; [done|]. apply elem_of_list_filter. split; [done|]. by apply He.
  Qed.

  Lemma chain_iff (R1 R2 : string -> string -> Prop) a ns : (forall u v, R1 u v <-> R2 u v) -> chain R1 a ns <-> chain R2 a ns.
  Proof. intros H. revert a. induction ns as [|b ns IH]; intros a; cbn; [done|]. by rewrite H, IH. Qed.
  Lemma rtc_iff (R1 R2 : string -> string -> Prop) a b : (forall u v, R1 u v <-> R2 u v) -> rtc R1 a b -> rtc R2 a b.
  Proof. intros H. induction 1; [done|]. eapply rtc_l; [by apply H|done]. Qed.

  Lemma edges_between_bounds fuel s d F E : consistent U F -> edges_between ord fuel s d F = Ok E ->
    (forall u v, on_simple_path (gstep F) s d u v -> (u, v) ∈ E) /\
    (forall u v, (u, v) ∈ E -> on_walk (gstep F) s d u v).
  Proof.
    intros HF. destruct (graph_of_ok F HF) as (g & Hg & _ & Hst). unfold edges_between. rewrite Hg.
    cbn [bindR result_bind]. intros Hr. apply (get_edges_in_paths_bounds ord (ord_elem _ _ Hords) g) in Hr as [H1 H2]. split.
    - intros u v (ns & (Hc & Hnd) & He). apply H1. exists ns. split; [split; [|done]|done]. by apply (chain_iff _ _ _ _ Hst).
    - intros u v Huv. apply H2 in Huv as (W1 & W2 & W3). split; [by eapply rtc_iff|]. split; [by apply Hst|by eapply rtc_iff].
  Qed.
  Lemma edges_between_total fuel s d F : consistent U F -> acyclic (gstep F) -> s ∈ f_nodes F -> size (f_nodes F) <= fuel ->
    exists E, edges_between ord fuel s d F = Ok E.
  Proof.
    intros HF Hac Hs Hf. destruct (graph_of_ok F HF) as (g & Hg & Hd & Hst). unfold edges_between. rewrite Hg.
    cbn [bindR result_bind]. apply (get_edges_in_paths_total ord (ord_elem _ _ Hords) g).
    - intros n Hn. apply (Hac n). assert (Hgen : forall a b, tc (step g) a b -> tc (gstep F) a b); [|by apply Hgen].
      intros a b. clear -Hst. induction 1 as [x y Hxy|x y z Hxy _ IH]; [by apply tc_once, Hst|]. eapply tc_l; [by apply Hst|done].
    - intros u v Huv. rewrite Hd. apply Hst in Huv as (l & Hl). apply (k_edge _ _ HF) in Hl. unfold f_nodes. apply elem_of_union. tauto.
    - by rewrite Hd.
    - by rewrite <-size_dom, Hd.
  Qed.
  Lemma edges_between_all_ok fuel ps F : consistent U F -> forall E, edges_between_all ord fuel ps F = Ok E ->
    (forall s d u v, (s, d) ∈ ps -> on_simple_path (gstep F) s d u v -> (u, v) ∈ E) /\
    (forall u v, (u, v) ∈ E -> exists s d, (s, d) ∈ ps /\ on_walk (gstep F) s d u v).
  Proof.
    intros HF. induction ps as [|[s d] ps IH]; intros E; cbn.
    - intros [= <-]. split; [intros ? ? ? ? H; by apply elem_of_nil in H|intros ? ? H; by apply not_elem_of_empty in H].
    - destruct (edges_between ord fuel s d F) as [X|] eqn:HX; [|done]. cbn [bindR result_bind].
      destruct (edges_between_all ord fuel ps F) as [Y|]; [|done]. cbn. intros [= <-].
      destruct (IH Y eq_refl) as [I1 I2]. apply edges_between_bounds in HX as [X1 X2]; [|done]. split.
      + intros s' d' u v [[= -> ->]|Hin]%elem_of_cons Hp; apply elem_of_union; [left; auto|right; eauto].
      + intros u v [Huv|Huv]%elem_of_union.
        * exists s, d. split; [left|auto].
        * apply I2 in Huv as (s' & d' & ? & ?). exists s', d'. split; [by right|done].
  Qed.
  Lemma elem_of_distinct_pairs ns s d : (s, d) ∈ distinct_pairs ns <-> s ∈ ns /\ d ∈ ns /\ s <> d.
  Proof.
    unfold distinct_pairs. rewrite elem_of_list_bind. split.
    - intros (s' & H & Hs'). apply elem_of_list_bind in H as (d' & H & Hd'). case_decide; [by apply elem_of_nil in H|].
      apply elem_of_list_singleton in H as [= -> ->]. done.
    - intros (Hs & Hd & Hne). exists s. split; [|done]. apply elem_of_list_bind. exists d. split; [|done].
      rewrite decide_False by done. by apply elem_of_list_singleton.
  Qed.

  (** a node on a simple path between two different nodes is an end of one of its edges *)
  Lemma node_on_path R s d ns n : simple_path R s d ns -> s <> d -> n ∈ s :: ns -> exists u v, edge_of s ns u v /\ (n = u \/ n = v).
  Proof.
    intros (Hc & Hnd & Hl) Hne Hn. destruct ns as [|b ns]; [cbn in Hl; congruence|].
    clear Hc Hnd Hl Hne. revert s b Hn. induction ns as [|c ns IH]; intros s b Hn.
    - exists s, b. split; [by exists [], []|]. apply elem_of_cons in Hn as [->|Hn]; [auto|]. apply elem_of_list_singleton in Hn. auto.
    - apply elem_of_cons in Hn as [->|Hn].
      + exists s, b. split; [by exists [], (c :: ns)|auto].
      + destruct (IH b c Hn) as (u & v & (l1 & l2 & E) & Huv). exists u, v. split; [|done]. exists (s :: l1), l2. cbn. by rewrite <-E.
  Qed.

  Lemma midstream_nodes_bounds fuel ns F keep : consistent U F -> midstream_nodes ord fuel ns F = Ok keep ->
    (forall s d p n, s ∈ ns -> d ∈ ns -> s <> d -> simple_path (gstep F) s d p -> n ∈ s :: p -> n ∈ keep) /\
    (forall n, n ∈ keep -> exists s d, s ∈ ns /\ d ∈ ns /\ s <> d /\ rtc (gstep F) s n /\ rtc (gstep F) n d).
  Proof.
    intros HF. unfold midstream_nodes. destruct (edges_between_all _ _ _ _) as [E|] eqn:HE; [|done]. cbn. intros [= <-].
    destruct (edges_between_all_ok _ _ _ HF _ HE) as [E1 E2]. split.
    - intros s d p n Hs Hd Hne Hp Hn. destruct (node_on_path _ _ _ _ _ Hp Hne Hn) as (u & v & Hed & Hn').
      apply elem_of_list_to_set, elem_of_list_bind. exists (u, v). split; [destruct Hn' as [->| ->]; cbn; set_solver|].
      apply elem_of_elements. eapply (E1 s d); [by apply elem_of_distinct_pairs|]. by exists p.
    - intros n Hn. apply elem_of_list_to_set, elem_of_list_bind in Hn as ([u v] & Hn & Huv). apply elem_of_elements in Huv.
      apply E2 in Huv as (s & d & Hsd & W1 & W2 & W3). apply elem_of_distinct_pairs in Hsd as (? & ? & ?).
      exists s, d. split; [done|]. split; [done|]. split; [done|]. cbn in Hn.
      apply elem_of_cons in Hn as [->|Hn]; [split; [done|by eapply rtc_l]|].
      apply elem_of_list_singleton in Hn as ->. split; [by eapply rtc_r|done].
  Qed.
  Lemma midstream_nodes_total fuel ns F : consistent U F -> acyclic (gstep F) -> (forall n, n ∈ ns -> n ∈ f_nodes F) ->
    size (f_nodes F) <= fuel -> exists keep, midstream_nodes ord fuel ns F = Ok keep.
  Proof.
    intros HF Hac Hns Hf. unfold midstream_nodes.
    assert (forall ps, (forall s d, (s, d) ∈ ps -> s ∈ f_nodes F) -> exists E, edges_between_all ord fuel ps F = Ok E) as Hps.
    { induction ps as [|[s d] ps IH]; intros Hin; [cbn; eauto|]. cbn [edges_between_all].
      destruct (edges_between_total fuel s d F) as [X HX]; [done|done|eapply Hin; left|done|]. cbn [fst snd]. rewrite HX. cbn [bindR result_bind].
      destruct IH as [Y HY]; [intros; eapply Hin; by right|]. rewrite HY. cbn. eauto. }
    destruct (Hps (distinct_pairs ns)) as [E HE].
    { intros s d Hsd. apply elem_of_distinct_pairs in Hsd as (? & _). auto. }
    rewrite HE. cbn. eauto.
  Qed.

  (** once the nodes are known, the rest of [midstream] never fails *)
  Lemma midstream_ok fuel strong ns F keep : consistent U F -> tidy F -> (forall n, n ∈ ns -> n ∈ f_nodes F) ->
    midstream_nodes ord fuel ns F = Ok keep ->
    exists R1 R, midstream ord eord fuel strong ns F = Ok R /\ keep ⊆ f_nodes F /\ selected keep F R1 /\ consistent U R1 /\
      exists view, restricted view R1 R /\
        forall n x, smrel view n x <-> reach R1 Forward strong (fun n x => n ∈ ns /\ in_node R1 n x /\
          ~ exists s l, has_edge R1 s n l /\ link R1 Forward (s, n, l) (in_node R1 s) x) n x.
  Proof.
    intros HF HT Hns Hk. unfold midstream. rewrite Hk. cbn [bindR result_bind].
    assert (Hks : keep ⊆ f_nodes F).
    { intros n Hn. destruct (midstream_nodes_bounds _ _ _ _ HF Hk) as [_ H2]. apply H2 in Hn as (s & d & Hs & _ & _ & Hr & _).
      apply Hns in Hs. clear -Hs Hr HF. induction Hr as [|x y z (l & Hxy) _ IH]; [done|]. apply IH.
      apply (k_edge _ _ HF) in Hxy. unfold f_nodes. apply elem_of_union. tauto. }
    destruct (select_nodes_total eord keep F Hks) as [R1 HR1]. pose proof (select_nodes_ok ord eord Hords U _ _ _ HF HR1) as [HS HF1].
    rewrite HR1. cbn [bindR result_bind].
    assert (HT1 : tidy R1) by (eapply selected_tidy; [done|by eapply select_nodes_calls|done]).
    destruct (boundary_ok Forward R1 HF1 HT1) as (B & HB & HBd & HBx). unfold get_source_elts. rewrite HB. cbn [bindR result_bind].
    set (init := filter _ B).
    assert (Hinit : forall n x, smrel init n x <-> n ∈ ns /\ in_node R1 n x /\ ~ exists s l, has_edge R1 s n l /\ link R1 Forward (s, n, l) (in_node R1 s) x).
    { intros n x. trans (n ∈ ns /\ smrel B n x).
      - unfold init, smrel. setoid_rewrite map_filter_lookup_Some. cbn. naive_solver.
      - rewrite HBx. split; (intros [H1 [H2 H3]]; split; [done|]; split; [done|]; intros H4; apply H3).
        + destruct H4 as (s & l & He & Hl). exists s, n, l. done.
        + destruct H4 as (s & d & l & He & -> & Hl). eauto. }
    destruct (get_reachable_elts_ok ord eord Hords U HU R1 HF1 HT1 init Forward strong) as (view & Hv & Hvd & Hvr).
    { intros n x Hx. by apply Hinit in Hx as (_ & ? & _). }
    rewrite Hv. cbn [bindR result_bind].
    destruct (select_subsets_ok view R1 HF1) as (R & HR & HRR).
    { rewrite Hvd. assert (dom init ⊆ f_nodes R1). { unfold init. rewrite <-HBd. apply dom_filter_subseteq. } clear -H. set_solver. }
    { intros n x Hx. apply Hvr in Hx. eapply reach_in_node; [done|done| |done]. intros ? ? Hy. by apply Hinit in Hy as (_ & ? & _). }
    exists R1, R. split; [done|]. split; [done|]. split; [done|]. split; [done|].
    exists view. split; [done|]. intros n x. rewrite Hvr. unfold reach. setoid_rewrite Hinit. done.
  Qed.
End stream.
