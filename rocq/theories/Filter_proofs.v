(** Filtering a frame: proofs for Props_Filter.v. *)
From stdpp Require Import base strings gmap list relations.
From Verif Require Import Base PyDict PyDict_proofs Refs Storage Frame FrameHistory FrameFilter Spec_Frame Spec_Filter
  Frame_base Frame_ok Frame_ok2 Frame_sel Frame_reach2 Frame_stream.

Section filter.
  Context (ord : sset -> list string) (eord : gset edge3 -> list edge3) (Hords : orders ord eord).
  Context (U : gmap string call) (HU : world U) (F : frame) (HF : consistent U F) (HT : tidy F).
  Context (HS : simple_graph F).

  Lemma adj_dict_ok key dr X es : (forall e, e ∈ es -> has_edge F e.1.1 e.1.2 e.2) ->
    (forall e x, e ∈ es -> x ∈ X -> in_node F (other dr e) x) ->
    (forall e e', e ∈ es -> e' ∈ es -> key e = key e' -> e = e') ->
    forall m, exists m', adj_dict key dr X F es m = Ok m' /\
      (forall e, e ∈ es -> exists Y, m' !! key e = Some Y /\ forall x, x ∈ Y <-> link F dr e (fun h => h ∈ X) x) /\
      (forall k, (forall e, e ∈ es -> key e <> k) -> m' !! k = m !! k).
  Proof.
    unfold adj_dict. induction es as [|e es IH]; intros He HX Hk m.
    - exists m. split; [done|]. split; [|done]. intros e []%elem_of_nil.
    - destruct (adj_elts_edge_ok U HU F HF HT dr e X) as (Y & HY & HYl); [apply He; left|intros x Hx; apply HX; [left|done]|].
      destruct (IH ltac:(intros; apply He; by right) ltac:(intros; apply HX; [by right|done])
        ltac:(intros; apply Hk; [by right|by right|done]) (<[key e := Y]> m)) as (m' & Hm' & HA & HB).
      exists m'. cbn. rewrite HY. cbn. split; [exact Hm'|]. split.
      + intros e' [->|He']%elem_of_cons; [|by apply HA]. destruct (decide (e ∈ es)) as [Hin|Hin]; [by apply HA|].
        exists Y. split; [|done]. rewrite HB; [apply lookup_insert|]. intros e' He' Heq. apply Hin.
        rewrite <-(Hk e' e); [done|by right|left|done].
      + intros k Hne. rewrite HB; [|intros e' He'; apply Hne; by right]. rewrite lookup_insert_ne; [done|]. apply Hne. left.
  Qed.

  (** what is adjacent to the elements [Q] of variable [v] *)
  Definition adjacent_to (v : string) (Q : string -> Prop) (k x : string) : Prop :=
    (exists l, has_edge F k v l /\ link F Back (k, v, l) Q x) \/ (exists l, has_edge F v k l /\ link F Forward (v, k, l) Q x).

  Lemma elem_of_out_edges' n s d l : (s, d, l) ∈ out_edges n F <-> has_edge F s d l /\ s = n.
  Proof. unfold out_edges. rewrite elem_of_filter, elem_of_edges. naive_solver. Qed.
  Lemma in_eord Z (e : edge3) : e ∈ eord Z <-> e ∈ Z.
  Proof. destruct Hords as [_ He]. by rewrite (He Z), elem_of_elements. Qed.

  Lemma get_adj_elts_ok v X : (forall x, x ∈ X -> in_node F v x) -> exists m, get_adj_elts eord v X F = Ok m /\
    (forall k, k ∈ dom m <-> exists l, has_edge F k v l \/ has_edge F v k l) /\
    (forall k x, smrel m k x <-> adjacent_to v (fun h => h ∈ X) k x).
  Proof.
    intros HX. destruct HS as [HS1 HS2]. unfold get_adj_elts.
    destruct (adj_dict_ok (fun e => e.1.1) Back X (eord (in_edges v F))) with (m := ∅ : setmap) as (m & Hm & HA & HB).
    { intros [[s d] l]. rewrite in_eord, elem_of_in_edges. by intros []. }
    { intros [[s d] l] x. rewrite in_eord, elem_of_in_edges. intros [_ ->]. apply HX. }
    { intros [[s d] l] [[s' d'] l']. rewrite !in_eord, !elem_of_in_edges. cbn. intros [H1 ->] [H2 ->] <-. f_equal. by eapply HS1. }
    rewrite Hm. cbn.
    destruct (adj_dict_ok (fun e => e.1.2) Forward X (eord (out_edges v F))) with (m := m) as (m' & Hm' & HA' & HB').
    { intros [[s d] l]. rewrite in_eord, elem_of_out_edges'. by intros []. }
    { intros [[s d] l] x. rewrite in_eord, elem_of_out_edges'. intros [_ ->]. apply HX. }
    { intros [[s d] l] [[s' d'] l']. rewrite !in_eord, !elem_of_out_edges'. cbn. intros [H1 ->] [H2 ->] <-. f_equal. by eapply HS1. }
    exists m'. split; [done|].
    assert (Hin : forall k l, has_edge F k v l -> exists Y, m' !! k = Some Y /\ forall x, x ∈ Y <-> link F Back (k, v, l) (fun h => h ∈ X) x).
    { intros k l He. rewrite HB'.
      - apply (HA (k, v, l)). rewrite in_eord, elem_of_in_edges. done.
      - intros [[s d] l']. rewrite in_eord, elem_of_out_edges'. cbn. intros [He' ->] ->. by apply (HS2 _ _ _ _ He He'). }
    assert (Hout : forall k l, has_edge F v k l -> exists Y, m' !! k = Some Y /\ forall x, x ∈ Y <-> link F Forward (v, k, l) (fun h => h ∈ X) x).
    { intros k l He. apply (HA' (v, k, l)). rewrite in_eord, elem_of_out_edges'. done. }
    assert (Hdom : forall k, k ∈ dom m' -> exists l, has_edge F k v l \/ has_edge F v k l).
    { intros k [Y HY]%elem_of_dom.
      destruct (decide (Exists (fun e : edge3 => e.1.2 = k) (eord (out_edges v F)))) as [H1|H1].
      { apply Exists_exists in H1 as ([[s d] l] & He & <-). apply in_eord, elem_of_out_edges' in He as [He ->]. exists l. by right. }
      rewrite HB' in HY by (intros e He Heq; apply H1, Exists_exists; eauto).
      destruct (decide (Exists (fun e : edge3 => e.1.1 = k) (eord (in_edges v F)))) as [H2|H2].
      { apply Exists_exists in H2 as ([[s d] l] & He & <-). apply in_eord, elem_of_in_edges in He as [He ->]. exists l. by left. }
      rewrite HB in HY by (intros e He Heq; apply H2, Exists_exists; eauto). discriminate HY. }
    split.
    - intros k. split; [apply Hdom|]. intros [l [He|He]]; [destruct (Hin k l He) as (Y & HY & _)|destruct (Hout k l He) as (Y & HY & _)];
        apply elem_of_dom; eauto.
    - intros k x. split.
      + intros (Y & HY & Hx). destruct (Hdom k) as [l [He|He]]; [apply elem_of_dom; eauto|..].
        * left. exists l. split; [done|]. destruct (Hin k l He) as (Y' & HY' & HL). apply HL. congruence.
        * right. exists l. split; [done|]. destruct (Hout k l He) as (Y' & HY' & HL). apply HL. congruence.
      + intros [(l & He & HL)|(l & He & HL)].
        * destruct (Hin k l He) as (Y & HY & HYL). exists Y. split; [done|]. by apply HYL.
        * destruct (Hout k l He) as (Y & HY & HYL). exists Y. split; [done|]. by apply HYL.
  Qed.

  Lemma var_nbr v k l : v ∈ vnames F -> has_edge F k v l \/ has_edge F v k l -> k ∈ fnames F.
  Proof.
    intros Hv [He|He]; apply (k_edge _ _ HF) in He as [[H1 H2]|[H1 H2]]; try done; exfalso; by apply (k_disj _ _ HF v).
  Qed.

  Lemma add_adj_loop view l : (forall v X, view !! v = Some X -> forall x, x ∈ X -> in_var F v x) -> (forall v, v ∈ l -> v ∈ vnames F /\ v ∈ dom view) ->
    forall res, (forall v, v ∈ vnames F -> res !! v = view !! v) ->
    exists res', loopR (fun v res => bindR (at_key v res) (fun X => bindR (get_adj_elts eord v X F) (fun new => Ok (setmap_union res new)))) l res = Ok res' /\
      (forall v, v ∈ vnames F -> res' !! v = view !! v) /\
      (forall k, k ∈ dom res' <-> k ∈ dom res \/ exists v l', v ∈ l /\ (has_edge F k v l' \/ has_edge F v k l')) /\
      (forall k x, smrel res' k x <-> smrel res k x \/ exists v, v ∈ l /\ adjacent_to v (smrel view v) k x).
  Proof.
    intros Hview. induction l as [|v l IH]; intros Hl res Hres.
    - exists res. split; [done|]. split; [done|]. split.
      + intros k. split; [by left|]. intros [?|(v & l' & []%elem_of_nil & _)]; done.
      + intros k x. split; [by left|]. intros [?|(v & []%elem_of_nil & _)]; done.
    - destruct (Hl v) as [Hv [X HX]%elem_of_dom]; [left|]. assert (at_key v res = Ok X) as Hat by (apply at_key_ok; by rewrite Hres). cbn. rewrite Hat. cbn.
      destruct (get_adj_elts_ok v X) as (m & Hm & Hd & HA); [intros x Hx; left; by eapply Hview|]. rewrite Hm. cbn.
      assert (HQ : forall k x, smrel m k x <-> adjacent_to v (smrel view v) k x).
      { intros k x. rewrite HA. assert (HXQ : forall h, h ∈ X <-> smrel view v h) by (intros h; unfold smrel; rewrite HX; naive_solver).
        unfold adjacent_to, link. by setoid_rewrite HXQ. }
      destruct (IH ltac:(intros; apply Hl; by right) (setmap_union res m)) as (res' & Hr & H1 & H2 & H3).
      { intros w Hw. unfold setmap_union. rewrite lookup_union_with. rewrite Hres by done.
        assert (m !! w = None) as ->.
        { apply not_elem_of_dom. rewrite Hd. intros [l' He]. apply (k_disj _ _ HF w); [done|]. by apply (var_nbr v w l'). }
        by destruct (view !! w). }
      exists res'. split; [exact Hr|]. split; [done|]. split.
      + intros k. rewrite H2, dom_setmap_union, elem_of_union, Hd. split.
        * intros [[?|[l' He]]|(w & l' & Hw & He)]; [by left|right; exists v, l'; split; [left|done]|right; exists w, l'; split; [by right|done]].
        * intros [?|(w & l' & [->|Hw]%elem_of_cons & He)]; [by left; left|left; right; by exists l'|right; by exists w, l'].
      + intros k x. rewrite H3, smrel_union, HQ. split.
        * intros [[?|?]|(w & Hw & He)]; [by left|right; exists v; split; [left|done]|right; exists w; split; [by right|done]].
        * intros [?|(w & [->|Hw]%elem_of_cons & He)]; [by left; left|by left; right|right; by exists w].
  Qed.

  Context (keep : ref -> bool) (HN : no_lone_function F).
  Lemma isin_ok : exists R, isin ord eord keep F = Ok R /\ vnames R = vnames F /\ fnames R = fnames F /\
    (forall v h, in_var R v h <-> keeps F keep v h) /\
    (forall f c, in_func R f c <-> in_func F f c /\ touches F keep f c) /\
    (forall s d l, has_edge R s d l <-> has_edge F s d l) /\ (whole_calls F keep -> check R = true).
  Proof.
    unfold isin. rewrite decide_True.
    2:{ intros h [v Hv]%elem_of_union_values. apply (k_refs _ _ HF). by exists v. }
    set (view := (fun X : sset => filter (fun h => kept keep F h = true) X) <$> f_vs F).
    assert (Hview : forall v h, smrel view v h <-> keeps F keep v h).
    { intros v h. unfold smrel, view, keeps, in_var, kept. setoid_rewrite lookup_fmap. split.
      - intros (X & HX & Hh). destruct (f_vs F !! v) as [Y|]; [|done]. cbn in HX. injection HX as <-.
        apply elem_of_filter in Hh as [Hk Hh]. split; [by exists Y|]. destruct (f_refs F !! h) as [r|]; [|done]. by exists r.
      - intros [(Y & HY & Hh) (r & Hr & Hk)]. rewrite HY. cbn. eexists. split; [done|]. apply elem_of_filter. by rewrite Hr. }
    assert (Hdv : dom view = vnames F) by apply dom_fmap_L.
    unfold add_adj_calls.
    destruct (add_adj_loop view (ord (dom view))) with (res := view) as (full & Hfull & H1 & H2 & H3).
    { intros v X HX x Hx. apply (Hview v x). by exists X. }
    { intros v Hv. destruct Hords as [Ho _]. rewrite (Ho (dom view)), elem_of_elements, Hdv in Hv. by rewrite Hdv. }
    { done. }
    rewrite Hfull. cbn.
    assert (Hord : forall v, v ∈ ord (dom view) <-> v ∈ vnames F).
    { intros v. destruct Hords as [Ho _]. by rewrite (Ho (dom view)), elem_of_elements, Hdv. }
    assert (Hvar : forall v h, v ∈ vnames F -> smrel full v h <-> keeps F keep v h).
    { intros v h Hv. rewrite <-Hview. unfold smrel. by rewrite H1. }
    assert (Hfn : forall f c, f ∈ fnames F -> smrel full f c <-> in_func F f c /\ touches F keep f c).
    { intros f c Hf. assert (Hnv : f ∉ vnames F) by (intros Hv; by apply (k_disj _ _ HF f)). rewrite H3. split.
      - intros [Hs|(v & Hv & [(l & He & HL)|(l & He & HL)])].
        + apply smrel_dom in Hs. rewrite Hdv in Hs. done.
        + cbn in HL. destruct HL as [(_ & Hc & h & Hh & Hcr)|[Hi _]]; [|apply smrel_dom in Hi; done].
          split; [done|]. right. exists v, l, h. split; [done|]. split; [by apply Hview|done].
        + cbn in HL. destruct HL as [(Hc & cl & h & Hcl & Hi & Hh)|[Hi _]]; [|apply smrel_dom in Hi; done].
          split; [done|]. left. exists v, l, h, cl. split; [done|]. split; [by apply Hview|done].
      - intros [Hc [(v & l & h & cl & He & Hk & Hcl & Hi)|(v & l & h & He & Hk & Hcr)]]; right; exists v.
        + assert (v ∈ vnames F) by (destruct Hk as [Hk _]; by eapply smrel_dom). split; [by apply Hord|]. right. exists l. split; [done|].
          cbn. left. split; [done|]. exists cl, h. split; [done|]. split; [done|]. by apply Hview.
        + assert (v ∈ vnames F) by (destruct Hk as [Hk _]; by eapply smrel_dom). split; [by apply Hord|]. left. exists l. split; [done|].
          cbn. left. split; [done|]. split; [done|]. exists h. split; [by apply Hview|done]. }
    assert (Hdf : dom full = f_nodes F).
    { apply set_eq. intros k. rewrite H2, Hdv. unfold f_nodes. rewrite elem_of_union. split.
      - intros [?|(v & l & Hv & He)]; [by left|]. right. rewrite <-Hdv in Hv. apply Hord in Hv. by eapply var_nbr.
      - intros [?|Hf]; [by left|]. right. destruct (HN k Hf) as (v & l & He). exists v, l. split.
        + rewrite <-Hdv. apply Hord. destruct He as [He|He]; apply (k_edge _ _ HF) in He as [[]|[]]; try done; exfalso; by apply (k_disj _ _ HF k).
        + tauto. }
    assert (Hsub : forall n x, smrel full n x -> in_node F n x).
    { intros n x Hs. assert (n ∈ f_nodes F) as Hn by (rewrite <-Hdf; by eapply smrel_dom). unfold f_nodes in Hn. apply elem_of_union in Hn as [Hn|Hn].
      - left. by apply Hvar.
      - right. by apply Hfn. }
    destruct (select_subsets_ok U full F HF Hdf Hsub) as (R & HR & [R1 R2 R3 R4 R5 R6 R7 R8]).
    exists R. split; [done|]. split; [done|]. split; [done|]. split; [|split; [|split; [done|]]].
    - intros v h. rewrite R3. split; [intros [Hv Hs]; by apply Hvar|]. intros Hk. assert (v ∈ vnames F) by (destruct Hk as [Hk _]; by eapply smrel_dom).
      split; [done|]. by apply Hvar.
    - intros f c. rewrite R4. split; [intros [Hf Hs]; by apply Hfn|]. intros Hk. assert (f ∈ fnames F) by (destruct Hk as [Hk _]; by eapply smrel_dom).
      split; [done|]. by apply Hfn.
    - intros HW. apply (subsets_check U HU full F R HF Hdf Hsub); [|done]. intros f c cl l h v Hc Hs Hcl.
      assert (Hf : f ∈ fnames F) by by eapply smrel_dom. apply (Hfn f c Hf) in Hs as [_ Ht]. destruct (HW f c cl l h v Hc Ht Hcl) as [W1 W2].
      split; intros Hio He; apply Hvar; auto; [destruct (W1 Hio He) as [Hk _]|destruct (W2 Hio He) as [Hk _]]; by eapply smrel_dom.
  Qed.
End filter.
