(** A frame with nothing left to expand: proofs for C52. *)
From stdpp Require Import base strings gmap list.
From Verif Require Import Base PyDict Refs Storage Frame Spec_Frame Frame_base Frame_names Frame_ok Frame_ok2 Frame_ok3
  FrameExpand FrameExpandAll Spec_Expand Spec_Forward Spec_All Frame_reach2 Frame_stream
  Expand_proofs Expand_forward Forward_loop.

Section all.
  Context (ord : sset -> list string) (eord : gset edge3 -> list edge3) (Hords : orders ord eord).
  Context (U : gmap string call) (HU : world U).
  Context (gord : list group -> list group) (Hgord : forall l, gord l ≡ₚ l).
  Context (creators consumers : sset -> list call) (Hcr : answers U creators) (Hco : consumer_answers U consumers).

  Definition settled (dr : dir) (F : frame) : Prop := forall v h c cl l, in_var F v h -> U !! c = Some cl ->
    match dr with Back => call_output cl l h -> connected_creator F v h | Forward => call_input cl l h -> connected_consumer F v h end.
  Lemma step_settled dr reuse sk F : consistent U F -> tidy F -> settled dr F -> vnames F <> ∅ ->
    expand_step ord eord gord creators consumers dr reuse sk (dom (f_vs F)) F = (Ok tt, F).
  Proof.
    intros HF HTF HS Hne. unfold expand_step. rewrite bindM_getM.
    destruct (boundary_ok ord eord Hords U HU (match dr with Back => Forward | Forward => Back end) F HF HTF) as (B & HB & HBd & HBx).
    rewrite (bindM_liftR _ _ _ B) by by destruct dr.
    set (E := filter (fun kX : string * sset => kX.1 ∈ dom (f_vs F)) B).
    rewrite decide_False.
    2:{ intros HE0. apply set_choose_L in Hne as [v Hv]. assert (is_Some (B !! v)) as [X HX].
        { apply elem_of_dom. rewrite HBd. apply elem_of_union_l. exact Hv. }
        assert (E !! v = Some X) as Hx by (apply map_filter_lookup_Some; done). rewrite HE0 in Hx. by rewrite lookup_empty in Hx. }
    cbv zeta. set (cs := match dr with Back => _ | Forward => _ end).
    assert (Hno : cs = []).
    { assert (HE : forall h, h ∈ union_values E -> exists v, in_var F v h /\ match dr with Back => ~ connected_creator F v h | Forward => ~ connected_consumer F v h end).
      { intros h Hh. apply elem_of_union_values in Hh as (v & X & HX & Hh). unfold E in HX. apply map_filter_lookup_Some in HX as [HX Hv]. cbn in Hv.
        assert (smrel B v h) as Hs by by exists X. apply HBx in Hs as [Hi Hn]. exists v.
        assert (in_var F v h) as Hvh. { destruct Hi as [?|Hi]; [done|]. exfalso. apply (k_disj _ _ HF v Hv). by apply smrel_dom in Hi. }
        split; [done|]. destruct dr; intros (f & c & cl & l & He & Hf & Hc & Ho); apply Hn.
        - exists f, v, l. split; [done|]. split; [done|]. right. split; [done|]. exists c, cl. split; [by right|]. done.
        - exists v, f, l. split; [done|]. split; [done|]. right. split; [done|]. exists c, cl. split; [by right|]. done. }
      destruct cs as [|c cs'] eqn:Ecs; [done|]. exfalso. assert (c ∈ cs) as Hc by (rewrite Ecs; left). unfold cs in Hc. destruct dr.
      - apply Hcr in Hc as (HUc & l & h & Hi & Hh). destruct (HE h Hh) as (v & Hv & Hn). by apply Hn, (HS v h (c_hid c) c l).
      - apply Hco in Hc as (HUc & l & h & Hi & Hh). destruct (HE h Hh) as (v & Hv & Hn). by apply Hn, (HS v h (c_hid c) c l). }
    rewrite Hno. assert ((if sk then filter (fun c => c_hid c ∉ dom (f_calls F)) [] else []) = []) as -> by by destruct sk.
    unfold group_calls. cbn [group_loop]. assert (gord [] = []) as Hg0 by (apply Permutation_nil; symmetry; apply Hgord).
    unfold bindM, liftR. by rewrite Hg0.
  Qed.
  Lemma loop_settled dr reuse sk k F : consistent U F -> tidy F -> settled dr F -> vnames F <> ∅ ->
    expand_loop ord eord gord creators consumers dr reuse sk true (S k) F = (Ok tt, F).
  Proof.
    intros HF HTF HS Hne. cbn [expand_loop]. rewrite bindM_getM, (bindM_step _ _ _ _ _ (step_settled dr reuse sk F HF HTF HS Hne)), bindM_getM.
    by rewrite decide_True by done.
  Qed.
  Lemma all_settled reuse sk k n F : consistent U F -> tidy F -> settled Back F -> settled Forward F -> vnames F <> ∅ ->
    expand_all ord eord gord creators consumers reuse sk (S k) (S n) F = (Ok tt, F).
  Proof.
    intros HF HTF HB HFw Hne. unfold expand_all. rewrite bindM_getM. cbn [expand_all_loop].
    rewrite (bindM_step _ _ _ _ _ (loop_settled Back reuse sk k F HF HTF HB Hne)).
    rewrite (bindM_step _ _ _ _ _ (loop_settled Forward reuse sk k F HF HTF HFw Hne)). rewrite bindM_getM. by rewrite decide_True by done.
  Qed.

  Context (isv : string -> Prop).
  Context (Hnewi : forall c cl l h G v, U !! c = Some cl -> call_input cl l h -> get_new_vname l G = Ok v -> isv v).
  Context (Hnewo : forall c cl l h G v, U !! c = Some cl -> call_output cl l h -> get_new_vname l G = Ok v -> isv v).
  Context (Hnewf : forall c cl G f, U !! c = Some cl -> get_new_fname (op_name (c_op cl)) G = Ok f -> ~ isv f).
  Context (HNL : no_lists U).
  Context (rank : string -> nat).
  Context (Hrank : forall c cl l h l' h', U !! c = Some cl -> call_output cl l h -> call_input cl l' h' -> rank h' < rank h).

  Lemma no_lists_tidy F : consistent U F -> tidy F.
  Proof. intros HF f c cl _ Hc Hm. pose proof (lookup_weaken _ _ _ _ Hc (k_world _ _ HF)) as HUc. rewrite (HNL _ _ HUc) in Hm. done. Qed.
  Lemma no_lists_calls : tidy_calls U.
  Proof. intros c cl HUc Hm. rewrite (HNL _ _ HUc) in Hm. done. Qed.

  Theorem expand_all_ok F : consistent U F -> inputs_known F -> (forall v, v ∈ vnames F -> isv v) -> (forall f, f ∈ fnames F -> ~ isv f) -> vnames F <> ∅ ->
    exists n F1 F', (forall inner fuel sk, n <= inner -> 2 <= fuel -> sk = false -> expand_all ord eord gord creators consumers false sk inner fuel F = (Ok tt, F')) /\
      consistent U F' /\ kept_in F F' /\ all_connected U F' /\
      (forall k, n <= k -> expand_loop ord eord gord creators consumers Back false false true k F = (Ok tt, F1)) /\
      (forall h, h ∈ dom (f_refs F') <-> history U (fun h => h ∈ dom (f_refs F)) h \/ future U F1 h) /\
      (forall c, c ∈ dom (f_calls F') <-> c ∈ dom (f_calls F) \/ history_call U (fun h => h ∈ dom (f_refs F)) c \/ future_call U F1 c).
  Proof.
    intros HF HI Hv Hf Hne.
    assert (Hgood : good U isv F) by (split; try done; by apply no_lists_tidy).
    pose proof no_lists_calls as HT.
    destruct (expand_back_ok ord eord Hords U HU isv Hnewi Hnewf HT gord Hgord creators consumers Hcr rank Hrank F Hgood Hne) as (n1 & F1 & E1 & _ & HK1 & HR1 & HC1).
    assert (exists r, forall h, h ∈ dom (f_refs F) -> rank h < r) as [r Hr].
    { clear. generalize (dom (f_refs F)). intros X. induction X as [|x X Hx [r Hr]] using set_ind_L; [exists 0; set_solver|].
      exists (S (r + rank x)). intros h [->%elem_of_singleton|Hh]%elem_of_union; [lia|]. apply Hr in Hh. lia. }
    destruct (loop_ok ord eord Hords U HU isv Hnewi Hnewf HT gord Hgord creators consumers Hcr rank Hrank (elt F) F r F Hgood Hne) as (n2 & F1' & E1' & HG1 & _ & _ & Hend1).
    { intros v h [[Hvh _] _]. apply Hr. apply (k_refs _ _ HF). eauto. }
    { split; [intros h Hh; by constructor|]. auto. }
    assert (F1' = F1) as ->. { pose proof (E1 (n1 + n2)) as Ha. pose proof (E1' (n1 + n2)) as Hb. rewrite Ha in Hb by lia. assert (Ok (A := unit) tt = Ok tt -> F1 = F1') by (intros _; specialize (Hb ltac:(lia)); congruence). symmetry. auto. }
    assert (HB1 : with_creators U F1).
    { intros v h c cl l Hvh HUc Ho. destruct (source_not U HU isv F1 v h c cl l HG1 Hvh HUc Ho) as (f & l' & He & Hfc & Hc & Ho').
      - intros Hs. apply (Hend1 v h). split; [done|]. exists cl, l. by rewrite (w_key _ HU _ _ HUc).
      - by exists f, c, cl, l'. }
    assert (Hne1 : vnames F1 <> ∅). { intros He. apply Hne. apply elem_of_equiv_empty_L. intros v Hx. destruct HK1 as [HK1 _]. apply HK1 in Hx as [Hx _]. rewrite He in Hx. by apply elem_of_empty in Hx. }
    assert (HK : kinds U isv F1). { destruct HG1. by split. }
    destruct (forward_ok ord eord Hords U HU HNL isv Hnewo Hnewf gord Hgord creators consumers Hco rank Hrank F1 HK Hne1) as (n3 & F' & E3 & HK' & HK3 & HW & HR3 & HC3 & Hend3).
    pose proof (kd_con _ _ _ HK') as HC'. specialize (HW HB1).
    assert (HSf : settled Forward F'). { intros v h c cl l Hvh HUc Hi. by apply (no_pending U HU F' v h c cl l). }
    assert (Hne' : vnames F' <> ∅). { intros He. apply Hne1. apply elem_of_equiv_empty_L. intros v Hx. destruct HK3 as [HK3 _]. apply HK3 in Hx as [Hx _]. rewrite He in Hx. by apply elem_of_empty in Hx. }
    assert (HT' : tidy F') by by apply no_lists_tidy.
    exists (S (n1 + n3)), F1, F'. split; [|split; [done|]; split; [by eapply kept_in_trans|]; split; [|split; [intros; apply E1; lia|]; split]].
    - intros inner [|[|fuel]] sk Hin Hfu ->; [lia|lia|]. unfold expand_all. rewrite bindM_getM. cbn [expand_all_loop].
      rewrite (bindM_step _ _ _ _ _ (E1 inner ltac:(lia))), (bindM_step _ _ _ _ _ (E3 inner ltac:(lia))), bindM_getM. case_decide; [done|].
      destruct inner as [|k]; [lia|].
      rewrite (bindM_step _ _ _ _ _ (loop_settled Back false false k F' HC' HT' HW Hne')).
      rewrite (bindM_step _ _ _ _ _ (loop_settled Forward false false k F' HC' HT' HSf Hne')). rewrite bindM_getM. by rewrite decide_True by done.
    - intros v h c cl l Hvh HUc. split; intros Hx; [by eapply HW|by eapply HSf].
    - intros h. rewrite HR3, HR1. done.
    - intros c. rewrite HC3, HC1. unfold elt. clear. tauto.
  Qed.
End all.
