(** Consistency of frames is preserved by the operations that modify frames in place. *)
From stdpp Require Import base strings gmap list relations.
From Verif Require Import Base PyDict Refs Storage Frame Spec_Frame Frame_base.
Local Open Scope pym_scope.

(** * Dropping refs *)
Record okR (F : frame) : Prop := {
  okR_refs : forall h, h ∈ dom (f_refs F) <-> exists v, in_var F v h;
  okR_inv : forall h v, smrel (f_refinv F) h v <-> in_var F v h;
  okR_dom : dom (f_refinv F) = dom (f_refs F);
}.
(** everything but the variables and what is known about their refs *)
Definition same_rest (F F' : frame) : Prop :=
  f_inp F' = f_inp F /\ f_out F' = f_out F /\ f_fs F' = f_fs F /\ f_callinv F' = f_callinv F /\ f_calls F' = f_calls F.
Definition gone (F : frame) (h : string) : Prop := ~ exists v, in_var F v h.

Record dropped_refs (v : string) (l : list string) (F F' : frame) : Prop := {
  dr_rest : same_rest F F';
  dr_dom : dom (f_vs F') = dom (f_vs F);
  dr_var : forall u k, in_var F' u k <-> in_var F u k /\ ~ (u = v /\ k ∈ l);
  dr_ok : okR F';
  dr_none : forall k, k ∈ l -> gone F' k -> f_refs F' !! k = None /\ f_creator F' !! k = None /\ f_consumers F' !! k = None;
  dr_same : forall k, ~ (k ∈ l /\ gone F' k) ->
    f_refs F' !! k = f_refs F !! k /\ f_creator F' !! k = f_creator F !! k /\ f_consumers F' !! k = f_consumers F !! k;
}.

Lemma drop_ref_total F v h : okR F -> in_var F v h ->
  exists F', drop_ref v h F = (Ok tt, F') /\ dropped_refs v [h] F F'.
Proof.
  intros [Hr Hi Hd] Hin.
  destruct (sm_remove_total (f_vs F) v h Hin) as [vs' Hvs].
  pose proof (smrel_remove _ _ _ _ Hvs) as (Hvs' & Hvd & _).
  assert (h ∈ dom (f_refs F)) as Hhr by (apply Hr; eauto).
  assert (exists X, f_refinv F !! h = Some X) as [X HX] by (apply elem_of_dom; by rewrite Hd).
  assert (HXi : forall u, u ∈ X <-> in_var F u h).
  { intros u. rewrite <-Hi. unfold smrel. rewrite HX. naive_solver. }
  assert (v ∈ X) as HvX by by apply HXi.
  unfold drop_ref, bindM, getM, liftR, modM. rewrite Hvs. cbn. unfold at_key. rewrite HX. cbn.
  assert (Hiv : forall G, f_vs G = vs' -> forall u k, in_var G u k <-> in_var F u k /\ ~ (u = v /\ k ∈ [h])).
  { intros G HG u k. unfold in_var. rewrite HG. fold (smrel vs' u k). rewrite Hvs'.
    rewrite elem_of_list_singleton. done. }
  case_decide as Hs.
  - (* the only variable *)
    assert (X = {[v]}) as ->. { apply size_1_elem_of in Hs as [w Hw]. set_solver. }
    assert (Hm : m_del h (f_refs F) = Ok (delete h (f_refs F))).
    { apply m_del_ok. split; [by apply elem_of_dom|done]. }
    rewrite Hm. cbn. eexists. split; [done|].
    set (G := set_consumers _ _).
    assert (Hgone : gone G h).
    { intros (u & Hu). apply (Hiv G eq_refl) in Hu as [Hu Hn]. apply Hn. split; [|set_solver].
      apply HXi in Hu. set_solver. }
    split.
    + done.
    + cbn. done.
    + by apply Hiv.
    + split.
      * intros k. cbn. rewrite dom_delete_L, elem_of_difference, Hr, elem_of_singleton. split.
        -- intros [(u & Hu) Hk]. exists u. apply Hiv; [done|]. split; [done|]. set_solver.
        -- intros (u & Hu). pose proof Hu as Hu'. apply (Hiv G eq_refl) in Hu as [Hu _]. split; [eauto|].
           intros ->. apply Hgone. eauto.
      * intros k u. cbn. unfold smrel. destruct (decide (k = h)) as [->|Hne].
        -- rewrite lookup_delete. split; [naive_solver|]. intros Hu. exfalso. apply Hgone. eauto.
        -- rewrite lookup_delete_ne by done. fold (smrel (f_refinv F) k u). rewrite Hi.
           rewrite (Hiv G eq_refl). set_solver.
      * cbn. rewrite !dom_delete_L. by rewrite Hd.
    + intros k ->%elem_of_list_singleton _. cbn. by rewrite !lookup_delete.
    + intros k Hk. assert (k <> h). { intros ->. apply Hk. split; [by apply elem_of_list_singleton|done]. }
      cbn. by rewrite !lookup_delete_ne by done.
  - (* other variables have the ref *)
    eexists. split; [done|].
    set (G := set_refinv _ _).
    assert (exists w, w ∈ X /\ w <> v) as (w & HwX & Hwv).
    { destruct (set_choose_or_empty (X ∖ {[v]})) as [[w Hw]|He].
      - exists w. set_solver.
      - exfalso. apply Hs. assert (X = {[v]}) as ->; [|by rewrite size_singleton].
        apply set_eq. intros w. destruct (decide (w = v)); set_solver. }
    assert (Hstay : in_var G w h).
    { apply Hiv; [done|]. split; [by apply HXi|]. naive_solver. }
    split.
    + done.
    + cbn. done.
    + by apply Hiv.
    + split.
      * intros k. cbn. rewrite Hr. split.
        -- intros (u & Hu). destruct (decide (k = h)) as [->|Hne]; [eauto|].
           exists u. apply Hiv; [done|]. split; [done|]. set_solver.
        -- intros (u & Hu). apply (Hiv G eq_refl) in Hu as [Hu _]. eauto.
      * intros k u. cbn. unfold smrel. destruct (decide (k = h)) as [->|Hne].
        -- rewrite lookup_insert. rewrite (Hiv G eq_refl), <-HXi. split.
           ++ intros (Y & [= <-] & Hu). set_solver.
           ++ intros [Hu Hn]. eexists. split; [done|]. set_solver.
        -- rewrite lookup_insert_ne by done. fold (smrel (f_refinv F) k u). rewrite Hi.
           rewrite (Hiv G eq_refl). set_solver.
      * cbn. rewrite dom_insert_lookup_L; [done|]. rewrite HX. eauto.
    + intros k ->%elem_of_list_singleton Hg. exfalso. apply Hg. eauto.
    + intros k Hk. done.
Qed.

Lemma drop_refs_total F v l : okR F -> NoDup l -> (forall h, h ∈ l -> in_var F v h) ->
  exists F', iterM (drop_ref v) l F = (Ok tt, F') /\ dropped_refs v l F F'.
Proof.
  intros Hok Hnd Hl. apply (iterM_total (drop_ref v) (fun dn G => dropped_refs v dn F G)).
  - intros dn h rest G -> HG. apply NoDup_app in Hnd as (_ & Hnd & _).
    destruct (drop_ref_total G v h) as (F' & HF' & HD).
    + apply HG.
    + apply (dr_var _ _ _ _ HG). split; [apply Hl; set_solver|]. intros [_ Hh]. apply (Hnd h Hh). left.
    + exists F'. split; [done|].
      destruct HG as [G1 G2 G3 G4 G5 G6], HD as [D1 D2 D3 D4 D5 D6].
      assert (Hgm : forall k, gone G k -> gone F' k).
      { intros k Hk (u & Hu). apply Hk. exists u. by apply D3 in Hu as [Hu _]. }
      split.
      * destruct G1 as (?&?&?&?&?), D1 as (?&?&?&?&?). repeat split; congruence.
      * congruence.
      * intros u k. rewrite D3, G3. rewrite elem_of_app. naive_solver.
      * done.
      * intros k Hk Hg. apply elem_of_app in Hk as [Hk|Hk]; [|by apply D5].
        destruct (decide (k = h)) as [->|Hne]; [by apply D5; [left|]|].
        assert (gone G k).
        { intros (u & Hu). apply Hg. exists u. apply D3. split; [done|]. set_solver. }
        destruct (G5 k) as (e1 & e2 & e3); [done..|].
        destruct (D6 k) as (d1 & d2 & d3); [set_solver|]. rewrite d1, d2, d3. done.
      * intros k Hk. destruct (D6 k) as (d1 & d2 & d3).
        { intros [Hk1 Hk2]. apply Hk. split; [set_solver|done]. }
        destruct (G6 k) as (e1 & e2 & e3).
        { intros [Hk1 Hk2]. apply Hk. split; [set_solver|auto]. }
        rewrite d1, d2, d3. done.
  - split; try done.
    + intros. set_solver.
    + intros k Hk. set_solver.
Qed.

Lemma consistent_okR U F : consistent U F -> okR F.
Proof. intros H. split; [apply H|apply H|apply H]. Qed.

(** * Dropping a variable *)
Lemma del_adj_total n F : n ∈ dom (f_inp F) -> n ∈ dom (f_out F) ->
  del_adj n F = (Ok tt, set_out (delete n (f_out F)) (set_inp (delete n (f_inp F)) F)).
Proof.
  intros Hi Ho. unfold del_adj, bindM, getM, liftR, modM.
  rewrite (proj2 (m_del_ok n (f_inp F) (delete n (f_inp F)))); [|split; [by apply elem_of_dom|done]]. cbn.
  rewrite (proj2 (m_del_ok n (f_out F) (delete n (f_out F)))); [|split; [by apply elem_of_dom|done]]. done.
Qed.
Lemma arel_delete n a n' l x : arel (delete n a) n' l x <-> arel a n' l x /\ n' <> n.
Proof.
  unfold arel. destruct (decide (n' = n)) as [->|Hne].
  - rewrite lookup_delete. naive_solver.
  - rewrite lookup_delete_ne by done. naive_solver.
Qed.
Lemma smrel_delete k m k' x : smrel (delete k m) k' x <-> smrel m k' x /\ k' <> k.
Proof.
  unfold smrel. destruct (decide (k' = k)) as [->|Hne].
  - rewrite lookup_delete. naive_solver.
  - rewrite lookup_delete_ne by done. naive_solver.
Qed.

Section ok.
  Context (ord : sset -> list string) (eord : gset edge3 -> list edge3) (Hords : orders ord eord).
  Context (U : gmap string call) (HU : world U).

  (** what dropping a variable does *)
  Record dropped_var (v : string) (F F' : frame) : Prop := {
    dv_vdom : dom (f_vs F') = dom (f_vs F) ∖ {[v]};
    dv_idom : dom (f_inp F') = dom (f_inp F) ∖ {[v]};
    dv_odom : dom (f_out F') = dom (f_out F) ∖ {[v]};
    dv_out : forall s d l, has_edge F' s d l <-> has_edge F s d l /\ s <> v /\ d <> v;
    dv_in : forall s d l, has_in_edge F' s d l <-> has_in_edge F s d l /\ s <> v /\ d <> v;
    dv_fs : f_fs F' = f_fs F;
    dv_calls : f_calls F' = f_calls F;
    dv_callinv : f_callinv F' = f_callinv F;
    dv_var : forall u k, in_var F' u k <-> in_var F u k /\ u <> v;
    dv_ok : okR F';
    dv_none : forall k, in_var F v k -> gone F' k -> f_refs F' !! k = None /\ f_creator F' !! k = None /\ f_consumers F' !! k = None;
    dv_same : forall k, ~ (in_var F v k /\ gone F' k) ->
      f_refs F' !! k = f_refs F !! k /\ f_creator F' !! k = f_creator F !! k /\ f_consumers F' !! k = f_consumers F !! k;
  }.

  Lemma drop_var_total v F : consistent U F -> v ∈ vnames F ->
    exists F', drop_var ord eord v F = (Ok tt, F') /\ dropped_var v F F'.
  Proof.
    intros HF Hv.
    destruct (drop_edges_total F (eord (adjacent v F))) as (i & o & He & Hi & Ho & Hro & Hri).
    { exact (k_mirror _ _ HF). } { by eapply eord_nodup. }
    { intros s d l. rewrite (eord_elem _ _ Hords), elem_of_adjacent. tauto. }
    set (F1 := set_inp i (set_out o F)) in *.
    assert (exists X, f_vs F !! v = Some X) as [X HX] by by apply elem_of_dom.
    destruct (drop_refs_total F1 v (ord X)) as (F2 & H2 & HD).
    { pose proof (consistent_okR _ _ HF) as [E1 E2 E3]. by split. }
    { by eapply ord_nodup. }
    { intros h. rewrite (ord_elem _ _ Hords). intros Hh. exists X. done. }
    destruct HD as [D1 D2 D3 D4 D5 D6]. destruct D1 as (Di & Do & Df & Dci & Dc).
    set (F3 := set_vs (delete v (f_vs F2)) F2).
    assert (Hal : forall s d l, (s, d, l) ∉ eord (adjacent v F) <-> ~ (has_edge F s d l /\ (s = v \/ d = v))).
    { intros. by rewrite (eord_elem _ _ Hords), elem_of_adjacent. }
    assert (HlX : forall k, k ∈ ord X <-> in_var F v k).
    { intros k. rewrite (ord_elem _ _ Hords). unfold in_var. rewrite HX. naive_solver. }
    exists (set_out (delete v (f_out F3)) (set_inp (delete v (f_inp F3)) F3)). split.
    { unfold drop_var. rewrite bindM_getM, (bindM_step _ _ _ _ _ He), bindM_getM.
      rewrite (bindM_liftR _ _ _ X) by by apply at_key_ok.
      rewrite (bindM_step _ _ _ _ _ H2), bindM_modM. fold F3.
      apply del_adj_total; cbn.
      - rewrite Di. cbn. rewrite Hi, (k_inp _ _ HF). unfold f_nodes. set_solver.
      - rewrite Do. cbn. rewrite Ho, (k_out _ _ HF). unfold f_nodes. set_solver. }
    set (G := set_out _ _).
    assert (Hv' : forall u k, in_var G u k <-> in_var F u k /\ u <> v).
    { intros u k. unfold in_var at 1. cbn. fold (smrel (delete v (f_vs F2)) u k). rewrite smrel_delete.
      change (smrel (f_vs F2) u k) with (in_var F2 u k). rewrite D3. change (in_var F1 u k) with (in_var F u k). naive_solver. }
    assert (Hg : forall k, gone G k <-> gone F2 k).
    { intros k. unfold gone. setoid_rewrite Hv'. split; intros Hn (u & Hu); apply Hn.
      - exists u. apply D3 in Hu as [Hu Hk]. split; [done|]. intros ->. apply Hk.
        split; [done|]. by apply HlX.
      - exists u. apply D3. change (in_var F1 u k) with (in_var F u k). naive_solver. }
    split; cbn.
    - rewrite dom_delete_L. by rewrite D2.
    - rewrite dom_delete_L, Di. cbn. by rewrite Hi.
    - rewrite dom_delete_L, Do. cbn. by rewrite Ho.
    - intros s d l. rewrite !has_edge_arel. cbn. rewrite arel_delete, Do. cbn.
      rewrite Hro, Hal, <-has_edge_arel. clear; destruct (decide (s = v)), (decide (d = v)); naive_solver.
    - intros s d l. rewrite !has_in_edge_arel. cbn. rewrite arel_delete, Di. cbn.
      rewrite Hri, Hal, <-has_in_edge_arel, <-(k_mirror _ _ HF s d l).
      clear; destruct (decide (s = v)), (decide (d = v)); naive_solver.
    - by rewrite Df.
    - by rewrite Dc.
    - by rewrite Dci.
    - done.
    - destruct D4 as [E1 E2 E3]. split; [|intros h w|done].
      + intros h. cbn. rewrite E1. split.
        * intros (u & Hu). destruct (decide (u = v)) as [->|Hne].
          -- exfalso. apply D3 in Hu as [Hu Hk]. apply Hk. split; [done|]. by apply HlX.
          -- exists u. apply Hv'. split; [|done]. apply D3 in Hu. naive_solver.
        * intros (u & Hu). exists u. apply Hv' in Hu as [Hu Hne]. apply D3. naive_solver.
      + cbn. rewrite E2, Hv', D3. change (in_var F1 w h) with (in_var F w h). split.
        * intros [Hw Hk]. split; [done|]. intros ->. apply Hk. split; [done|]. by apply HlX.
        * naive_solver.
    - intros k Hk Hgk. apply D5; [by apply HlX|by apply Hg].
    - intros k Hk. apply D6. rewrite HlX. by rewrite <-Hg.
  Qed.

  Lemma dropped_var_consistent v F F' : consistent U F -> v ∈ vnames F -> dropped_var v F F' -> consistent U F'.
  Proof.
    intros HF Hv [V1 V2 V3 V4 V5 V6 V7 V8 V9 [R1 R2 R3] V10 V11].
    assert (Hvf : v ∉ fnames F). { intros Hf. by apply (k_disj _ _ HF v). }
    assert (Hfd : forall f c, in_func F' f c <-> in_func F f c).
    { intros. unfold in_func. by rewrite V6. }
    assert (Hfn : fnames F' = fnames F) by (unfold fnames; by rewrite V6).
    assert (Hst : forall k u, in_var F' u k -> f_refs F' !! k = f_refs F !! k /\ f_creator F' !! k = f_creator F !! k /\ f_consumers F' !! k = f_consumers F !! k).
    { intros k u Hu. apply V11. intros [_ Hg]. apply Hg. eauto. }
    assert (Hor : forall k, (f_refs F' !! k = f_refs F !! k /\ f_creator F' !! k = f_creator F !! k /\ f_consumers F' !! k = f_consumers F !! k)
                  \/ (f_refs F' !! k = None /\ f_creator F' !! k = None /\ f_consumers F' !! k = None)).
    { intros k. destruct (decide (k ∈ dom (f_refs F'))) as [Hk|Hk].
      - left. apply R1 in Hk as (u & Hu). eauto.
      - destruct (decide (k ∈ default ∅ (f_vs F !! v))) as [Hkv|Hkv].
        + right. apply V10; [by apply smrel_default|]. intros Hx. by apply Hk, R1.
        + left. apply V11. intros [Hx _]. by apply smrel_default in Hx. }
    split.
    - rewrite V2, (k_inp _ _ HF). unfold f_nodes, vnames. rewrite Hfn, V1. clear -Hvf. set_solver.
    - rewrite V3, (k_out _ _ HF). unfold f_nodes, vnames. rewrite Hfn, V1. clear -Hvf. set_solver.
    - rewrite Hfn. unfold vnames. rewrite V1. pose proof (k_disj _ _ HF) as Hdj. unfold vnames in *. clear -Hdj. set_solver.
    - intros. rewrite V4, V5, (k_mirror _ _ HF s d l). done.
    - intros s d l He. apply V4 in He as (He & Hs & Hd). apply (k_edge _ _ HF) in He. rewrite Hfn.
      unfold vnames in *. rewrite V1. clear -He Hs Hd. set_solver.
    - done.
    - intros c. rewrite V7, (k_calls _ _ HF c). by setoid_rewrite Hfd.
    - intros h r Hr. destruct (Hor h) as [(E & _)|(E & _)]; [|congruence]. rewrite E in Hr. by apply (k_refkey _ _ HF).
    - rewrite V7. apply HF.
    - done.
    - done.
    - rewrite V8, V7. apply HF.
    - intros c f. rewrite V8, Hfd. apply HF.
    - intros f c cl l h u Hc Hcl Hin He. apply V4 in He as (He & Hs & Hd). apply V9. split; [|done].
      rewrite Hfd in Hc. rewrite V7 in Hcl. by eapply (k_ins _ _ HF).
    - intros f c cl l h u Hc Hcl Hin He. apply V4 in He as (He & Hs & Hd). apply V9. split; [|done].
      rewrite Hfd in Hc. rewrite V7 in Hcl. by eapply (k_outs _ _ HF).
    - intros h c Hc. destruct (Hor h) as [(E & E' & _)|(_ & E & _)]; [|congruence]. rewrite E' in Hc.
      apply (k_creator _ _ HF) in Hc as [Hh Hcl]. rewrite V7. split; [|done].
      apply elem_of_dom. rewrite E. by apply elem_of_dom.
    - intros h X HX. destruct (Hor h) as [(E & _ & E')|(_ & _ & E)]; [|congruence]. rewrite E' in HX.
      apply (k_consumers _ _ HF) in HX as [Hh Hcl]. rewrite V7. split; [|done].
      apply elem_of_dom. rewrite E. by apply elem_of_dom.
    - intros f c cl l h u Hc Hcl Hin He. apply V4 in He as (He & Hs & Hd).
      rewrite Hfd in Hc. rewrite V7 in Hcl.
      assert (in_var F' u h) as Hu. { apply V9. split; [|done]. by eapply (k_outs _ _ HF). }
      destruct (Hst _ _ Hu) as (_ & -> & _). by eapply (k_creator' _ _ HF).
    - intros f c cl l h u Hc Hcl Hin He. apply V4 in He as (He & Hs & Hd).
      rewrite Hfd in Hc. rewrite V7 in Hcl.
      assert (in_var F' u h) as Hu. { apply V9. split; [|done]. by eapply (k_ins _ _ HF). }
      destruct (Hst _ _ Hu) as (_ & _ & ->). by eapply (k_consumers' _ _ HF).
  Qed.

  (** * Dropping a function *)
  Definition out_hids (c : call) : list string := map (fun nr => rhid nr.2) (c_outs c).
  Definition in_hids (c : call) : list string := map (fun nr => rhid nr.2) (c_ins c).
  Lemma out_hids_call c h : h ∈ out_hids c <-> exists l, call_output c l h.
  Proof.
    unfold out_hids, call_output. rewrite elem_of_list_fmap. split.
    - intros ([n r] & -> & Hin). cbn. eauto 10.
    - intros (l & n & r & Hin & _ & <-). by exists (n, r).
  Qed.
  Lemma in_hids_call c h : h ∈ in_hids c <-> exists l, call_input c l h.
  Proof.
    unfold in_hids, call_input. rewrite elem_of_list_fmap. split.
    - intros ([n r] & -> & Hin). cbn. eauto 10.
    - intros (l & n & r & Hin & _ & <-). by exists (n, r).
  Qed.

  Lemma unlink_outputs_ok (l : list (string * ref)) G G' :
    iterM (fun nr => unlink_output nr.2) l G = (Ok tt, G') ->
    exists k, G' = set_creator k G /\
      forall h, k !! h = (if decide (h ∈ map (fun nr => rhid nr.2) l) then None else f_creator G !! h).
  Proof.
    intros Hr. refine (iterM_ind _ (fun (dn : list (string * ref)) (G1 : frame) => exists k, G1 = set_creator k G /\
      forall h, k !! h = (if decide (h ∈ map (fun nr => rhid nr.2) dn) then None else f_creator G !! h)) l _ G G' _ Hr).
    - intros dn [n r] rest G1 G2 _ (k & -> & Hk) H. unfold unlink_output in H.
      rewrite bindM_getM in H. apply bindM_ok in H as (k' & G3 & [Hd ->]%liftR_ok & H).
      apply m_del_ok in Hd as [_ ->]. injection H as <-. cbn. eexists. split; [done|].
      intros h. cbn. rewrite map_app. cbn. destruct (decide (h = rhid r)) as [->|Hne].
      + rewrite lookup_delete. rewrite decide_True; [done|]. set_solver.
      + rewrite lookup_delete_ne by done. rewrite Hk.
        destruct (decide (h ∈ map _ dn)) as [Hi|Hi].
        * rewrite decide_True; [done|]. set_solver.
        * rewrite decide_False; [done|]. set_solver.
    - exists (f_creator G). split; [by destruct G|]. intros h. by rewrite decide_False by set_solver.
  Qed.

  Lemma unlink_inputs_ok c (l : list (string * ref)) G G' :
    iterM (fun nr => unlink_input c nr.2) l G = (Ok tt, G') ->
    exists k, G' = set_consumers k G /\ dom k ⊆ dom (f_consumers G) /\
      forall h x, smrel k h x <-> smrel (f_consumers G) h x /\ ~ (x = c /\ h ∈ map (fun nr => rhid nr.2) l).
  Proof.
    intros Hr. refine (iterM_ind _ (fun (dn : list (string * ref)) (G1 : frame) => exists k, G1 = set_consumers k G /\
      dom k ⊆ dom (f_consumers G) /\
      forall h x, smrel k h x <-> smrel (f_consumers G) h x /\ ~ (x = c /\ h ∈ map (fun nr => rhid nr.2) dn)) l _ G G' _ Hr).
    - intros dn [n r] rest G1 G2 _ (k & -> & Hd & Hk) H. unfold unlink_input in H.
      rewrite bindM_getM in H. cbn in H. destruct (k !! rhid r) as [X|] eqn:HX.
      + apply bindM_ok in H as (k' & G3 & [Hk' ->]%liftR_ok & H).
        apply smrel_remove in Hk' as (Hk' & Hd' & Hc). injection H as <-.
        eexists. split; [done|]. case_decide as He.
        * split; [rewrite dom_delete_L; set_solver|]. intros h x. rewrite smrel_delete, Hk', Hk, map_app.
          split.
          -- intros (((H1 & H2) & H3) & H4). split; [done|]. intros [-> Hin].
             apply elem_of_app in Hin as [Hin|Hin]; [by apply H2|]. cbn in Hin. set_solver.
          -- intros (H1 & H2). assert (~ (h = rhid r /\ x = c)) as Hn.
             { intros [-> ->]. apply H2. split; [done|]. set_solver. }
             split_and!; [done| |done|].
             ++ intros [-> Hin]. apply H2. set_solver.
             ++ intros ->. assert (smrel k' (rhid r) x) as (Y & HY & Hx).
                { apply Hk'. split; [|done]. apply Hk. split; [done|]. intros [-> Hin]. apply H2. set_solver. }
                rewrite He in HY. injection HY as <-. set_solver.
        * split; [by rewrite Hd'|]. intros h x. rewrite Hk', Hk, map_app. cbn. set_solver.
      + injection H as <-. exists k. split; [done|]. split; [done|].
        intros h x. rewrite Hk, map_app. split.
        * intros (H1 & H2). split; [done|]. intros [-> Hin]. apply elem_of_app in Hin as [Hin|Hin]; [by apply H2|].
          cbn in Hin. apply elem_of_list_singleton in Hin as ->.
          assert (smrel k (rhid r) c) as (Y & HY & _) by (by apply Hk). congruence.
        * intros (H1 & H2). split; [done|]. intros [-> Hin]. apply H2. set_solver.
    - exists (f_consumers G). split; [by destruct G|]. split; [done|]. set_solver.
  Qed.

  (** the calls in [dn] that are in no other function than [f] *)
  Definition removed (F : frame) (f : string) (dn : list string) (c : string) : Prop :=
    c ∈ dn /\ forall g, in_func F g c -> g = f.

  Record dropped_calls (f : string) (dn : list string) (F G : frame) : Prop := {
    dc_rest : f_inp G = f_inp F /\ f_out G = f_out F /\ f_vs G = f_vs F /\ f_fs G = f_fs F /\ f_refinv G = f_refinv F /\ f_refs G = f_refs F;
    dc_callinv : forall c g, smrel (f_callinv G) c g <-> smrel (f_callinv F) c g /\ ~ (g = f /\ c ∈ dn);
    dc_callinv_dom : forall c, c ∈ dom (f_callinv G) <-> c ∈ dom (f_callinv F) /\ ~ removed F f dn c;
    dc_calls : forall c, (removed F f dn c -> f_calls G !! c = None) /\ (~ removed F f dn c -> f_calls G !! c = f_calls F !! c);
    dc_creator : forall h, ((exists c cl, removed F f dn c /\ f_calls F !! c = Some cl /\ h ∈ out_hids cl) -> f_creator G !! h = None) /\
      (~ (exists c cl, removed F f dn c /\ f_calls F !! c = Some cl /\ h ∈ out_hids cl) -> f_creator G !! h = f_creator F !! h);
    dc_consumers_dom : dom (f_consumers G) ⊆ dom (f_consumers F);
    dc_consumers : forall h c, smrel (f_consumers G) h c <-> smrel (f_consumers F) h c /\ ~ (removed F f dn c /\ exists cl, f_calls F !! c = Some cl /\ h ∈ in_hids cl);
  }.

  Definition okC (F : frame) : Prop :=
    (forall c, c ∈ dom (f_calls F) <-> exists f, in_func F f c) /\
    (forall c f, smrel (f_callinv F) c f <-> in_func F f c) /\
    dom (f_callinv F) = dom (f_calls F).

  Lemma removed_dec F f dn c : okC F -> removed F f dn c \/ ~ removed F f dn c.
  Proof.
    intros (H1 & H2 & H3). destruct (decide (c ∈ dn)) as [Hd|Hd]; [|right; unfold removed; naive_solver].
    destruct (decide (default ∅ (f_callinv F !! c) ⊆ ({[f]} : sset))) as [Hs|Hs].
    - left. split; [done|]. intros g Hg. apply H2, smrel_default in Hg. set_solver.
    - right. intros [_ Hg]. apply Hs. intros g Hin. apply smrel_default, H2 in Hin. set_solver.
  Qed.

  Lemma drop_calls_ok F f l G : okC F -> NoDup l -> (forall c, c ∈ l -> in_func F f c) ->
    iterM (drop_call f) l F = (Ok tt, G) -> dropped_calls f l F G.
  Proof.
    intros HC Hnd Hl Hr. pose proof HC as (C1 & C2 & C3).
    eapply (iterM_ind (drop_call f) (fun dn G1 => dropped_calls f dn F G1)); [|..|exact Hr].
    - intros dn c rest G1 G2 -> [D1 D2 D3 D4 D5 D6 D7] H.
      apply NoDup_app in Hnd as (Hnd0 & Hnd & _).
      assert (Hcdn : c ∉ dn). { intros Hin. apply (Hnd c Hin). left. }
      assert (Hcf : in_func F f c) by (apply Hl, elem_of_app; right; left).
      assert (Hnr : ~ removed F f dn c) by (unfold removed; naive_solver).
      unfold drop_call in H. rewrite bindM_getM in H.
      apply bindM_ok in H as (X & G1' & [HX ->]%liftR_ok & H). apply at_key_ok in HX.
      assert (HXi : forall g, g ∈ X <-> in_func F g c).
      { intros g. rewrite <-C2. transitivity (smrel (f_callinv G1) c g).
        - unfold smrel. rewrite HX. naive_solver.
        - rewrite D2. naive_solver. }
      assert (f ∈ X) by by apply HXi.
      destruct (decide (size X = 1)) as [Hs|Hs].
      + assert (X = {[f]}) as ->. { apply size_1_elem_of in Hs as [w Hw]. set_solver. }
        assert (Hrem : removed F f (dn ++ [c]) c).
        { split; [apply elem_of_app; right; left|]. intros g Hg. apply HXi in Hg. clear -Hg. set_solver. }
        assert (Hri : forall c', removed F f (dn ++ [c]) c' <-> removed F f dn c' \/ c' = c).
        { intros c'. unfold removed. rewrite elem_of_app, elem_of_list_singleton. split.
          - intros [[?| ->] ?]; auto.
          - intros [[? ?]| ->]; [auto|]. split; [auto|apply Hrem]. }
        apply bindM_ok in H as (cl & G1' & [Hcl ->]%liftR_ok & H). apply at_key_ok in Hcl.
        rewrite (proj2 (D4 c) Hnr) in Hcl.
        rewrite bindM_modM in H. apply bindM_ok in H as ([] & G3 & H3 & H).
        apply unlink_outputs_ok in H3 as (k & -> & Hk).
        apply unlink_inputs_ok in H as (k' & -> & Hk'd & Hk'). cbn in *.
        fold (out_hids cl) in Hk. fold (in_hids cl) in Hk'.
        split; cbn.
        * done.
        * intros c' g. rewrite smrel_delete, D2. rewrite elem_of_app, elem_of_list_singleton. split.
          -- naive_solver.
          -- intros [Hcg Hn]. split; [naive_solver|]. intros ->. apply Hn.
             apply C2, HXi in Hcg. clear -Hcg. set_solver.
        * intros c'. rewrite dom_delete_L, elem_of_difference, D3, elem_of_singleton, Hri. tauto.
        * intros c'. rewrite Hri. destruct (decide (c' = c)) as [->|Hne].
          -- rewrite lookup_delete. tauto.
          -- rewrite lookup_delete_ne by done. destruct (D4 c'). tauto.
        * intros h. rewrite Hk. destruct (D5 h) as [D5a D5b].
          destruct (decide (h ∈ out_hids cl)) as [Ho|Ho].
          -- split; [done|]. intros Hn. exfalso. apply Hn. eauto 10.
          -- split.
             ++ intros (c' & cl' & Hc' & Hcl' & Hh). apply D5a. exists c', cl'. split; [|done].
                apply Hri in Hc' as [?| ->]; [done|]. congruence.
             ++ intros Hn. apply D5b. intros (c' & cl' & Hc' & Hcl' & Hh). apply Hn.
                exists c', cl'. rewrite Hri. eauto.
        * etransitivity; [exact Hk'd|exact D6].
        * intros h c'. rewrite Hk', D7. rewrite Hri. split.
          -- intros ((Ha & Hb) & Hc). split; [done|]. intros ([Hr'| ->] & cl' & Hcl' & Hh).
             ++ apply Hb. eauto.
             ++ apply Hc. split; [done|]. congruence.
          -- intros (Ha & Hb). split; [split; [done|]|].
             ++ intros (Hr' & cl' & Hcl' & Hh). apply Hb. eauto.
             ++ intros [-> Hh]. apply Hb. eauto.
      + assert (Hri : forall c', removed F f (dn ++ [c]) c' <-> removed F f dn c').
        { intros c'. unfold removed. rewrite elem_of_app, elem_of_list_singleton. split.
          - intros [[?| ->] Hg]; [auto|]. exfalso. apply Hs.
            assert (X = {[f]}) as ->; [|by rewrite size_singleton].
            apply set_eq. intros g. rewrite HXi, elem_of_singleton. split; [auto|]. by intros ->.
          - intros [? ?]. auto. }
        apply bindM_ok in H as (k & G1' & [Hk ->]%liftR_ok & H). injection H as <-.
        apply smrel_remove in Hk as (Hk & Hkd & _).
        split; cbn.
        * done.
        * intros c' g. rewrite Hk, D2. rewrite elem_of_app, elem_of_list_singleton. naive_solver.
        * intros c'. rewrite Hkd, Hri. apply D3.
        * intros c'. rewrite Hri. apply D4.
        * intros h. setoid_rewrite Hri. apply D5.
        * done.
        * intros h c'. rewrite Hri. apply D7.
    - assert (Hno : forall c, ~ removed F f [] c) by (unfold removed; set_solver).
      split; try done.
      + clear. set_solver.
      + intros c. specialize (Hno c). tauto.
      + intros c. specialize (Hno c). tauto.
      + intros h. split; [|done]. intros (c & cl & Hc & _). by apply Hno in Hc.
      + intros h c. specialize (Hno c). tauto.
  Qed.
  Lemma consistent_okC F : consistent U F -> okC F.
  Proof. intros H. split; [|split]; apply H. Qed.

  Lemma drop_func_ok f F F' : consistent U F -> f ∈ fnames F ->
    drop_func ord eord f F = (Ok tt, F') ->
    exists X G, f_fs F !! f = Some X /\ dropped_calls f (ord X) F G /\
      f_vs F' = f_vs F /\ f_refs F' = f_refs F /\ f_refinv F' = f_refinv F /\ f_fs F' = delete f (f_fs F) /\
      f_calls F' = f_calls G /\ f_callinv F' = f_callinv G /\ f_creator F' = f_creator G /\ f_consumers F' = f_consumers G /\
      dom (f_inp F') = dom (f_inp F) ∖ {[f]} /\ dom (f_out F') = dom (f_out F) ∖ {[f]} /\
      (forall s d l, has_edge F' s d l <-> has_edge F s d l /\ s <> f /\ d <> f) /\
      (forall s d l, has_in_edge F' s d l <-> has_in_edge F s d l /\ s <> f /\ d <> f).
  Proof.
    intros HF Hf Hr.
    destruct (drop_edges_total F (eord (adjacent f F))) as (i & o & He & Hi & Ho & Hro & Hri).
    { exact (k_mirror _ _ HF). } { by eapply eord_nodup. }
    { intros s d l. rewrite (eord_elem _ _ Hords), elem_of_adjacent. tauto. }
    set (F1 := set_inp i (set_out o F)) in *.
    assert (exists X, f_fs F !! f = Some X) as [X HX] by by apply elem_of_dom.
    unfold drop_func in Hr. rewrite bindM_getM, (bindM_step _ _ _ _ _ He), bindM_getM in Hr.
    rewrite (bindM_liftR _ _ _ X) in Hr by by apply at_key_ok.
    apply bindM_ok in Hr as ([] & G & HG & Hr). rewrite bindM_modM in Hr.
    pose proof (drop_calls_ok F1 f (ord X) G) as HD.
    assert (dropped_calls f (ord X) F1 G) as HD'.
    { apply HD; [|by eapply ord_nodup|intros c; rewrite (ord_elem _ _ Hords); intros Hc; by exists X|done].
      exact (consistent_okC _ HF). }
    clear HD. destruct HD' as [D1 D2 D3 D4 D5 D6 D7].
    destruct D1 as (Di & Do & Dv & Df & Dri & Dr).
    rewrite del_adj_total in Hr; cycle 1.
    { cbn. rewrite Di. cbn. rewrite Hi, (k_inp _ _ HF). unfold f_nodes. set_solver. }
    { cbn. rewrite Do. cbn. rewrite Ho, (k_out _ _ HF). unfold f_nodes. set_solver. }
    injection Hr as <-. cbn.
    assert (Hal : forall s d l, (s, d, l) ∉ eord (adjacent f F) <-> ~ (has_edge F s d l /\ (s = f \/ d = f))).
    { intros. by rewrite (eord_elem _ _ Hords), elem_of_adjacent. }
    exists X, (set_inp (f_inp F) (set_out (f_out F) G)). split; [done|]. split.
    { split; [by cbn; rewrite Dv, Df, Dri, Dr|exact D2|exact D3|exact D4|exact D5|exact D6|exact D7]. }
    rewrite Dv, Dr, Dri, Df. do 8 (split; [done|]).
    split; [|split; [|split]].
    - rewrite dom_delete_L, Di. cbn. by rewrite Hi.
    - rewrite dom_delete_L, Do. cbn. by rewrite Ho.
    - intros s d l. rewrite !has_edge_arel. cbn. rewrite arel_delete, Do. cbn.
      rewrite Hro, Hal, <-has_edge_arel. clear. destruct (decide (s = f)), (decide (d = f)); naive_solver.
    - intros s d l. rewrite !has_in_edge_arel. cbn. rewrite arel_delete, Di. cbn.
      rewrite Hri, Hal, <-has_in_edge_arel, <-(k_mirror _ _ HF s d l).
      clear. destruct (decide (s = f)), (decide (d = f)); naive_solver.
  Qed.

  Lemma drop_func_consistent f F F' : consistent U F -> f ∈ fnames F ->
    drop_func ord eord f F = (Ok tt, F') -> consistent U F'.
  Proof.
    intros HF Hf Hr. pose proof (consistent_okC _ HF) as HC.
    apply drop_func_ok in Hr as (X & G & HX & [_ D2 D3 D4 D5 D6 D7] & Ev & Er & Eri & Ef & Ec & Eci & Ecr & Eco & Di & Do & He & Hi); [|done..].
    assert (HfX : forall c, c ∈ ord X <-> in_func F f c).
    { intros c. rewrite (ord_elem _ _ Hords). unfold in_func. rewrite HX. naive_solver. }
    assert (Hfv : f ∉ vnames F). { intros Hv. by apply (k_disj _ _ HF f). }
    assert (Hv : forall u k, in_var F' u k <-> in_var F u k) by (intros; unfold in_var; by rewrite Ev).
    assert (Hf' : forall g c, in_func F' g c <-> in_func F g c /\ g <> f).
    { intros g c. unfold in_func at 1. rewrite Ef. apply smrel_delete. }
    assert (Hvn : vnames F' = vnames F) by (unfold vnames; by rewrite Ev).
    assert (Hfn : fnames F' = fnames F ∖ {[f]}) by (unfold fnames; by rewrite Ef, dom_delete_L).
    set (rm := removed F f (ord X)) in *.
    assert (Hrm : forall c, rm c -> forall g, ~ in_func F' g c).
    { intros c [_ Hc] g Hg. apply Hf' in Hg as [Hg Hne]. by apply Hne, Hc. }
    assert (Hnrm : forall c g, in_func F' g c -> ~ rm c) by (intros c g Hg Hc; by eapply Hrm).
    assert (Hcl : forall c cl, f_calls F' !! c = Some cl -> f_calls F !! c = Some cl /\ ~ rm c).
    { intros c cl. rewrite Ec. destruct (D4 c) as [D4a D4b]. intros Hc.
      destruct (removed_dec F f (ord X) c HC) as [Hx|Hx]; [rewrite D4a in Hc by done; done|].
      split; [by rewrite <-D4b|done]. }
    assert (Hcl' : forall c, ~ rm c -> f_calls F' !! c = f_calls F !! c).
    { intros c Hn. rewrite Ec. by apply D4. }
    split.
    - rewrite Di, (k_inp _ _ HF). unfold f_nodes. rewrite Hvn, Hfn. clear -Hfv. set_solver.
    - rewrite Do, (k_out _ _ HF). unfold f_nodes. rewrite Hvn, Hfn. clear -Hfv. set_solver.
    - rewrite Hvn, Hfn. pose proof (k_disj _ _ HF) as Hdj. clear -Hdj. set_solver.
    - intros. rewrite He, Hi, (k_mirror _ _ HF s d l). done.
    - intros s d l Hed. apply He in Hed as (Hed & Hs & Hd). apply (k_edge _ _ HF) in Hed. rewrite Hfn, Hvn.
      clear -Hed Hs Hd. set_solver.
    - intros h. rewrite Er, (k_refs _ _ HF h). by setoid_rewrite Hv.
    - intros c. split.
      + intros [cl Hc]%elem_of_dom. apply Hcl in Hc as [Hc Hn].
        assert (exists g, in_func F g c) as (g & Hg).
        { apply (k_calls _ _ HF). apply elem_of_dom. eauto. }
        destruct (decide (c ∈ ord X)) as [Hin|Hin].
        * (* some other function has it *)
          destruct (decide (default ∅ (f_callinv F !! c) ⊆ ({[f]} : sset))) as [Hs|Hs].
          -- exfalso. apply Hn. split; [done|]. intros g' Hg'. apply (k_callinv _ _ HF) in Hg'.
             apply smrel_default in Hg'. clear -Hs Hg'. set_solver.
          -- assert (exists g', g' ∈ default ∅ (f_callinv F !! c) /\ g' <> f) as (g' & Hg' & Hne).
             { destruct (set_choose_or_empty (default ∅ (f_callinv F !! c) ∖ {[f]})) as [[w Hw]|Hem].
               - exists w. clear -Hw. set_solver.
               - exfalso. apply Hs. clear -Hem. intros w Hw. destruct (decide (w = f)); set_solver. }
             exists g'. apply Hf'. split; [|done]. by apply (k_callinv _ _ HF), smrel_default.
        * exists g. apply Hf'. split; [done|]. intros ->. apply Hin. by apply HfX.
      + intros (g & Hg). pose proof (Hnrm _ _ Hg) as Hn. apply Hf' in Hg as [Hg _].
        apply elem_of_dom. rewrite Hcl' by done. apply elem_of_dom. apply (k_calls _ _ HF). eauto.
    - intros h r. rewrite Er. apply HF.
    - apply map_subseteq_spec. intros c cl Hc. apply Hcl in Hc as [Hc _].
      eapply lookup_weaken; [done|]. apply HF.
    - rewrite Eri, Er. apply HF.
    - intros h v. rewrite Eri, Hv. apply HF.
    - apply set_eq. intros c. rewrite Eci, D3. rewrite (k_callinv_dom _ _ HF), !elem_of_dom. split.
      + intros [Hc Hn]. by rewrite Hcl'.
      + intros [cl Hc]. apply Hcl in Hc as [Hc Hn]. split; [eauto|done].
    - intros c g. rewrite Eci. fold (smrel (f_callinv G) c g). rewrite D2, Hf'.
      split.
      + intros [Hg Hn]. apply (k_callinv _ _ HF) in Hg. split; [done|]. intros ->. apply Hn.
        split; [done|]. by apply HfX.
      + intros [Hg Hn]. split; [by apply (k_callinv _ _ HF)|]. naive_solver.
    - intros g c cl l h v Hc Hcl0 Hin Hed. apply He in Hed as (Hed & _ & _). apply Hf' in Hc as [Hc _].
      apply Hcl in Hcl0 as [Hcl0 _]. apply Hv. by eapply (k_ins _ _ HF).
    - intros g c cl l h v Hc Hcl0 Hin Hed. apply He in Hed as (Hed & _ & _). apply Hf' in Hc as [Hc _].
      apply Hcl in Hcl0 as [Hcl0 _]. apply Hv. by eapply (k_outs _ _ HF).
    - intros h c Hc. rewrite Ecr in Hc. destruct (D5 h) as [D5a D5b].
      assert (Hno : ~ exists c cl, rm c /\ f_calls F !! c = Some cl /\ h ∈ out_hids cl).
      { intros Hx. rewrite D5a in Hc by done. done. }
      rewrite D5b in Hc by done. apply (k_creator _ _ HF) in Hc as (Hh & cl & l & Hcl0 & Ho).
      split; [by rewrite Er|]. exists cl, l. split; [|done]. rewrite Hcl'; [done|].
      intros Hx. apply Hno. exists c, cl. split; [done|]. split; [done|]. apply out_hids_call. eauto.
    - intros h Y HY. rewrite Eco in HY.
      assert (h ∈ dom (f_consumers F)) as [Y0 HY0]%elem_of_dom by (apply D6, elem_of_dom; eauto).
      pose proof (k_consumers _ _ HF _ _ HY0) as [Hh Hc0]. split; [by rewrite Er|].
      intros c Hc. assert (smrel (f_consumers G) h c) as Hs by (exists Y; done).
      apply D7 in Hs as [(Y1 & HY1 & Hc1) Hn]. assert (Y1 = Y0) as -> by congruence.
      apply Hc0 in Hc1 as (cl & l & Hcl0 & Hin). exists cl, l. split; [|done].
      rewrite Hcl'; [done|]. intros Hx. apply Hn. split; [done|]. exists cl. split; [done|].
      apply in_hids_call. eauto.
    - intros g c cl l h v Hc Hcl0 Ho Hed. pose proof (Hnrm _ _ Hc) as Hn.
      apply He in Hed as (Hed & _ & _). apply Hf' in Hc as [Hc _].
      apply Hcl in Hcl0 as [Hcl0 _]. rewrite Ecr. rewrite (proj2 (D5 h)); [by eapply (k_creator' _ _ HF)|].
      intros (c2 & cl2 & Hr2 & Hcl2 & Ho2). apply out_hids_call in Ho2 as [l2 Ho2].
      assert (c2 = c) as ->; [|done].
      pose proof (k_world _ _ HF) as HW.
      eapply (w_creator _ HU c2 c cl2 cl l2 l h); [by eapply lookup_weaken..|done|done].
    - intros g c cl l h v Hc Hcl0 Hin Hed. pose proof (Hnrm _ _ Hc) as Hn.
      apply He in Hed as (Hed & _ & _). apply Hf' in Hc as [Hc _].
      apply Hcl in Hcl0 as [Hcl0 _]. rewrite Eco. apply D7. split; [by eapply (k_consumers' _ _ HF)|].
      intros [Hx _]. done.
  Qed.
End ok.
