(** Consistency, continued: adding, renaming, merging. *)
From stdpp Require Import base strings gmap list relations.
From Verif Require Import Base PyDict Refs Storage Frame Spec_Frame Frame_base Frame_ok.
Local Open Scope pym_scope.

Lemma arel_insert_empty n a n' l x : n ∉ dom a -> arel (<[n := ∅]> a) n' l x <-> arel a n' l x.
Proof.
  intros Hn. unfold arel. destruct (decide (n' = n)) as [->|Hne].
  - rewrite lookup_insert. apply not_elem_of_dom in Hn. rewrite Hn. split.
    + intros (m & [= <-] & Hm). by apply smrel_empty in Hm.
    + intros (m & [=] & _).
  - by rewrite lookup_insert_ne by done.
Qed.
Lemma smrel_insert_empty n m n' x : n ∉ dom m -> smrel (<[n := ∅]> m) n' x <-> smrel m n' x.
Proof.
  intros Hn. rewrite !smrel_default. destruct (decide (n' = n)) as [->|Hne].
  - rewrite lookup_insert. apply not_elem_of_dom in Hn. by rewrite Hn.
  - by rewrite lookup_insert_ne by done.
Qed.
Lemma arel_dom a n l x : arel a n l x -> n ∈ dom a.
Proof. intros (m & Hm & _). apply elem_of_dom. eauto. Qed.
Lemma smrel_dom m k x : smrel m k x -> k ∈ dom m.
Proof. intros (X & HX & _). apply elem_of_dom. eauto. Qed.

(** frames that differ in the graph only: consistency is a matter of the edges *)
Lemma same_data_consistent U F G :
  f_refinv G = f_refinv F -> f_callinv G = f_callinv F -> f_creator G = f_creator F ->
  f_consumers G = f_consumers F -> f_refs G = f_refs F -> f_calls G = f_calls F ->
  (forall u k, in_var G u k <-> in_var F u k) -> (forall f c, in_func G f c <-> in_func F f c) ->
  dom (f_inp G) = f_nodes G -> dom (f_out G) = f_nodes G -> vnames G ## fnames G ->
  (forall s d l, has_edge G s d l <-> has_in_edge G s d l) ->
  (forall s d l, has_edge G s d l -> (s ∈ vnames G /\ d ∈ fnames G) \/ (s ∈ fnames G /\ d ∈ vnames G)) ->
  (forall s d l, has_edge G s d l -> has_edge F s d l \/ (forall c, ~ in_func F s c) /\ (forall c, ~ in_func F d c)) ->
  consistent U F -> consistent U G.
Proof.
  intros E1 E2 E3 E4 E5 E6 Hv Hf Hi Ho Hd Hm Hed Hsub HF. split; try done.
  - intros h. rewrite E5, (k_refs _ _ HF h). by setoid_rewrite Hv.
  - intros c. rewrite E6, (k_calls _ _ HF c). by setoid_rewrite Hf.
  - rewrite E5. apply HF.
  - rewrite E6. apply HF.
  - rewrite E1, E5. apply HF.
  - intros h v. rewrite E1, Hv. apply HF.
  - rewrite E2, E6. apply HF.
  - intros c f. rewrite E2, Hf. apply HF.
  - intros f c cl l h v Hc Hcl Hin He. apply Hv. apply Hf in Hc. rewrite E6 in Hcl.
    apply Hsub in He as [He|[_ Hn]]; [by eapply (k_ins _ _ HF)|by apply Hn in Hc].
  - intros f c cl l h v Hc Hcl Hin He. apply Hv. apply Hf in Hc. rewrite E6 in Hcl.
    apply Hsub in He as [He|[Hn _]]; [by eapply (k_outs _ _ HF)|by apply Hn in Hc].
  - rewrite E3, E5, E6. apply HF.
  - rewrite E4, E5, E6. apply HF.
  - intros f c cl l h v Hc Hcl Hin He. rewrite E3. apply Hf in Hc. rewrite E6 in Hcl.
    apply Hsub in He as [He|[Hn _]]; [by eapply (k_creator' _ _ HF)|by apply Hn in Hc].
  - intros f c cl l h v Hc Hcl Hin He. rewrite E4. apply Hf in Hc. rewrite E6 in Hcl.
    apply Hsub in He as [He|[_ Hn]]; [by eapply (k_consumers' _ _ HF)|by apply Hn in Hc].
Qed.

Section ok2.
  Context (ord : sset -> list string) (eord : gset edge3 -> list edge3) (Hords : orders ord eord).
  Context (U : gmap string call) (HU : world U).

  Lemma add_var_consistent v F F' : consistent U F -> v ∉ f_nodes F -> add_var v F = (Ok tt, F') -> consistent U F'.
  Proof.
    intros HF Hv Hr.
    assert (Hvd : v ∉ dom (f_vs F)). { unfold f_nodes, vnames in Hv. clear -Hv. set_solver. }
    assert (Hin : v ∉ dom (f_inp F)) by by rewrite (k_inp _ _ HF).
    assert (Hon : v ∉ dom (f_out F)) by by rewrite (k_out _ _ HF).
    assert (Ei : f_inp F' = <[v := ∅]> (f_inp F)) by by injection Hr as <-.
    assert (Eo : f_out F' = <[v := ∅]> (f_out F)) by by injection Hr as <-.
    assert (Ev : f_vs F' = <[v := ∅]> (f_vs F)) by by injection Hr as <-.
    assert (Hvn : vnames F' = {[v]} ∪ vnames F). { unfold vnames. by rewrite Ev, dom_insert_L. }
    assert (Hfn : fnames F' = fnames F) by by injection Hr as <-.
    assert (He : forall s d l, has_edge F' s d l <-> has_edge F s d l).
    { intros. by rewrite !has_edge_arel, Eo, arel_insert_empty by done. }
    assert (Hie : forall s d l, has_in_edge F' s d l <-> has_in_edge F s d l).
    { intros. by rewrite !has_in_edge_arel, Ei, arel_insert_empty by done. }
    apply (same_data_consistent U F); [by injection Hr as <-..| | | | | | | | |done].
    - intros u k. unfold in_var. rewrite Ev. by apply smrel_insert_empty.
    - intros. by injection Hr as <-.
    - unfold f_nodes. rewrite Hvn, Hfn, Ei, dom_insert_L, (k_inp _ _ HF). unfold f_nodes. clear. set_solver.
    - unfold f_nodes. rewrite Hvn, Hfn, Eo, dom_insert_L, (k_out _ _ HF). unfold f_nodes. clear. set_solver.
    - rewrite Hvn, Hfn. pose proof (k_disj _ _ HF) as Hd. unfold f_nodes in Hv. clear -Hd Hv. set_solver.
    - intros. rewrite He, Hie. apply HF.
    - intros s d l Hx. rewrite Hvn, Hfn. apply He, (k_edge _ _ HF) in Hx. clear -Hx. set_solver.
    - intros s d l Hx. left. by apply He.
  Qed.
  Lemma add_func_consistent v F F' : consistent U F -> v ∉ f_nodes F -> add_func v F = (Ok tt, F') -> consistent U F'.
  Proof.
    intros HF Hv Hr.
    assert (Hvd : v ∉ dom (f_fs F)). { unfold f_nodes, fnames in Hv. clear -Hv. set_solver. }
    assert (Hin : v ∉ dom (f_inp F)) by by rewrite (k_inp _ _ HF).
    assert (Hon : v ∉ dom (f_out F)) by by rewrite (k_out _ _ HF).
    assert (Ei : f_inp F' = <[v := ∅]> (f_inp F)) by by injection Hr as <-.
    assert (Eo : f_out F' = <[v := ∅]> (f_out F)) by by injection Hr as <-.
    assert (Ev : f_fs F' = <[v := ∅]> (f_fs F)) by by injection Hr as <-.
    assert (Hvn : fnames F' = {[v]} ∪ fnames F). { unfold fnames. by rewrite Ev, dom_insert_L. }
    assert (Hfn : vnames F' = vnames F) by by injection Hr as <-.
    assert (He : forall s d l, has_edge F' s d l <-> has_edge F s d l).
    { intros. by rewrite !has_edge_arel, Eo, arel_insert_empty by done. }
    assert (Hie : forall s d l, has_in_edge F' s d l <-> has_in_edge F s d l).
    { intros. by rewrite !has_in_edge_arel, Ei, arel_insert_empty by done. }
    apply (same_data_consistent U F); [by injection Hr as <-..| | | | | | | | |done].
    - intros. by injection Hr as <-.
    - intros u k. unfold in_func. rewrite Ev. by apply smrel_insert_empty.
    - unfold f_nodes. rewrite Hvn, Hfn, Ei, dom_insert_L, (k_inp _ _ HF). unfold f_nodes. clear. set_solver.
    - unfold f_nodes. rewrite Hvn, Hfn, Eo, dom_insert_L, (k_out _ _ HF). unfold f_nodes. clear. set_solver.
    - rewrite Hvn, Hfn. pose proof (k_disj _ _ HF) as Hd. unfold f_nodes in Hv. clear -Hd Hv. set_solver.
    - intros. rewrite He, Hie. apply HF.
    - intros s d l Hx. rewrite Hvn, Hfn. apply He, (k_edge _ _ HF) in Hx. clear -Hx. set_solver.
    - intros s d l Hx. left. by apply He.
  Qed.

  (** * Edges *)
  Lemma add_edge_ok b s d l F F' : mirrored F -> add_edge b s d l F = (Ok tt, F') ->
    exists i o, F' = set_inp i (set_out o F) /\ dom i = dom (f_inp F) /\ dom o = dom (f_out F) /\
      (forall s' l' d', arel o s' l' d' <-> arel (f_out F) s' l' d' \/ (s', d', l') = (s, d, l)) /\
      (forall s' l' d', arel i d' l' s' <-> arel (f_inp F) d' l' s' \/ (s', d', l') = (s, d, l)).
  Proof.
    intros Hm. unfold add_edge. rewrite bindM_getM. case_decide as He.
    - destruct b; [|done]. intros [= <-]. exists (f_inp F), (f_out F). split; [by destruct F|].
      apply elem_of_edges in He. pose proof (proj1 (Hm s d l) He) as Hi.
      apply has_edge_arel in He. apply has_in_edge_arel in Hi. naive_solver.
    - intros H. apply bindM_ok in H as (o & F1 & [Ho ->]%liftR_ok & H). rewrite bindM_modM, bindM_getM in H.
      apply bindM_ok in H as (i & F1 & [Hi ->]%liftR_ok & H). injection H as <-.
      apply arel_add in Ho as (Ho & Hod & _). apply arel_add in Hi as (Hi & Hid & _). cbn in *.
      exists i, o. split; [done|]. split; [done|]. split; [done|].
      split; intros; [rewrite Ho|rewrite Hi]; naive_solver.
  Qed.
  Lemma add_edge_total s d l F : mirrored F -> s ∈ dom (f_out F) -> d ∈ dom (f_inp F) ->
    exists F', add_edge true s d l F = (Ok tt, F').
  Proof.
    intros Hm Hs Hd. unfold add_edge. rewrite bindM_getM. case_decide as He; [by eexists|].
    destruct (adj_add_total s l d (f_out F) Hs) as [o Ho]. rewrite (bindM_liftR _ _ _ o) by done.
    rewrite bindM_modM, bindM_getM.
    destruct (adj_add_total d l s (f_inp F) Hd) as [i Hi]. rewrite (bindM_liftR _ _ _ i) by done. by eexists.
  Qed.

  Lemma add_edge_consistent b s d l F F' : consistent U F ->
    (s ∈ vnames F /\ f_fs F !! d = Some ∅) \/ (d ∈ vnames F /\ f_fs F !! s = Some ∅) ->
    add_edge b s d l F = (Ok tt, F') -> consistent U F'.
  Proof.
    intros HF Hsd Hr. apply add_edge_ok in Hr as (i & o & -> & Hi & Ho & Hro & Hri); [|exact (k_mirror _ _ HF)].
    assert (Hkind : (s ∈ vnames F /\ d ∈ fnames F) \/ (s ∈ fnames F /\ d ∈ vnames F)).
    { unfold fnames. destruct Hsd as [[? Hx]|[? Hx]]; [left|right]; (split; [|done] || split); try done; apply elem_of_dom; eauto. }
    eapply (same_data_consistent U F); try done; cbn.
    - rewrite Hi. apply HF.
    - rewrite Ho. apply HF.
    - apply HF.
    - intros. rewrite has_edge_arel, has_in_edge_arel. cbn. rewrite Hro, Hri.
      rewrite <-has_edge_arel, <-has_in_edge_arel, (k_mirror _ _ HF s0 d0 l0). done.
    - intros s' d' l'. rewrite has_edge_arel. cbn. rewrite Hro, <-has_edge_arel.
      intros [He|[= -> -> ->]]; [by apply (k_edge _ _ HF) in He|done].
    - intros s' d' l'. rewrite has_edge_arel. cbn. rewrite Hro, <-has_edge_arel.
      intros [He|[= -> -> ->]]; [by left|right].
      assert (Hnov : forall x c, x ∈ vnames F -> ~ in_func F x c).
      { intros x c Hx Hc. apply (k_disj _ _ HF x Hx). by eapply smrel_dom. }
      destruct Hsd as [[Hs Hd]|[Hd Hs]]; split; intros c Hc;
        try (by eapply Hnov; [|exact Hc]); destruct Hc as (Z & HZ & Hc); rewrite HZ in *; set_solver.
  Qed.

  (** * Refs *)
  Definition okRk (F : frame) : Prop := okR F /\ forall h r, f_refs F !! h = Some r -> rhid r = h.
  Lemma add_ref_ok b v r F F' : okRk F -> add_ref b v r F = (Ok tt, F') ->
    same_rest F F' /\ dom (f_vs F') = dom (f_vs F) /\ v ∈ dom (f_vs F) /\
    f_creator F' = f_creator F /\ f_consumers F' = f_consumers F /\ okRk F' /\
    (forall u k, in_var F' u k <-> in_var F u k \/ (u = v /\ k = rhid r)).
  Proof.
    intros [[R1 R2 R3] Hk]. unfold add_ref. rewrite bindM_getM. intros H.
    apply bindM_ok in H as (X & F1 & [HX ->]%liftR_ok & H). apply at_key_ok in HX.
    case_decide as Hin.
    - destruct b; [|done]. injection H as <-. split; [done|]. split; [done|].
      split; [apply elem_of_dom; eauto|]. split; [done|]. split; [done|]. split; [by split|].
      intros u k. split; [auto|]. intros [?|[-> ->]]; [done|]. by exists X.
    - injection H as <-. set (G := set_refinv _ _).
      assert (Hv : forall u k, in_var G u k <-> in_var F u k \/ (u = v /\ k = rhid r)).
      { intros u k. unfold in_var at 1. cbn. fold (smrel (sm_add v (rhid r) (f_vs F)) u k). rewrite smrel_add. done. }
      split; [done|]. split.
      { cbn. rewrite dom_sm_add. assert (v ∈ dom (f_vs F)) by (apply elem_of_dom; eauto). set_solver. }
      split; [apply elem_of_dom; eauto|]. split; [done|]. split; [done|]. split; [|done].
      split; [split|].
      + intros h. cbn. rewrite dom_insert_L, elem_of_union, elem_of_singleton, R1. setoid_rewrite Hv. naive_solver.
      + intros h u. cbn. rewrite smrel_add, R2, Hv. naive_solver.
      + cbn. rewrite dom_sm_add, dom_insert_L. by rewrite R3.
      + intros h r'. cbn. destruct (decide (h = rhid r)) as [->|Hne].
        * rewrite lookup_insert. congruence.
        * rewrite lookup_insert_ne by done. auto.
  Qed.
  Lemma add_ref_total v r F : v ∈ dom (f_vs F) -> exists F', add_ref true v r F = (Ok tt, F').
  Proof.
    intros [X HX]%elem_of_dom. unfold add_ref. rewrite bindM_getM.
    rewrite (bindM_liftR _ _ _ X) by by apply at_key_ok. case_decide; by eexists.
  Qed.
  Lemma consistent_okRk F : consistent U F -> okRk F.
  Proof. intros HF. split; [by eapply consistent_okR|apply HF]. Qed.

  Lemma more_refs_consistent F F' : consistent U F ->
    same_rest F F' -> dom (f_vs F') = dom (f_vs F) -> f_creator F' = f_creator F -> f_consumers F' = f_consumers F ->
    okRk F' -> (forall u k, in_var F u k -> in_var F' u k) -> consistent U F'.
  Proof.
    intros HF (Ei & Eo & Ef & Eci & Ec) Hd Ecr Eco [[R1 R2 R3] Hk] Hm.
    assert (Hf : forall f c, in_func F' f c <-> in_func F f c) by (intros; unfold in_func; by rewrite Ef).
    assert (He : forall s d l, has_edge F' s d l <-> has_edge F s d l) by (intros; unfold has_edge; by rewrite Eo).
    assert (Hie : forall s d l, has_in_edge F' s d l <-> has_in_edge F s d l) by (intros; unfold has_in_edge; by rewrite Ei).
    assert (Hvn : vnames F' = vnames F) by done.
    assert (Hfn : fnames F' = fnames F) by (unfold fnames; by rewrite Ef).
    assert (Hrs : forall h, h ∈ dom (f_refs F) -> h ∈ dom (f_refs F')).
    { intros h. rewrite R1, (k_refs _ _ HF h). intros (u & Hu). eauto. }
    split.
    - rewrite Ei. unfold f_nodes. rewrite Hvn, Hfn. apply HF.
    - rewrite Eo. unfold f_nodes. rewrite Hvn, Hfn. apply HF.
    - rewrite Hvn, Hfn. apply HF.
    - intros. rewrite He, Hie. apply HF.
    - intros s d l Hx. rewrite Hvn, Hfn. apply He in Hx. by apply (k_edge _ _ HF) in Hx.
    - done.
    - intros c. rewrite Ec, (k_calls _ _ HF c). by setoid_rewrite Hf.
    - done.
    - rewrite Ec. apply HF.
    - done.
    - done.
    - rewrite Ec, Eci. apply HF.
    - intros c f. rewrite Eci, Hf. apply HF.
    - intros f c cl l h v Hc Hcl Hin Hx. apply Hm. apply Hf in Hc. apply He in Hx. rewrite Ec in Hcl. by eapply (k_ins _ _ HF).
    - intros f c cl l h v Hc Hcl Hin Hx. apply Hm. apply Hf in Hc. apply He in Hx. rewrite Ec in Hcl. by eapply (k_outs _ _ HF).
    - intros h c. rewrite Ecr, Ec. intros Hc. apply (k_creator _ _ HF) in Hc as [? ?]. auto.
    - intros h X. rewrite Eco, Ec. intros Hc. apply (k_consumers _ _ HF) in Hc as [? ?]. auto.
    - intros f c cl l h v Hc Hcl Hin Hx. rewrite Ecr. apply Hf in Hc. apply He in Hx. rewrite Ec in Hcl. by eapply (k_creator' _ _ HF).
    - intros f c cl l h v Hc Hcl Hin Hx. rewrite Eco. apply Hf in Hc. apply He in Hx. rewrite Ec in Hcl. by eapply (k_consumers' _ _ HF).
  Qed.
  Lemma add_ref_consistent b v r F F' : consistent U F -> add_ref b v r F = (Ok tt, F') -> consistent U F'.
  Proof.
    intros HF Hr. apply add_ref_ok in Hr as (Hs & Hd & _ & Hc & Ho & Hk & Hv); [|by apply consistent_okRk].
    eapply (more_refs_consistent F); try done. intros. apply Hv. auto.
  Qed.

  (** * Calls *)
  Lemma add_refs_ok l r F F' : okRk F -> iterM (fun v => add_ref true v r) l F = (Ok tt, F') ->
    same_rest F F' /\ dom (f_vs F') = dom (f_vs F) /\
    f_creator F' = f_creator F /\ f_consumers F' = f_consumers F /\ okRk F' /\
    (forall u k, in_var F' u k <-> in_var F u k \/ (u ∈ l /\ k = rhid r)).
  Proof.
    intros Hk Hr.
    refine (iterM_ind _ (fun dn G => same_rest F G /\ dom (f_vs G) = dom (f_vs F) /\
      f_creator G = f_creator F /\ f_consumers G = f_consumers F /\ okRk G /\
      (forall u k, in_var G u k <-> in_var F u k \/ (u ∈ dn /\ k = rhid r))) l _ F F' _ Hr).
    - intros dn v rest G G' _ (H1 & H2 & H3 & H4 & H5 & H6) HG.
      apply add_ref_ok in HG as (G1 & G2 & _ & G3 & G4 & G5 & G6); [|done].
      split; [destruct H1 as (?&?&?&?&?), G1 as (?&?&?&?&?); repeat split; congruence|].
      split; [congruence|]. split; [congruence|]. split; [congruence|]. split; [done|].
      intros u k. rewrite G6, H6, elem_of_app, elem_of_list_singleton. naive_solver.
    - split; [done|]. split; [done|]. split; [done|]. split; [done|]. split; [done|].
      intros. rewrite elem_of_nil. tauto.
  Qed.

  (** the state after some refs of a call have been added *)
  Record adding (F : frame) (c : string) (A : string -> string -> Prop) (CI CO : string -> Prop) (G : frame) : Prop := {
    ad_rest : same_rest F G;
    ad_dom : dom (f_vs G) = dom (f_vs F);
    ad_ok : okRk G;
    ad_var : forall u k, in_var G u k <-> in_var F u k \/ A u k;
    ad_creator : forall h x, f_creator G !! h = Some x <-> (f_creator F !! h = Some x /\ ~ CO h) \/ (CO h /\ x = c);
    ad_con : forall h x, smrel (f_consumers G) h x <-> smrel (f_consumers F) h x \/ (CI h /\ x = c);
    ad_con_dom : forall h, h ∈ dom (f_consumers G) <-> h ∈ dom (f_consumers F) \/ CI h;
  }.
  Definition side_A (a : adj) (f : string) (c : call) (dn : list (string * ref)) (u k : string) : Prop :=
    exists n r, (n, r) ∈ dn /\ k = rhid r /\ arel a f (name_proj (c_op c) n) u.
  Definition side_C (a : adj) (f : string) (c : call) (dn : list (string * ref)) (h : string) : Prop :=
    exists n r, (n, r) ∈ dn /\ h = rhid r /\ is_Some (default ∅ (a !! f) !! name_proj (c_op c) n).

  Lemma add_inputs_ok f c F F' : okRk F -> iterM (add_input ord f c) (c_ins c) F = (Ok tt, F') ->
    adding F (c_hid c) (side_A (f_inp F) f c (c_ins c)) (side_C (f_inp F) f c (c_ins c)) (fun _ => False) F'.
  Proof.
    intros Hk Hr.
    refine (iterM_ind _ (fun dn G => adding F (c_hid c) (side_A (f_inp F) f c dn) (side_C (f_inp F) f c dn) (fun _ => False) G)
      (c_ins c) _ F F' _ Hr).
    - intros dn [n r] rest G G' _ [D1 D2 D3 D4 D5 D6 D7] HG.
      assert (Ei : f_inp G = f_inp F) by apply D1.
      unfold add_input in HG. rewrite bindM_getM in HG.
      apply bindM_ok in HG as (m & G0 & [Hm ->]%liftR_ok & HG). apply at_key_ok in Hm. rewrite Ei in Hm.
      assert (HA : forall u k, side_A (f_inp F) f c (dn ++ [(n, r)]) u k <->
        side_A (f_inp F) f c dn u k \/ (k = rhid r /\ arel (f_inp F) f (name_proj (c_op c) n) u)).
      { intros u k. unfold side_A. split.
        - intros (n' & r' & Hin & -> & Ha). apply elem_of_app in Hin as [Hin|Hin]; [eauto 10|].
          apply elem_of_list_singleton in Hin as [= -> ->]. auto.
        - intros [(n' & r' & Hin & -> & Ha)|[-> Ha]].
          + exists n', r'. rewrite elem_of_app. auto.
          + exists n, r. rewrite elem_of_app, elem_of_list_singleton. auto. }
      assert (HC : forall h, side_C (f_inp F) f c (dn ++ [(n, r)]) h <->
        side_C (f_inp F) f c dn h \/ (h = rhid r /\ is_Some (m !! name_proj (c_op c) n))).
      { intros h. unfold side_C. rewrite Hm. cbn. split.
        - intros (n' & r' & Hin & -> & Ha). apply elem_of_app in Hin as [Hin|Hin]; [eauto 10|].
          apply elem_of_list_singleton in Hin as [= -> ->]. auto.
        - intros [(n' & r' & Hin & -> & Ha)|[-> Ha]].
          + exists n', r'. rewrite elem_of_app. auto.
          + exists n, r. rewrite elem_of_app, elem_of_list_singleton. auto. }
      cbn in HG. destruct (m !! name_proj (c_op c) n) as [vars|] eqn:Hvars.
      + rewrite bindM_modM in HG. apply add_refs_ok in HG as (G1 & G2 & G3 & G4 & G5 & G6); cycle 1.
        { destruct D3 as [[? ? ?] ?]. split; [split|]; done. }
        split.
        * destruct D1 as (?&?&?&?&?), G1 as (?&?&?&?&?). repeat split; cbn in *; congruence.
        * cbn in *. congruence.
        * done.
        * intros u k. rewrite G6. change (in_var (set_consumers _ G) u k) with (in_var G u k).
          rewrite D4, HA, (ord_elem _ _ Hords). unfold arel, smrel. rewrite Hm.
          split; [intros [?|[? ->]]; [tauto|]|intros [?|[?|[-> (m' & [= <-] & X & HX & Hu)]]]; auto].
          -- right. right. eauto 10.
          -- right. rewrite Hvars in HX. injection HX as <-. done.
        * intros h x. rewrite G3. cbn. rewrite D5. tauto.
        * intros h x. rewrite G4. cbn. rewrite smrel_add, D6, HC. clear. naive_solver.
        * intros h. rewrite G4. cbn. rewrite dom_sm_add, elem_of_union, elem_of_singleton, D7, HC. clear. naive_solver.
      + injection HG as <-.
        assert (Hn0 : ~ is_Some (@None sset)) by (by intros [? [=]]).
        split; try done.
        * intros u k. rewrite D4, HA. unfold arel, smrel. rewrite Hm. split; [tauto|].
          intros [?|[?|[-> (m' & [= <-] & X & HX & Hu)]]]; auto. congruence.
        * intros h x. rewrite D6, HC. clear -Hn0. tauto.
        * intros h. rewrite D7, HC. clear -Hn0. tauto.
    - split; try done.
      + intros u k. unfold side_A. split; [auto|]. intros [?|(n & r & Hin & _)]; [done|]. by apply elem_of_nil in Hin.
      + tauto.
      + intros h x. unfold side_C. split; [auto|]. intros [?|[(n & r & Hin & _) _]]; [done|]. by apply elem_of_nil in Hin.
      + intros h. unfold side_C. split; [auto|]. intros [?|(n & r & Hin & _)]; [done|]. by apply elem_of_nil in Hin.
  Qed.

  Lemma add_outputs_ok f c F F' : okRk F -> iterM (add_output ord f c) (c_outs c) F = (Ok tt, F') ->
    adding F (c_hid c) (side_A (f_out F) f c (c_outs c)) (fun _ => False) (side_C (f_out F) f c (c_outs c)) F'.
  Proof.
    intros Hk Hr.
    refine (iterM_ind _ (fun dn G => adding F (c_hid c) (side_A (f_out F) f c dn) (fun _ => False) (side_C (f_out F) f c dn) G)
      (c_outs c) _ F F' _ Hr).
    - intros dn [n r] rest G G' _ [D1 D2 D3 D4 D5 D6 D7] HG.
      assert (Ei : f_out G = f_out F) by apply D1.
      unfold add_output in HG. rewrite bindM_getM in HG.
      apply bindM_ok in HG as (m & G0 & [Hm ->]%liftR_ok & HG). apply at_key_ok in Hm. rewrite Ei in Hm.
      assert (HA : forall u k, side_A (f_out F) f c (dn ++ [(n, r)]) u k <->
        side_A (f_out F) f c dn u k \/ (k = rhid r /\ arel (f_out F) f (name_proj (c_op c) n) u)).
      { intros u k. unfold side_A. split.
        - intros (n' & r' & Hin & -> & Ha). apply elem_of_app in Hin as [Hin|Hin]; [eauto 10|].
          apply elem_of_list_singleton in Hin as [= -> ->]. auto.
        - intros [(n' & r' & Hin & -> & Ha)|[-> Ha]].
          + exists n', r'. rewrite elem_of_app. auto.
          + exists n, r. rewrite elem_of_app, elem_of_list_singleton. auto. }
      assert (HC : forall h, side_C (f_out F) f c (dn ++ [(n, r)]) h <->
        side_C (f_out F) f c dn h \/ (h = rhid r /\ is_Some (m !! name_proj (c_op c) n))).
      { intros h. unfold side_C. rewrite Hm. cbn. split.
        - intros (n' & r' & Hin & -> & Ha). apply elem_of_app in Hin as [Hin|Hin]; [eauto 10|].
          apply elem_of_list_singleton in Hin as [= -> ->]. auto.
        - intros [(n' & r' & Hin & -> & Ha)|[-> Ha]].
          + exists n', r'. rewrite elem_of_app. auto.
          + exists n, r. rewrite elem_of_app, elem_of_list_singleton. auto. }
      cbn in HG. destruct (m !! name_proj (c_op c) n) as [vars|] eqn:Hvars.
      + rewrite bindM_modM in HG. apply add_refs_ok in HG as (G1 & G2 & G3 & G4 & G5 & G6); cycle 1.
        { destruct D3 as [[? ? ?] ?]. split; [split|]; done. }
        split.
        * destruct D1 as (?&?&?&?&?), G1 as (?&?&?&?&?). repeat split; cbn in *; congruence.
        * cbn in *. congruence.
        * done.
        * intros u k. rewrite G6. change (in_var (set_creator _ G) u k) with (in_var G u k).
          rewrite D4, HA, (ord_elem _ _ Hords). unfold arel, smrel. rewrite Hm.
          split; [intros [?|[? ->]]; [tauto|]|intros [?|[?|[-> (m' & [= <-] & X & HX & Hu)]]]; auto].
          -- right. right. eauto 10.
          -- right. rewrite Hvars in HX. injection HX as <-. done.
        * intros h x. rewrite G3. cbn. setoid_rewrite HC. destruct (decide (h = rhid r)) as [->|Hne].
          -- rewrite lookup_insert. split.
             ++ intros [= <-]. right. split; [right; eauto|done].
             ++ intros [[_ Hn]|[_ ->]]; [|done]. exfalso. apply Hn. right. eauto.
          -- rewrite lookup_insert_ne by done. rewrite D5. clear -Hne. naive_solver.
        * intros h x. rewrite G4. cbn. rewrite D6. tauto.
        * intros h. rewrite G4. cbn. rewrite D7. tauto.
      + injection HG as <-.
        assert (Hn0 : ~ is_Some (@None sset)) by (by intros [? [=]]).
        split; try done.
        * intros u k. rewrite D4, HA. unfold arel, smrel. rewrite Hm. split; [tauto|].
          intros [?|[?|[-> (m' & [= <-] & X & HX & Hu)]]]; auto. congruence.
        * intros h x. setoid_rewrite HC. rewrite D5. clear -Hn0. tauto.
    - assert (Hno : forall h, ~ side_C (f_out F) f c [] h).
      { intros h (n & r & Hin & _). by apply elem_of_nil in Hin. }
      split; try done.
      + intros u k. unfold side_A. split; [auto|]. intros [?|(n & r & Hin & _)]; [done|]. by apply elem_of_nil in Hin.
      + intros h x. specialize (Hno h). tauto.
      + tauto.
      + tauto.
  Qed.

  Lemma add_call_consistent b f c F F' : consistent U F -> sane U F (OpAddCall f c b) ->
    add_call ord true b f c F = (Ok tt, F') -> consistent U F'.
  Proof.
    intros HF (HUc & Hni & Hno) Hr. unfold add_call in Hr. rewrite bindM_getM in Hr.
    apply bindM_ok in Hr as (X & F0 & [HX ->]%liftR_ok & Hr). apply at_key_ok in HX.
    case_decide as Hin; [destruct b; [|done]; by injection Hr as <-|].
    rewrite bindM_modM in Hr. set (F1 := set_callinv _ _) in Hr.
    apply bindM_ok in Hr as ([] & F2 & H2 & H3).
    apply add_inputs_ok in H2; [|by destruct (consistent_okRk _ HF) as [[? ? ?] ?]; split; [split|]].
    pose proof H2 as [A1 A2 A3 A4 A5 A6 A7].
    apply add_outputs_ok in H3; [|done].
    destruct H3 as [B1 B2 B3 B4 B5 B6 B7].
    destruct A1 as (Ai & Ao & Af & Aci & Ac), B1 as (Bi & Bo & Bf & Bci & Bc).
    assert (Ei : f_inp F' = f_inp F) by (rewrite Bi, Ai; done).
    assert (Eo : f_out F' = f_out F) by (rewrite Bo, Ao; done).
    assert (Ef : f_fs F' = sm_add f (c_hid c) (f_fs F)) by (rewrite Bf, Af; done).
    assert (Eci : f_callinv F' = sm_add (c_hid c) f (f_callinv F)) by (rewrite Bci, Aci; done).
    assert (Ec : f_calls F' = <[c_hid c := c]> (f_calls F)) by (rewrite Bc, Ac; done).
    rewrite Ao in B4, B5. cbn in A4, A5, A6, A7, B4, B5, B6, B7.
    change (f_inp F1) with (f_inp F) in *. change (f_out F1) with (f_out F) in *.
    change (f_creator F1) with (f_creator F) in *. change (f_consumers F1) with (f_consumers F) in *.
    assert (Hvd : dom (f_vs F') = dom (f_vs F)) by (rewrite B2, A2; done).
    assert (Hffn : f ∈ fnames F) by (apply elem_of_dom; eauto).
    assert (Hvn : vnames F' = vnames F) by done.
    assert (Hfn : fnames F' = fnames F).
    { unfold fnames in *. rewrite Ef, dom_sm_add. clear -Hffn. set_solver. }
    assert (Hf : forall g x, in_func F' g x <-> in_func F g x \/ (g = f /\ x = c_hid c)).
    { intros g x. unfold in_func at 1. rewrite Ef. fold (smrel (sm_add f (c_hid c) (f_fs F)) g x). by rewrite smrel_add. }
    assert (He : forall s d l, has_edge F' s d l <-> has_edge F s d l) by (intros; unfold has_edge; by rewrite Eo).
    assert (Hie : forall s d l, has_in_edge F' s d l <-> has_in_edge F s d l) by (intros; unfold has_in_edge; by rewrite Ei).
    assert (Hv : forall u k, in_var F' u k <-> (in_var F u k \/ side_A (f_inp F) f c (c_ins c) u k) \/ side_A (f_out F) f c (c_outs c) u k).
    { intros u k. rewrite B4, A4. done. }
    assert (HcF : forall cl, f_calls F !! c_hid c = Some cl -> cl = c).
    { intros cl Hcl. pose proof (lookup_weaken _ _ _ _ Hcl (k_world _ _ HF)). congruence. }
    assert (Hcl : forall x cl, f_calls F' !! x = Some cl -> U !! x = Some cl).
    { intros x cl. rewrite Ec. destruct (decide (x = c_hid c)) as [->|Hne].
      - rewrite lookup_insert. congruence.
      - rewrite lookup_insert_ne by done. intros Hx. by eapply lookup_weaken, HF. }
    assert (Hcl2 : forall x cl, f_calls F !! x = Some cl -> f_calls F' !! x = Some cl).
    { intros x cl Hx. rewrite Ec. destruct (decide (x = c_hid c)) as [->|Hne].
      - apply HcF in Hx as ->. apply lookup_insert.
      - by rewrite lookup_insert_ne by done. }
    assert (Hcl3 : forall x cl g, in_func F g x -> f_calls F' !! x = Some cl -> f_calls F !! x = Some cl).
    { intros x cl g Hg Hx. assert (x ∈ dom (f_calls F)) as [cl' Hcl']%elem_of_dom by (apply (k_calls _ _ HF); eauto).
      pose proof (Hcl2 _ _ Hcl'). congruence. }
    assert (Hcc : f_calls F' !! c_hid c = Some c) by (rewrite Ec; apply lookup_insert).
    destruct B3 as [[R1 R2 R3] Hkey].
    assert (Hrs : forall h, h ∈ dom (f_refs F) -> h ∈ dom (f_refs F')).
    { intros h. rewrite R1, (k_refs _ _ HF h). intros (u & Hu). exists u. apply Hv. auto. }
    assert (HmI : forall l h, call_input c l h -> forall u, has_edge F u f l -> in_var F' u h).
    { intros l h (n & r & Hnr & <- & <-) u Hu. apply Hv. left. right. exists n, r. split; [done|]. split; [done|].
      by apply has_in_edge_arel, (k_mirror _ _ HF). }
    assert (HmO : forall l h, call_output c l h -> forall u, has_edge F f u l -> in_var F' u h).
    { intros l h (n & r & Hnr & <- & <-) u Hu. apply Hv. right. exists n, r. split; [done|]. split; [done|].
      by apply has_edge_arel. }
    (* tracked refs are in some variable *)
    assert (HcI : forall h, side_C (f_inp F) f c (c_ins c) h -> h ∈ dom (f_refs F') /\ exists l, call_input c l h).
    { intros h (n & r & Hnr & -> & [Y HY]). assert (Hci : call_input c (name_proj (c_op c) n) (rhid r)) by (exists n, r; done).
      split; [|eauto]. destruct (set_choose_or_empty Y) as [[u Hu]|Hem].
      - apply R1. exists u. apply (HmI _ _ Hci). apply (k_mirror _ _ HF).
        destruct (f_inp F !! f) as [m|] eqn:Em; [|by cbn in HY; rewrite lookup_empty in HY]. exists m, Y. done.
      - exfalso. apply (Hni _ _ Hci). rewrite HY. f_equal. by apply leibniz_equiv. }
    assert (HcO : forall h, side_C (f_out F) f c (c_outs c) h -> h ∈ dom (f_refs F') /\ exists l, call_output c l h).
    { intros h (n & r & Hnr & -> & [Y HY]). assert (Hci : call_output c (name_proj (c_op c) n) (rhid r)) by (exists n, r; done).
      split; [|eauto]. destruct (set_choose_or_empty Y) as [[u Hu]|Hem].
      - apply R1. exists u. apply (HmO _ _ Hci).
        destruct (f_out F !! f) as [m|] eqn:Em; [|by cbn in HY; rewrite lookup_empty in HY]. exists m, Y. done.
      - exfalso. apply (Hno _ _ Hci). rewrite HY. f_equal. by apply leibniz_equiv. }
    assert (HcI' : forall l h u, call_input c l h -> has_edge F u f l -> side_C (f_inp F) f c (c_ins c) h).
    { intros l h u (n & r & Hnr & <- & <-) Hu. exists n, r. split; [done|]. split; [done|].
      apply (k_mirror _ _ HF) in Hu as (m & Y & Hm & HY & _). rewrite Hm. cbn. eauto. }
    assert (HcO' : forall l h u, call_output c l h -> has_edge F f u l -> side_C (f_out F) f c (c_outs c) h).
    { intros l h u (n & r & Hnr & <- & <-) (m & Y & Hm & HY & _). exists n, r. split; [done|]. split; [done|].
      rewrite Hm. cbn. eauto. }
    split.
    - rewrite Ei. unfold f_nodes. rewrite Hvn, Hfn. apply HF.
    - rewrite Eo. unfold f_nodes. rewrite Hvn, Hfn. apply HF.
    - rewrite Hvn, Hfn. apply HF.
    - intros. rewrite He, Hie. apply HF.
    - intros s d l Hx. rewrite Hvn, Hfn. apply He in Hx. by apply (k_edge _ _ HF) in Hx.
    - done.
    - intros x. rewrite Ec, dom_insert_L, elem_of_union, elem_of_singleton, (k_calls _ _ HF x).
      setoid_rewrite Hf. clear. naive_solver.
    - done.
    - apply map_subseteq_spec. exact Hcl.
    - done.
    - done.
    - rewrite Eci, Ec, dom_sm_add, dom_insert_L. by rewrite (k_callinv_dom _ _ HF).
    - intros x g. rewrite Eci. fold (smrel (sm_add (c_hid c) f (f_callinv F)) x g). rewrite smrel_add, Hf.
      pose proof (k_callinv _ _ HF x g) as Hx. fold (smrel (f_callinv F) x g) in Hx. rewrite Hx. clear. naive_solver.
    - intros g x cl l h v Hc Hcl0 Hi Hx. apply He in Hx. apply Hf in Hc as [Hc|[-> ->]].
      + apply Hv. left. left. eapply (k_ins _ _ HF); try done. by eapply Hcl3.
      + assert (cl = c) as -> by congruence. by eapply HmI.
    - intros g x cl l h v Hc Hcl0 Hi Hx. apply He in Hx. apply Hf in Hc as [Hc|[-> ->]].
      + apply Hv. left. left. eapply (k_outs _ _ HF); try done. by eapply Hcl3.
      + assert (cl = c) as -> by congruence. by eapply HmO.
    - intros h x Hx. apply B5 in Hx as [[Hx _]|[Hx ->]].
      + apply A5 in Hx as [[Hx _]|[[] _]]. apply (k_creator _ _ HF) in Hx as (Hh & cl & l & Hcl0 & Ho).
        split; [auto|]. exists cl, l. auto.
      + apply HcO in Hx as (Hh & l & Ho). split; [done|]. eauto.
    - intros h Y HY. assert (h ∈ dom (f_consumers F')) as Hd by (apply elem_of_dom; eauto).
      split.
      + apply B7 in Hd as [Hd|[]]. apply A7 in Hd as [[Z HZ]%elem_of_dom|Hd].
        * apply Hrs. by apply (k_consumers _ _ HF) in HZ as [? _].
        * by apply HcI in Hd as [? _].
      + intros x Hx. assert (smrel (f_consumers F') h x) as Hs by (exists Y; done).
        apply B6 in Hs as [Hs|[[] _]]. apply A6 in Hs as [(Z & HZ & Hs)|[Hs ->]].
        * apply (k_consumers _ _ HF) in HZ as [_ HZ]. apply HZ in Hs as (cl & l & Hcl0 & Hi). exists cl, l. auto.
        * apply HcI in Hs as (_ & l & Hi). eauto.
    - intros g x cl l h v Hc Hcl0 Ho Hx. apply He in Hx. apply B5.
      assert (Hcase : f_creator F !! h = Some x \/ (x = c_hid c /\ side_C (f_out F) f c (c_outs c) h)).
      { apply Hf in Hc as [Hc|[-> ->]].
        - left. eapply (k_creator' _ _ HF); try done. by eapply Hcl3.
        - right. assert (cl = c) as -> by congruence. split; [done|]. by eapply HcO'. }
      destruct Hcase as [Hc0|[-> Hc0]]; [|by right].
      assert (Hdec : side_C (f_out F) f c (c_outs c) h -> x = c_hid c).
      { intros (_ & l' & Ho')%HcO. eapply (w_creator _ HU x (c_hid c) cl c); [by apply Hcl|done|done|done]. }
      destruct (decide (x = c_hid c)) as [->|Hne].
      + assert (cl = c) as -> by congruence.
        (* either way it is the same call *)
        destruct (f_out F !! f) as [m|] eqn:Em.
        * destruct (decide (Exists (fun nr => h = rhid nr.2 /\ is_Some (m !! name_proj (c_op c) nr.1)) (c_outs c))) as [Hex|Hex].
          -- right. split; [|done]. apply Exists_exists in Hex as ([n r] & Hnr & -> & Hm). exists n, r.
             rewrite Em. done.
          -- left. split; [apply A5; left; split; [done|tauto]|]. intros (n & r & Hnr & -> & Hm). apply Hex.
             apply Exists_exists. exists (n, r). rewrite Em in Hm. done.
        * left. split; [apply A5; left; split; [done|tauto]|]. intros (n & r & Hnr & -> & Hm). rewrite Em in Hm.
          cbn in Hm. rewrite lookup_empty in Hm. by destruct Hm.
      + left. split; [apply A5; left; split; [done|tauto]|]. intros Hx'. by apply Hdec in Hx'.
    - intros g x cl l h v Hc Hcl0 Hi Hx. apply He in Hx. apply B6. left. apply A6.
      apply Hf in Hc as [Hc|[-> ->]].
      + left. eapply (k_consumers' _ _ HF); try done. by eapply Hcl3.
      + right. assert (cl = c) as -> by congruence. split; [|done]. by eapply HcI'.
  Qed.
End ok2.
