(** Consistency, continued: renaming and merging variables. *)
From stdpp Require Import base strings gmap list relations.
From Verif Require Import Base PyDict Refs Storage Frame Spec_Frame Frame_base Frame_ok Frame_ok2.
Local Open Scope pym_scope.

(** frames in which variables and edges have moved: every edge comes from one whose variable had
    no more refs *)
Lemma regraph_consistent U F G :
  f_fs G = f_fs F -> f_callinv G = f_callinv F -> f_creator G = f_creator F ->
  f_consumers G = f_consumers F -> f_refs G = f_refs F -> f_calls G = f_calls F ->
  okR G ->
  dom (f_inp G) = f_nodes G -> dom (f_out G) = f_nodes G -> vnames G ## fnames G ->
  (forall s d l, has_edge G s d l <-> has_in_edge G s d l) ->
  (forall s d l, has_edge G s d l -> (s ∈ vnames G /\ d ∈ fnames G) \/ (s ∈ fnames G /\ d ∈ vnames G)) ->
  (forall v f l, f ∈ fnames F -> has_edge G v f l ->
     exists v0, has_edge F v0 f l /\ forall h, in_var F v0 h -> in_var G v h) ->
  (forall v f l, f ∈ fnames F -> has_edge G f v l ->
     exists v0, has_edge F f v0 l /\ forall h, in_var F v0 h -> in_var G v h) ->
  consistent U F -> consistent U G.
Proof.
  intros E1 E2 E3 E4 E5 E6 [R1 R2 R3] Hi Ho Hd Hm Hed Hei Heo HF.
  assert (Hf : forall f c, in_func G f c <-> in_func F f c) by (intros; unfold in_func; by rewrite E1).
  assert (Hfn : forall f c, in_func F f c -> f ∈ fnames F) by (intros f c Hc; by eapply smrel_dom).
  split; try done.
  - intros c. rewrite E6, (k_calls _ _ HF c). by setoid_rewrite Hf.
  - rewrite E5. apply HF.
  - rewrite E6. apply HF.
  - rewrite E2, E6. apply HF.
  - intros c f. rewrite E2, Hf. apply HF.
  - intros f c cl l h v Hc Hcl Hin He. apply Hf in Hc. rewrite E6 in Hcl.
    apply Hei in He as (v0 & He & Hv); [|by eapply Hfn]. apply Hv. by eapply (k_ins _ _ HF).
  - intros f c cl l h v Hc Hcl Hin He. apply Hf in Hc. rewrite E6 in Hcl.
    apply Heo in He as (v0 & He & Hv); [|by eapply Hfn]. apply Hv. by eapply (k_outs _ _ HF).
  - rewrite E3, E5, E6. apply HF.
  - rewrite E4, E5, E6. apply HF.
  - intros f c cl l h v Hc Hcl Hin He. rewrite E3. apply Hf in Hc. rewrite E6 in Hcl.
    apply Heo in He as (v0 & He & Hv); [|by eapply Hfn]. by eapply (k_creator' _ _ HF).
  - intros f c cl l h v Hc Hcl Hin He. rewrite E4. apply Hf in Hc. rewrite E6 in Hcl.
    apply Hei in He as (v0 & He & Hv); [|by eapply Hfn]. by eapply (k_consumers' _ _ HF).
Qed.

Lemma smrel_insert m k0 Z k x : smrel (<[k0 := Z]> m) k x <-> (k = k0 /\ x ∈ Z) \/ (k <> k0 /\ smrel m k x).
Proof.
  unfold smrel. destruct (decide (k = k0)) as [->|Hne].
  - rewrite lookup_insert. naive_solver.
  - rewrite lookup_insert_ne by done. naive_solver.
Qed.
Lemma elem_of_swap v w X x : v <> w -> x ∈ swap v w X <-> (x ∈ X /\ x <> v) \/ (x = w /\ v ∈ X).
Proof. intros Hne. unfold swap. case_decide; set_solver. Qed.
Lemma arel_swap v w a n l x : v <> w -> arel (swap_adj v w a) n l x <-> (arel a n l x /\ x <> v) \/ (x = w /\ arel a n l v).
Proof.
  intros Hne. unfold arel, smrel, swap_adj. split.
  - intros (m & Hm & X & HX & Hx). rewrite lookup_fmap in Hm. destruct (a !! n) as [m0|]; [|done].
    injection Hm as <-. rewrite lookup_fmap in HX. destruct (m0 !! l) as [X0|] eqn:HX0; [|done].
    injection HX as <-. apply elem_of_swap in Hx as [[Hx Hn]|[-> Hx]]; [left|right|done].
    + split; [|done]. exists m0. split; [done|]. exists X0. done.
    + split; [done|]. exists m0. split; [done|]. exists X0. done.
  - intros [[(m & Hm & X & HX & Hx) Hn]|[-> (m & Hm & X & HX & Hx)]];
      rewrite lookup_fmap, Hm; eexists; (split; [done|]); rewrite lookup_fmap, HX; eexists; (split; [done|]);
      apply elem_of_swap; auto.
Qed.
Lemma dom_swap v w a : dom (swap_adj v w a) = dom a.
Proof. apply dom_fmap_L. Qed.
Lemma arel_moved v w i a n l x : a !! v = Some i -> w ∉ dom a ->
  arel (delete v (<[w := i]> a)) n l x <-> (n = w /\ arel a v l x) \/ (n <> v /\ arel a n l x).
Proof.
  intros Hv Hw. assert (v <> w) by (intros ->; apply Hw, elem_of_dom; eauto). unfold arel.
  destruct (decide (n = v)) as [->|Hnv].
  - rewrite lookup_delete. split; [intros (? & [=] & _)|]. intros [[? _]|[? _]]; congruence.
  - rewrite lookup_delete_ne by done. destruct (decide (n = w)) as [->|Hnw].
    + rewrite lookup_insert, Hv. apply not_elem_of_dom in Hw. rewrite Hw. naive_solver.
    + rewrite lookup_insert_ne by done. naive_solver.
Qed.
Lemma smrel_moved v w i a n x : a !! v = Some i -> w ∉ dom a ->
  smrel (delete v (<[w := i]> a)) n x <-> (n = w /\ smrel a v x) \/ (n <> v /\ smrel a n x).
Proof.
  intros Hv Hw. assert (v <> w) by (intros ->; apply Hw, elem_of_dom; eauto). unfold smrel.
  destruct (decide (n = v)) as [->|Hnv].
  - rewrite lookup_delete. split; [intros (? & [=] & _)|]. intros [[? _]|[? _]]; congruence.
  - rewrite lookup_delete_ne by done. destruct (decide (n = w)) as [->|Hnw].
    + rewrite lookup_insert, Hv. apply not_elem_of_dom in Hw. rewrite Hw. naive_solver.
    + rewrite lookup_insert_ne by done. naive_solver.
Qed.
Lemma dom_moved {A} v w (i : A) (a : gmap string A) : v ∈ dom a -> w <> v -> dom (delete v (<[w := i]> a)) = ({[w]} ∪ dom a) ∖ {[v]}.
Proof. intros. rewrite dom_delete_L, dom_insert_L. done. Qed.

Section ok3.
  Context (ord : sset -> list string) (eord : gset edge3 -> list edge3) (Hords : orders ord eord).
  Context (U : gmap string call) (HU : world U).

  (** what renaming [v] to [w] does *)
  Record renamed (v w : string) (F F' : frame) : Prop := {
    rn_vnames : vnames F' = ({[w]} ∪ vnames F) ∖ {[v]};
    rn_var : forall u h, in_var F' u h <-> (u = w /\ in_var F v h) \/ (u <> v /\ in_var F u h);
    rn_edge : forall s d l, has_edge F' s d l <-> exists s0 d0, has_edge F s0 d0 l /\
      s = (if decide (s0 = v) then w else s0) /\ d = (if decide (d0 = v) then w else d0);
    rn_fs : f_fs F' = f_fs F; rn_refs : f_refs F' = f_refs F; rn_calls : f_calls F' = f_calls F;
  }.

  Lemma rename_refs_total v w l F : v <> w -> NoDup l -> (forall h, h ∈ l -> smrel (f_refinv F) h v) ->
    exists k, iterM (rename_ref v w) l F = (Ok tt, set_refinv k F) /\ dom k = dom (f_refinv F) /\
      forall h u, smrel k h u <-> (smrel (f_refinv F) h u /\ ~ (h ∈ l /\ u = v)) \/ (h ∈ l /\ u = w).
  Proof.
    intros Hne Hnd Hl.
    destruct (iterM_total (rename_ref v w) (fun dn G => exists k, G = set_refinv k F /\ dom k = dom (f_refinv F) /\
      forall h u, smrel k h u <-> (smrel (f_refinv F) h u /\ ~ (h ∈ dn /\ u = v)) \/ (h ∈ dn /\ u = w)) l) with (s := F)
      as (G & HG & k & -> & Hk & Hkr).
    - intros dn x rest G Hll (k & -> & Hk & Hkr).
      assert (Hx : x ∉ dn). { subst l. apply NoDup_app in Hnd as (_ & Hd & _). intros Hx. apply (Hd x Hx). left. }
      assert (Hxl : x ∈ l) by (subst l; apply elem_of_app; right; left).
      assert (smrel k x v) as Hs by (apply Hkr; left; split; [auto|tauto]).
      destruct (sm_remove_total _ _ _ Hs) as [k' Hk']. pose proof (smrel_remove _ _ _ _ Hk') as (Hr' & Hd' & _).
      unfold rename_ref. rewrite bindM_getM. rewrite (bindM_liftR _ _ _ k') by done. eexists. split; [done|].
      exists (sm_add x w k'). split; [done|]. split.
      { rewrite dom_sm_add, Hd', Hk. apply smrel_dom in Hs. rewrite Hk in Hs. clear -Hs. set_solver. }
      intros h u. rewrite smrel_add, Hr', Hkr, !elem_of_app, !elem_of_list_singleton. clear -Hne. naive_solver.
    - exists (f_refinv F). split; [by destruct F|]. split; [done|]. intros. rewrite elem_of_nil. tauto.
    - eauto.
  Qed.

  Lemma rename_var_total v w F : consistent U F -> v ∈ vnames F -> w ∉ f_nodes F ->
    exists F', rename_var ord v w F = (Ok tt, F') /\ renamed v w F F' /\ consistent U F'.
  Proof.
    intros HF Hv Hw.
    assert (Hwv : w ∉ vnames F /\ w ∉ fnames F) by (unfold f_nodes in Hw; clear -Hw; set_solver). destruct Hwv as [Hwv Hwf].
    assert (Hne : v <> w) by congruence.
    assert (Hvf : v ∉ fnames F). { intros Hf. by apply (k_disj _ _ HF v). }
    assert (Hvn : v ∈ f_nodes F) by (unfold f_nodes; clear -Hv; set_solver).
    assert (exists X, f_vs F !! v = Some X) as [X HX] by by apply elem_of_dom.
    assert (exists i, f_inp F !! v = Some i) as [i Hi] by (apply elem_of_dom; by rewrite (k_inp _ _ HF)).
    assert (exists o, f_out F !! v = Some o) as [o Ho] by (apply elem_of_dom; by rewrite (k_out _ _ HF)).
    unfold rename_var. rewrite bindM_getM.
    rewrite (bindM_liftR _ _ _ X) by by apply at_key_ok. rewrite bindM_modM.
    rewrite (bindM_liftR _ _ _ i) by by apply at_key_ok. rewrite bindM_modM.
    rewrite (bindM_liftR _ _ _ o) by by apply at_key_ok. rewrite !bindM_modM. rewrite bindM_getM.
    set (F1 := set_out (delete v _) _).
    assert (E1v : f_vs F1 = delete v (<[w := X]> (f_vs F))) by done.
    assert (E1i : f_inp F1 = delete v (<[w := i]> (f_inp F))) by done.
    assert (E1o : f_out F1 = delete v (<[w := o]> (f_out F))) by done.
    assert (E1f : f_fs F1 = f_fs F) by done.
    assert (V1 : vnames F1 = ({[w]} ∪ vnames F) ∖ {[v]}). { unfold vnames. by rewrite E1v, dom_moved by done. }
    assert (N1 : f_nodes F1 = ({[w]} ∪ f_nodes F) ∖ {[v]}).
    { unfold f_nodes. rewrite V1. unfold fnames in *. rewrite E1f. clear -Hvf. set_solver. }
    assert (D1i : dom (f_inp F1) = ({[w]} ∪ f_nodes F) ∖ {[v]}).
    { rewrite E1i, dom_moved, (k_inp _ _ HF); [done|by apply elem_of_dom|done]. }
    assert (D1o : dom (f_out F1) = ({[w]} ∪ f_nodes F) ∖ {[v]}).
    { rewrite E1o, dom_moved, (k_out _ _ HF); [done|by apply elem_of_dom|done]. }
    rewrite decide_True by (rewrite N1, D1i, D1o; clear; set_solver).
    rewrite bindM_modM, bindM_getM. set (F2 := set_out (swap_adj _ _ _) _).
    assert (f_vs F2 !! w = Some X) as HX2.
    { change (f_vs F2) with (f_vs F1). rewrite E1v, lookup_delete_ne, lookup_insert; done. }
    rewrite (bindM_liftR _ _ _ X) by by apply at_key_ok.
    destruct (rename_refs_total v w (ord X) F2) as (k & Hk & Hkd & Hkr).
    { done. } { by eapply ord_nodup. }
    { intros h. rewrite (ord_elem _ _ Hords). intros Hh. change (f_refinv F2) with (f_refinv F).
      apply (k_refinv _ _ HF). exists X. done. }
    rewrite Hk. set (F3 := set_refinv k F2) in *. exists F3. split; [done|].
    change (f_refinv F2) with (f_refinv F) in *.
    assert (HXv : forall h, h ∈ ord X <-> in_var F v h).
    { intros h. rewrite (ord_elem _ _ Hords). unfold in_var. rewrite HX. clear. naive_solver. }
    assert (Hnw : forall h, ~ in_var F w h) by (intros h Hh; apply Hwv; by eapply smrel_dom).
    assert (Hvar : forall u h, in_var F3 u h <-> (u = w /\ in_var F v h) \/ (u <> v /\ in_var F u h)).
    { intros u h. unfold in_var. change (f_vs F3) with (f_vs F1). rewrite E1v. by apply smrel_moved. }
    assert (Hnwe : forall s d l, has_edge F s d l -> s <> w /\ d <> w).
    { intros s d l [[Hs Hd]|[Hs Hd]]%(k_edge _ _ HF); split; intros ->; done. }
    assert (Hed : forall s d l, has_edge F3 s d l <-> exists s0 d0, has_edge F s0 d0 l /\
      s = (if decide (s0 = v) then w else s0) /\ d = (if decide (d0 = v) then w else d0)).
    { intros s d l. rewrite has_edge_arel. change (f_out F3) with (swap_adj v w (f_out F1)).
      rewrite arel_swap, E1o, !arel_moved by (try done; by rewrite (k_out _ _ HF)).
      setoid_rewrite has_edge_arel. split.
      - intros [[[[-> H]|[Hs H]] Hd]|[-> [[-> H]|[Hs H]]]].
        + exists v, d. rewrite decide_True, decide_False by done. done.
        + exists s, d. rewrite !decide_False by done. done.
        + exists v, v. rewrite !decide_True by done. done.
        + exists s, v. rewrite decide_False, decide_True by done. done.
      - intros (s0 & d0 & H & -> & ->). repeat case_decide; subst; auto 10. }
    assert (Hied : forall s d l, has_in_edge F3 s d l <-> exists s0 d0, has_in_edge F s0 d0 l /\
      s = (if decide (s0 = v) then w else s0) /\ d = (if decide (d0 = v) then w else d0)).
    { intros s d l. rewrite has_in_edge_arel. change (f_inp F3) with (swap_adj v w (f_inp F1)).
      rewrite arel_swap, E1i, !arel_moved by (try done; by rewrite (k_inp _ _ HF)).
      setoid_rewrite has_in_edge_arel. split.
      - intros [[[[-> H]|[Hs H]] Hd]|[-> [[-> H]|[Hs H]]]].
        + exists s, v. rewrite decide_False, decide_True by done. done.
        + exists s, d. rewrite !decide_False by done. done.
        + exists v, v. rewrite !decide_True by done. done.
        + exists v, d. rewrite decide_True, decide_False by done. done.
      - intros (s0 & d0 & H & -> & ->). repeat case_decide; subst; auto 10. }
    split.
    { split; done. }
    apply (regraph_consistent U F); try done.
    - split.
      + intros h. change (f_refs F3) with (f_refs F). rewrite (k_refs _ _ HF h). setoid_rewrite Hvar. split.
        * intros (u & Hu). destruct (decide (u = v)) as [->|]; eauto.
        * intros (u & [[-> Hu]|[? Hu]]); eauto.
      + intros h u. change (f_refinv F3) with k. rewrite Hkr, HXv, Hvar.
        pose proof (k_refinv _ _ HF h u) as Hinv. fold (smrel (f_refinv F) h u) in Hinv. rewrite Hinv.
        destruct (decide (u = v)) as [->|]; tauto.
      + change (f_refinv F3) with k. rewrite Hkd. apply HF.
    - change (f_inp F3) with (swap_adj v w (f_inp F1)). rewrite dom_swap, D1i, <-N1. done.
    - change (f_out F3) with (swap_adj v w (f_out F1)). rewrite dom_swap, D1o, <-N1. done.
    - change (vnames F3) with (vnames F1). change (fnames F3) with (fnames F). rewrite V1.
      pose proof (k_disj _ _ HF) as Hd. clear -Hd Hwf. set_solver.
    - intros. rewrite Hed, Hied. by setoid_rewrite (k_mirror _ _ HF).
    - change (vnames F3) with (vnames F1). change (fnames F3) with (fnames F). rewrite V1.
      intros s d l (s0 & d0 & He & -> & ->)%Hed. apply (k_edge _ _ HF) in He as [[Hs Hd]|[Hs Hd]]; [left|right].
      + rewrite (decide_False (P := d0 = v)) by (intros ->; done). split; [|done]. case_decide; clear -Hs Hne H; set_solver.
      + rewrite (decide_False (P := s0 = v)) by (intros ->; done). split; [done|]. case_decide; clear -Hd Hne H; set_solver.
    - intros u f l Hf (s0 & d0 & He & -> & Hd)%Hed. exists s0.
      assert (d0 = f) as -> by (case_decide; congruence). clear Hd.
      split; [done|]. intros h Hh. apply Hvar. case_decide; subst; auto.
    - intros u f l Hf (s0 & d0 & He & Hs & ->)%Hed. exists d0.
      assert (s0 = f) as -> by (case_decide; congruence). clear Hs.
      split; [done|]. intros h Hh. apply Hvar. case_decide; subst; auto.
  Qed.

  Lemma rename_var_consistent v w F F' : consistent U F -> w ∉ f_nodes F -> rename_var ord v w F = (Ok tt, F') -> consistent U F'.
  Proof.
    intros HF Hw Hr. assert (v ∈ vnames F) as Hv.
    { unfold rename_var in Hr. rewrite bindM_getM in Hr. apply bindM_ok in Hr as (X & ? & [HX _]%liftR_ok & _).
      apply at_key_ok in HX. apply elem_of_dom. eauto. }
    destruct (rename_var_total v w F) as (F'' & H1 & _ & H2); [done..|]. congruence.
  Qed.

  (** * Merging *)
  Lemma moves_total v w l F : v <> w -> okR F -> w ∈ vnames F -> NoDup l -> (forall h, h ∈ l -> in_var F v h) ->
    exists G, iterM (move_ref v w) l F = (Ok tt, G) /\
      same_rest F G /\ f_refs G = f_refs F /\ f_creator G = f_creator F /\ f_consumers G = f_consumers F /\
      dom (f_vs G) = dom (f_vs F) /\ okR G /\
      forall u k, in_var G u k <-> (in_var F u k /\ ~ (u = v /\ k ∈ l)) \/ (u = w /\ k ∈ l).
  Proof.
    intros Hne HR Hw Hnd Hl.
    apply (iterM_total (move_ref v w) (fun dn G =>
      same_rest F G /\ f_refs G = f_refs F /\ f_creator G = f_creator F /\ f_consumers G = f_consumers F /\
      dom (f_vs G) = dom (f_vs F) /\ okR G /\
      forall u k, in_var G u k <-> (in_var F u k /\ ~ (u = v /\ k ∈ dn)) \/ (u = w /\ k ∈ dn)) l).
    - intros dn h rest G Hll (Hs & Hr & Hc & Hco & Hd & [R1 R2 R3] & Hv).
      assert (Hx : h ∉ dn). { subst l. apply NoDup_app in Hnd as (_ & Hdd & _). intros Hx. apply (Hdd h Hx). left. }
      assert (Hxl : h ∈ l) by (subst l; apply elem_of_app; right; left).
      assert (in_var G v h) as Hvh by (apply Hv; left; split; [auto|tauto]).
      pose proof Hvh as (X & HX & HhX).
      assert (exists Y, f_vs G !! w = Some Y) as [Y HY] by (apply elem_of_dom; by rewrite Hd).
      destruct (sm_remove_total (f_refinv G) h v) as [k Hk]; [by apply R2|].
      pose proof (smrel_remove _ _ _ _ Hk) as (Hkr & Hkd & Hks).
      unfold move_ref. rewrite bindM_getM, (bindM_liftR _ _ _ X) by by apply at_key_ok.
      rewrite decide_True by done. rewrite bindM_modM, bindM_getM.
      rewrite (bindM_liftR _ _ _ Y) by (apply at_key_ok; cbn; by rewrite lookup_insert_ne).
      rewrite bindM_modM, bindM_getM, (bindM_liftR _ _ _ k) by done.
      set (G' := set_vs _ (set_vs _ G)).
      exists (set_refinv (sm_add h w k) G'). split; [done|].
      assert (Hv' : forall u k', in_var G' u k' <-> (in_var G u k' /\ ~ (u = v /\ k' = h)) \/ (u = w /\ k' = h)).
      { assert (HXk : forall k, k ∈ X <-> smrel (f_vs G) v k) by (intros; unfold smrel; rewrite HX; clear; naive_solver).
        assert (HYk : forall k, k ∈ Y <-> smrel (f_vs G) w k) by (intros; unfold smrel; rewrite HY; clear; naive_solver).
        intros u k'. unfold in_var at 1. cbn. fold (smrel (<[w := {[h]} ∪ Y]> (<[v := X ∖ {[h]}]> (f_vs G))) u k').
        rewrite !smrel_insert, elem_of_union, elem_of_difference, elem_of_singleton, HXk, HYk.
        change (in_var G) with (smrel (f_vs G)). 
        destruct (decide (u = w)) as [->|Hu1]; [clear -Hne; destruct (decide (k' = h)); naive_solver|].
        destruct (decide (u = v)) as [->|Hu2]; [clear -Hne|clear -Hu1 Hu2]; naive_solver. }
      split; [done|]. split; [done|]. split; [done|]. split; [done|]. split.
      { cbn. rewrite !dom_insert_L, <-Hd. apply elem_of_dom_2 in HX, HY. clear -HX HY. set_solver. }
      split.
      + split.
        * intros h'. cbn. rewrite R1. change (in_var (set_refinv _ G')) with (in_var G'). setoid_rewrite Hv'. split.
          -- intros (u & Hu). destruct (decide (u = v /\ h' = h)) as [[-> ->]|]; eauto.
          -- intros (u & [[Hu _]|[-> ->]]); eauto.
        * intros h' u. cbn. rewrite smrel_add, Hkr, R2. change (in_var (set_refinv _ G')) with (in_var G').
          rewrite Hv'. clear. naive_solver.
        * cbn. rewrite dom_sm_add, Hkd, <-R3. apply smrel_dom in Hks. clear -Hks. set_solver.
      + intros u k'. change (in_var (set_refinv (sm_add h w k) G') u k') with (in_var G' u k'). rewrite Hv', Hv, !elem_of_app, !elem_of_list_singleton. clear -Hne. naive_solver.
    - split; [done|]. split; [done|]. split; [done|]. split; [done|]. split; [done|]. split; [done|].
      intros. rewrite elem_of_nil. tauto.
  Qed.

  (** one side of the edges of [v] is moved to [w] *)
  Lemma redirect_total (inw : bool) v w F : v <> w -> mirrored F -> w ∈ dom (f_inp F) -> w ∈ dom (f_out F) ->
    (forall s d l, has_edge F s d l -> s ∈ dom (f_out F) /\ d ∈ dom (f_inp F)) ->
    let es := if inw then eord (in_edges v F) else eord (out_edges v F) in
    exists i o, iterM (if inw then redirect_in w else redirect_out w) es F = (Ok tt, set_inp i (set_out o F)) /\
      dom i = dom (f_inp F) /\ dom o = dom (f_out F) /\
      (forall s d l, arel o s l d <->
         (has_edge F s d l /\ (if inw then d else s) <> v) \/
         (if inw then d = w /\ has_edge F s v l else s = w /\ has_edge F v d l)) /\
      (forall s d l, arel i d l s <-> arel o s l d).
  Proof.
    intros Hne Hm Hwi Hwo Hends es.
    assert (Hes : forall s d l, (s, d, l) ∈ es <-> has_edge F s d l /\ (if inw then d else s) = v).
    { intros. unfold es. destruct inw; rewrite (eord_elem _ _ Hords); [apply elem_of_in_edges|apply elem_of_out_edges]. }
    assert (Hnd : NoDup es) by (unfold es; destruct inw; by eapply eord_nodup).
    destruct (iterM_total (if inw then redirect_in w else redirect_out w) (fun dn G => exists i o, G = set_inp i (set_out o F) /\
      dom i = dom (f_inp F) /\ dom o = dom (f_out F) /\
      (forall s d l, arel o s l d <-> (has_edge F s d l /\ (s, d, l) ∉ dn) \/
         exists s0 d0, (s0, d0, l) ∈ dn /\ if inw then s = s0 /\ d = w else d = d0 /\ s = w) /\
      (forall s d l, arel i d l s <-> arel o s l d)) es) with (s := F) as (G & HG & i & o & -> & Di & Do & Ho & Hi).
    - intros dn [[s0 d0] l0] rest G Hll (i & o & -> & Di & Do & Ho & Hi).
      assert (Hx : (s0, d0, l0) ∉ dn). { rewrite Hll in Hnd. apply NoDup_app in Hnd as (_ & Hdd & _). intros Hx. apply (Hdd _ Hx). left. }
      assert (Hxl : (s0, d0, l0) ∈ es) by (rewrite Hll; apply elem_of_app; right; left).
      apply Hes in Hxl as [He0 Hv0].
      set (G := set_inp i (set_out o F)).
      assert (HmG : mirrored G). { intros s d l. rewrite has_edge_arel, has_in_edge_arel. cbn. by rewrite Hi. }
      assert (HeG : has_edge G s0 d0 l0). { apply has_edge_arel. cbn. apply Ho. auto. }
      destruct (drop_edge_total G s0 d0 l0 HmG HeG) as (i1 & o1 & H1 & Di1 & Do1 & Ho1 & Hi1).
      set (G1 := set_inp i1 (set_out o1 G)) in *. cbn in Di1, Do1, Ho1, Hi1.
      assert (HmG1 : mirrored G1). { intros s d l. rewrite has_edge_arel, has_in_edge_arel. cbn. by rewrite Ho1, Hi1, Hi. }
      destruct (Hends _ _ _ He0) as [Hs0 Hd0].
      pose (s1 := if inw then s0 else w). pose (d1 := if inw then w else d0).
      destruct (add_edge_total s1 d1 l0 G1 HmG1) as (G2 & H2).
      { cbn. rewrite Do1, Do. unfold s1. by destruct inw. } { cbn. rewrite Di1, Di. unfold d1. by destruct inw. }
      exists G2. split.
      { transitivity ((drop_edge (s0, d0, l0) ;;; add_edge true s1 d1 l0) G); [by destruct inw|].
        by rewrite (bindM_step _ _ _ _ _ H1). }
      apply add_edge_ok in H2 as (i2 & o2 & -> & Di2 & Do2 & Ho2 & Hi2); [|done].
      cbn in Di2, Do2, Ho2, Hi2.
      exists i2, o2. split; [done|]. split; [congruence|]. split; [congruence|]. split.
      + intros s d l. rewrite Ho2, Ho1, Ho. setoid_rewrite elem_of_app. setoid_rewrite elem_of_list_singleton.
        assert (Hold : forall s' d' l', (s', d', l') ∈ dn -> (if inw then d' else s') = v).
        { intros s' d' l' Hin. assert ((s', d', l') ∈ es) as Hin' by (rewrite Hll; apply elem_of_app; by left).
          by apply Hes in Hin' as [_ ?]. }
        split.
        * intros [[[[He Hn]|(s' & d' & Hin & Hc)] Hne1]|[= -> -> ->]].
          -- left. split; [done|]. intros [?|?]; done.
          -- right. exists s', d'. auto.
          -- right. exists s0, d0. split; [auto|]. unfold s1, d1. by destruct inw.
        * intros [[He Hn]|(s' & d' & [Hin|[= -> -> ->]] & Hc)].
          -- left. split; [left; split; [done|tauto]|tauto].
          -- left. split; [right; eauto|]. intros [= -> -> ->]. destruct inw; destruct Hc; subst; congruence.
          -- right. unfold s1, d1. destruct inw; destruct Hc; subst; done.
      + intros s d l. rewrite Hi2, Ho2, Hi1, Ho1, Hi. done.
    - exists (f_inp F), (f_out F). split; [by destruct F|]. split; [done|]. split; [done|]. split.
      + intros s d l. rewrite <-has_edge_arel. split.
        * intros He. left. split; [done|]. apply not_elem_of_nil.
        * intros [[? _]|(s0 & d0 & Hin & _)]; [done|]. by apply elem_of_nil in Hin.
      + intros s d l. rewrite <-has_edge_arel, <-has_in_edge_arel. symmetry. apply Hm.
    - exists i, o. split; [done|]. split; [done|]. split; [done|]. split; [|done].
      intros s d l. rewrite Ho. setoid_rewrite Hes. split.
      + intros [[He Hn]|(s0 & d0 & [He Hv0] & Hc)].
        * left. split; [done|]. tauto.
        * right. destruct inw; destruct Hc; subst; auto.
      + intros [[He Hn]|Hc]; [left; split; [done|tauto]|]. right.
        destruct inw; destruct Hc as [-> He]; eauto 10.
  Qed.

  (** what merging [v] into [w] does *)
  Record merged (v w : string) (F F' : frame) : Prop := {
    mg_vnames : vnames F' = vnames F ∖ {[v]};
    mg_var : forall u h, in_var F' u h <-> u <> v /\ (in_var F u h \/ (u = w /\ in_var F v h));
    mg_edge : forall s d l, has_edge F' s d l <-> exists s0 d0, has_edge F s0 d0 l /\
      s = (if decide (s0 = v) then w else s0) /\ d = (if decide (d0 = v) then w else d0);
    mg_fs : f_fs F' = f_fs F; mg_refs : f_refs F' = f_refs F; mg_calls : f_calls F' = f_calls F;
    mg_creator : f_creator F' = f_creator F; mg_consumers : f_consumers F' = f_consumers F;
  }.

  Lemma merge_into_total v w F : consistent U F -> v ∈ vnames F -> w ∈ vnames F -> v <> w ->
    exists F', merge_into ord eord v w F = (Ok tt, F') /\ merged v w F F' /\ consistent U F'.
  Proof.
    intros HF Hv Hw Hne.
    assert (exists X, f_vs F !! v = Some X) as [X HX] by by apply elem_of_dom.
    assert (exists Y, f_vs F !! w = Some Y) as [Y HY] by by apply elem_of_dom.
    assert (Hvf : v ∉ fnames F). { intros Hf. by apply (k_disj _ _ HF v). }
    assert (Hwf : w ∉ fnames F). { intros Hf. by apply (k_disj _ _ HF w). }
    assert (Hsets : forall u Z, u ∉ fnames F -> f_vs F !! u = Some Z -> f_sets F !! u = Some Z).
    { intros u Z Hu HZ. unfold f_sets. rewrite lookup_union_r; [done|]. by apply not_elem_of_dom. }
    unfold merge_into. rewrite bindM_getM.
    rewrite (bindM_liftR _ _ _ X) by (apply at_key_ok; by apply Hsets).
    rewrite (bindM_liftR _ _ _ Y) by (apply at_key_ok; by apply Hsets).
    assert (HXv : forall h, h ∈ X <-> in_var F v h). { intros h. unfold in_var. rewrite HX. clear. naive_solver. }
    assert (HYv : forall h, h ∈ Y <-> in_var F w h). { intros h. unfold in_var. rewrite HY. clear. naive_solver. }
    destruct (moves_total v w (ord (X ∖ Y)) F) as (G & HG & (Gi & Go & Gf & Gci & Gc) & Gr & Gcr & Gco & Gd & GR & Gv).
    { done. } { by eapply consistent_okR. } { done. } { by eapply ord_nodup. }
    { intros h. rewrite (ord_elem _ _ Hords), elem_of_difference, HXv. tauto. }
    rewrite (bindM_step _ _ _ _ _ HG).
    assert (HGv : forall u k, in_var G u k <-> (in_var F u k /\ (u = v -> in_var F w k)) \/ (u = w /\ in_var F v k)).
    { intros u k. rewrite Gv, (ord_elem _ _ Hords), elem_of_difference, HXv, HYv.
      assert (Decision (in_var F w k)) as Hdec.
      { destruct (decide (k ∈ Y)); [left|right]; by rewrite <-HYv. }
      destruct (decide (in_var F w k)); split; clear Gv; naive_solver. }
    assert (HeG : forall s d l, has_edge G s d l <-> has_edge F s d l) by (intros; unfold has_edge; by rewrite Go).
    assert (HieG : forall s d l, has_in_edge G s d l <-> has_in_edge F s d l) by (intros; unfold has_in_edge; by rewrite Gi).
    assert (HmG : mirrored G). { intros s d l. rewrite HeG, HieG. apply HF. }
    assert (Hnode : forall u, u ∈ vnames F \/ u ∈ fnames F -> u ∈ f_nodes F) by (intros u; unfold f_nodes; rewrite elem_of_union; done).
    assert (DGi : dom (f_inp G) = f_nodes F) by (rewrite Gi; apply HF).
    assert (DGo : dom (f_out G) = f_nodes F) by (rewrite Go; apply HF).
    unfold merge_graph. rewrite bindM_getM.
    destruct (redirect_total true v w G) as (i1 & o1 & H1 & Di1 & Do1 & Ho1 & Hi1).
    { done. } { done. } { rewrite DGi. auto. } { rewrite DGo. auto. }
    { intros s d l He. rewrite DGi, DGo. apply HeG, (k_edge _ _ HF) in He. split; apply Hnode; tauto. }
    cbn in H1. rewrite (bindM_step _ _ _ _ _ H1). rewrite bindM_getM. set (G1 := set_inp i1 (set_out o1 G)) in *.
    assert (He1 : forall s d l, has_edge G1 s d l <-> (has_edge F s d l /\ d <> v) \/ (d = w /\ has_edge F s v l)).
    { intros. rewrite has_edge_arel. cbn. rewrite Ho1. setoid_rewrite HeG. done. }
    assert (HmG1 : mirrored G1). { intros s d l. rewrite has_edge_arel, has_in_edge_arel. cbn. by rewrite Hi1. }
    destruct (redirect_total false v w G1) as (i2 & o2 & H2 & Di2 & Do2 & Ho2 & Hi2).
    { done. } { done. } { cbn. rewrite Di1, DGi. auto. } { cbn. rewrite Do1, DGo. auto. }
    { intros s d l He. cbn. rewrite Di1, Do1, DGi, DGo. apply He1 in He as [[He _]|[-> He]]; apply (k_edge _ _ HF) in He; split; apply Hnode; tauto. }
    cbn in H2. rewrite (bindM_step _ _ _ _ _ H2). set (G2 := set_inp i2 (set_out o2 G1)) in *.
    assert (He2 : forall s d l, has_edge G2 s d l <-> exists s0 d0, has_edge F s0 d0 l /\
      s = (if decide (s0 = v) then w else s0) /\ d = (if decide (d0 = v) then w else d0)).
    { intros s d l. rewrite has_edge_arel. cbn. rewrite Ho2. setoid_rewrite He1. split.
      - intros [[[[He Hd]|[-> He]] Hs]|[-> [[He Hd]|[-> He]]]].
        + exists s, d. rewrite !decide_False by done. done.
        + exists s, v. rewrite decide_False, decide_True by done. done.
        + exists v, d. rewrite decide_True, decide_False by done. done.
        + exists v, v. rewrite !decide_True by done. done.
      - intros (s0 & d0 & He & -> & ->). repeat case_decide; subst; auto 10. }
    assert (Hv2 : forall u k, in_var G2 u k <-> in_var G u k) by done.
    assert (N2 : f_nodes G2 = f_nodes F). { unfold f_nodes, vnames, fnames. cbn. by rewrite Gd, Gf. }
    assert (V2 : vnames G2 = vnames F) by exact Gd.
    assert (F2n : fnames G2 = fnames F). { unfold fnames. cbn. by rewrite Gf. }
    assert (HC2 : consistent U G2).
    { apply (regraph_consistent U F); try done.
      - destruct GR as [? ? ?]. by split.
      - rewrite N2. cbn. rewrite Di2. cbn. by rewrite Di1.
      - rewrite N2. cbn. rewrite Do2. cbn. by rewrite Do1.
      - rewrite V2, F2n. apply HF.
      - intros s d l. rewrite has_edge_arel, has_in_edge_arel. cbn. by rewrite Hi2.
      - intros s d l (s0 & d0 & He & -> & ->)%He2. rewrite V2, F2n.
        apply (k_edge _ _ HF) in He as [[Hs Hd]|[Hs Hd]]; [left|right].
        + rewrite (decide_False (P := d0 = v)) by (intros ->; done). split; [|done]. by case_decide.
        + rewrite (decide_False (P := s0 = v)) by (intros ->; done). split; [done|]. by case_decide.
      - intros u f l Hf (s0 & d0 & He & -> & Hd)%He2. exists s0.
        assert (d0 = f) as -> by (case_decide; congruence). clear Hd.
        split; [done|]. intros h Hh. apply Hv2, HGv. case_decide as Hc; [subst; auto|]. left. split; [done|]. by intros ->.
      - intros u f l Hf (s0 & d0 & He & Hs & ->)%He2. exists d0.
        assert (s0 = f) as -> by (case_decide; congruence). clear Hs.
        split; [done|]. intros h Hh. apply Hv2, HGv. case_decide as Hc; [subst; auto|]. left. split; [done|]. by intros ->. }
    unfold drop_node. rewrite bindM_getM, decide_True by (change (v ∈ vnames G2); by rewrite V2).
    destruct (drop_var_total ord eord Hords U HU v G2) as (F' & H3 & HD); [done|by rewrite V2|].
    exists F'. split; [done|]. pose proof HD as [W1 W2 W3 W4 W5 W6 W7 W8 W9 W10 W11 W12].
    split; [|by eapply dropped_var_consistent; [..|exact HD]; try done; rewrite V2].
    assert (Hno : forall k, ~ (in_var G2 v k /\ gone F' k)).
    { intros k [Hk Hg]. apply Hg. exists w. apply W9. split; [|done]. apply Hv2, HGv. apply Hv2, HGv in Hk as [[Hk _]|[? _]]; [auto|done]. }
    assert (Hsame : forall k, f_refs F' !! k = f_refs G2 !! k /\ f_creator F' !! k = f_creator G2 !! k /\ f_consumers F' !! k = f_consumers G2 !! k) by (intros k; apply W12, Hno).
    split.
    - unfold vnames in *. by rewrite W1, V2.
    - intros u h. rewrite W9, Hv2, HGv. split.
      + intros [[[? ?]|[-> ?]] ?]; auto.
      + intros [? [?|[-> ?]]]; split; auto. left. split; [done|]. intros ->. done.
    - intros s d l. rewrite W4, He2. split; [by intros [? _]|]. intros H. split; [done|].
      destruct H as (s0 & d0 & _ & -> & ->). repeat case_decide; split; congruence.
    - rewrite W6. cbn. exact Gf.
    - apply map_eq. intros k. destruct (Hsame k) as (-> & _ & _). cbn. by rewrite Gr.
    - rewrite W7. cbn. exact Gc.
    - apply map_eq. intros k. destruct (Hsame k) as (_ & -> & _). cbn. by rewrite Gcr.
    - apply map_eq. intros k. destruct (Hsame k) as (_ & _ & ->). cbn. by rewrite Gco.
  Qed.

  Lemma find_pair_some F v w : find_pair ord F = Some (v, w) -> v ∈ vnames F /\ w ∈ vnames F /\ v <> w /\ strictly_below F v w = true.
  Proof.
    unfold find_pair. intros H. apply head_Some_elem_of in H. apply elem_of_list_bind in H as (v' & H & Hv).
    apply elem_of_list_bind in H as (w' & H & Hw). rewrite (ord_elem _ _ Hords) in Hv, Hw.
    destruct (strictly_below F v' w') eqn:E; [|by apply elem_of_nil in H].
    apply elem_of_list_singleton in H as [= -> ->]. split; [done|]. split; [done|]. split; [|done].
    intros ->. unfold strictly_below in E. rewrite String.eqb_refl in E. done.
  Qed.
  Lemma find_pair_none F : find_pair ord F = None -> forall v w, v ∈ vnames F -> w ∈ vnames F -> strictly_below F v w = false.
  Proof.
    unfold find_pair. intros H v w Hv Hw. apply head_None in H. destruct (strictly_below F v w) eqn:E; [|done].
    exfalso. apply (elem_of_nil (v, w)). rewrite <-H. apply elem_of_list_bind. exists v. rewrite (ord_elem _ _ Hords).
    split; [|done]. apply elem_of_list_bind. exists w. rewrite (ord_elem _ _ Hords), E. split; [left|done].
  Qed.

  Lemma merge_loop_total fuel F : consistent U F -> size (f_vs F) < fuel ->
    exists F', merge_loop ord eord fuel F = (Ok tt, F') /\ consistent U F' /\
      (forall v w, v ∈ vnames F' -> w ∈ vnames F' -> strictly_below F' v w = false) /\
      vnames F' ⊆ vnames F /\ f_fs F' = f_fs F /\ f_refs F' = f_refs F /\ f_calls F' = f_calls F /\
      (forall v h, in_var F v h -> exists w, in_var F' w h /\ forall k, in_var F v k -> in_var F' w k).
  Proof.
    revert F. induction fuel as [|fuel IH]; intros F HF Hsz; [lia|].
    cbn [merge_loop]. rewrite bindM_getM. destruct (find_pair ord F) as [[v w]|] eqn:E.
    - apply find_pair_some in E as (Hv & Hw & Hne & Hb).
      destruct (merge_into_total v w F) as (G & HG & HM & HC); [done..|]. destruct HM as [M1 M2 M3 M4 M5 M6 M7 M8].
      rewrite (bindM_step _ _ _ _ _ HG), bindM_getM.
      assert (Hsize : size (f_vs G) = pred (size (f_vs F))).
      { rewrite <-!size_dom. fold (vnames G) (vnames F). rewrite M1, size_difference by (clear -Hv; set_solver).
        rewrite size_singleton. lia. }
      assert (size (f_vs F) <> 0).
      { rewrite <-size_dom. fold (vnames F). intros H0. apply size_empty_inv in H0. clear -H0 Hv. set_solver. }
      rewrite decide_False by lia. destruct (IH G) as (F' & HF' & HC' & Hnb & Hsub & Ef & Er & Ec & Hin); [done|lia|].
      exists F'. split; [done|]. split; [done|]. split; [done|]. split; [rewrite M1 in Hsub; clear -Hsub; set_solver|].
      split; [congruence|]. split; [congruence|]. split; [congruence|].
      intros u h Hu. destruct (decide (u = v)) as [->|Huv].
      + destruct (Hin w h) as (x & Hx & Hall).
        { apply M2. split; [congruence|]. auto. }
        exists x. split; [done|]. intros k Hk. apply Hall, M2. split; [congruence|]. auto.
      + destruct (Hin u h) as (x & Hx & Hall). { apply M2. split; [congruence|]. auto. }
        exists x. split; [done|]. intros k Hk. apply Hall, M2. split; [congruence|]. auto.
    - rewrite (bindM_step _ _ F tt F eq_refl). rewrite bindM_getM, decide_True by done. exists F. split; [done|]. split; [done|].
      split; [by apply find_pair_none|]. eauto 10.
  Qed.

  Lemma cleanup_same F : snd (cleanup ord eord F) = F.
  Proof.
    unfold cleanup. rewrite bindM_getM. generalize (ord (f_nodes F)) as l. intros l. cut (forall G : frame, snd (iterM (fun n => if decide (default ∅ (f_sets F !! n) = ∅) then (_ <- on_copy (drop_node ord eord n) ;; retM tt) else retM tt) l G) = G); [auto|].
    induction l as [|n l IH]; intros G; [done|]. cbn. case_decide.
    - unfold bindM at 1 2, on_copy at 1. destruct (drop_node ord eord n G) as [[[]|e] G']; cbn; [apply IH|done].
    - unfold bindM at 1, retM. apply IH.
  Qed.

  (** * All operations *)
  Lemma drop_node_consistent n F F' : consistent U F -> drop_node ord eord n F = (Ok tt, F') -> consistent U F'.
  Proof.
    intros HF. unfold drop_node. rewrite bindM_getM. case_decide as Hv.
    - intros Hr. destruct (drop_var_total ord eord Hords U HU n F HF Hv) as (G & HG & HD).
      assert (G = F') as -> by congruence. by eapply dropped_var_consistent.
    - case_decide as Hf; [|done]. intros Hr. by eapply drop_func_consistent.
  Qed.
  Lemma drop_nodes_consistent ns F F' : consistent U F -> drop_nodes ord eord ns F = (Ok tt, F') -> consistent U F'.
  Proof.
    intros HF Hr. refine (iterM_ind _ (fun _ G => consistent U G) ns _ F F' HF Hr).
    intros dn x rest G G' _ HG HG'. by eapply drop_node_consistent.
  Qed.
  Lemma drop_var_ok v F F' : drop_var ord eord v F = (Ok tt, F') -> consistent U F -> v ∈ vnames F.
  Proof.
    intros Hr HF. unfold drop_var in Hr. rewrite bindM_getM in Hr.
    apply bindM_ok in Hr as ([] & G & HG & Hr). rewrite bindM_getM in Hr.
    apply bindM_ok in Hr as (X & G' & [HX ->]%liftR_ok & Hr). apply at_key_ok in HX.
    assert (f_vs G = f_vs F) as Hvs.
    { destruct (drop_edges_total F (eord (adjacent v F))) as (i & o & He & _).
      { exact (k_mirror _ _ HF). } { by eapply eord_nodup. }
      { intros s d l. rewrite (eord_elem _ _ Hords), elem_of_adjacent. tauto. }
      rewrite He in HG. by injection HG as <-. }
    apply elem_of_dom. rewrite <-Hvs. eauto.
  Qed.
  Lemma drop_func_ok_in f F F' : drop_func ord eord f F = (Ok tt, F') -> consistent U F -> f ∈ fnames F.
  Proof.
    intros Hr HF. unfold drop_func in Hr. rewrite bindM_getM in Hr.
    apply bindM_ok in Hr as ([] & G & HG & Hr). rewrite bindM_getM in Hr.
    apply bindM_ok in Hr as (X & G' & [HX ->]%liftR_ok & Hr). apply at_key_ok in HX.
    assert (f_fs G = f_fs F) as Hvs.
    { destruct (drop_edges_total F (eord (adjacent f F))) as (i & o & He & _).
      { exact (k_mirror _ _ HF). } { by eapply eord_nodup. }
      { intros s d l. rewrite (eord_elem _ _ Hords), elem_of_adjacent. tauto. }
      rewrite He in HG. by injection HG as <-. }
    apply elem_of_dom. rewrite <-Hvs. eauto.
  Qed.

  Lemma run_fop_consistent o F F' : consistent U F -> sane U F o -> run_fop ord eord o F = (Ok tt, F') -> consistent U F'.
  Proof.
    intros HF Hs Hr. destruct o; cbn [run_fop] in Hr.
    - by eapply add_var_consistent.
    - by eapply add_func_consistent.
    - by eapply add_edge_consistent.
    - by eapply add_ref_consistent.
    - by eapply add_call_consistent.
    - pose proof (drop_var_ok _ _ _ Hr HF) as Hv. destruct (drop_var_total ord eord Hords U HU v F HF Hv) as (G & HG & HD).
      assert (G = F') as -> by congruence. by eapply dropped_var_consistent.
    - eapply drop_func_consistent; try done. by eapply drop_func_ok_in.
    - by eapply drop_nodes_consistent.
    - by eapply rename_var_consistent.
    - destruct Hs as (? & ? & ?). destruct (merge_into_total v w F) as (G & HG & _ & HC); [done..|]. congruence.
    - destruct (merge_loop_total (S (size (f_vs F))) F) as (G & HG & HC & _); [done|lia|]. unfold merge_vars in Hr. congruence.
    - pose proof (cleanup_same F) as Hc. rewrite Hr in Hc. cbn in Hc. by subst.
  Qed.
End ok3.
