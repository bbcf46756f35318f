(** Histories of the values of a frame: proofs. *)
From stdpp Require Import base strings gmap list relations.
From Verif Require Import Base PyDict PyDict_proofs Refs Storage Frame Spec_Frame Spec_Expand FrameHistory Spec_History
  Frame_base Frame_ok Frame_ok2 Frame_sel Frame_reach Frame_reach2.

(** [b'] is [b] with the pairs of [R] added *)
Definition adds (b b' : setmap) (R : string -> string -> Prop) : Prop :=
  (forall n x, smrel b' n x <-> smrel b n x \/ R n x) /\
  (forall n, n ∈ dom b' <-> n ∈ dom b \/ exists x, R n x).

Lemma adds_none b : adds b b (fun _ _ => False).
Proof. split; naive_solver. Qed.
Lemma adds_ext b b' R R' : (forall n x, R n x <-> R' n x) -> adds b b' R -> adds b b' R'.
Proof. intros HE [H1 H2]. split; intros; [rewrite H1, HE; done|]. rewrite H2. setoid_rewrite HE. done. Qed.
Lemma adds_trans b b1 b2 R1 R2 : adds b b1 R1 -> adds b1 b2 R2 -> adds b b2 (fun n x => R1 n x \/ R2 n x).
Proof.
  intros [H1 H2] [H3 H4]. split; intros.
  - rewrite H3, H1. tauto.
  - rewrite H4, H2. naive_solver.
Qed.
Lemma adds_sm_add b k x : adds b (sm_add k x b) (fun n y => n = k /\ y = x).
Proof.
  split; intros.
  - rewrite smrel_add. done.
  - rewrite dom_sm_add, elem_of_union, elem_of_singleton. naive_solver.
Qed.
Lemma smrel_unify a b n x : smrel (unify a b) n x <-> smrel a n x \/ smrel b n x.
Proof.
  rewrite !smrel_default. unfold unify. rewrite lookup_union_with.
  destruct (a !! n) as [X|], (b !! n) as [Y|]; cbn; set_solver.
Qed.
Lemma dom_unify a b : dom (unify a b) = dom a ∪ dom b.
Proof.
  apply set_eq. intros n. rewrite elem_of_union, !elem_of_dom. unfold unify. rewrite lookup_union_with.
  destruct (a !! n) as [X|], (b !! n) as [Y|]; cbn; unfold is_Some; naive_solver.
Qed.
Lemma adds_unify b res R : adds ∅ res R -> adds b (unify b res) R.
Proof.
  intros [H1 H2]. split; intros.
  - rewrite smrel_unify, H1. pose proof (smrel_empty n x). tauto.
  - rewrite dom_unify, elem_of_union, H2, dom_empty. set_solver.
Qed.

Lemma loopR_adds {A} (f : A -> setmap -> result setmap) (R : A -> string -> string -> Prop) l : forall b,
  (forall a b, a ∈ l -> exists b', f a b = Ok b' /\ adds b b' (R a)) ->
  exists b', loopR f l b = Ok b' /\ adds b b' (fun n x => exists a, a ∈ l /\ R a n x).
Proof.
  induction l as [|a l IH]; intros b Hf; cbn.
  - exists b. split; [done|]. eapply adds_ext; [|apply adds_none]. intros n x. split; [done|]. by intros (a & ?%elem_of_nil & _).
  - destruct (Hf a b) as (b1 & -> & H1); [by left|]. cbn.
    destruct (IH b1) as (b2 & -> & H2); [intros; apply Hf; by right|]. exists b2. split; [done|].
    eapply adds_ext; [|by eapply adds_trans]. intros n x. cbn. setoid_rewrite elem_of_cons. naive_solver.
Qed.

Lemma loopR_cons {A B} (f : A -> B -> result B) a l b :
  loopR f (a :: l) b = match f a b with Ok b' => loopR f l b' | Err e => Err e end.
Proof. cbn. by destruct (f a b). Qed.

Lemma sub_iff a b : is_subobject a b = true <-> (forall n X, a !! n = Some X -> exists Y, b !! n = Some Y /\ X ⊆ Y).
Proof.
  unfold is_subobject. rewrite forallb_forall. split.
  - intros H n X HX. specialize (H (n, X)). cbn in H. destruct (b !! n) as [Y|].
    + exists Y. split; [done|]. apply (bool_decide_eq_true_1 (X ⊆ Y)), H. by apply elem_of_list_In, elem_of_map_to_list.
    + exfalso. cut (false = true); [done|]. apply H. by apply elem_of_list_In, elem_of_map_to_list.
  - intros H [n X] Hin%elem_of_list_In%elem_of_map_to_list. cbn. destruct (H n X Hin) as (Y & -> & HY). by apply bool_decide_eq_true_2.
Qed.
Lemma sub_refl_unify a b : is_subobject a (unify a b) = true.
Proof.
  apply sub_iff. intros n X HX. unfold unify. rewrite lookup_union_with, HX. destruct (b !! n) as [Y|]; cbn; eexists; (split; [done|]); set_solver.
Qed.
Lemma sub_refl a : is_subobject a a = true.
Proof. apply sub_iff. intros n X HX. by exists X. Qed.
Lemma sub_trans a b c : is_subobject a b = true -> is_subobject b c = true -> is_subobject a c = true.
Proof.
  rewrite !sub_iff. intros H1 H2 n X HX. destruct (H1 n X HX) as (Y & HY & ?). destruct (H2 n Y HY) as (Z & HZ & ?).
  exists Z. split; [done|]. set_solver.
Qed.
Lemma sub_smrel a b n x : is_subobject a b = true -> smrel a n x -> smrel b n x.
Proof. rewrite sub_iff. intros H (X & HX & Hx). destruct (H n X HX) as (Y & HY & ?). exists Y. set_solver. Qed.

Section proofs.
  Context (ord : sset -> list string) (eord : gset edge3 -> list edge3) (Hords : orders ord eord).
  Context (U : gmap string call) (HU : world U) (F : frame) (HF : consistent U F) (HT : tidy F).

  (** the elements directly before, with or without the calls *)
  Definition bef (inc : bool) (v h n x : string) : Prop :=
    before F (v, h) (n, x) /\ (inc = false -> n ∈ vnames F).

  Lemma ord_in X x : x ∈ ord X <-> x ∈ X.
  Proof. destruct Hords as [H _]. rewrite (H X). apply elem_of_elements. Qed.
  Lemma eord_in X x : x ∈ eord X <-> x ∈ X.
  Proof. destruct Hords as [_ H]. rewrite (H X). apply elem_of_elements. Qed.

  Lemma dh_func_ok inc c cl f : in_func F f c -> f_calls F !! c = Some cl -> forall b, exists b',
    dh_func eord inc c cl F f b = Ok b' /\ adds b b' (fun n x => (inc = true /\ n = f /\ x = c) \/
      exists l, has_edge F n f l /\ call_input cl l x).
  Proof.
    intros Hf Hcl b. unfold dh_func.
    destruct (loopR_adds (fun e : edge3 => loopR (dh_input cl e.1.1 F) (reverse_proj cl e.2))
      (fun e n x => n = e.1.1 /\ call_input cl e.2 x) (eord (in_edges f F))
      (if inc then sm_add f c b else b)) as (b' & E & Hb').
    - intros [[w d] l] b0 [He ->]%eord_in%elem_of_in_edges. cbn [fst snd].
      destruct (loopR_adds (dh_input cl w F) (fun m n x => n = w /\ exists r, dget m (c_ins cl) = Some r /\ rhid r = x)
        (reverse_proj cl l) b0) as (b1 & E1 & H1).
      + intros m b1 Hm. unfold dh_input. destruct (dget m (c_ins cl)) as [r|] eqn:Er.
        * assert (call_input cl l (rhid r)) as Hci.
          { apply (hids_ins U HU F HF HT f c cl w l); [done..|]. unfold hids_at. apply elem_of_list_omap. exists m. by rewrite Er. }
          pose proof (k_ins _ _ HF _ _ _ _ _ _ Hf Hcl Hci He) as (X & HX & Hx).
          rewrite (proj2 (at_key_ok w _ X) HX). cbn. rewrite decide_True by done. eexists. split; [done|].
          eapply adds_ext; [|apply adds_sm_add]. cbn. naive_solver.
        * eexists. split; [done|]. eapply adds_ext; [|apply adds_none]. cbn. naive_solver.
      + exists b1. split; [done|]. eapply adds_ext; [|exact H1]. intros n x. cbn.
        rewrite <-(hids_ins U HU F HF HT f c cl w l) by done. unfold hids_at. rewrite elem_of_list_omap. split.
        * intros (m & Hm & -> & r & Er & <-). split; [done|]. exists m. by rewrite Er.
        * intros (-> & m & Hm & Er). exists m. split; [done|]. split; [done|].
          destruct (dget m (c_ins cl)) as [r|]; [|done]. injection Er as <-. by exists r.
    - exists b'. split; [done|]. eapply adds_ext; [|eapply adds_trans; [|exact Hb']].
      2:{ instantiate (1 := fun n x => inc = true /\ n = f /\ x = c). destruct inc.
          - eapply adds_ext; [|apply adds_sm_add]. cbn. naive_solver.
          - eapply adds_ext; [|apply adds_none]. cbn. naive_solver. }
      intros n x. cbn. split.
      + intros [H|([[w d] l] & [He ->]%eord_in%elem_of_in_edges & -> & Hx)]; [by left|]. right. by exists l.
      + intros [H|(l & He & Hx)]; [by left|]. right. exists (n, f, l). split; [|done]. by apply eord_in, elem_of_in_edges.
  Qed.

  Lemma var_step v h (n x : string) : in_func F v h -> ~ v ∈ vnames F.
  Proof. intros (X & HX & _) Hv. apply (k_disj _ _ HF v); [done|]. apply elem_of_dom. by exists X. Qed.

  Lemma dh_ref_ok inc v h b : v ∈ vnames F -> exists b',
    dh_ref ord eord inc v F h b = Ok b' /\ adds b b' (bef inc v h).
  Proof.
    intros Hv. unfold dh_ref. destruct (f_creator F !! h) as [c|] eqn:Ec.
    2:{ exists b. split; [done|]. eapply adds_ext; [|apply adds_none]. intros n x. split; [done|]. intros [Hb _]. inversion Hb; congruence. }
    destruct (k_creator _ _ HF h c Ec) as (_ & cl & lo & Hcl & _). rewrite (proj2 (at_key_ok c _ cl) Hcl). cbn.
    assert (c ∈ dom (f_callinv F)) as [K HK]%elem_of_dom by (rewrite (k_callinv_dom _ _ HF); by apply elem_of_dom_2 in Hcl).
    rewrite (proj2 (at_key_ok c _ K) HK). cbn.
    destruct (neighbors_ok U F HF Back v) as (N & EN & HN); [unfold f_nodes; set_solver|]. rewrite EN. cbn.
    destruct (loopR_adds (dh_func eord inc c cl F) (fun f n x => (inc = true /\ n = f /\ x = c) \/
      exists l, has_edge F n f l /\ call_input cl l x) (ord (K ∩ N)) ∅) as (res & Eres & Hres).
    - intros f b0 [HfK _]%ord_in%elem_of_intersection. apply dh_func_ok; [|done]. apply (k_callinv _ _ HF). by exists K.
    - rewrite Eres. cbn. eexists. split; [done|]. apply adds_unify. eapply adds_ext; [|exact Hres]. intros n x. cbn.
      assert (forall f, f ∈ ord (K ∩ N) <-> in_func F f c /\ gstep F f v) as Hf.
      { intros f. rewrite ord_in, elem_of_intersection, (HN f), <-(k_callinv _ _ HF). cbn. split.
        - intros [H1 H2]. split; [by exists K|done].
        - intros [(K' & HK' & H1) H2]. split; [congruence|done]. }
      split.
      + intros (f & Hin & Hn). apply Hf in Hin as [Hfc Hg]. destruct Hn as [(-> & -> & ->)|(l & He & Hx)].
        * split; [by econstructor|done].
        * split; [by eapply before_input|]. intros _. apply (k_edge _ _ HF) in He as [[? _]|[_ He]]; [done|]. exfalso. by apply (var_step f c n x).
      + intros [Hb Hinc]. inversion Hb; subst;
          (match goal with H1 : f_creator F !! ?k = Some ?a, H2 : f_creator F !! ?k = Some ?b |- _ => assert (a = b) by congruence; clear H2; subst end).
        * eexists. split; [apply Hf; by split|]. left. split; [|done]. destruct inc; [done|]. exfalso. by eapply (var_step n x n x); [|apply Hinc].
        * match goal with H1 : f_calls F !! ?k = Some ?a, H2 : f_calls F !! ?k = Some ?b |- _ => assert (a = b) by congruence; clear H2; subst end.
          eexists. split; [apply Hf; by split|]. right. by eexists.
  Qed.

  Lemma direct_ok inc v X : v ∈ vnames F -> exists D, direct_history ord eord inc v X F = Ok D /\
    (forall n x, smrel D n x <-> (n = v /\ x ∈ X) \/ exists h, h ∈ X /\ bef inc v h n x) /\
    (forall n, n ∈ dom D <-> n = v \/ exists x h, h ∈ X /\ bef inc v h n x).
  Proof.
    intros Hv. unfold direct_history. rewrite decide_True by done.
    destruct (loopR_adds (dh_ref ord eord inc v F) (fun h n x => bef inc v h n x) (ord X) {[v := X]}) as (D & E & H1 & H2).
    { intros h b _. by apply dh_ref_ok. }
    exists D. split; [done|]. split.
    - intros n x. rewrite H1. setoid_rewrite ord_in. unfold smrel. setoid_rewrite lookup_singleton_Some. naive_solver.
    - intros n. rewrite H2. setoid_rewrite ord_in. rewrite dom_singleton, elem_of_singleton. naive_solver.
  Qed.

  (** * Exactness *)
  Definition closed (inc : bool) (T : setmap) : Prop := forall v h n x, smrel T v h -> bef inc v h n x -> smrel T n x.
  Definition pst (inc : bool) (v h n x : string) : Prop := rtc (fun a b => bef inc a.1 a.2 b.1 b.2) (v, h) (n, x).

  Lemma bef_var inc v h n x : bef inc v h n x -> v ∈ vnames F.
  Proof. intros [Hb _]. by inversion Hb. Qed.

  Lemma total_exact inc fuel : forall v X res T, total_history ord eord fuel inc F v X res = Ok T ->
    (exists R, res = Some R /\ T = R /\ exists D, direct_history ord eord inc v X F = Ok D /\ is_subobject D R = true) \/
    (closed inc T /\ (forall n x, smrel T n x -> exists h, h ∈ X /\ pst inc v h n x) /\
     (forall h, h ∈ X -> smrel T v h) /\ (X <> ∅ -> forall n, n ∈ dom T -> exists x, smrel T n x) /\
     exists D, direct_history ord eord inc v X F = Ok D /\ is_subobject D T = true).
  Proof.
    induction fuel as [|fuel IH]; intros v X res T; [done|]. cbn [total_history].
    destruct (decide (v ∈ vnames F)) as [Hv|Hv]; [|by unfold direct_history; rewrite decide_False].
    destruct (direct_ok inc v X Hv) as (D & ED & HD & HdD). rewrite ED. cbn.
    assert (forall l T0 T, (forall w, w ∈ l -> w ∈ dom D) -> is_subobject D T0 = true ->
      (forall n x, smrel T0 n x -> exists h, h ∈ X /\ pst inc v h n x) ->
      (X <> ∅ -> forall n, n ∈ dom T0 -> exists x, smrel T0 n x) ->
      (forall a b n x, smrel T0 a b -> bef inc a b n x -> smrel T0 n x \/ (smrel D a b /\ a ∈ l)) ->
      loopR (th_node (total_history ord eord fuel inc F) D F) l T0 = Ok T ->
      is_subobject D T = true /\ closed inc T /\ (forall n x, smrel T n x -> exists h, h ∈ X /\ pst inc v h n x) /\
      (X <> ∅ -> forall n, n ∈ dom T -> exists x, smrel T n x)) as HL.
    { induction l as [|w l IHl]; intros T0 T1 Hl HDT Hsound Hfull Hcl.
      - cbn. intros [= <-]. split; [done|]. split; [|done]. intros a b n x Hab Hb.
        destruct (Hcl a b n x Hab Hb) as [?|[_ ?%elem_of_nil]]; done.
      - rewrite loopR_cons. intros HE. destruct (th_node (total_history ord eord fuel inc F) D F w T0) as [T2|e] eqn:Et; [|done].
        revert HE. unfold th_node in Et. destruct (decide (w ∈ vnames F)) as [Hw|Hw].
        + assert (w ∈ dom D) as [Xw HXw]%elem_of_dom by (apply Hl; by left). rewrite (proj2 (at_key_ok w _ Xw) HXw) in Et. cbn in Et.
          destruct (total_history ord eord fuel inc F w Xw (Some T0)) as [R|] eqn:ER; [|done]. cbn in Et. injection Et as <-.
          assert (forall x, x ∈ Xw -> exists h, h ∈ X /\ pst inc v h w x) as Hreach.
          { intros x Hx. apply Hsound, (sub_smrel D); [done|]. by exists Xw. }
          pose proof (IH _ _ _ _ ER) as HR. apply IHl; [by intros; apply Hl; right|..].
          * eapply sub_trans; [done|]. apply sub_refl_unify.
          * intros n x [H|H]%smrel_unify; [by apply Hsound|].
            destruct HR as [(? & [= <-] & -> & _)|(_ & HR & _)]; [by apply Hsound|].
            destruct (HR n x H) as (h' & Hh' & Hp). destruct (Hreach h' Hh') as (h & Hh & Hp'). exists h. split; [done|]. by eapply rtc_transitive.
          * intros HX n. rewrite dom_unify, elem_of_union. setoid_rewrite smrel_unify. intros [Hn|Hn].
            -- destruct (Hfull HX n Hn) as [x Hx]. eauto.
            -- destruct HR as [(? & [= <-] & -> & _)|(_ & _ & _ & HR & _)].
               ++ destruct (Hfull HX n Hn) as [x Hx]. eauto.
               ++ destruct (HR) with (n := n) as [x Hx]; [|done|by eauto]. intros ->.
                  assert (w ∈ dom D) as [->|(x & h & Hh & Hb)]%HdD by (by apply elem_of_dom_2 in HXw).
                  ** apply HX, set_eq. intros x. split; [|done]. intros Hx. assert (smrel D v x) as (Y & HY & Hxy); [apply HD; by left|].
                     rewrite HXw in HY. injection HY as <-. done.
                  ** assert (smrel D w x) as (Y & HY & Hxy); [apply HD; right; by eexists|]. rewrite HXw in HY. injection HY as <-. set_solver.
          * intros a b n x Hab Hb. rewrite smrel_unify.
            assert (smrel D a b -> a = w -> smrel T0 n x \/ smrel R n x) as Hnew.
            { intros (Y & HY & HbY) ->. rewrite HXw in HY. injection HY as <-.
              assert (exists D', direct_history ord eord inc w Xw F = Ok D' /\ is_subobject D' R = true) as (D' & ED' & HS).
              { destruct HR as [(? & [= <-] & -> & D' & ?)|(_ & _ & _ & _ & D' & ?)]; by exists D'. }
              right. apply (sub_smrel D'); [done|]. destruct (direct_ok inc w Xw Hw) as (D2 & ED2 & HD2 & _).
              rewrite ED' in ED2. injection ED2 as <-. apply HD2. right. by exists b. }
            apply smrel_unify in Hab as [Hab|Hab].
            -- destruct (Hcl a b n x Hab Hb) as [?|[HDab [->|?]%elem_of_cons]]; [tauto|left; by apply Hnew|tauto].
            -- destruct HR as [(? & [= <-] & -> & _)|(HRc & _)].
               ++ destruct (Hcl a b n x Hab Hb) as [?|[HDab [->|?]%elem_of_cons]]; [tauto|left; by apply Hnew|tauto].
               ++ left. right. by eapply HRc.
        + injection Et as <-. apply IHl; [by intros; apply Hl; right|done|done|done|].
          intros a b n x Hab Hb. destruct (Hcl a b n x Hab Hb) as [?|[? [->|?]%elem_of_cons]]; [tauto| |tauto].
          exfalso. apply Hw. by eapply bef_var. }
    assert (loopR (th_node (total_history ord eord fuel inc F) D F) (ord (dom D)) D = Ok T ->
      (closed inc T /\ (forall n x, smrel T n x -> exists h, h ∈ X /\ pst inc v h n x) /\
       (forall h, h ∈ X -> smrel T v h) /\ (X <> ∅ -> forall n, n ∈ dom T -> exists x, smrel T n x) /\
       exists D', Ok D = Ok D' /\ is_subobject D' T = true)) as HL'.
    { intros E. apply HL in E as (H1 & H2 & H3 & H4).
      - split; [done|]. split; [done|]. split; [|split; [done|by exists D]].
        intros h Hh. apply (sub_smrel D); [done|]. apply HD. by left.
      - intros w Hw. by apply ord_in.
      - apply sub_refl.
      - intros n x [[-> Hx]|(h & Hh & Hb)]%HD; [exists x; split; [done|apply rtc_refl]|]. exists h. split; [done|]. by apply rtc_once.
      - intros HX n [->|(x & h & Hh & Hb)]%HdD.
        + apply set_choose_L in HX as [x Hx]. exists x. apply HD. by left.
        + exists x. apply HD. right. by exists h.
      - intros a b n x Hab Hb. right. split; [done|]. apply ord_in. destruct Hab as (Y & HY & _). by apply elem_of_dom_2 in HY. }
    destruct res as [R|]; [|intros E; right; by apply HL'].
    destruct (is_subobject D R) eqn:ES; [|intros E; right; by apply HL'].
    intros [= <-]. left. exists R. split; [done|]. split; [done|]. by exists D.
  Qed.

  (** * Termination *)
  Lemma bef_rank rank (Hr : forall c cl l h l' h', U !! c = Some cl -> call_output cl l h -> call_input cl l' h' -> rank h' < rank h) inc v h n x :
    n ∈ vnames F -> bef inc v h n x -> rank x < rank h /\ in_var F n x.
  Proof.
    intros Hn [Hb _]. inversion Hb; subst.
    - exfalso. by eapply (var_step n x n x).
    - destruct (k_creator _ _ HF h c) as (_ & cl' & lo & Hcl & Ho); [done|]. assert (cl' = cl) as -> by congruence.
      split; [|by eapply (k_ins _ _ HF)]. eapply Hr; [|done|done]. eapply lookup_weaken; [done|]. apply (k_world _ _ HF).
  Qed.

  Lemma total_ends inc : acyclic U -> forall v X, v ∈ vnames F -> (forall h, h ∈ X -> in_var F v h) ->
    exists n, forall k, n <= k -> forall res, exists T, total_history ord eord k inc F v X res = Ok T.
  Proof.
    intros [rank Hr].
    assert (forall N v X, v ∈ vnames F -> (forall h, h ∈ X -> in_var F v h) -> (forall h, h ∈ X -> rank h < N) ->
      exists n, forall k, n <= k -> forall res, exists T, total_history ord eord k inc F v X res = Ok T) as HN.
    2:{ intros v X Hv HX. apply (HN (S (max_list (rank <$> elements X)))); [done..|]. intros h Hh.
        assert (rank h <= max_list (rank <$> elements X)); [|lia]. apply max_list_elem_of_le, elem_of_list_fmap. exists h. split; [done|]. by apply elem_of_elements. }
    induction N as [|N IHN].
    all: intros v X Hv; destruct (vnames_get F v Hv) as [Vs HVs].
    all: remember (size (Vs ∖ X)) as m eqn:Em; revert X Em; induction m as [m IHm] using lt_wf_ind; intros X -> HX HrX.
    all: destruct (direct_ok inc v X Hv) as (D & ED & HD & HdD).
    all: assert (forall l, (forall w, w ∈ l -> w ∈ dom D) -> exists n, forall k, n <= k -> forall T0, is_subobject D T0 = true ->
      exists T, loopR (th_node (total_history ord eord k inc F) D F) l T0 = Ok T) as HL.
    1,3: induction l as [|w l IHl]; intros Hl; [exists 0; intros k _ T0 _; by exists T0|].
    1,2: destruct IHl as [n1 Hn1]; [by intros; apply Hl; right|].
    1,2: destruct (decide (w ∈ vnames F)) as [Hw|Hw];
      [|exists n1; intros k Hk T0 HT0; rewrite loopR_cons; unfold th_node at 1; rewrite decide_False by done; by apply Hn1].
    1,2: assert (w ∈ dom D) as [Xw HXw]%elem_of_dom by (apply Hl; by left).
    1,2: assert (exists n2, forall k, n2 <= k -> forall T0, is_subobject D T0 = true ->
        exists T, total_history ord eord k inc F w Xw (Some T0) = Ok T) as [n2 Hn2];
      [|exists (max n1 n2); intros k Hk T0 HT0; rewrite loopR_cons; unfold th_node at 1; rewrite decide_True, (proj2 (at_key_ok w _ Xw) HXw) by done; cbn;
        destruct (Hn2 k ltac:(lia) T0 HT0) as [R ->]; cbn; apply Hn1; [lia|]; eapply sub_trans; [done|apply sub_refl_unify]].
    1,2: assert (forall x, x ∈ Xw <-> (w = v /\ x ∈ X) \/ exists h, h ∈ X /\ bef inc v h w x) as HXw' by
      (intros x; rewrite <-HD; split; [intros Hx; by exists Xw|]; intros (Y & HY & Hx); congruence).
    1,2: assert (forall x, x ∈ Xw -> in_var F w x) as Hin by
      (intros x [[-> Hx]|(h & Hh & Hb)]%HXw'; [by apply HX|]; by eapply (bef_rank rank Hr)).
    1,2: destruct (decide (w = v)) as [->|Hne].
    1,3: assert (X ⊆ Xw) as HXs by (intros x Hx; apply HXw'; by left).
    1,2: destruct (decide (Xw = X)) as [->|HneX];
      [exists 1; intros k Hk T0 HT0; destruct k as [|k]; [lia|]; cbn; rewrite ED; cbn; rewrite HT0; by exists T0|].
    1,2: assert (size (Vs ∖ Xw) < size (Vs ∖ X)) as Hlt.
    1,3: assert (exists x, x ∈ Xw /\ x ∉ X) as (x & Hx & HxX) by
      (destruct (decide (Exists (fun x => x ∉ X) (elements Xw))) as [(x & Hx & ?)%Exists_exists|Hno]; [exists x; split; [by apply elem_of_elements|done]|];
       exfalso; apply HneX; apply (anti_symm (⊆)); [|done]; intros y Hy; destruct (decide (y ∈ X)); [done|]; exfalso; apply Hno, Exists_exists;
       exists y; split; [by apply elem_of_elements|done]).
    1,2: apply subset_size; split; [set_solver|]; intros Hsub; assert (x ∈ Vs) as HxV by (destruct (Hin x Hx) as (Y & HY & ?); congruence); set_solver.
    1,2: destruct (IHm _ Hlt Xw eq_refl Hin) as [n2 Hn2];
      [intros x [[_ Hx]|(h & Hh & Hb)]%HXw'; [by apply HrX|]; destruct (bef_rank rank Hr inc v h v x Hv Hb) as [Hrk _]; specialize (HrX h Hh); lia|
       exists n2; intros k Hk T0 _; by apply Hn2].
    - exfalso. apply elem_of_dom_2, HdD in HXw as [->|(x & h & Hh & _)]; [done|]. specialize (HrX h Hh). lia.
    - destruct (IHN w Xw Hw Hin) as [n2 Hn2]; [|exists n2; intros k Hk T0 _; by apply Hn2].
      intros x [[-> _]|(h & Hh & Hb)]%HXw'; [done|]. destruct (bef_rank rank Hr inc v h w x Hw Hb) as [Hrk _]. specialize (HrX h Hh). lia.
    - destruct (HL (ord (dom D))) as [n Hn]; [intros w Hw; by apply ord_in|]. exists (S n). intros k Hk res. destruct k as [|k]; [lia|]. cbn. rewrite ED. cbn.
      destruct res as [R|]; [destruct (is_subobject D R); [by eexists|]|]; (apply Hn; [lia|apply sub_refl]).
    - destruct (HL (ord (dom D))) as [n Hn]; [intros w Hw; by apply ord_in|]. exists (S n). intros k Hk res. destruct k as [|k]; [lia|]. cbn. rewrite ED. cbn.
      destruct res as [R|]; [destruct (is_subobject D R); [by eexists|]|]; (apply Hn; [lia|apply sub_refl]).
  Qed.

  (** * Rows *)
  Lemma pst_past v h n x : pst true v h n x <-> past F (v, h) (n, x).
  Proof.
    unfold pst, past. split; apply rtc_subrel.
    - intros [a b] [c d] [H _]. done.
    - intros [a b] [c d] H. by split.
  Qed.
  Lemma total_row fuel v h T : total_history ord eord fuel true F v {[h]} None = Ok T -> row_of F v h T.
  Proof.
    intros [(R & ? & _)|(H1 & H2 & H3 & H4 & _)]%total_exact; [done|]. split.
    - intros n x. rewrite <-pst_past. split.
      + intros Hx. destruct (H2 n x Hx) as (h' & ->%elem_of_singleton & Hp). done.
      + assert (smrel T v h) as H0 by (by apply H3, elem_of_singleton). intros Hp. unfold pst in Hp.
        change (smrel T (n, x).1 (n, x).2). change (smrel T (v, h).1 (v, h).2) in H0.
        induction Hp as [a|a b c Hab _ IH]; [done|]. apply IH. by eapply H1.
    - intros n X HX ->. destruct (H4) with (n := n) as (x & Y & HY & Hx); [set_solver|by apply elem_of_dom_2 in HX|].
      rewrite HX in HY. injection HY as <-. set_solver.
  Qed.

  Lemma past_node v h n x : in_var F v h -> past F (v, h) (n, x) -> in_node F n x.
  Proof.
    intros Hv Hp. unfold past in Hp. change (in_node F (n, x).1 (n, x).2).
    assert (in_node F (v, h).1 (v, h).2) as H0 by by left.
    induction Hp as [a|a b c Hab _ IH]; [done|]. apply IH. destruct Hab; [by right|]. left. by eapply (k_ins _ _ HF).
  Qed.
  Lemma row_known v h r : in_var F v h -> row_of F v h r -> known_row F r = true.
  Proof.
    intros Hv [Hr _]. unfold known_row. apply forallb_forall. intros [n X] Hin%elem_of_list_In%elem_of_map_to_list. cbn.
    assert (forall x, x ∈ X -> in_node F n x) as HX.
    { intros x Hx. eapply past_node; [done|]. apply Hr. by exists X. }
    apply andb_true_iff. split; apply orb_true_iff.
    - destruct (decide (n ∈ vnames F)) as [Hn|Hn]; [right|left; by apply bool_decide_eq_true_2]. apply bool_decide_eq_true_2.
      intros x Hx. apply (k_refs _ _ HF). destruct (HX x Hx) as [?|Hf]; [by exists n|]. exfalso. by apply (var_step n x n x).
    - destruct (decide (n ∈ fnames F)) as [Hn|Hn]; [right|left; by apply bool_decide_eq_true_2]. apply bool_decide_eq_true_2.
      intros x Hx. apply (k_calls _ _ HF). destruct (HX x Hx) as [(Y & HY & _)|?]; [|by exists n]. exfalso.
      apply (k_disj _ _ HF n); [by apply elem_of_dom_2 in HY|done].
  Qed.

  Lemma df_rows fuel v l : (forall h, h ∈ l -> in_var F v h) -> forall acc rows,
    loopR (fun h rows => bindR (total_history ord eord fuel true F v {[h]} None) (fun r =>
             if known_row F r then Ok (rows ++ [r]) else Err EKeyError)) l acc = Ok rows ->
    exists new, rows = acc ++ new /\ Forall2 (row_of F v) l new.
  Proof.
    induction l as [|h l IH]; intros Hl acc rows.
    - cbn. intros [= <-]. exists []. by rewrite app_nil_r.
    - rewrite loopR_cons. destruct (total_history ord eord fuel true F v {[h]} None) as [r|] eqn:Er; [|done]. cbn.
      pose proof (total_row _ _ _ _ Er) as Hr. rewrite (row_known v h r) by (done || apply Hl; by left).
      intros (new & -> & Hnew)%IH; [|by intros; apply Hl; right]. exists (r :: new). rewrite <-app_assoc. split; [done|]. by constructor.
  Qed.
  Lemma history_df_ok fuel v t : history_df ord eord fuel true F v = Ok t -> exists X, f_vs F !! v = Some X /\
    t = table_of (t_rows t) /\ Forall2 (row_of F v) (ord X) (t_rows t).
  Proof.
    unfold history_df. destruct (at_key v (f_vs F)) as [X|] eqn:EX; [|done]. apply at_key_ok in EX. cbn.
    destruct (loopR _ (ord X) []) as [rows|] eqn:E; [|done]. cbn. intros [= <-]. exists X. split; [done|]. split; [done|].
    apply df_rows in E as (new & -> & Hnew); [done|]. intros h Hh%ord_in. by exists X.
  Qed.
  Lemma history_df_ends v : acyclic U -> v ∈ vnames F ->
    exists n, forall k, n <= k -> exists t, history_df ord eord k true F v = Ok t.
  Proof.
    intros HA Hv. destruct (vnames_get F v Hv) as [X HX]. unfold history_df. rewrite (proj2 (at_key_ok v _ X) HX). cbn.
    assert (forall l, (forall h, h ∈ l -> in_var F v h) -> exists n, forall k, n <= k -> forall acc, exists rows,
      loopR (fun h rows => bindR (total_history ord eord k true F v {[h]} None) (fun r =>
             if known_row F r then Ok (rows ++ [r]) else Err EKeyError)) l acc = Ok rows) as HL.
    { induction l as [|h l IH]; intros Hl; [exists 0; intros k _ acc; by exists acc|].
      destruct IH as [n1 H1]; [by intros; apply Hl; right|].
      destruct (total_ends true HA v {[h]} Hv) as [n2 H2]; [intros h' ->%elem_of_singleton; apply Hl; by left|].
      exists (max n1 n2). intros k Hk acc. rewrite loopR_cons. destruct (H2 k ltac:(lia) None) as [r Er]. rewrite Er. cbn.
      rewrite (row_known v h r); [apply H1; lia|apply Hl; by left|by eapply total_row]. }
    destruct (HL (ord X)) as [n Hn]; [intros h Hh%ord_in; by exists X|]. exists n. intros k Hk. destruct (Hn k Hk []) as [rows ->]. by eexists.
  Qed.

  (** * Joining *)
  Definition included (v h : string) (row : setmap) : Prop := exists r, row_of F v h r /\ r ⊆ row.
  Definition fine (vs : list string) (t : table) : Prop :=
    (forall row, row ∈ t_rows t -> combines F vs row /\ dom row ⊆ t_cols t).

  Lemma table_of_cols rows row : row ∈ rows -> dom row ⊆ t_cols (table_of rows).
  Proof. intros Hin n Hn. cbn. apply elem_of_union_list. exists (dom row). split; [|done]. apply elem_of_list_fmap. by exists row. Qed.

  Lemma first_fine v X t : f_vs F !! v = Some X -> t = table_of (t_rows t) -> Forall2 (row_of F v) (ord X) (t_rows t) -> fine [v] t.
  Proof.
    intros HX Et HF2 row Hrow. split; [|rewrite Et; by apply table_of_cols].
    apply elem_of_list_lookup in Hrow as [i Hi]. destruct (Forall2_lookup_r _ _ _ _ _ HF2 Hi) as (h & Hh & Hr).
    apply elem_of_list_lookup_2, ord_in in Hh. exists [(v, h)]. split; [done|]. split; [apply NoDup_singleton|]. split.
    - intros v' h' [= -> ->]%elem_of_list_singleton. split; [by left|]. split; [by exists X|]. by exists row.
    - intros n x Hx. exists v, h. split; [by left|]. by apply Hr.
  Qed.

  Lemma agree_sub (a b : table) r s : dom r ⊆ t_cols a -> dom s ⊆ t_cols b -> agree (t_cols a ∩ t_cols b) r s -> s ⊆ r ∪ s.
  Proof.
    intros Hr Hs Ha. apply map_subseteq_spec. intros n X HX. destruct (r !! n) as [Y|] eqn:EY.
    - assert (r !! n = s !! n) as E; [apply Ha, elem_of_intersection; split; [apply Hr|apply Hs]; by eapply elem_of_dom_2|].
      apply lookup_union_Some_l. congruence.
    - rewrite lookup_union_r by done. done.
  Qed.
  Lemma combines_weaken vs vs' row : (forall v, v ∈ vs -> v ∈ vs') -> combines F vs row -> combines F vs' row.
  Proof.
    intros Hs (ch & H1 & H2 & H3 & H4). exists ch. split; [done|]. split; [done|]. split; [|done].
    intros v h Hv. destruct (H3 v h Hv) as (? & ? & ?). auto.
  Qed.
  Lemma combine_two vs v r s (a b : table) : v ∉ vs -> dom r ⊆ t_cols a -> dom s ⊆ t_cols b -> agree (t_cols a ∩ t_cols b) r s ->
    combines F vs r -> combines F [v] s -> combines F (vs ++ [v]) (r ∪ s).
  Proof.
    intros Hv Hr Hs Ha (ch & N1 & N2 & N3 & N4) (ch' & M1 & M2 & M3 & M4). pose proof (agree_sub a b r s Hr Hs Ha) as Hsub.
    exists (ch ++ ch'). split; [by destruct ch|]. split.
    - rewrite map_app. apply NoDup_app. split; [done|]. split; [|done]. intros w Hw1 Hw2.
      apply elem_of_list_fmap in Hw1 as ([w1 h1] & -> & Hw1). apply elem_of_list_fmap in Hw2 as ([w2 h2] & E & Hw2). cbn in E. subst w2.
      apply N3 in Hw1 as [Hw1 _]. apply M3 in Hw2 as [->%elem_of_list_singleton _]. done.
    - split.
      + intros w h [Hw|Hw]%elem_of_app.
        * destruct (N3 w h Hw) as (? & ? & r' & ? & ?). split; [by apply elem_of_app; left|]. split; [done|]. exists r'. split; [done|].
          etrans; [done|]. apply map_union_subseteq_l.
        * destruct (M3 w h Hw) as (? & ? & r' & ? & ?). split; [by apply elem_of_app; right|]. split; [done|]. exists r'. split; [done|]. by etrans.
      + intros n x (X & HX & Hx). apply lookup_union_Some_raw in HX as [HX|[_ HX]].
        * destruct (N4 n x) as (w & h & ? & ?); [by exists X|]. exists w, h. split; [by apply elem_of_app; left|done].
        * destruct (M4 n x) as (w & h & ? & ?); [by exists X|]. exists w, h. split; [by apply elem_of_app; right|done].
  Qed.
  Lemma merge_fine outer vs v a b t : v ∉ vs -> fine vs a -> fine [v] b -> merge_tables outer a b = Ok t -> fine (vs ++ [v]) t.
  Proof.
    intros Hv Ha Hb. unfold merge_tables. case_decide as HC; [done|]. intros [= <-]. intros row Hrow. cbn in Hrow.
    apply elem_of_app in Hrow as [Hrow|Hrow].
    - apply elem_of_list_bind in Hrow as (r & Hrow & Hr). apply elem_of_list_bind in Hrow as (s & Hrow & Hs).
      case_decide as Hag; [|by apply elem_of_nil in Hrow]. apply elem_of_list_singleton in Hrow as ->.
      destruct (Ha r Hr) as [H1 H2]. destruct (Hb s Hs) as [H3 H4]. split; [by eapply combine_two|]. cbn. rewrite dom_union. set_solver.
    - destruct outer; [|by apply elem_of_nil in Hrow]. apply elem_of_app in Hrow as [[_ Hrow]%elem_of_list_filter|[_ Hrow]%elem_of_list_filter].
      + destruct (Ha row Hrow) as [H1 H2]. split; [|cbn; set_solver]. eapply combines_weaken; [|done]. intros w Hw. by apply elem_of_app; left.
      + destruct (Hb row Hrow) as [H1 H2]. split; [|cbn; set_solver]. eapply combines_weaken; [|done]. intros w Hw. by apply elem_of_app; right.
  Qed.
  Lemma merge_keeps a b t : (forall r, r ∈ t_rows a -> dom r ⊆ t_cols a) -> (forall r, r ∈ t_rows b -> dom r ⊆ t_cols b) ->
    merge_tables true a b = Ok t ->
    (forall r, r ∈ t_rows a -> exists row, row ∈ t_rows t /\ r ⊆ row) /\ (forall s, s ∈ t_rows b -> exists row, row ∈ t_rows t /\ s ⊆ row).
  Proof.
    intros Ha Hb. unfold merge_tables. case_decide as HC; [done|]. intros [= <-]. cbn. set (C := t_cols a ∩ t_cols b).
    assert (forall r s, r ∈ t_rows a -> s ∈ t_rows b -> agree C r s ->
      r ∪ s ∈ (r ← t_rows a; s ← t_rows b; if decide (agree C r s) then [r ∪ s] else [])) as Hpair.
    { intros r s Hr Hs Hag. apply elem_of_list_bind. exists r. split; [|done]. apply elem_of_list_bind. exists s. split; [|done].
      rewrite decide_True by done. by left. }
    split.
    - intros r Hr. destruct (decide (Exists (agree C r) (t_rows b))) as [(s & Hs & Hag)%Exists_exists|Hno].
      + exists (r ∪ s). split; [apply elem_of_app; left; by apply Hpair|]. apply map_union_subseteq_l.
      + exists r. split; [|done]. apply elem_of_app. right. apply elem_of_app. left. by apply elem_of_list_filter.
    - intros s Hs. destruct (decide (Exists (fun r => agree C r s) (t_rows a))) as [(r & Hr & Hag)%Exists_exists|Hno].
      + exists (r ∪ s). split; [apply elem_of_app; left; by apply Hpair|]. eapply agree_sub; [by apply Ha|by apply Hb|done].
      + exists s. split; [|done]. apply elem_of_app. right. apply elem_of_app. right. by apply elem_of_list_filter.
  Qed.

  Lemma joint_tables fuel vs : forall acc ts,
    loopR (fun v ts => bindR (history_df ord eord fuel true F v) (fun t => Ok (ts ++ [t]))) vs acc = Ok ts ->
    exists new, ts = acc ++ new /\ Forall2 (fun v t => history_df ord eord fuel true F v = Ok t) vs new.
  Proof.
    induction vs as [|v vs IH]; intros acc ts.
    - cbn. intros [= <-]. exists []. by rewrite app_nil_r.
    - rewrite loopR_cons. destruct (history_df ord eord fuel true F v) as [t|] eqn:Et; [|done]. cbn.
      intros (new & -> & Hnew)%IH. exists (t :: new). rewrite <-app_assoc. split; [done|]. by constructor.
  Qed.

  Lemma joint_ok fuel outer vs t : NoDup vs -> joint_history_df ord eord fuel true outer F vs = Ok t ->
    fine vs t /\ (outer = true -> forall v h, v ∈ vs -> in_var F v h -> exists row, row ∈ t_rows t /\ included v h row).
  Proof.
    intros Hnd. unfold joint_history_df. destruct (loopR _ vs []) as [ts|] eqn:E; [|done]. cbn.
    apply joint_tables in E as (new & -> & Hnew). cbn [app].
    destruct Hnew as [|v t0 vs ts Hv Hts]; [done|].
    assert (forall ts vs done_ t0, Forall2 (fun v t => history_df ord eord fuel true F v = Ok t) vs ts -> NoDup (done_ ++ vs) -> fine done_ t0 ->
      (outer = true -> forall v h, v ∈ done_ -> in_var F v h -> exists row, row ∈ t_rows t0 /\ included v h row) ->
      loopR (fun b a => merge_tables outer a b) ts t0 = Ok t ->
      fine (done_ ++ vs) t /\ (outer = true -> forall v h, v ∈ done_ ++ vs -> in_var F v h -> exists row, row ∈ t_rows t /\ included v h row)) as HL.
    { clear Hnd Hv Hts v t0 vs ts. induction ts as [|b ts IH]; intros vs dn t0 Hts Hnd Hf Hinc.
      - inversion Hts; subst. cbn. intros [= <-]. by rewrite app_nil_r.
      - inversion Hts as [|v ? vs' ? Hb Hts']; subst. rewrite loopR_cons. destruct (merge_tables outer t0 b) as [t1|] eqn:Em; [|done].
        destruct (history_df_ok _ _ _ Hb) as (X & HX & Eb & Hrows).
        assert (fine [v] b) as Hfb by by eapply first_fine.
        assert (v ∉ dn) as Hvn.
        { apply NoDup_app in Hnd as (_ & Hnd & _). intros Hin. apply (Hnd v); [done|by left]. }
        rewrite cons_middle, app_assoc in Hnd |- *. apply IH; [done|done|by eapply merge_fine|].
        intros ->. destruct (merge_keeps t0 b t1) as [K1 K2]; [by intros; apply Hf|by intros; apply Hfb|done|].
        intros w h [Hw|Hw%elem_of_list_singleton]%elem_of_app Hin.
        + destruct (Hinc eq_refl w h Hw Hin) as (row & Hrow & r & Hr & Hsub). destruct (K1 row Hrow) as (row' & ? & ?).
          exists row'. split; [done|]. exists r. split; [done|]. by etrans.
        + subst w. destruct Hin as (X' & HX' & Hh). rewrite HX in HX'. injection HX' as <-.
          apply ord_in, elem_of_list_lookup in Hh as [i Hi]. destruct (Forall2_lookup_l _ _ _ _ _ Hrows Hi) as (r & Hri & Hr).
          destruct (K2 r) as (row & ? & ?); [by eapply elem_of_list_lookup_2|]. exists row. split; [done|]. by exists r. }
    destruct (history_df_ok _ _ _ Hv) as (X & HX & Eb & Hrows).
    intros Hl. apply (HL ts vs [v] t0); [done|done|by eapply first_fine| |done].
    intros _ w h ->%elem_of_list_singleton (X' & HX' & Hh). rewrite HX in HX'. injection HX' as <-.
    apply ord_in, elem_of_list_lookup in Hh as [i Hi]. destruct (Forall2_lookup_l _ _ _ _ _ Hrows Hi) as (r & Hri & Hr).
    exists r. split; [by eapply elem_of_list_lookup_2|]. by exists r.
  Qed.
End proofs.
