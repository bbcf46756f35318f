(** Consistent frames pass [_check]; selection, union and intersection. *)
From stdpp Require Import base strings gmap list relations.
From Verif Require Import Base PyDict Refs Storage Frame Spec_Frame Frame_base Frame_ok Frame_ok2.

(** * [_check] *)
Lemma union_values_sub m (Y : sset) : (forall k x, smrel m k x -> x ∈ Y) -> union_values m ⊆ Y.
Proof. intros H x [k Hk]%elem_of_union_values. eauto. Qed.

Lemma check_io_true side a F :
  (forall f c, in_func F f c -> exists m cl, a !! f = Some m /\ f_calls F !! c = Some cl /\
     forall n r v, (n, r) ∈ side cl -> smrel m (name_proj (c_op cl) n) v ->
       in_var F v (rhid r) /\ smrel (f_refinv F) (rhid r) v) ->
  check_io side a F = true.
Proof.
  intros H. apply Is_true_true, forallb_True, Forall_forall. intros [f X] HfX. apply elem_of_map_to_list in HfX. cbn.
  apply forallb_True, Forall_forall. intros c Hc. apply elem_of_elements in Hc.
  destruct (H f c) as (m & cl & -> & -> & Hcl); [by exists X|].
  apply forallb_True, Forall_forall. intros [n r] Hnr. cbn.
  apply forallb_True, Forall_forall. intros v Hv. apply elem_of_elements in Hv.
  destruct (Hcl n r v) as [H1 H2]; [done| |].
  { apply smrel_default. done. }
  apply andb_True. split; apply bool_decide_pack.
  - by apply smrel_default.
  - by apply smrel_default.
Qed.

Lemma consistent_check U F : world U -> consistent U F -> check F = true.
Proof.
  intros HU HF. unfold check. repeat (apply andb_true_intro; split).
  - apply bool_decide_eq_true. apply set_eq. intros h. rewrite elem_of_union_values, (k_refs _ _ HF h). done.
  - apply bool_decide_eq_true. apply set_eq. intros c. rewrite elem_of_union_values, (k_calls _ _ HF c). done.
  - apply bool_decide_eq_true. apply union_values_sub. intros h v Hv. apply (k_refinv _ _ HF) in Hv. by eapply smrel_dom.
  - apply bool_decide_eq_true. apply union_values_sub. intros h v Hv. apply (k_callinv _ _ HF) in Hv. by eapply smrel_dom.
  - apply bool_decide_eq_true. intros h [c Hc]%elem_of_dom. by apply (k_creator _ _ HF) in Hc as [? _].
  - apply bool_decide_eq_true. intros c Hc. apply elem_of_list_to_set, elem_of_list_fmap in Hc as ([h c'] & -> & Hc).
    apply elem_of_map_to_list in Hc. apply (k_creator _ _ HF) in Hc as (_ & cl & l & Hcl & _). apply elem_of_dom. eauto.
  - apply bool_decide_eq_true. intros h [c Hc]%elem_of_dom. by apply (k_consumers _ _ HF) in Hc as [? _].
  - apply bool_decide_eq_true. apply union_values_sub. intros h c (X & HX & Hc).
    apply (k_consumers _ _ HF) in HX as [_ HX]. apply HX in Hc as (cl & l & Hcl & _). apply elem_of_dom. eauto.
  - apply Is_true_true, forallb_True, Forall_forall. intros [[s d] l] He. apply elem_of_edges_list, (k_edge _ _ HF) in He.
    cbn. apply andb_True. unfold f_nodes. split; apply bool_decide_pack; rewrite elem_of_union; tauto.
  - apply check_io_true. intros f c Hc.
    assert (c ∈ dom (f_calls F)) as [cl Hcl]%elem_of_dom by (apply (k_calls _ _ HF); eauto).
    assert (f ∈ dom (f_inp F)) as [m Hm]%elem_of_dom.
    { rewrite (k_inp _ _ HF). apply elem_of_union. right. by eapply smrel_dom. }
    exists m, cl. split; [done|]. split; [done|]. intros n r v Hnr Hv.
    assert (in_var F v (rhid r)) as Hin; [|split; [done|by apply (k_refinv _ _ HF)]].
    eapply (k_ins _ _ HF); [exact Hc|exact Hcl|by exists n, r|]. apply (k_mirror _ _ HF), has_in_edge_arel. by exists m.
  - apply check_io_true. intros f c Hc.
    assert (c ∈ dom (f_calls F)) as [cl Hcl]%elem_of_dom by (apply (k_calls _ _ HF); eauto).
    assert (f ∈ dom (f_out F)) as [m Hm]%elem_of_dom.
    { rewrite (k_out _ _ HF). apply elem_of_union. right. by eapply smrel_dom. }
    exists m, cl. split; [done|]. split; [done|]. intros n r v Hnr Hv.
    assert (in_var F v (rhid r)) as Hin; [|split; [done|by apply (k_refinv _ _ HF)]].
    eapply (k_outs _ _ HF); [exact Hc|exact Hcl|by exists n, r|]. apply has_edge_arel. by exists m.
  - apply Is_true_true, forallb_True, Forall_forall. intros [h r] Hr. apply elem_of_map_to_list in Hr.
    apply bool_decide_pack. symmetry. by eapply (k_refkey _ _ HF).
  - apply Is_true_true, forallb_True, Forall_forall. intros [h c] Hr. apply elem_of_map_to_list in Hr.
    apply bool_decide_pack. symmetry. eapply (w_key _ HU). by eapply lookup_weaken, HF.
Qed.

(** * Selecting nodes *)
Lemma adj_of_cons key val e es : adj_of key val (e :: es) = <[key e := sm_add e.2 (val e) (default ∅ (adj_of key val es !! key e))]> (adj_of key val es).
Proof. done. Qed.
Lemma arel_adj_of key val es n l x :
  arel (adj_of key val es) n l x <-> exists e, e ∈ es /\ key e = n /\ e.2 = l /\ val e = x.
Proof.
  induction es as [|e es IH]; [|rewrite adj_of_cons].
  - split; [intros (? & [=] & _)|intros (e & He & _); by apply elem_of_nil in He].
  - trans (arel (adj_of key val es) n l x \/ (key e = n /\ e.2 = l /\ val e = x)).
    + unfold arel. destruct (decide (n = key e)) as [->|Hne].
      * rewrite lookup_insert. split.
        -- intros (m & [= <-] & Hm). apply smrel_add in Hm as [Hm|[-> ->]]; [|auto]. left.
           destruct (adj_of key val es !! key e) as [m|]; cbn in Hm; [eauto|by apply smrel_empty in Hm].
        -- intros [(m & Hm & Hx)|(_ & <- & <-)]; (eexists; split; [done|]; apply smrel_add); [|auto].
           left. by rewrite Hm.
      * rewrite lookup_insert_ne by done. split; [auto|]. intros [?|[? _]]; [done|congruence].
    + rewrite IH. setoid_rewrite elem_of_cons. naive_solver.
Qed.
Lemma lookup_pad ns (n : string) : (set_to_map (fun n => (n, ∅)) (ns : sset) : adj) !! n = if decide (n ∈ ns) then Some ∅ else None.
Proof.
  case_decide as Hn.
  - apply lookup_set_to_map; [naive_solver|]. eauto.
  - apply eq_None_not_Some. intros [m Hm]. apply lookup_set_to_map in Hm as (y & Hy & [= -> _]); [done|naive_solver].
Qed.
Lemma arel_pad ns a n l x : arel (pad_adj ns a) n l x <-> arel a n l x.
Proof.
  unfold arel, pad_adj. split.
  - intros (m & Hm & Hx). apply lookup_union_Some_raw in Hm as [Hm|[Hn Hm]]; [eauto|].
    rewrite lookup_pad in Hm. case_decide; [|done]. injection Hm as <-. by apply smrel_empty in Hx.
  - intros (m & Hm & Hx). exists m. split; [|done]. by apply lookup_union_Some_l.
Qed.
Lemma dom_pad ns a : dom a ⊆ ns -> dom (pad_adj ns a) = ns.
Proof.
  intros H. unfold pad_adj. rewrite dom_union_L. apply set_eq. intros n. rewrite elem_of_union.
  rewrite (elem_of_dom (set_to_map _ _)), lookup_pad. case_decide.
  - split; [done|]. intros _. right. eauto.
  - split; [|done]. intros [?|[? [=]]]. auto.
Qed.
Lemma dom_adj_of key val es n : n ∈ dom (adj_of key val es) -> exists e, e ∈ es /\ key e = n.
Proof.
  induction es as [|e es IH]; [cbn; set_solver|]. rewrite adj_of_cons, dom_insert_L, elem_of_union, elem_of_singleton.
  setoid_rewrite elem_of_cons. intros [->|H]; [eauto|]. apply IH in H as (e' & ? & ?). eauto.
Qed.

Lemma smrel_filter m (ns : sset) k x : smrel (filter (fun kX : string * sset => kX.1 ∈ ns) m) k x <-> k ∈ ns /\ smrel m k x.
Proof.
  unfold smrel. split.
  - intros (X & HX & Hx). apply map_filter_lookup_Some in HX as [HX Hk]. eauto.
  - intros (Hk & X & HX & Hx). exists X. rewrite map_filter_lookup_Some. done.
Qed.
Lemma smrel_cut m (Y : sset) k x : smrel ((fun X : sset => X ∩ Y) <$> m) k x <-> smrel m k x /\ x ∈ Y.
Proof.
  unfold smrel. split.
  - intros (X & HX & Hx). rewrite lookup_fmap in HX. destruct (m !! k) as [X0|]; [|done]. injection HX as <-.
    apply elem_of_intersection in Hx as [? ?]. eauto.
  - intros ((X & HX & Hx) & Hy). rewrite lookup_fmap, HX. eexists. split; [done|]. by apply elem_of_intersection.
Qed.
Lemma dom_filter_key {A} (m : gmap string A) (ns : sset) : dom (filter (fun kX : string * A => kX.1 ∈ ns) m) = dom m ∩ ns.
Proof.
  apply set_eq. intros k. rewrite elem_of_intersection, !elem_of_dom. split.
  - intros [X HX]. apply map_filter_lookup_Some in HX as [HX Hk]. eauto.
  - intros [[X HX] Hk]. exists X. by apply map_filter_lookup_Some.
Qed.

(** the part of a frame on some nodes *)
Record selected (ns : sset) (F R : frame) : Prop := Selected {
  sl_v : vnames R = vnames F ∩ ns;
  sl_f : fnames R = fnames F ∩ ns;
  sl_var : forall v h, in_var R v h <-> v ∈ ns /\ in_var F v h;
  sl_func : forall f c, in_func R f c <-> f ∈ ns /\ in_func F f c;
  sl_edge : forall s d l, has_edge R s d l <-> has_edge F s d l /\ s ∈ ns /\ d ∈ ns;
  sl_refs : f_refs R ⊆ f_refs F;
  sl_calls : f_calls R ⊆ f_calls F;
}.

Section sel.
  Context (ord : sset -> list string) (eord : gset edge3 -> list edge3) (Hords : orders ord eord).
  Context (U : gmap string call).

  Lemma select_nodes_ok ns F R : consistent U F -> select_nodes eord ns F = Ok R -> selected ns F R /\ consistent U R.
  Proof.
    intros HF. unfold select_nodes. case_decide as Hns; [|done]. intros [= <-]. set (R := Frame _ _ _ _ _ _ _ _ _ _).
    set (es := eord _) in R.
    assert (Hes : forall s d l, (s, d, l) ∈ es <-> has_edge F s d l /\ s ∈ ns /\ d ∈ ns).
    { intros. unfold es. rewrite (eord_elem _ _ Hords), elem_of_filter, elem_of_edges. cbn. tauto. }
    assert (Hed : forall s d l, has_edge R s d l <-> has_edge F s d l /\ s ∈ ns /\ d ∈ ns).
    { intros. rewrite has_edge_arel. cbn. rewrite arel_pad, arel_adj_of, <-Hes. split.
      - intros ([[s' d'] l'] & He & <- & <- & <-). done.
      - intros He. by exists (s, d, l). }
    assert (Hied : forall s d l, has_in_edge R s d l <-> has_edge F s d l /\ s ∈ ns /\ d ∈ ns).
    { intros. rewrite has_in_edge_arel. cbn. rewrite arel_pad, arel_adj_of, <-Hes. split.
      - intros ([[s' d'] l'] & He & <- & <- & <-). done.
      - intros He. by exists (s, d, l). }
    assert (Hv : forall v h, in_var R v h <-> v ∈ ns /\ in_var F v h) by (intros; apply smrel_filter).
    assert (Hf : forall f c, in_func R f c <-> f ∈ ns /\ in_func F f c) by (intros; apply smrel_filter).
    assert (Hvn : vnames R = vnames F ∩ ns) by (apply dom_filter_key).
    assert (Hfn : fnames R = fnames F ∩ ns) by (apply dom_filter_key).
    assert (Hnd : f_nodes R = ns). { unfold f_nodes in *. rewrite Hvn, Hfn. clear -Hns. set_solver. }
    set (rh := union_values (filter _ (f_vs F))) in R. set (ch := union_values (filter _ (f_fs F))) in R.
    assert (Hrh : forall h, h ∈ rh <-> exists v, in_var R v h) by (intros; apply elem_of_union_values).
    assert (Hch : forall c, c ∈ ch <-> exists f, in_func R f c) by (intros; apply elem_of_union_values).
    assert (Hrr : forall h, h ∈ rh -> h ∈ dom (f_refs F)).
    { intros h (v & Hh)%Hrh. apply Hv in Hh as [_ Hh]. apply (k_refs _ _ HF). eauto. }
    assert (Hcc : forall h, h ∈ ch -> h ∈ dom (f_calls F)).
    { intros h (v & Hh)%Hch. apply Hf in Hh as [_ Hh]. apply (k_calls _ _ HF). eauto. }
    assert (Hcl : forall c cl, f_calls R !! c = Some cl <-> f_calls F !! c = Some cl /\ c ∈ ch) by (intros; apply map_filter_lookup_Some).
    split.
    { split; try done.
      - apply map_filter_subseteq.
      - apply map_filter_subseteq. }
    split.
    - rewrite Hnd. cbn. apply dom_pad. intros n ([[s d] l] & He & <-)%dom_adj_of. apply Hes in He. cbn. tauto.
    - rewrite Hnd. cbn. apply dom_pad. intros n ([[s d] l] & He & <-)%dom_adj_of. apply Hes in He. cbn. tauto.
    - rewrite Hvn, Hfn. pose proof (k_disj _ _ HF) as Hd. clear -Hd. set_solver.
    - intros. by rewrite Hed, Hied.
    - intros s d l (He & Hs & Hd)%Hed. rewrite Hvn, Hfn, !elem_of_intersection. apply (k_edge _ _ HF) in He. tauto.
    - intros h. cbn. rewrite dom_filter_key, elem_of_intersection, <-Hrh. split; [tauto|]. intros Hh. split; [auto|done].
    - intros h. cbn. rewrite dom_filter_key, elem_of_intersection, <-Hch. split; [tauto|]. intros Hh. split; [auto|done].
    - intros h r Hr. apply map_filter_lookup_Some in Hr as [Hr _]. by eapply (k_refkey _ _ HF).
    - transitivity (f_calls F); [apply map_filter_subseteq|apply HF].
    - cbn. rewrite dom_fmap_L, !dom_filter_key. by rewrite (k_refinv_dom _ _ HF).
    - intros h v. change (smrel (f_refinv R) h v <-> in_var R v h). cbn. rewrite smrel_cut, smrel_filter, Hv.
      pose proof (k_refinv _ _ HF h v) as Hi. fold (smrel (f_refinv F) h v) in Hi. rewrite Hi, Hrh.
      split; [tauto|]. intros [Hn Hh]. split; [|done]. split; [|done]. exists v. by apply Hv.
    - cbn. rewrite dom_fmap_L, !dom_filter_key. by rewrite (k_callinv_dom _ _ HF).
    - intros c f. change (smrel (f_callinv R) c f <-> in_func R f c). cbn. rewrite smrel_cut, smrel_filter, Hf.
      pose proof (k_callinv _ _ HF c f) as Hi. fold (smrel (f_callinv F) c f) in Hi. rewrite Hi, Hch.
      split; [tauto|]. intros [Hn Hh]. split; [|done]. split; [|done]. exists f. by apply Hf.
    - intros f c cl l h v [Hn Hc]%Hf [Hcl' _]%Hcl Hi (He & Hvn' & _)%Hed. apply Hv. split; [done|]. by eapply (k_ins _ _ HF).
    - intros f c cl l h v [Hn Hc]%Hf [Hcl' _]%Hcl Hi (He & _ & Hvn')%Hed. apply Hv. split; [done|]. by eapply (k_outs _ _ HF).
    - intros h c Hc. apply map_filter_lookup_Some in Hc as [Hc [Hh Hcch]]. cbn in Hh, Hcch. split.
      + cbn. rewrite dom_filter_key, elem_of_intersection. auto.
      + apply (k_creator _ _ HF) in Hc as (_ & cl & l & Hcl' & Ho). exists cl, l. rewrite Hcl. done.
    - intros h X HX. cbn in HX. rewrite lookup_fmap in HX. destruct (filter _ (f_consumers F) !! h) as [X0|] eqn:E; [|done].
      injection HX as <-. apply map_filter_lookup_Some in E as [HX0 Hh]. cbn in Hh. split.
      + cbn. rewrite dom_filter_key, elem_of_intersection. auto.
      + intros c [Hc Hcch]%elem_of_intersection. apply (k_consumers _ _ HF) in HX0 as [_ HX0].
        apply HX0 in Hc as (cl & l & Hcl' & Hi). exists cl, l. rewrite Hcl. done.
    - intros f c cl l h v Hcf [Hcl' Hcch]%Hcl Ho (He & Hfn' & Hvn')%Hed. pose proof Hcf as [_ Hcf']%Hf.
      apply map_filter_lookup_Some. split; [by eapply (k_creator' _ _ HF)|]. cbn. split; [|done].
      apply Hrh. exists v. apply Hv. split; [done|]. by eapply (k_outs _ _ HF).
    - intros f c cl l h v Hcf [Hcl' Hcch]%Hcl Ho (He & Hfn' & Hvn')%Hed. pose proof Hcf as [_ Hcf']%Hf.
      change (smrel (f_consumers R) h c). cbn. rewrite smrel_cut, smrel_filter. split; [|done]. split.
      + apply Hrh. exists v. apply Hv. split; [done|]. by eapply (k_ins _ _ HF).
      + by eapply (k_consumers' _ _ HF).
  Qed.
  Lemma select_nodes_total ns F : ns ⊆ f_nodes F -> exists R, select_nodes eord ns F = Ok R.
  Proof. intros H. unfold select_nodes. rewrite decide_True by done. eauto. Qed.
End sel.

(** * Union and intersection *)
Lemma smrel_union a b k x : smrel (setmap_union a b) k x <-> smrel a k x \/ smrel b k x.
Proof.
  rewrite !smrel_default. unfold setmap_union. rewrite lookup_union_with.
  destruct (a !! k), (b !! k); cbn; set_solver.
Qed.
Lemma dom_setmap_union a b : dom (setmap_union a b) = dom a ∪ dom b.
Proof.
  apply set_eq. intros k. rewrite elem_of_union, !elem_of_dom. unfold setmap_union. rewrite lookup_union_with.
  destruct (a !! k), (b !! k); cbn; unfold is_Some; naive_solver.
Qed.
Lemma arel_union a b n l x : arel (adj_union a b) n l x <-> arel a n l x \/ arel b n l x.
Proof.
  unfold arel, adj_union. rewrite lookup_union_with.
  destruct (a !! n) as [m1|], (b !! n) as [m2|]; cbn; try naive_solver.
  split.
  - intros (m & [= <-] & Hm). apply smrel_union in Hm as [Hm|Hm]; eauto.
  - intros [(m & [= <-] & Hm)|(m & [= <-] & Hm)]; eexists; (split; [done|]); apply smrel_union; auto.
Qed.
Lemma dom_adj_union a b : dom (adj_union a b) = dom a ∪ dom b.
Proof.
  apply set_eq. intros k. rewrite elem_of_union, !elem_of_dom. unfold adj_union. rewrite lookup_union_with.
  destruct (a !! k), (b !! k); cbn; unfold is_Some; naive_solver.
Qed.
Lemma smrel_inter a b k x : smrel (setmap_inter a b) k x <-> smrel a k x /\ smrel b k x.
Proof.
  rewrite !smrel_default. unfold setmap_inter. rewrite lookup_intersection_with.
  destruct (a !! k), (b !! k); cbn; set_solver.
Qed.
Lemma arel_inter a b n l x : arel (adj_inter a b) n l x <-> arel a n l x /\ arel b n l x.
Proof.
  unfold arel, adj_inter. rewrite lookup_intersection_with.
  destruct (a !! n) as [m1|], (b !! n) as [m2|]; cbn; try naive_solver.
  split.
  - intros (m & [= <-] & Hm). apply smrel_inter in Hm as [Hm1 Hm2]. split; eauto.
  - intros [(m & [= <-] & Hm1) (m' & [= <-] & Hm2)]; eexists; (split; [done|]); apply smrel_inter; auto.
Qed.

Section alg.
  (** algebra of [union_with] on finite maps *)
  Context {A : Type} (f : A -> A -> A).
  Let uw (a b : gmap string A) := union_with (fun x y => Some (f x y)) a b.
  Let iw (a b : gmap string A) := intersection_with (fun x y => Some (f x y)) a b.
  Lemma uw_comm a b : (forall x y, f x y = f y x) -> uw a b = uw b a.
  Proof. intros H. apply map_eq. intros k. unfold uw. rewrite !lookup_union_with. destruct (a !! k), (b !! k); cbn; try done. by rewrite H. Qed.
  Lemma uw_assoc a b c : (forall x y z, f x (f y z) = f (f x y) z) -> uw a (uw b c) = uw (uw a b) c.
  Proof.
    intros H. apply map_eq. intros k. unfold uw. rewrite !lookup_union_with.
    destruct (a !! k), (b !! k), (c !! k); cbn; try done. by rewrite H.
  Qed.
  Lemma uw_idem a : (forall x, f x x = x) -> uw a a = a.
  Proof. intros H. apply map_eq. intros k. unfold uw. rewrite !lookup_union_with. destruct (a !! k); cbn; try done. by rewrite H. Qed.
  Lemma iw_comm a b : (forall x y, f x y = f y x) -> iw a b = iw b a.
  Proof. intros H. apply map_eq. intros k. unfold iw. rewrite !lookup_intersection_with. destruct (a !! k), (b !! k); cbn; try done. by rewrite H. Qed.
  Lemma iw_assoc a b c : (forall x y z, f x (f y z) = f (f x y) z) -> iw a (iw b c) = iw (iw a b) c.
  Proof.
    intros H. apply map_eq. intros k. unfold iw. rewrite !lookup_intersection_with.
    destruct (a !! k), (b !! k), (c !! k); cbn; try done. by rewrite H.
  Qed.
  Lemma iw_idem a : (forall x, f x x = x) -> iw a a = a.
  Proof. intros H. apply map_eq. intros k. unfold iw. rewrite !lookup_intersection_with. destruct (a !! k); cbn; try done. by rewrite H. Qed.
End alg.
Lemma smu_comm a b : setmap_union a b = setmap_union b a.
Proof. apply uw_comm. intros. set_solver. Qed.
Lemma smu_assoc a b c : setmap_union a (setmap_union b c) = setmap_union (setmap_union a b) c.
Proof. apply uw_assoc. intros. set_solver. Qed.
Lemma smu_idem a : setmap_union a a = a.
Proof. apply uw_idem. intros. set_solver. Qed.
Lemma smi_comm a b : setmap_inter a b = setmap_inter b a.
Proof. apply iw_comm. intros. set_solver. Qed.
Lemma smi_assoc a b c : setmap_inter a (setmap_inter b c) = setmap_inter (setmap_inter a b) c.
Proof. apply iw_assoc. intros. set_solver. Qed.
Lemma smi_idem a : setmap_inter a a = a.
Proof. apply iw_idem. intros. set_solver. Qed.
Lemma adu_comm a b : adj_union a b = adj_union b a.
Proof. apply uw_comm, smu_comm. Qed.
Lemma adu_assoc a b c : adj_union a (adj_union b c) = adj_union (adj_union a b) c.
Proof. apply uw_assoc, smu_assoc. Qed.
Lemma adu_idem a : adj_union a a = a.
Proof. apply uw_idem, smu_idem. Qed.
Lemma adi_comm a b : adj_inter a b = adj_inter b a.
Proof. apply iw_comm, smi_comm. Qed.
Lemma adi_assoc a b c : adj_inter a (adj_inter b c) = adj_inter (adj_inter a b) c.
Proof. apply iw_assoc, smi_assoc. Qed.
Lemma adi_idem a : adj_inter a a = a.
Proof. apply iw_idem, smi_idem. Qed.

Lemma agree_union_comm {A} (a b : gmap string A) : agree a b -> a ∪ b = b ∪ a.
Proof.
  intros H. apply map_eq. intros k. rewrite !lookup_union. destruct (a !! k) eqn:Ha, (b !! k) eqn:Hb; cbn; try done.
  f_equal. by eapply H.
Qed.
Lemma lookup_inter {A} (a b : gmap string A) k : (a ∩ b) !! k = match a !! k, b !! k with Some x, Some _ => Some x | _, _ => None end.
Proof. unfold intersection, map_intersection. rewrite lookup_intersection_with. by destruct (a !! k), (b !! k). Qed.
Lemma agree_inter_comm {A} (a b : gmap string A) : agree a b -> a ∩ b = b ∩ a.
Proof.
  intros H. apply map_eq. intros k. rewrite !lookup_inter. destruct (a !! k) eqn:Ha, (b !! k) eqn:Hb; cbn; try done.
  f_equal. by eapply H.
Qed.
Lemma inter_assoc {A} (a b c : gmap string A) : a ∩ (b ∩ c) = (a ∩ b) ∩ c.
Proof.
  apply map_eq. intros k. rewrite !lookup_inter. destruct (a !! k), (b !! k), (c !! k); done.
Qed.
Lemma inter_idem {A} (a : gmap string A) : a ∩ a = a.
Proof. apply map_eq. intros k. rewrite !lookup_inter. by destruct (a !! k). Qed.

Lemma frame_eq F G : f_inp F = f_inp G -> f_out F = f_out G -> f_vs F = f_vs G -> f_fs F = f_fs G ->
  f_refinv F = f_refinv G -> f_callinv F = f_callinv G -> f_creator F = f_creator G -> f_consumers F = f_consumers G ->
  f_refs F = f_refs G -> f_calls F = f_calls G -> F = G.
Proof. destruct F, G. cbn. intros. subst. done. Qed.

Lemma union_data_idem F : union_data F F = F.
Proof. apply frame_eq; cbn; try apply smu_idem; try apply adu_idem; apply (idemp_L (∪)) || apply map_union_idemp. Qed.
Lemma union_data_assoc F G K : union_data F (union_data G K) = union_data (union_data F G) K.
Proof. apply frame_eq; cbn; try apply smu_assoc; try apply adu_assoc; apply (assoc_L (∪)) || apply map_union_assoc. Qed.
Lemma union_data_comm F G : agree (f_creator F) (f_creator G) -> agree (f_refs F) (f_refs G) -> agree (f_calls F) (f_calls G) ->
  union_data F G = union_data G F.
Proof. intros. apply frame_eq; cbn; try apply smu_comm; try apply adu_comm; by apply agree_union_comm. Qed.
Lemma frame_inter_idem F : frame_inter F F = F.
Proof. apply frame_eq; cbn; try apply smi_idem; try apply adi_idem; apply inter_idem. Qed.
Lemma frame_inter_assoc F G K : frame_inter F (frame_inter G K) = frame_inter (frame_inter F G) K.
Proof. apply frame_eq; cbn; try apply smi_assoc; try apply adi_assoc; apply inter_assoc. Qed.
Lemma frame_inter_comm F G : agree (f_creator F) (f_creator G) -> agree (f_refs F) (f_refs G) -> agree (f_calls F) (f_calls G) ->
  frame_inter F G = frame_inter G F.
Proof. intros. apply frame_eq; cbn; try apply smi_comm; try apply adi_comm; by apply agree_inter_comm. Qed.

Lemma consistent_agree U F G : world U -> consistent U F -> consistent U G ->
  agree (f_creator F) (f_creator G) /\ agree (f_calls F) (f_calls G).
Proof.
  intros HU HF HG. split.
  - intros h c1 c2 H1 H2. apply (k_creator _ _ HF) in H1 as (_ & cl1 & l1 & Hc1 & Ho1).
    apply (k_creator _ _ HG) in H2 as (_ & cl2 & l2 & Hc2 & Ho2).
    eapply (w_creator _ HU); [| |exact Ho1|exact Ho2]; by eapply lookup_weaken; [done|]; first [apply HF|apply HG].
  - intros h c1 c2 H1 H2. eapply (lookup_weaken _ U) in H1; [|apply HF]. eapply (lookup_weaken _ U) in H2; [|apply HG]. congruence.
Qed.

Lemma union_data_edge F G s d l : has_edge (union_data F G) s d l <-> has_edge F s d l \/ has_edge G s d l.
Proof. rewrite !has_edge_arel. apply arel_union. Qed.
Lemma union_data_in_edge F G s d l : has_in_edge (union_data F G) s d l <-> has_in_edge F s d l \/ has_in_edge G s d l.
Proof. rewrite !has_in_edge_arel. apply arel_union. Qed.
Lemma union_data_var F G v h : in_var (union_data F G) v h <-> in_var F v h \/ in_var G v h.
Proof. apply smrel_union. Qed.
Lemma union_data_func F G v h : in_func (union_data F G) v h <-> in_func F v h \/ in_func G v h.
Proof. apply smrel_union. Qed.
Lemma union_data_vnames F G : vnames (union_data F G) = vnames F ∪ vnames G.
Proof. apply dom_setmap_union. Qed.
Lemma union_data_fnames F G : fnames (union_data F G) = fnames F ∪ fnames G.
Proof. apply dom_setmap_union. Qed.

Lemma union_data_consistent U F G : world U -> consistent U F -> consistent U G -> compatible F G -> consistent U (union_data F G).
Proof.
  intros HU HF HG [C1 C2 C3]. set (R := union_data F G).
  destruct (consistent_agree U F G) as [Hac Hak]; [done..|].
  assert (Hcl : forall c cl, f_calls R !! c = Some cl <-> f_calls F !! c = Some cl \/ f_calls G !! c = Some cl).
  { intros c cl. cbn. rewrite lookup_union_Some_raw. split; [tauto|]. intros [?|Hg]; [auto|].
    destruct (f_calls F !! c) eqn:E; [|auto]. left. f_equal. by eapply Hak. }
  assert (Hcr : forall h c, f_creator R !! h = Some c <-> f_creator F !! h = Some c \/ f_creator G !! h = Some c).
  { intros h c. cbn. rewrite lookup_union_Some_raw. split; [tauto|]. intros [?|Hg]; [auto|].
    destruct (f_creator F !! h) eqn:E; [|auto]. left. f_equal. by eapply Hac. }
  assert (Hcf : forall f c cl, in_func F f c -> f_calls R !! c = Some cl -> f_calls F !! c = Some cl).
  { intros f c cl Hc [?|Hg]%Hcl; [done|]. assert (c ∈ dom (f_calls F)) as [x Hx]%elem_of_dom by (apply (k_calls _ _ HF); eauto).
    rewrite Hx. f_equal. by eapply Hak. }
  assert (Hcg : forall f c cl, in_func G f c -> f_calls R !! c = Some cl -> f_calls G !! c = Some cl).
  { intros f c cl Hc [Hg|?]%Hcl; [|done]. assert (c ∈ dom (f_calls G)) as [x Hx]%elem_of_dom by (apply (k_calls _ _ HG); eauto).
    rewrite Hx. f_equal. symmetry. by eapply Hak. }
  assert (Hfn : forall (K : frame) f c, in_func K f c -> f ∈ fnames K) by (intros K f c Hc; by eapply smrel_dom).
  (* an edge of a function of F in the union is one of F *)
  assert (HeF : forall f c, in_func F f c -> forall v l, (has_edge R v f l -> has_edge F v f l) /\ (has_edge R f v l -> has_edge F f v l)).
  { intros f c Hc v l. pose proof (Hfn _ _ _ Hc) as Hff. unfold R. rewrite !union_data_edge. split; (intros [?|He]; [done|]).
    - pose proof He as [[? Hfg]|[? Hfg]]%(k_edge _ _ HG); [|by apply (C2 f) in Hfg]. by apply (C3 f Hff Hfg).
    - pose proof He as [[Hfg ?]|[Hfg ?]]%(k_edge _ _ HG); [by apply (C2 f) in Hfg|]. by apply (C3 f Hff Hfg). }
  assert (HeG : forall f c, in_func G f c -> forall v l, (has_edge R v f l -> has_edge G v f l) /\ (has_edge R f v l -> has_edge G f v l)).
  { intros f c Hc v l. pose proof (Hfn _ _ _ Hc) as Hff. unfold R. rewrite !union_data_edge. split; (intros [He|?]; [|done]).
    - pose proof He as [[? Hfg]|[? Hfg]]%(k_edge _ _ HF); [|by apply (C1 f) in Hfg]. by apply (C3 f Hfg Hff).
    - pose proof He as [[Hfg ?]|[Hfg ?]]%(k_edge _ _ HF); [by apply (C1 f) in Hfg|]. by apply (C3 f Hfg Hff). }
  split.
  - unfold f_nodes, R. rewrite union_data_vnames, union_data_fnames. cbn. rewrite dom_adj_union, (k_inp _ _ HF), (k_inp _ _ HG). unfold f_nodes. clear. set_solver.
  - unfold f_nodes, R. rewrite union_data_vnames, union_data_fnames. cbn. rewrite dom_adj_union, (k_out _ _ HF), (k_out _ _ HG). unfold f_nodes. clear. set_solver.
  - unfold R. rewrite union_data_vnames, union_data_fnames. pose proof (k_disj _ _ HF) as D1. pose proof (k_disj _ _ HG) as D2.
    clear -D1 D2 C1 C2. set_solver.
  - intros. unfold R. rewrite union_data_edge, union_data_in_edge. rewrite (k_mirror _ _ HF), (k_mirror _ _ HG). done.
  - intros s d l He. unfold R in *. rewrite union_data_vnames, union_data_fnames, !elem_of_union.
    apply union_data_edge in He as [He|He]; [apply (k_edge _ _ HF) in He|apply (k_edge _ _ HG) in He]; tauto.
  - intros h. cbn. rewrite dom_union_L, elem_of_union, (k_refs _ _ HF h), (k_refs _ _ HG h). unfold R.
    setoid_rewrite union_data_var. clear. naive_solver.
  - intros h. cbn. rewrite dom_union_L, elem_of_union, (k_calls _ _ HF h), (k_calls _ _ HG h). unfold R.
    setoid_rewrite union_data_func. clear. naive_solver.
  - intros h r Hr. cbn in Hr. apply lookup_union_Some_raw in Hr as [Hr|[_ Hr]]; [by eapply (k_refkey _ _ HF)|by eapply (k_refkey _ _ HG)].
  - apply map_subseteq_spec. intros c cl [Hc|Hc]%Hcl; (eapply lookup_weaken; [done|]); first [apply HF|apply HG].
  - cbn. rewrite dom_setmap_union, dom_union_L. by rewrite (k_refinv_dom _ _ HF), (k_refinv_dom _ _ HG).
  - intros h v. change (smrel (f_refinv R) h v <-> in_var R v h). cbn. rewrite smrel_union. unfold R. rewrite union_data_var.
    rewrite <-(k_refinv _ _ HF), <-(k_refinv _ _ HG). done.
  - cbn. rewrite dom_setmap_union, dom_union_L. by rewrite (k_callinv_dom _ _ HF), (k_callinv_dom _ _ HG).
  - intros h v. change (smrel (f_callinv R) h v <-> in_func R v h). cbn. rewrite smrel_union. unfold R. rewrite union_data_func.
    rewrite <-(k_callinv _ _ HF), <-(k_callinv _ _ HG). done.
  - intros f c cl l h v Hc Hcl' Hi He. apply union_data_var. apply union_data_func in Hc as [Hc|Hc].
    + left. eapply (k_ins _ _ HF); [exact Hc| |exact Hi|]; [by eapply Hcf|by apply (HeF f c Hc v l)].
    + right. eapply (k_ins _ _ HG); [exact Hc| |exact Hi|]; [by eapply Hcg|by apply (HeG f c Hc v l)].
  - intros f c cl l h v Hc Hcl' Hi He. apply union_data_var. apply union_data_func in Hc as [Hc|Hc].
    + left. eapply (k_outs _ _ HF); [exact Hc| |exact Hi|]; [by eapply Hcf|by apply (HeF f c Hc v l)].
    + right. eapply (k_outs _ _ HG); [exact Hc| |exact Hi|]; [by eapply Hcg|by apply (HeG f c Hc v l)].
  - intros h c [Hc|Hc]%Hcr; [apply (k_creator _ _ HF) in Hc as (Hh & cl & l & Hcl' & Ho)|apply (k_creator _ _ HG) in Hc as (Hh & cl & l & Hcl' & Ho)].
    + split; [cbn; rewrite dom_union_L, elem_of_union; auto|]. exists cl, l. rewrite Hcl. auto.
    + split; [cbn; rewrite dom_union_L, elem_of_union; auto|]. exists cl, l. rewrite Hcl. auto.
  - intros h X HX.
    assert (Hdom : h ∈ dom (f_consumers F) \/ h ∈ dom (f_consumers G)).
    { apply elem_of_union. rewrite <-dom_setmap_union. apply elem_of_dom. eauto. }
    split.
    + cbn. rewrite dom_union_L, elem_of_union. destruct Hdom as [[Y HY]%elem_of_dom|[Y HY]%elem_of_dom]; [left|right].
      * by apply (k_consumers _ _ HF) in HY as [? _].
      * by apply (k_consumers _ _ HG) in HY as [? _].
    + intros c Hc. assert (smrel (f_consumers R) h c) as Hs by (exists X; done). cbn in Hs.
      apply smrel_union in Hs as [(Y & HY & Hs)|(Y & HY & Hs)].
      * apply (k_consumers _ _ HF) in HY as [_ HY]. apply HY in Hs as (cl & l & Hcl' & Hi). exists cl, l. rewrite Hcl. auto.
      * apply (k_consumers _ _ HG) in HY as [_ HY]. apply HY in Hs as (cl & l & Hcl' & Hi). exists cl, l. rewrite Hcl. auto.
  - intros f c cl l h v Hc Hcl' Hi He. apply Hcr. apply union_data_func in Hc as [Hc|Hc].
    + left. eapply (k_creator' _ _ HF); [exact Hc| |exact Hi|]; [by eapply Hcf|by apply (HeF f c Hc v l)].
    + right. eapply (k_creator' _ _ HG); [exact Hc| |exact Hi|]; [by eapply Hcg|by apply (HeG f c Hc v l)].
  - intros f c cl l h v Hc Hcl' Hi He. change (smrel (f_consumers R) h c). apply smrel_union. apply union_data_func in Hc as [Hc|Hc].
    + left. eapply (k_consumers' _ _ HF); [exact Hc| |exact Hi|]; [by eapply Hcf|by apply (HeF f c Hc v l)].
    + right. eapply (k_consumers' _ _ HG); [exact Hc| |exact Hi|]; [by eapply Hcg|by apply (HeG f c Hc v l)].
Qed.

(** * Intersection *)
Lemma inter_edge F G s d l : has_edge (frame_inter F G) s d l <-> has_edge F s d l /\ has_edge G s d l.
Proof. rewrite !has_edge_arel. apply arel_inter. Qed.
Lemma inter_in_edge F G s d l : has_in_edge (frame_inter F G) s d l <-> has_in_edge F s d l /\ has_in_edge G s d l.
Proof. rewrite !has_in_edge_arel. apply arel_inter. Qed.
Lemma inter_var F G v h : in_var (frame_inter F G) v h <-> in_var F v h /\ in_var G v h.
Proof. apply smrel_inter. Qed.
Lemma inter_func F G v h : in_func (frame_inter F G) v h <-> in_func F v h /\ in_func G v h.
Proof. apply smrel_inter. Qed.
Lemma dom_inter {A} (a b : gmap string A) : dom (a ∩ b) = dom a ∩ dom b.
Proof.
  apply set_eq. intros k. rewrite elem_of_intersection, !elem_of_dom, lookup_inter.
  destruct (a !! k), (b !! k); unfold is_Some; naive_solver.
Qed.
Lemma dom_setmap_inter a b : dom (setmap_inter a b) = dom a ∩ dom b.
Proof.
  apply set_eq. intros k. rewrite elem_of_intersection, !elem_of_dom. unfold setmap_inter. rewrite lookup_intersection_with.
  destruct (a !! k), (b !! k); cbn; unfold is_Some; naive_solver.
Qed.
Lemma dom_adj_inter a b : dom (adj_inter a b) = dom a ∩ dom b.
Proof.
  apply set_eq. intros k. rewrite elem_of_intersection, !elem_of_dom. unfold adj_inter. rewrite lookup_intersection_with.
  destruct (a !! k), (b !! k); cbn; unfold is_Some; naive_solver.
Qed.

Lemma inter_consistent U F G : world U -> consistent U F -> consistent U G -> vnames F ## fnames G -> fnames F ## vnames G ->
  aligned F G -> consistent U (frame_inter F G).
Proof.
  intros HU HF HG C1 C2 [A1 A2]. set (R := frame_inter F G).
  destruct (consistent_agree U F G) as [Hac Hak]; [done..|].
  assert (Hcl : forall c cl, f_calls R !! c = Some cl <-> f_calls F !! c = Some cl /\ f_calls G !! c = Some cl).
  { intros c cl. cbn. rewrite lookup_inter. destruct (f_calls F !! c) as [x|] eqn:E1, (f_calls G !! c) as [y|] eqn:E2; [|naive_solver..].
    assert (x = y) as -> by (by eapply Hak). tauto. }
  assert (Hcr : forall h c, f_creator R !! h = Some c <-> f_creator F !! h = Some c /\ f_creator G !! h = Some c).
  { intros c cl. cbn. rewrite lookup_inter. destruct (f_creator F !! c) as [x|] eqn:E1, (f_creator G !! c) as [y|] eqn:E2; [|naive_solver..].
    assert (x = y) as -> by (by eapply Hac). tauto. }
  assert (Hrf : forall h, h ∈ dom (f_refs R) <-> h ∈ dom (f_refs F) /\ h ∈ dom (f_refs G)).
  { intros h. cbn. by rewrite dom_inter, elem_of_intersection. }
  assert (Hvn : vnames R = vnames F ∩ vnames G) by (apply dom_setmap_inter).
  assert (Hfn : fnames R = fnames F ∩ fnames G) by (apply dom_setmap_inter).
  split.
  - unfold f_nodes. rewrite Hvn, Hfn. cbn. rewrite dom_adj_inter, (k_inp _ _ HF), (k_inp _ _ HG). unfold f_nodes. clear -C1 C2. set_solver.
  - unfold f_nodes. rewrite Hvn, Hfn. cbn. rewrite dom_adj_inter, (k_out _ _ HF), (k_out _ _ HG). unfold f_nodes. clear -C1 C2. set_solver.
  - rewrite Hvn, Hfn. pose proof (k_disj _ _ HF) as D. clear -D. set_solver.
  - intros. unfold R. rewrite inter_edge, inter_in_edge. by rewrite (k_mirror _ _ HF), (k_mirror _ _ HG).
  - intros s d l He. rewrite Hvn, Hfn, !elem_of_intersection. apply inter_edge in He as [H1 H2].
    apply (k_edge _ _ HF) in H1. apply (k_edge _ _ HG) in H2. destruct H1 as [[H1 H1']|[H1 H1']], H2 as [[H2 H2']|[H2 H2']]; auto.
    + by destruct (C1 s).
    + by destruct (C2 s).
  - intros h. rewrite Hrf, (k_refs _ _ HF h), (k_refs _ _ HG h). unfold R. setoid_rewrite inter_var. clear -A1. naive_solver.
  - intros h. cbn. rewrite dom_inter, elem_of_intersection, (k_calls _ _ HF h), (k_calls _ _ HG h). unfold R. setoid_rewrite inter_func. clear -A2. naive_solver.
  - intros h r Hr. cbn in Hr. rewrite lookup_inter in Hr. destruct (f_refs F !! h) eqn:E, (f_refs G !! h); try done. injection Hr as <-. by eapply (k_refkey _ _ HF).
  - apply map_subseteq_spec. intros c cl [Hc _]%Hcl. eapply lookup_weaken; [done|apply HF].
  - cbn. rewrite dom_setmap_inter, dom_inter. by rewrite (k_refinv_dom _ _ HF), (k_refinv_dom _ _ HG).
  - intros h v. change (smrel (f_refinv R) h v <-> in_var R v h). cbn. rewrite smrel_inter. unfold R. rewrite inter_var.
    rewrite <-(k_refinv _ _ HF), <-(k_refinv _ _ HG). done.
  - cbn. rewrite dom_setmap_inter, dom_inter. by rewrite (k_callinv_dom _ _ HF), (k_callinv_dom _ _ HG).
  - intros h v. change (smrel (f_callinv R) h v <-> in_func R v h). cbn. rewrite smrel_inter. unfold R. rewrite inter_func.
    rewrite <-(k_callinv _ _ HF), <-(k_callinv _ _ HG). done.
  - intros f c cl l h v [Hc1 Hc2]%inter_func [Hl1 Hl2]%Hcl Hi [He1 He2]%inter_edge. apply inter_var.
    split; [by eapply (k_ins _ _ HF f c)|by eapply (k_ins _ _ HG f c)].
  - intros f c cl l h v [Hc1 Hc2]%inter_func [Hl1 Hl2]%Hcl Hi [He1 He2]%inter_edge. apply inter_var.
    split; [by eapply (k_outs _ _ HF f c)|by eapply (k_outs _ _ HG f c)].
  - intros h c [Hc1 Hc2]%Hcr. apply (k_creator _ _ HF) in Hc1 as (Hh1 & cl1 & l1 & Hl1 & Ho1).
    apply (k_creator _ _ HG) in Hc2 as (Hh2 & cl2 & l2 & Hl2 & Ho2). assert (cl1 = cl2) as <- by (by eapply Hak).
    split; [by apply Hrf|]. exists cl1, l1. by rewrite Hcl.
  - intros h X HX. cbn in HX. unfold setmap_inter in HX. rewrite lookup_intersection_with in HX.
    destruct (f_consumers F !! h) as [Y|] eqn:EY; [|done]. destruct (f_consumers G !! h) as [Z|] eqn:EZ; [|done]. cbn in HX. injection HX as <-.
    apply (k_consumers _ _ HF) in EY as [HY HY']. apply (k_consumers _ _ HG) in EZ as [HZ HZ']. split; [by apply Hrf|].
    intros c [Hc1 Hc2]%elem_of_intersection. apply HY' in Hc1 as (cl1 & l1 & Hl1 & Ho1). apply HZ' in Hc2 as (cl2 & l2 & Hl2 & Ho2).
    assert (cl1 = cl2) as <- by (by eapply Hak). exists cl1, l1. by rewrite Hcl.
  - intros f c cl l h v [Hc1 Hc2]%inter_func [Hl1 Hl2]%Hcl Hi [He1 He2]%inter_edge. apply Hcr.
    split; [by eapply (k_creator' _ _ HF f c)|by eapply (k_creator' _ _ HG f c)].
  - intros f c cl l h v [Hc1 Hc2]%inter_func [Hl1 Hl2]%Hcl Hi [He1 He2]%inter_edge. apply smrel_inter.
    split; [by eapply (k_consumers' _ _ HF f c)|by eapply (k_consumers' _ _ HG f c)].
Qed.
