(** Reachable elements: the loop computes the least closed set. *)
From stdpp Require Import base strings gmap list relations.
From Verif Require Import Base PyDict PyDict_proofs Refs Storage Frame Spec_Frame Frame_base Frame_ok Frame_ok2 Frame_sel.

(** * The size of a map of sets *)
Definition pairs (m : setmap) : gset (string * string) :=
  list_to_set (kX ← map_to_list m; (fun x => (kX.1, x)) <$> elements kX.2).
Lemma elem_of_pairs m k x : (k, x) ∈ pairs m <-> smrel m k x.
Proof.
  unfold pairs. rewrite elem_of_list_to_set, elem_of_list_bind. split.
  - intros ([k' X] & H & HX). cbn in H. apply elem_of_list_fmap in H as (x' & [= -> ->] & Hx).
    apply elem_of_map_to_list in HX. apply elem_of_elements in Hx. by exists X.
  - intros (X & HX & Hx). exists (k, X). split; [|by apply elem_of_map_to_list]. apply elem_of_list_fmap. exists x.
    split; [done|]. by apply elem_of_elements.
Qed.
Lemma size_tag (k : string) (X : sset) : size (set_map (fun x => (k, x)) X : gset (string * string)) = size X.
Proof.
  induction X as [|x X Hx IH] using set_ind_L.
  - by rewrite set_map_empty, !size_empty.
  - rewrite set_map_union_L, set_map_singleton_L, !size_union, !size_singleton, IH; [done|set_solver|].
    intros [k' x'] H1 H2. apply elem_of_singleton in H1 as [= -> ->]. apply elem_of_map in H2 as (? & [= ->] & ?). done.
Qed.
Lemma total_size_pairs m : total_size m = size (pairs m).
Proof.
  induction m as [|k X m Hk IH] using map_ind.
  - unfold total_size, pairs. rewrite map_to_list_empty. done.
  - assert (pairs (<[k := X]> m) = set_map (fun x => (k, x)) X ∪ pairs m) as ->.
    { apply set_eq. intros [k' x]. rewrite elem_of_union, !elem_of_pairs, elem_of_map. unfold smrel.
      destruct (decide (k' = k)) as [->|Hne].
      - rewrite lookup_insert, Hk. naive_solver.
      - rewrite lookup_insert_ne by done. naive_solver. }
    rewrite size_union.
    + rewrite <-IH. unfold total_size. rewrite (map_to_list_insert m k X Hk). cbn.
      by rewrite size_tag.
    + intros [k' x] H1 H2. apply elem_of_map in H1 as (x' & [= -> ->] & _).
      apply elem_of_pairs in H2 as (Y & HY & _). congruence.
Qed.

Lemma hids_at_elem d ns h : NoDup (map fst d) ->
  h ∈ hids_at d ns <-> exists n r, n ∈ ns /\ (n, r) ∈ d /\ rhid r = h.
Proof.
  intros Hnd. unfold hids_at. rewrite elem_of_list_omap. split.
  - intros (n & Hn & H). destruct (dget n d) as [r|] eqn:E; [|done]. cbn in H. injection H as <-.
    apply dget_Some_elem in E. eauto.
  - intros (n & r & Hn & Hr & <-). exists n. split; [done|]. by rewrite (dget_elem _ _ _ Hnd Hr).
Qed.

Lemma vnames_get F v : v ∈ vnames F -> exists X, f_vs F !! v = Some X.
Proof. unfold vnames. by intros [X HX]%elem_of_dom; exists X. Qed.
Lemma fnames_get F v : v ∈ fnames F -> exists X, f_fs F !! v = Some X.
Proof. unfold fnames. by intros [X HX]%elem_of_dom; exists X. Qed.
Section elts.
  Context (ord : sset -> list string) (eord : gset edge3 -> list edge3) (Hords : orders ord eord).
  Context (U : gmap string call) (HU : world U) (F : frame) (HF : consistent U F) (HT : tidy F).

  Lemma call_world c cl : f_calls F !! c = Some cl -> c_hid cl = c /\ NoDup (map fst (c_ins cl)) /\ NoDup (map fst (c_outs cl)).
  Proof.
    intros H. assert (U !! c = Some cl) as HU' by (eapply lookup_weaken; [done|]; apply HF).
    split; [by eapply w_key|by eapply w_names].
  Qed.
  Lemma func_call f c : in_func F f c -> exists cl, f_calls F !! c = Some cl.
  Proof. intros Hc. apply elem_of_dom, (k_calls _ _ HF). eauto. Qed.

  Lemma hids_ins f c cl v l h : in_func F f c -> f_calls F !! c = Some cl -> has_edge F v f l ->
    h ∈ hids_at (c_ins cl) (reverse_proj cl l) <-> call_input cl l h.
  Proof.
    intros Hc Hcl He. destruct (call_world _ _ Hcl) as (_ & Hnd & _). rewrite hids_at_elem by done.
    unfold call_input, reverse_proj, name_proj. destruct (is_make_list (c_op cl)) eqn:Em; cbn.
    - destruct (HT f c cl Hc Hcl Em) as (T1 & _ & T3). case_bool_decide as Hl; cbn.
      + subst l. split.
        * intros (n & r & _ & Hr & <-). exists n, r. split; [done|]. by rewrite (T1 _ _ Hr).
        * intros (n & r & Hr & _ & <-). exists n, r. split; [|done]. apply elem_of_list_fmap. by exists (n, r).
      + split.
        * intros (n & r & ->%elem_of_list_singleton & Hr & _). apply T1 in Hr. pose proof (T3 v l (or_introl He)). congruence.
        * intros (n & r & Hr & Hn & _). rewrite (T1 _ _ Hr) in Hn. done.
    - split.
      + intros (n & r & ->%elem_of_list_singleton & Hr & <-). eauto.
      + intros (n & r & Hr & <- & <-). exists n, r. rewrite elem_of_list_singleton. done.
  Qed.
  Lemma hids_outs f c cl v l h : in_func F f c -> f_calls F !! c = Some cl -> has_edge F f v l ->
    h ∈ hids_at (c_outs cl) (reverse_proj cl l) <-> call_output cl l h.
  Proof.
    intros Hc Hcl He. destruct (call_world _ _ Hcl) as (_ & _ & Hnd). rewrite hids_at_elem by done.
    unfold call_output, reverse_proj, name_proj. destruct (is_make_list (c_op cl)) eqn:Em; cbn.
    - destruct (HT f c cl Hc Hcl Em) as (T1 & T2 & T3). case_bool_decide as Hl; cbn.
      + subst l. split.
        * intros (n & r & Hn & Hr & <-). apply elem_of_list_fmap in Hn as ([n' r'] & -> & Hn). cbn in Hr.
          apply T1 in Hn. apply T2 in Hr as [Hr _]. congruence.
        * intros (n & r & Hr & Hn & _). apply T2 in Hr as [Hp Hr]. rewrite Hp in Hn. done.
      + split.
        * intros (n & r & ->%elem_of_list_singleton & Hr & <-). exists l, r. split; [done|]. by apply T2 in Hr as [-> _].
        * intros (n & r & Hr & Hn & <-). exists n, r. rewrite elem_of_list_singleton. pose proof Hr as [Hp _]%T2. rewrite Hp in Hn. done.
    - split.
      + intros (n & r & ->%elem_of_list_singleton & Hr & <-). eauto.
      + intros (n & r & Hr & <- & <-). exists n, r. rewrite elem_of_list_singleton. done.
  Qed.

  Lemma get_calls_ok X : X ⊆ dom (f_calls F) ->
    exists cs, get_calls F X = Ok cs /\ forall cl, cl ∈ cs <-> exists c, c ∈ X /\ f_calls F !! c = Some cl.
  Proof.
    intros HX. unfold get_calls.
    assert (exists cs, Forall2 (fun h cl => at_key h (f_calls F) = Ok cl) (elements X) cs) as [cs Hcs].
    { assert (forall h, h ∈ elements X -> h ∈ dom (f_calls F)) as Hl by (intros h; rewrite elem_of_elements; apply HX).
      clear HX. induction (elements X) as [|h l IH]; [exists []; constructor|].
      destruct IH as [cs Hcs]; [intros; apply Hl; by right|].
      assert (h ∈ dom (f_calls F)) as [cl Hcl]%elem_of_dom by (apply Hl; left). exists (cl :: cs).
      constructor; [by apply at_key_ok|done]. }
    exists cs. split; [by apply mapR_Ok|]. intros cl. split.
    - intros Hcl. apply elem_of_list_lookup in Hcl as [i Hi]. destruct (Forall2_lookup_r _ _ _ _ _ Hcs Hi) as (h & Hh & Hat).
      apply at_key_ok in Hat. exists h. split; [|done]. apply elem_of_elements, elem_of_list_lookup. eauto.
    - intros (h & Hh & Hcl). apply elem_of_elements, elem_of_list_lookup in Hh as [i Hi].
      destruct (Forall2_lookup_l _ _ _ _ _ Hcs Hi) as (cl' & Hi' & Hat). apply at_key_ok in Hat.
      apply elem_of_list_lookup. exists i. congruence.
  Qed.

  (** * One edge *)
  Local Notation link := (Spec_Frame.link F).
  Lemma no_both v : v ∈ vnames F -> v ∈ fnames F -> False.
  Proof. intros. by apply (k_disj _ _ HF v). Qed.
  Lemma in_var_vnames v h : in_var F v h -> v ∈ vnames F.
  Proof. intros H. by eapply smrel_dom. Qed.
  Lemma in_func_fnames v h : in_func F v h -> v ∈ fnames F.
  Proof. intros H. by eapply smrel_dom. Qed.

  Lemma adj_elts_edge_ok dr e X : has_edge F e.1.1 e.1.2 e.2 -> (forall x, x ∈ X -> in_node F (other dr e) x) ->
    exists R, adj_elts_edge e X dr F = Ok R /\ forall x, x ∈ R <-> link dr e (fun h => h ∈ X) x.
  Proof.
    destruct e as [[s d] l]. cbn. intros He HX.
    assert (Hvs : forall v Y, f_vs F !! v = Some Y -> forall h, h ∈ Y <-> in_var F v h).
    { intros v Y HY h. unfold in_var. rewrite HY. naive_solver. }
    assert (Hfs : forall v Y, f_fs F !! v = Some Y -> forall h, h ∈ Y <-> in_func F v h).
    { intros v Y HY h. unfold in_func. rewrite HY. naive_solver. }
    pose proof (k_edge _ _ HF _ _ _ He) as Hk. destruct dr; cbn in HX.
    - (* back *)
      destruct (f_vs F !! d) as [Y|] eqn:Ed.
      + assert (Hd : d ∈ vnames F) by (apply elem_of_dom; eauto).
        assert (s ∈ fnames F) as Hs by (destruct Hk as [[_ ?]|[? _]]; [by exfalso; eapply no_both|done]).
        destruct (fnames_get _ _ Hs) as [Z HZ]. rewrite decide_True.
        * rewrite (proj2 (at_key_ok _ _ _) HZ). cbn [mbind result_bind]. eexists. split; [done|]. intros x.
          rewrite elem_of_intersection, elem_of_list_to_set, elem_of_list_omap, (Hfs _ _ HZ). split.
          -- intros [(h & Hh & Hc) Hx]. rewrite elem_of_elements in Hh. left. eauto.
          -- intros [(_ & Hx & h & Hh & Hc)|(Hx & _)].
             ++ split; [|done]. exists h. by rewrite elem_of_elements.
             ++ apply in_var_vnames in Hx. by exfalso; eapply no_both.
        * intros x Hx. apply (Hvs _ _ Ed). destruct (HX x Hx) as [?|Hf]; [done|]. apply in_func_fnames in Hf. by exfalso; eapply no_both.
      + assert (Hd : d ∉ vnames F) by by apply not_elem_of_dom.
        assert (s ∈ vnames F /\ d ∈ fnames F) as [Hs Hdf] by (destruct Hk as [?|[_ ?]]; done).
        destruct (vnames_get _ _ Hs) as [Z HZ]. destruct (fnames_get _ _ Hdf) as [Y HY].
        assert (HXf : forall x, x ∈ X -> in_func F d x).
        { intros x Hx. destruct (HX x Hx) as [Hv|?]; [by apply in_var_vnames in Hv|done]. }
        rewrite (proj2 (at_key_ok _ _ _) HY). cbn [mbind result_bind]. rewrite decide_True by (intros x Hx; by apply (Hfs _ _ HY), HXf).
        rewrite (proj2 (at_key_ok _ _ _) HZ). cbn [mbind result_bind].
        destruct (get_calls_ok X) as (cs & -> & Hcs). { intros x Hx. apply (k_calls _ _ HF). eauto. }
        cbn. eexists. split; [done|]. intros x.
        rewrite elem_of_intersection, elem_of_list_to_set, elem_of_list_join, (Hvs _ _ HZ). split.
        * intros [Hx (L & HxL & HL)]. right. split; [done|]. apply elem_of_list_fmap in HL as (cl & -> & Hcl).
          apply Hcs in Hcl as (c & Hc & Hcl). exists c, cl. split; [done|]. split; [auto|]. split; [done|].
          by eapply hids_ins; [apply HXf|..].
        * intros [(Hdv & _)|(Hx & c & cl & Hc & Hcf & Hcl & Hi)]; [done|]. split; [done|].
          eexists. split; [by eapply hids_ins|]. apply elem_of_list_fmap. exists cl. split; [done|]. apply Hcs. eauto.
    - (* forward *)
      destruct (f_vs F !! s) as [Y|] eqn:Es.
      + assert (Hs : s ∈ vnames F) by (apply elem_of_dom; eauto).
        assert (d ∈ fnames F) as Hd by (destruct Hk as [[_ ?]|[? _]]; [done|by exfalso; eapply no_both]).
        destruct (fnames_get _ _ Hd) as [Z HZ]. rewrite decide_True.
        * rewrite (proj2 (at_key_ok _ _ _) HZ). cbn [mbind result_bind].
          destruct (get_calls_ok Z) as (cs & -> & Hcs). { intros x Hx. apply (k_calls _ _ HF). exists d. by apply (Hfs _ _ HZ). }
          cbn. eexists. split; [done|]. intros x. rewrite elem_of_list_to_set, elem_of_list_fmap. split.
          -- intros (cl & -> & Hcl). apply elem_of_list_filter in Hcl as [Hex Hcl]. apply Hcs in Hcl as (c & Hc & Hcl).
             destruct (call_world _ _ Hcl) as (-> & _). apply (Hfs _ _ HZ) in Hc. left. split; [done|].
             apply Exists_exists in Hex as (h & Hh & HhX). exists cl, h. split; [done|]. split; [by eapply hids_ins|done].
          -- intros [(Hx & cl & h & Hcl & Hi & HhX)|(Hx & _)]; [|apply in_var_vnames in Hx; by exfalso; eapply no_both].
             exists cl. destruct (call_world _ _ Hcl) as (-> & _). split; [done|]. apply elem_of_list_filter. split.
             ++ apply Exists_exists. exists h. split; [by eapply hids_ins|done].
             ++ apply Hcs. exists x. split; [by apply (Hfs _ _ HZ)|done].
        * intros x Hx. apply (Hvs _ _ Es). destruct (HX x Hx) as [?|Hf]; [done|]. apply in_func_fnames in Hf. by exfalso; eapply no_both.
      + assert (Hs : s ∉ vnames F) by by apply not_elem_of_dom.
        assert (s ∈ fnames F /\ d ∈ vnames F) as [Hsf Hd] by (destruct Hk as [[? _]|?]; done).
        destruct (fnames_get _ _ Hsf) as [Y HY]. destruct (vnames_get _ _ Hd) as [Z HZ].
        assert (HXf : forall x, x ∈ X -> in_func F s x).
        { intros x Hx. destruct (HX x Hx) as [Hv|?]; [by apply in_var_vnames in Hv|done]. }
        rewrite (proj2 (at_key_ok _ _ _) HY). cbn [mbind result_bind]. rewrite decide_True by (intros x Hx; by apply (Hfs _ _ HY), HXf).
        destruct (get_calls_ok X) as (cs & -> & Hcs). { intros x Hx. apply (k_calls _ _ HF). eauto. }
        cbn. rewrite (proj2 (at_key_ok _ _ _) HZ). cbn [mbind result_bind]. eexists. split; [done|]. intros x.
        rewrite elem_of_intersection, elem_of_list_to_set, elem_of_list_join, (Hvs _ _ HZ). split.
        * intros [(L & HxL & HL) Hx]. right. split; [done|]. apply elem_of_list_fmap in HL as (cl & -> & Hcl).
          apply Hcs in Hcl as (c & Hc & Hcl). exists c, cl. split; [done|]. split; [auto|]. split; [done|].
          by eapply hids_outs; [apply HXf|..].
        * intros [(Hdv & _)|(Hx & c & cl & Hc & Hcf & Hcl & Hi)]; [apply in_func_fnames in Hdv; by exfalso; eapply no_both|]. split; [|done].
          eexists. split; [by eapply hids_outs|]. apply elem_of_list_fmap. exists cl. split; [done|]. apply Hcs. eauto.
  Qed.

  Definition Sub (st : setmap) : Prop := forall n x, smrel st n x -> in_node F n x.
  Lemma adj_elts_edges_ok dr es st : (forall e, e ∈ es -> has_edge F e.1.1 e.1.2 e.2) -> Sub st ->
    exists R, adj_elts_edges es st dr F = Ok R /\
      forall x, x ∈ R <-> exists e, e ∈ es /\ link dr e (smrel st (other dr e)) x.
  Proof.
    intros Hes Hst. induction es as [|e es IH].
    - exists ∅. split; [done|]. intros x. split; [set_solver|]. intros (e & He & _). by apply elem_of_nil in He.
    - destruct IH as (R & HR & HRx); [intros; apply Hes; by right|].
      destruct (adj_elts_edge_ok dr e (default ∅ (st !! other dr e))) as (R1 & H1 & H1x).
      { apply Hes. left. } { intros x Hx. apply Hst. by apply smrel_default. }
      exists (R1 ∪ R). split.
      { cbn [adj_elts_edges]. change (match dr with Forward => e.1.1 | Back => e.1.2 end) with (other dr e). rewrite H1. cbn. by rewrite HR. }
      intros x. rewrite elem_of_union, H1x, HRx.
      assert (Hl : link dr e (fun h => h ∈ default ∅ (st !! other dr e)) x <-> link dr e (smrel st (other dr e)) x).
      { unfold link. destruct e as [[s d] l]. by destruct dr; cbn; setoid_rewrite smrel_default. }
      rewrite Hl. setoid_rewrite elem_of_cons. naive_solver.
  Qed.

  (** * One node *)
  Definition stepR (strong : bool) (dr : dir) (P : string -> string -> Prop) (n x : string) : Prop :=
    if strong && negb (bool_decide (n ∈ vnames F)) then
      in_func F n x /\ exists cl, f_calls F !! x = Some cl /\
        match dr with Forward => all_inputs F P n cl | Back => all_outputs F P n cl end
    else exists s d l, has_edge F s d l /\ n = match dr with Forward => d | Back => s end /\
           link dr (s, d, l) (P (other dr (s, d, l))) x.

  Lemma all_inputs_mono (P Q : string -> string -> Prop) f cl : (forall n x, P n x -> Q n x) -> all_inputs F P f cl -> all_inputs F Q f cl.
  Proof. intros H [H1 H2]. split; [done|]. intros l h v Hi He. destruct (H2 l h v Hi He) as (v' & ? & ?). eauto. Qed.
  Lemma all_outputs_mono (P Q : string -> string -> Prop) f cl : (forall n x, P n x -> Q n x) -> all_outputs F P f cl -> all_outputs F Q f cl.
  Proof. intros H [H1 H2]. split; [done|]. intros l h v Hi He. destruct (H2 l h v Hi He) as (v' & ? & ?). eauto. Qed.
  Lemma stepR_mono strong dr (P Q : string -> string -> Prop) n x : (forall n x, P n x -> Q n x) -> stepR strong dr P n x -> stepR strong dr Q n x.
  Proof.
    intros H. unfold stepR. destruct (_ && _).
    - intros (Hf & cl & Hcl & Ha). split; [done|]. exists cl. split; [done|].
      destruct dr; [by eapply all_outputs_mono|by eapply all_inputs_mono].
    - intros (s & d & l & He & Hn & Hl). exists s, d, l. split; [done|]. split; [done|]. unfold link in *.
      destruct dr; cbn in *; clear -Hl H; naive_solver.
  Qed.
  Lemma stepR_node strong dr P n x : stepR strong dr P n x -> in_node F n x.
  Proof.
    unfold stepR. destruct (_ && _).
    - intros (Hf & _). by right.
    - intros (s & d & l & He & -> & Hl). unfold in_node. destruct dr; cbn in Hl; tauto.
  Qed.

  Lemma closed_stepR strong dr P : closed F dr strong P <-> forall n x, stepR strong dr P n x -> P n x.
  Proof.
    assert (Hvf : forall n c, in_func F n c -> bool_decide (n ∈ vnames F) = false).
    { intros n c Hc. apply bool_decide_eq_false. intros Hv. apply in_func_fnames in Hc. by eapply no_both. }
    assert (Hvv : forall n c, in_var F n c -> bool_decide (n ∈ vnames F) = true).
    { intros n c Hc. apply bool_decide_eq_true. by eapply in_var_vnames. }
    split.
    - intros HC n x. unfold stepR. destruct strong; cbn [andb].
      + case_bool_decide as Hn; cbn [negb].
        * intros (s & d & l & He & -> & Hl). destruct dr; cbn in *; destruct HC as [C1 C2]; destruct Hl as [Hl|Hl].
          -- destruct Hl as (_ & Hl & _). apply Hvf in Hl. by rewrite bool_decide_eq_false in Hl.
          -- destruct Hl as (Hx & c & cl & Hc & Hcf & Hcl & Hi). by eapply C1.
          -- destruct Hl as (Hl & _). apply Hvf in Hl. by rewrite bool_decide_eq_false in Hl.
          -- destruct Hl as (Hx & c & cl & Hc & Hcf & Hcl & Hi). by eapply C1.
        * intros (Hf & cl & Hcl & Ha). destruct dr; cbn in HC; by eapply HC.
      + intros (s & d & l & He & -> & Hl). destruct dr; cbn in *; destruct HC as [C1 C2]; destruct Hl as [Hl|Hl].
        * destruct Hl as (_ & Hf & h & Hh & Hc). destruct (func_call _ _ Hf) as [cl Hcl]. eapply C2; eauto 10.
        * destruct Hl as (Hx & c & cl & Hc & Hcf & Hcl & Hi). by eapply C1.
        * destruct Hl as (Hf & cl & h & Hcl & Hi & Hh). eapply C2; [done..|]. exists l, h, s. done.
        * destruct Hl as (Hx & c & cl & Hc & Hcf & Hcl & Hi). by eapply C1.
    - intros HC. destruct dr; split.
      + intros f v l c cl h HP Hf Hcl He Hi Hv. apply HC. unfold stepR. rewrite (Hvv v h Hv), andb_false_r.
        exists v, f, l. split; [done|]. split; [done|]. cbn. right. eauto 10.
      + intros f c cl Hf Hcl Ha. apply HC. unfold stepR. rewrite (Hvf f c Hf). destruct strong; cbn; [eauto|].
        destruct Ha as (v & l & h & He & Hh & Hc). exists f, v, l. split; [done|]. split; [done|]. cbn. left. split; [|eauto].
        destruct (k_edge _ _ HF _ _ _ He) as [[Hs _]|[_ ?]]; [|done]. apply in_func_fnames in Hf. by exfalso; eapply no_both.
      + intros f v l c cl h HP Hf Hcl He Hi Hv. apply HC. unfold stepR. rewrite (Hvv v h Hv), andb_false_r.
        exists f, v, l. split; [done|]. split; [done|]. cbn. right. eauto 10.
      + intros f c cl Hf Hcl Ha. apply HC. unfold stepR. rewrite (Hvf f c Hf). destruct strong; cbn; [eauto|].
        destruct Ha as (l & h & v & Hi & He & Hh). exists v, f, l. split; [done|]. split; [done|]. cbn. left. eauto 10.
  Qed.

  (** what [is_strongly_reachable_call] decides *)
  Lemma strongly_reachable_ok dr st f c cl es : in_func F f c -> f_calls F !! c = Some cl -> ~ smrel st f c ->
    (forall s d l, (s, d, l) ∈ es <-> has_edge F s d l /\ f = match dr with Forward => d | Back => s end) ->
    strongly_reachable F st dr es f cl = true <->
      match dr with Forward => all_inputs F (smrel st) f cl | Back => all_outputs F (smrel st) f cl end.
  Proof.
    intros Hf Hcl Hnot Hes.
    set (io := match dr with Forward => c_ins cl | Back => c_outs cl end).
    (* both sides in the same words *)
    assert (Hspec : match dr with Forward => all_inputs F (smrel st) f cl | Back => all_outputs F (smrel st) f cl end <->
      (exists n r, (n, r) ∈ io /\ name_proj (c_op cl) n ∈ map snd es) /\
      forall n r, (n, r) ∈ io -> name_proj (c_op cl) n ∈ map snd es ->
        exists e, e ∈ es /\ e.2 = name_proj (c_op cl) n /\ smrel st (other dr e) (rhid r)).
    { assert (Hlab : forall l, l ∈ map snd es <-> exists v, match dr with Forward => has_edge F v f l | Back => has_edge F f v l end).
      { intros l. rewrite elem_of_list_fmap. split.
        - intros ([[s d] l'] & -> & He). apply Hes in He as [He ->]. destruct dr; cbn; eauto.
        - intros (v & He). destruct dr; [exists (f, v, l)|exists (v, f, l)]; (split; [done|]); by apply Hes. }
      destruct dr; unfold all_inputs, all_outputs, call_input, call_output; setoid_rewrite Hlab; cbn.
      - split.
        + intros [(l & h & v & (n & r & Hr & <- & <-) & He) Hall]. split; [exists n, r; eauto|].
          intros n' r' Hr' (v' & He'). destruct (Hall (name_proj (c_op cl) n') (rhid r') v') as (v'' & He'' & Hv''); [exists n', r'; done|done|].
          exists (f, v'', name_proj (c_op cl) n'). split; [by apply Hes|]. done.
        + intros [(n & r & Hr & v & He) Hall]. split; [exists (name_proj (c_op cl) n), (rhid r), v; split; [by exists n, r|done]|].
          intros l h v' (n' & r' & Hr' & <- & <-) He'. destruct (Hall n' r' Hr') as ([[s d] l] & He'' & Hl & Hst); [eauto|].
          apply Hes in He'' as [He'' ->]. cbn in Hl, Hst. subst l. eauto.
      - split.
        + intros [(l & h & v & (n & r & Hr & <- & <-) & He) Hall]. split; [exists n, r; eauto|].
          intros n' r' Hr' (v' & He'). destruct (Hall (name_proj (c_op cl) n') (rhid r') v') as (v'' & He'' & Hv''); [exists n', r'; done|done|].
          exists (v'', f, name_proj (c_op cl) n'). split; [by apply Hes|]. done.
        + intros [(n & r & Hr & v & He) Hall]. split; [exists (name_proj (c_op cl) n), (rhid r), v; split; [by exists n, r|done]|].
          intros l h v' (n' & r' & Hr' & <- & <-) He'. destruct (Hall n' r' Hr') as ([[s d] l] & He'' & Hl & Hst); [eauto|].
          apply Hes in He'' as [He'' ->]. cbn in Hl, Hst. subst l. eauto. }
    rewrite Hspec. clear Hspec. unfold strongly_reachable. fold io.
    assert (Hfound : forall nr : string * ref, existsb (fun e : edge3 => bool_decide (e.2 = name_proj (c_op cl) nr.1) &&
      bool_decide (rhid nr.2 ∈ default ∅ (st !! match dr with Forward => e.1.1 | Back => e.1.2 end))) es = true <->
      exists e, e ∈ es /\ e.2 = name_proj (c_op cl) nr.1 /\ smrel st (other dr e) (rhid nr.2)).
    { intros nr. rewrite existsb_exists. setoid_rewrite smrel_default. split.
      - intros (e & He & Hb). apply andb_prop in Hb as [H1 H2]. apply bool_decide_eq_true in H1, H2.
        exists e. rewrite elem_of_list_In. done.
      - intros (e & He & H1 & H2). exists e. rewrite <-elem_of_list_In. split; [done|]. apply andb_true_intro.
        split; by apply bool_decide_eq_true. }
    destruct (filter _ io) as [|[n0 r0] ns] eqn:Efil.
    - split.
      + intros Hb. apply bool_decide_eq_true in Hb. exfalso. apply Hnot. apply smrel_default.
        destruct (call_world _ _ Hcl) as (<- & _). done.
      + intros [(n & r & Hr & Hn) _]. exfalso. apply (elem_of_nil (n, r)). rewrite <-Efil. by apply elem_of_list_filter.
    - rewrite <-Efil. rewrite forallb_forall. setoid_rewrite <-elem_of_list_In. setoid_rewrite Hfound.
      assert (Hin0 : (n0, r0) ∈ filter (fun nr => name_proj (c_op cl) nr.1 ∈ map snd es) io) by (rewrite Efil; left).
      apply elem_of_list_filter in Hin0 as [Hn0 Hr0]. split.
      + intros Hall. split; [eauto|]. intros n r Hr Hn. apply (Hall (n, r)). by apply elem_of_list_filter.
      + intros [_ Hall] [n r] Hnr. apply elem_of_list_filter in Hnr as [Hn Hr]. by apply Hall.
  Qed.

  Lemma smrel_put st n X m x : smrel (<[n := X ∪ default ∅ (st !! n)]> st) m x <-> smrel st m x \/ (m = n /\ x ∈ X).
  Proof.
    rewrite !smrel_default. destruct (decide (m = n)) as [->|Hne].
    - rewrite lookup_insert. cbn. rewrite elem_of_union. tauto.
    - rewrite lookup_insert_ne by done. tauto.
  Qed.

  Lemma reach_node_ok strong dr st n : n ∈ f_nodes F -> Sub st ->
    exists st', reach_node eord strong dr F st n = Ok st' /\ dom st' = {[n]} ∪ dom st /\
      forall m x, smrel st' m x <-> smrel st m x \/ (m = n /\ stepR strong dr (smrel st) n x).
  Proof.
    intros Hn Hst. unfold reach_node. set (es := eord _).
    assert (Hes : forall s d l, (s, d, l) ∈ es <-> has_edge F s d l /\ n = match dr with Forward => d | Back => s end).
    { intros. unfold es. rewrite (eord_elem _ _ Hords). destruct dr; [rewrite elem_of_out_edges|rewrite elem_of_in_edges]; naive_solver. }
    unfold stepR. destruct (strong && negb (bool_decide (n ∈ vnames F))) eqn:Eb.
    - apply andb_prop in Eb as [-> Hnv]. apply negb_true_iff, bool_decide_eq_false in Hnv.
      assert (n ∈ fnames F) as [Z HZ]%fnames_get by (unfold f_nodes in Hn; clear -Hn Hnv; set_solver).
      rewrite (proj2 (at_key_ok _ _ _) HZ). cbn [mbind result_bind].
      assert (HZf : forall c, c ∈ Z <-> in_func F n c) by (intros; unfold in_func; rewrite HZ; naive_solver).
      destruct (get_calls_ok (Z ∖ default ∅ (st !! n))) as (cs & -> & Hcs).
      { intros c [Hc _]%elem_of_difference. apply (k_calls _ _ HF). exists n. by apply HZf. }
      cbn. eexists. split; [done|]. split; [apply dom_insert_L|]. intros m x. rewrite smrel_put.
      rewrite elem_of_list_to_set, elem_of_list_fmap. setoid_rewrite elem_of_list_filter. setoid_rewrite Hcs.
      split.
      + intros [?|[-> (cl & -> & Hs & c & Hc & Hcl)]]; [auto|]. right. split; [done|].
        apply elem_of_difference in Hc as [Hc Hnot]. apply HZf in Hc.
        destruct (call_world _ _ Hcl) as (-> & _). split; [done|]. exists cl. split; [done|].
        eapply strongly_reachable_ok in Hs; [done|exact Hc|done| |done]. by rewrite smrel_default.
      + intros [?|[-> (Hf & cl & Hcl & Ha)]]; [auto|].
        destruct (decide (x ∈ default ∅ (st !! n))) as [Hx|Hx]; [left; by apply smrel_default|]. right. split; [done|].
        exists cl. destruct (call_world _ _ Hcl) as (E & _). split; [done|]. split.
        * eapply strongly_reachable_ok; [exact Hf|done| |done|done]. by rewrite smrel_default.
        * exists x. split; [|done]. apply elem_of_difference. split; [by apply HZf|done].
    - destruct (adj_elts_edges_ok dr es st) as (R & -> & HR).
      { intros [[s d] l] He. apply Hes in He as [He _]. done. } { done. }
      cbn. eexists. split; [done|]. split; [apply dom_insert_L|]. intros m x. rewrite smrel_put, HR. split.
      + intros [?|[-> ([[s d] l] & He & Hl)]]; [auto|]. right. split; [done|]. apply Hes in He as [He Hn']. eauto 10.
      + intros [?|[-> (s & d & l & He & Hn' & Hl)]]; [auto|]. right. split; [done|]. exists (s, d, l). split; [by apply Hes|done].
  Qed.

  Lemma reach_pass_ok strong dr l : forall st, (forall n, n ∈ l -> n ∈ f_nodes F) -> Sub st ->
    exists st', reach_pass eord strong dr F l st = Ok st' /\ Sub st' /\ dom st ⊆ dom st' /\ dom st' ⊆ dom st ∪ list_to_set l /\
      (forall n, n ∈ l -> n ∈ dom st') /\
      (forall n x, smrel st n x -> smrel st' n x) /\
      (forall P : string -> string -> Prop, (forall n x, smrel st n x -> P n x) -> closed F dr strong P -> forall n x, smrel st' n x -> P n x) /\
      ((forall n x, smrel st' n x -> smrel st n x) -> forall n x, n ∈ l -> stepR strong dr (smrel st) n x -> smrel st n x).
  Proof.
    induction l as [|n l IH]; intros st Hl Hst; cbn [reach_pass].
    - exists st. split; [done|]. split; [done|]. split; [done|]. split; [set_solver|].
      split; [by intros n ?%elem_of_nil|]. split; [done|]. split; [auto|]. intros _ n x Hn. by apply elem_of_nil in Hn.
    - destruct (reach_node_ok strong dr st n) as (st1 & H1 & Hd1 & Hr1); [apply Hl; left|done|].
      rewrite H1. change (Ok st1 ≫= ?f) with (f st1). cbv beta.
      assert (Hst1 : Sub st1). { intros m x Hx. apply Hr1 in Hx as [Hx|[-> Hx]]; [auto|by eapply stepR_node]. }
      destruct (IH st1) as (st2 & H2 & Hs2 & Hd2 & Hd2' & Hk2 & Hm2 & Hl2 & Hf2); [intros; apply Hl; by right|done|].
      exists st2. split; [done|]. split; [done|]. split; [clear -Hd1 Hd2; set_solver|].
      split; [clear -Hd1 Hd2'; set_solver|].
      split; [intros x [->|?]%elem_of_cons; [apply Hd2; clear -Hd1; set_solver|auto]|].
      split; [intros m x Hx; apply Hm2, Hr1; auto|]. split.
      + intros P HP HC. apply Hl2; [|done]. intros m x [Hx|[-> Hx]]%Hr1; [auto|].
        eapply closed_stepR; [done|]. eapply stepR_mono; [|done]. done.
      + intros Hback.
        assert (Hb1 : forall m x, smrel st1 m x -> smrel st m x) by (intros; apply Hback, Hm2; done).
        intros m x [->|Hm]%elem_of_cons Hx.
        * apply Hb1, Hr1. auto.
        * apply Hb1. apply Hf2; [intros; apply Hr1; left; by apply Hback|done|].
          eapply stepR_mono; [|done]. intros. apply Hr1. auto.
  Qed.

  Lemma Sub_size st : Sub st -> total_size st <= total_size (f_sets F).
  Proof.
    intros Hst. rewrite !total_size_pairs. apply subseteq_size. intros [n x]. rewrite !elem_of_pairs. intros Hx.
    apply Hst in Hx. unfold f_sets, smrel. destruct Hx as [(X & HX & Hx)|(X & HX & Hx)]; exists X; (split; [|done]).
    - rewrite lookup_union_r; [done|]. apply not_elem_of_dom. intros Hf. apply (no_both n); [|done]. apply elem_of_dom. eauto.
    - by apply lookup_union_Some_l.
  Qed.

  Lemma reach_loop_ok strong dr fuel : forall st, Sub st -> total_size (f_sets F) - total_size st < fuel ->
    exists st', reach_loop ord eord strong dr F fuel st = Ok st' /\ Sub st' /\ dom st' = dom st ∪ f_nodes F /\
      (forall n x, smrel st n x -> smrel st' n x) /\
      (forall P : string -> string -> Prop, (forall n x, smrel st n x -> P n x) -> closed F dr strong P -> forall n x, smrel st' n x -> P n x) /\
      closed F dr strong (smrel st').
  Proof.
    induction fuel as [|fuel IH]; intros st Hst Hsz; [lia|]. cbn [reach_loop].
    destruct (reach_pass_ok strong dr (ord (f_nodes F)) st) as (st1 & H1 & Hs1 & Hd1 & Hd1' & Hk1 & Hm1 & Hl1 & Hf1).
    { intros n. by rewrite (ord_elem _ _ Hords). } { done. }
    rewrite H1. change (Ok st1 ≫= ?f) with (f st1). cbv beta.
    assert (Hdom : dom st1 = dom st ∪ f_nodes F).
    { apply set_eq. intros n. rewrite elem_of_union. split.
      - intros Hn. apply Hd1' in Hn. rewrite elem_of_union, elem_of_list_to_set, (ord_elem _ _ Hords) in Hn. done.
      - intros [?|Hn]; [by apply Hd1|]. apply Hk1. by rewrite (ord_elem _ _ Hords). }
    assert (Hsub : pairs st ⊆ pairs st1). { intros [n x]. rewrite !elem_of_pairs. apply Hm1. }
    case_decide as Heq.
    - exists st1. split; [done|]. split; [done|]. split; [done|]. split; [done|]. split; [done|].
      rewrite !total_size_pairs in Heq.
      assert (Hback : forall n x, smrel st1 n x -> smrel st n x).
      { intros n x. rewrite <-!elem_of_pairs. assert (pairs st = pairs st1) as <-; [|done].
        apply set_eq. intros p. split; [apply Hsub|]. intros Hp. destruct (decide (p ∈ pairs st)) as [|Hn]; [done|]. exfalso.
        assert (pairs st ⊂ pairs st1) as Hlt%subset_size by (split; [done|]; intros Hs; by apply Hn, Hs). lia. }
      apply closed_stepR. intros n x Hx. apply Hm1.
      apply Hf1; [done| |].
      + rewrite (ord_elem _ _ Hords). apply stepR_node in Hx. unfold f_nodes. apply elem_of_union.
        destruct Hx as [Hx|Hx]; [left; by eapply in_var_vnames|right; by eapply in_func_fnames].
      + eapply stepR_mono; [|done]. done.
    - assert (total_size st < total_size st1).
      { rewrite !total_size_pairs in *. apply subseteq_size in Hsub. lia. }
      pose proof (Sub_size _ Hs1).
      destruct (IH st1) as (st2 & H2 & Hs2 & Hd2 & Hm2 & Hl2 & Hc2); [done|lia|].
      exists st2. split; [done|]. split; [done|]. split; [rewrite Hd2, Hdom; clear; set_solver|].
      split; [auto|]. split; [|done]. intros P HP HC. apply Hl2; [|done]. by apply Hl1.
  Qed.

  Lemma get_reachable_elts_ok init dr strong : (forall n x, smrel init n x -> in_node F n x) ->
    exists st, get_reachable_elts ord eord init dr strong F = Ok st /\ dom st = dom init ∪ f_nodes F /\
      forall n x, smrel st n x <-> reach F dr strong (smrel init) n x.
  Proof.
    intros Hin. destruct (reach_loop_ok strong dr (S (total_size (f_sets F))) init) as (st & H1 & Hs & Hd & Hm & Hl & Hc); [done|lia|].
    unfold get_reachable_elts. rewrite H1. cbn. eexists. split; [done|].
    assert ((st ∪ set_to_map (fun n => (n, ∅)) (f_nodes F) : setmap) = st) as ->.
    { apply map_eq. intros n. rewrite lookup_union. destruct (st !! n) as [X|] eqn:E; [by destruct (set_to_map _ _ !! n)|].
      destruct (set_to_map _ _ !! n) eqn:E'; [|done]. exfalso.
      apply lookup_set_to_map in E' as (y & Hy & [= -> _]); [|naive_solver].
      apply not_elem_of_dom in E. apply E. rewrite Hd. clear -Hy. set_solver. }
    split; [done|]. intros n x. split.
    - intros Hx P HP HC. by eapply Hl.
    - intros Hr. apply Hr; [done|done].
  Qed.
End elts.
