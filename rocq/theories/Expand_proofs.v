(** Expanding a frame backwards: proofs for C44. *)
From stdpp Require Import base strings gmap list.
From Verif Require Import Base PyDict Refs Storage Frame Spec_Frame Frame_base Frame_names Frame_ok Frame_ok2 Frame_ok3
  FrameExpand Spec_Expand Frame_reach2 Frame_stream.

Definition labels_ne (a : adj) (f : string) : Prop := forall l, default ∅ (a !! f) !! l <> Some ∅.
Lemma adj_add_ne n l x a a' f : adj_add n l x a = Ok a' -> labels_ne a f -> labels_ne a' f.
Proof.
  unfold adj_add, at_key. destruct (a !! n) as [m|] eqn:E; cbn; [|done]. intros [= <-] Hne l'. unfold labels_ne in Hne.
  destruct (decide (f = n)) as [->|Hn].
  - rewrite lookup_insert. cbn. specialize (Hne l'). rewrite E in Hne. cbn in Hne. unfold sm_add.
    destruct (decide (l' = l)) as [->|Hl]; [rewrite lookup_insert|by rewrite lookup_insert_ne by done].
    intros [= H]. assert (x ∈ (∅ : sset)) as Hx by (rewrite <-H; set_solver). set_solver.
  - rewrite lookup_insert_ne by done. apply Hne.
Qed.
Lemma add_edge_ne b s d l F F' f : add_edge b s d l F = (Ok tt, F') ->
  labels_ne (f_out F) f /\ labels_ne (f_inp F) f -> labels_ne (f_out F') f /\ labels_ne (f_inp F') f.
Proof.
  unfold add_edge. rewrite bindM_getM. case_decide; [destruct b; [by intros [= <-]|done]|].
  intros H1. apply bindM_ok in H1 as (o & F1 & [Ho ->]%liftR_ok & H1). rewrite bindM_modM, bindM_getM in H1.
  apply bindM_ok in H1 as (i & F2 & [Hi ->]%liftR_ok & H1). injection H1 as <-. cbn. intros [Hne1 Hne2]. split; by eapply adj_add_ne.
Qed.
Lemma add_edge_new b s d l F : s ∈ dom (f_out F) -> d ∈ dom (f_inp F) -> ~ has_edge F s d l ->
  exists F', add_edge b s d l F = (Ok tt, F').
Proof.
  intros Hs Hd Hn. unfold add_edge. rewrite bindM_getM. rewrite decide_False by by rewrite elem_of_edges.
  destruct (adj_add_total s l d (f_out F) Hs) as [o Ho]. rewrite (bindM_liftR _ _ _ o) by done.
  rewrite bindM_modM, bindM_getM.
  destruct (adj_add_total d l s (f_inp F) Hd) as [i Hi]. rewrite (bindM_liftR _ _ _ i) by done. by eexists.
Qed.

Lemma mjoin_app {A} (l l' : list (list A)) : mjoin (l ++ l') = mjoin l ++ mjoin l'.
Proof. induction l as [|x l IH]; cbn; [done|]. unfold mjoin in *. by rewrite IH, app_assoc. Qed.

Section expand.
  Context (ord : sset -> list string) (eord : gset edge3 -> list edge3) (Hords : orders ord eord).
  Context (U : gmap string call) (HU : world U).

  (** * What adding a call does *)
  Record called (f : string) (c : call) (F G : frame) : Prop := Called {
    cl_con : consistent U G;
    cl_inp : f_inp G = f_inp F;
    cl_out : f_out G = f_out F;
    cl_vn : vnames G = vnames F;
    cl_fn : fnames G = fnames F;
    cl_func : forall g x, in_func G g x <-> in_func F g x \/ (g = f /\ x = c_hid c);
    cl_calls : f_calls G = <[c_hid c := c]> (f_calls F);
    cl_var : forall u h, in_var G u h <-> in_var F u h \/ (exists l, call_input c l h /\ has_edge F u f l) \/
      (exists l, call_output c l h /\ has_edge F f u l);
  }.
  Lemma add_call_called b f c F : consistent U F -> f ∈ fnames F -> ~ in_func F f (c_hid c) -> sane U F (OpAddCall f c b) ->
    exists G, add_call ord true b f c F = (Ok tt, G) /\ called f c F G.
  Proof.
    intros HF Hf Hin Hsane.
    assert (Htot : exists G, add_call ord true b f c F = (Ok tt, G)).
    { unfold add_call. rewrite bindM_getM. unfold fnames in Hf. apply elem_of_dom in Hf as [X HX].
      rewrite (bindM_liftR _ _ _ X) by by apply at_key_ok.
      rewrite decide_False by (intros ?; apply Hin; by exists X). rewrite bindM_modM. set (F1 := set_callinv _ _).
      assert (Hfi : f ∈ dom (f_inp F)). { rewrite (k_inp _ _ HF). apply elem_of_union_r. by apply elem_of_dom. }
      assert (Hfo : f ∈ dom (f_out F)). { rewrite (k_out _ _ HF). apply elem_of_union_r. by apply elem_of_dom. }
      assert (Hfv : f ∉ vnames F). { intros Hx. apply (k_disj _ _ HF f Hx). by apply elem_of_dom. }
      apply elem_of_dom in Hfi as [mi Hmi]. apply elem_of_dom in Hfo as [mo Hmo].
      assert (Hvi : forall l Y v, mi !! l = Some Y -> v ∈ Y -> v ∈ dom (f_vs F)).
      { intros l Y v HY Hv. assert (has_edge F v f l) as He. { apply (k_mirror _ _ HF). by exists mi, Y. }
        apply (k_edge _ _ HF) in He as [[? _]|[_ ?]]; done. }
      assert (Hvo : forall l Y v, mo !! l = Some Y -> v ∈ Y -> v ∈ dom (f_vs F)).
      { intros l Y v HY Hv. assert (has_edge F f v l) as He by by exists mo, Y.
        apply (k_edge _ _ HF) in He as [[? _]|[_ ?]]; done. }
      assert (Hrefs : forall r l G, (forall v, v ∈ l -> v ∈ dom (f_vs F)) -> dom (f_vs G) = dom (f_vs F) -> f_inp G = f_inp F -> f_out G = f_out F ->
        exists G', iterM (fun v => add_ref true v r) l G = (Ok tt, G') /\ dom (f_vs G') = dom (f_vs F) /\ f_inp G' = f_inp F /\ f_out G' = f_out F).
      { intros r l G Hl HG1 HG2 HG3.
        refine (iterM_total (fun v => add_ref true v r) (fun _ G => dom (f_vs G) = dom (f_vs F) /\ f_inp G = f_inp F /\ f_out G = f_out F) l _ G _); [|done].
        intros dn v rest G' -> (HG'1 & HG'2 & HG'3). assert (v ∈ dom (f_vs G')) as Hv.
        { rewrite HG'1. apply Hl. set_solver. }
        unfold add_ref. rewrite bindM_getM. pose proof Hv as [Y HY]%elem_of_dom.
        rewrite (bindM_liftR _ _ _ Y) by by apply at_key_ok. case_decide; [eexists; split; [done|]; done|].
        eexists. split; [done|]. cbn. rewrite dom_sm_add. split; [|done]. rewrite <-HG'1. set_solver. }
      destruct (iterM_total (add_input ord f c) (fun _ G => dom (f_vs G) = dom (f_vs F) /\ f_inp G = f_inp F /\ f_out G = f_out F) (c_ins c)) with (s := F1)
        as (F2 & E2 & D2 & I2 & O2).
      { intros dn [n r] rest G _ (D & I & O). unfold add_input. rewrite bindM_getM, I. rewrite (bindM_liftR _ _ _ mi) by by apply at_key_ok.
        cbn [fst snd]. destruct (mi !! _) as [Y|] eqn:EY; [|eexists; split; done]. rewrite bindM_modM. apply Hrefs; try done.
        intros v. rewrite (ord_elem _ _ Hords). by eapply Hvi. }
      { done. }
      rewrite (bindM_step _ _ _ _ _ E2).
      destruct (iterM_total (add_output ord f c) (fun _ G => dom (f_vs G) = dom (f_vs F) /\ f_inp G = f_inp F /\ f_out G = f_out F) (c_outs c)) with (s := F2)
        as (F3 & E3 & _); [|done|by exists F3].
      intros dn [n r] rest G _ (D & I & O). unfold add_output. rewrite bindM_getM, O. rewrite (bindM_liftR _ _ _ mo) by by apply at_key_ok.
      cbn [fst snd]. destruct (mo !! _) as [Y|] eqn:EY; [|eexists; split; done]. rewrite bindM_modM. apply Hrefs; try done.
      intros v. rewrite (ord_elem _ _ Hords). by eapply Hvo. }
    destruct Htot as [G HG]. exists G. split; [done|].
    assert (HGc : consistent U G) by (eapply add_call_consistent; done).
    revert HG. unfold add_call. rewrite bindM_getM. intros Hr.
    apply bindM_ok in Hr as (X & F0 & [HX ->]%liftR_ok & Hr). apply at_key_ok in HX.
    rewrite decide_False in Hr by (intros ?; apply Hin; by exists X).
    rewrite bindM_modM in Hr. set (F1 := set_callinv _ _) in Hr.
    apply bindM_ok in Hr as ([] & F2 & H2 & H3).
    apply (add_inputs_ok ord eord Hords U HU) in H2; [|by destruct (consistent_okRk U _ HF) as [[? ? ?] ?]; split; [split|]].
    pose proof H2 as [A1 A2 A3 A4 A5 A6 A7].
    apply (add_outputs_ok ord eord Hords U HU) in H3; [|done].
    destruct H3 as [B1 B2 B3 B4 B5 B6 B7].
    destruct A1 as (Ai & Ao & Af & Aci & Ac), B1 as (Bi & Bo & Bf & Bci & Bc).
    split; try done.
    - by rewrite Bi, Ai.
    - by rewrite Bo, Ao.
    - unfold vnames. by rewrite B2, A2.
    - unfold fnames. rewrite Bf, Af. cbn. rewrite dom_sm_add. unfold fnames in Hf. clear -Hf. set_solver.
    - intros g x. rewrite !in_func_smrel, Bf, Af. cbn. apply smrel_add.
    - by rewrite Bc, Ac.
    - intros u h. rewrite B4, A4, Ao.
      assert (HA : side_A (f_inp F1) f c (c_ins c) u h <-> exists l, call_input c l h /\ has_edge F u f l).
      { change (f_inp F1) with (f_inp F). unfold side_A, call_input. setoid_rewrite (k_mirror _ _ HF). setoid_rewrite has_in_edge_arel. split.
        - intros (n & r & ? & -> & ?). eauto 10.
        - intros (l & (n & r & ? & <- & <-) & ?). eauto 10. }
      assert (HB : side_A (f_out F1) f c (c_outs c) u h <-> exists l, call_output c l h /\ has_edge F f u l).
      { change (f_out F1) with (f_out F). unfold side_A, call_output. setoid_rewrite has_edge_arel. split.
        - intros (n & r & ? & -> & ?). eauto 10.
        - intros (l & (n & r & ? & <- & <-) & ?). eauto 10. }
      change (in_var F1 u h) with (in_var F u h). rewrite HA, HB. clear. tauto.
  Qed.

  Context (isv : string -> Prop).
  Context (Hnewv : forall c cl l h G v, U !! c = Some cl -> call_input cl l h -> get_new_vname l G = Ok v -> isv v).
  Context (Hnewf : forall c cl G f, U !! c = Some cl -> get_new_fname (op_name (c_op cl)) G = Ok f -> ~ isv f).
  Context (HT : tidy_calls U).

  (** * The new function, before its calls are added *)
  Record phase (F : frame) (f : string) (E I : string -> string -> Prop) (G : frame) : Prop := Phase {
    ph_con : consistent U G;
    ph_fs : f_fs G = <[f := ∅]> (f_fs F);
    ph_var : forall u h, in_var G u h <-> in_var F u h;
    ph_vn : vnames F ⊆ vnames G;
    ph_calls : f_calls G = f_calls F;
    ph_edge : forall s d l, has_edge G s d l <-> has_edge F s d l \/ (s = f /\ E d l) \/ (d = f /\ I s l);
    ph_isv : forall v, v ∈ vnames G -> isv v;
    ph_ne : labels_ne (f_out G) f /\ labels_ne (f_inp G) f;
  }.
  Lemma phase_ext F f E E' I I' G : (forall d l, E d l <-> E' d l) -> (forall s l, I s l <-> I' s l) -> phase F f E I G -> phase F f E' I' G.
  Proof. intros HE HI [P1 P2 P3 P4 P5 P6 P7 P8]. split; try done. intros. rewrite P6, HE, HI. done. Qed.

  Lemma phase_func F f : consistent U F -> (forall v, v ∈ vnames F -> isv v) -> f ∉ f_nodes F ->
    exists G, add_func f F = (Ok tt, G) /\ phase F f (fun _ _ => False) (fun _ _ => False) G.
  Proof.
    intros HF Hv Hf. eexists. split; [done|]. set (G := set_out _ _).
    assert (consistent U G) by by eapply (add_func_consistent U f F).
    split; try done.
    - intros s d l. rewrite !has_edge_arel. cbn. rewrite arel_insert_empty; [|by rewrite (k_out _ _ HF)]. tauto.
    - split; intros l; cbn; rewrite lookup_insert; cbn; by rewrite lookup_empty.
  Qed.

  Lemma phase_out F f E I G v l : consistent U F -> phase F f E I G -> v ∈ vnames G -> ~ E v l -> f ∉ f_nodes F ->
    exists G', add_edge false f v l G = (Ok tt, G') /\ phase F f (fun d l' => E d l' \/ (d = v /\ l' = l)) I G'.
  Proof.
    intros HF [P1 P2 P3 P4 P5 P6 P7 P8] Hv Hn Hf.
    assert (Hff : f ∈ fnames G). { unfold fnames. rewrite P2, dom_insert_L. set_solver. }
    assert (HfF : forall d l, ~ has_edge F f d l).
    { intros d l' He. apply Hf. unfold f_nodes. apply (k_edge _ _ HF) in He as [[? _]|[? _]]; set_solver. }
    destruct (add_edge_new false f v l G) as [G' HG'].
    { rewrite (k_out _ _ P1). by apply elem_of_union_r. } { rewrite (k_inp _ _ P1). by apply elem_of_union_l. }
    { rewrite P6. intros [He|[[_ He]|[-> _]]]; [by eapply HfF|done|]. by apply (k_disj _ _ P1 f). }
    exists G'. split; [done|].
    assert (consistent U G').
    { eapply (add_edge_consistent ord eord Hords U HU); [done| |done]. right. split; [done|]. by rewrite P2, lookup_insert. }
    assert (labels_ne (f_out G') f /\ labels_ne (f_inp G') f) by (eapply add_edge_ne; done).
    apply add_edge_ok in HG' as (i & o & -> & Hi & Ho & Hro & Hri); [|exact (k_mirror _ _ P1)].
    split; try done. intros s d l'. rewrite has_edge_arel. cbn. rewrite Hro, <-has_edge_arel, P6. clear. naive_solver.
  Qed.

  Lemma phase_in F f E I G l : consistent U F -> phase F f E I G -> f ∉ f_nodes F -> ~ isv f ->
    (exists c cl h, U !! c = Some cl /\ call_input cl l h) ->
    (forall g, g ∈ fnames F -> ~ isv g) ->
    exists v G', v ∉ vnames F /\ (w <- new_var l ;; add_edge false w f l)%pym G = (Ok tt, G') /\ phase F f E (fun s l' => I s l' \/ (s = v /\ l' = l)) G'.
  Proof.
    intros HF [P1 P2 P3 P4 P5 P6 P7 P8] Hf Hif (c & cl & h & Hc & Hci) HisF.
    destruct (get_new_vname_ok l G) as (v & Ev & Hv). exists v.
    assert (Hvv : isv v) by by eapply Hnewv.
    assert (Hff : f ∈ fnames G). { unfold fnames. rewrite P2, dom_insert_L. set_solver. }
    assert (Hvf : v <> f) by by intros ->.
    assert (HvG : v ∉ f_nodes G).
    { unfold f_nodes. intros [?|Hx]%elem_of_union; [done|]. (* a function with the name of a variable *)
      unfold fnames in Hx. rewrite P2, dom_insert_L in Hx. apply elem_of_union in Hx as [?|Hx]; [set_solver|]. revert Hvv. by apply HisF. }
    unfold new_var. unfold bindM at 1 2 3. unfold getM, liftR at 1. rewrite Ev. cbn [bindM].
    set (G1 := set_out (<[v:=∅]> (f_out G)) (set_inp (<[v:=∅]> (f_inp G)) (set_vs (<[v:=∅]> (f_vs G)) G))).
    assert (HG1 : add_var v G = (Ok tt, G1)) by done.
    assert (C1 : consistent U G1) by by eapply (add_var_consistent U v G).
    unfold bindM. rewrite HG1. cbn [retM].
    assert (He1 : forall s d l, has_edge G1 s d l <-> has_edge G s d l).
    { intros s d l'. rewrite !has_edge_arel. cbn. rewrite arel_insert_empty; [done|]. by rewrite (k_out _ _ P1). }
    assert (Hvn1 : vnames G1 = {[v]} ∪ vnames G). { unfold vnames. cbn. by rewrite dom_insert_L. }
    destruct (add_edge_new false v f l G1) as [G' HG'].
    { rewrite (k_out _ _ C1). apply elem_of_union_l. rewrite Hvn1. set_solver. } { rewrite (k_inp _ _ C1). by apply elem_of_union_r. }
    { rewrite He1. intros He. apply HvG. unfold f_nodes. apply (k_edge _ _ P1) in He as [[? _]|[? _]]; set_solver. }
    exists G'. split; [set_solver|]. split; [done|].
    assert (C2 : consistent U G').
    { eapply (add_edge_consistent ord eord Hords U HU); [exact C1| |done]. left. rewrite Hvn1. split; [set_solver|]. cbn. by rewrite P2, lookup_insert. }
    assert (N1 : labels_ne (f_out G1) f /\ labels_ne (f_inp G1) f).
    { split; intros l'; cbn; rewrite lookup_insert_ne by done; apply P8. }
    assert (labels_ne (f_out G') f /\ labels_ne (f_inp G') f) by (eapply add_edge_ne; done).
    apply add_edge_ok in HG' as (i & o & -> & Hi & Ho & Hro & Hri); [|exact (k_mirror _ _ C1)].
    split; try done.
    - intros u k. rewrite <-P3, !in_var_smrel. cbn. apply smrel_insert_empty. done.
    - unfold vnames in *. cbn. rewrite dom_insert_L. clear -P4. set_solver.
    - intros s d l'. rewrite has_edge_arel. cbn. rewrite Hro. change (arel (<[v:=∅]> (f_out G)) s l' d) with (arel (f_out G1) s l' d).
      rewrite <-has_edge_arel, He1, P6. clear. naive_solver.
    - intros w. change (w ∈ vnames G1 -> isv w). rewrite Hvn1. intros [->%elem_of_singleton|?]%elem_of_union; [done|by apply P7].
  Qed.

  Lemma phase_glue F f G (m : setmap) : consistent U F -> f ∉ f_nodes F -> phase F f (fun _ _ => False) (fun _ _ => False) G ->
    (forall l v, smrel m l v -> v ∈ vnames F) ->
    exists G', glue ord Outputs false f m G = (Ok tt, G') /\ phase F f (fun d l => smrel m l d) (fun _ _ => False) G'.
  Proof.
    intros HF Hf HG Hm. unfold glue.
    match goal with |- context [iterM ?b _] => set (body := b) end.
    destruct (iterM_total body (fun dn G => phase F f (fun d l => l ∈ dn /\ smrel m l d) (fun _ _ => False) G) (ord (dom m))) with (s := G) as (G' & E' & P').
    - intros dn l rest G1 Hl P1. unfold body. cbn [glue_edge].
      assert (Hld : l ∉ dn). { pose proof (ord_nodup ord eord Hords (dom m)) as Hnd. rewrite Hl in Hnd. apply NoDup_app in Hnd as (_ & Hd & _). intros Hx. apply (Hd l Hx). left. }
      set (X := default ∅ (m !! l)).
      destruct (iterM_total (fun v => add_edge false f v l) (fun dv G => phase F f (fun d l' => (l' ∈ dn /\ smrel m l' d) \/ (l' = l /\ d ∈ dv)) (fun _ _ => False) G) (ord X))
        with (s := G1) as (G2 & E2 & P2).
      + intros dv v rest' G3 Hv P3. assert (HvX : v ∈ X). { apply (ord_elem ord eord Hords). rewrite Hv. apply elem_of_app. right. left. }
        destruct (phase_out F f _ _ G3 v l HF P3) as (G4 & E4 & P4).
        * apply (ph_vn _ _ _ _ _ P3). eapply Hm. apply smrel_default. exact HvX.
        * intros [[? _]|[_ Hx]]; [done|]. pose proof (ord_nodup ord eord Hords X) as Hnd. rewrite Hv in Hnd. apply NoDup_app in Hnd as (_ & Hd & _). apply (Hd v Hx). left.
        * done.
        * exists G4. split; [done|]. eapply phase_ext; [..|exact P4]; [|done]. intros d l'. rewrite elem_of_app, elem_of_list_singleton. clear. naive_solver.
      + eapply phase_ext; [..|exact P1]; [|done]. intros d l'. rewrite elem_of_nil. tauto.
      + exists G2. split; [done|]. eapply phase_ext; [..|exact P2]; [|done]. intros d l'. rewrite elem_of_app, elem_of_list_singleton.
        rewrite (ord_elem ord eord Hords), (smrel_default m l' d). unfold X. clear. split; [intros [[? ?]|[-> ?]]; auto|intros [[?| ->] ?]; auto].
    - eapply phase_ext; [..|exact HG]; [|done]. intros d l. rewrite elem_of_nil. tauto.
    - exists G'. split; [done|]. eapply phase_ext; [..|exact P']; [|done]. intros d l. cbv beta. rewrite (ord_elem ord eord Hords). split; [tauto|].
      intros Hx. split; [by eapply smrel_dom|done].
  Qed.

  Lemma phase_dual F f E G cs : consistent U F -> f ∉ f_nodes F -> ~ isv f -> (forall g, g ∈ fnames F -> ~ isv g) ->
    phase F f E (fun _ _ => False) G -> (forall c, c ∈ cs -> U !! c_hid c = Some c) ->
    exists G' I, iterM (dual_var ord Outputs false f cs ∅) (ord (side_labels Inputs cs)) G = (Ok tt, G') /\ phase F f E I G' /\
      (forall s l, I s l -> s ∉ vnames F /\ l ∈ side_labels Inputs cs) /\ (forall l, l ∈ side_labels Inputs cs -> exists s, I s l).
  Proof.
    intros HF Hf Hif HisF HG Hcs.
    destruct (iterM_total (dual_var ord Outputs false f cs ∅) (fun dn G => exists I, phase F f E I G /\
      (forall s l, I s l -> s ∉ vnames F /\ l ∈ dn) /\ (forall l, l ∈ dn -> exists s, I s l)) (ord (side_labels Inputs cs))) with (s := G) as (G' & E' & I & P' & Q1 & Q2).
    - intros dn l rest G1 Hl (I & P1 & Q1 & Q2).
      assert (HlS : l ∈ side_labels Inputs cs). { apply (ord_elem ord eord Hords). rewrite Hl. apply elem_of_app. right. left. }
      destruct (phase_in F f E I G1 l HF P1 Hf Hif) as (v & G2 & Hv & E2 & P2).
      { unfold side_labels in HlS. apply elem_of_list_to_set, elem_of_list_join in HlS as (ls & Hls & HlS).
        apply elem_of_list_fmap in HlS as (c & -> & Hc). apply elem_of_list_fmap in Hls as ([n r] & -> & Hnr).
        exists (c_hid c), c, (rhid r). split; [by apply Hcs|]. exists n, r. done. }
      { done. }
      exists G2. split.
      + unfold dual_var. rewrite decide_False by set_solver. rewrite bindM_getM. cbn [glue_edge dual]. exact E2.
      + eexists. split; [exact P2|]. split.
        * intros s l' [Hx|[-> ->]]; [apply Q1 in Hx as [? ?]; split; [done|]; apply elem_of_app; auto|]. split; [done|]. apply elem_of_app. right. left.
        * intros l' [Hx|Hx%elem_of_list_singleton]%elem_of_app; [apply Q2 in Hx as [s ?]; eauto|]. subst l'. exists v. auto.
    - eexists. split; [exact HG|]. split; [done|]. intros l Hl. by apply elem_of_nil in Hl.
    - exists G', I. split; [done|]. split; [done|]. setoid_rewrite (ord_elem ord eord Hords) in Q1. setoid_rewrite (ord_elem ord eord Hords) in Q2. done.
  Qed.

  (** * A group *)
  Record expanded (F : frame) (f : string) (m : setmap) (cs : list call) (I : string -> string -> Prop) (G : frame) : Prop := Expanded {
    ex_con : consistent U G;
    ex_vn : vnames F ⊆ vnames G;
    ex_fn : fnames G = {[f]} ∪ fnames F;
    ex_old : forall v h, v ∈ vnames F -> in_var G v h <-> in_var F v h;
    ex_new : forall v h, v ∉ vnames F -> in_var G v h -> exists c l, c ∈ cs /\ call_input c l h;
    ex_func : forall g x, in_func G g x <-> in_func F g x \/ (g = f /\ x ∈ map c_hid cs);
    ex_calls : forall x cl, f_calls G !! x = Some cl <-> f_calls F !! x = Some cl \/ (x ∈ map c_hid cs /\ U !! x = Some cl);
    ex_edge : forall s d l, has_edge G s d l <-> has_edge F s d l \/ (s = f /\ smrel m l d) \/ (d = f /\ I s l);
    ex_isv : forall v, v ∈ vnames G -> isv v;
    ex_in : forall s l, I s l -> s ∉ vnames F /\ l ∈ side_labels Inputs cs;
    ex_in' : forall l, l ∈ side_labels Inputs cs -> exists s, I s l;
  }.
  Lemma expand_group_ok F o m cs : consistent U F -> (forall v, v ∈ vnames F -> isv v) -> (forall g, g ∈ fnames F -> ~ isv g) ->
    cs <> [] -> NoDup (map c_hid cs) -> (forall c, c ∈ cs -> U !! c_hid c = Some c /\ op_name (c_op c) = o) ->
    (forall l v, smrel m l v -> v ∈ vnames F) ->
    (forall c l h v, c ∈ cs -> call_output c l h -> smrel m l v -> in_var F v h) ->
    exists f I G, expand_group ord Outputs false (o, m, cs) F = (Ok tt, G) /\ f ∉ f_nodes F /\ ~ isv f /\ expanded F f m cs I G.
  Proof.
    intros HF Hv HisF Hne Hnd Hcs Hm Hout.
    destruct (get_new_fname_ok o F) as (f & Ef & Hf).
    assert (Hif : ~ isv f). { destruct cs as [|c cs]; [done|]. destruct (Hcs c) as [HUc Ho]; [left|]. subst o. by eapply Hnewf. }
    assert (HfF : f ∉ f_nodes F). { unfold f_nodes. intros [?|?]%elem_of_union; [by apply Hif, Hv|done]. }
    destruct (phase_func F f HF Hv HfF) as (G1 & E1 & P1).
    destruct (phase_glue F f G1 m HF HfF P1 Hm) as (G2 & E2 & P2).
    destruct (phase_dual F f _ G2 cs HF HfF Hif HisF P2) as (G3 & I & E3 & P3 & Q1 & Q2); [intros c Hc; by apply Hcs|].
    exists f, I. unfold expand_group, choose_func.
    assert (Hchoose : forall (k : string -> M frame unit), bindM (F0 <- getM ;; m0 <- retM None ;;
       match m0 with Some f => retM f | None => f0 <- liftR (get_new_fname o F0) ;; add_func f0 ;;; retM f0 end)%pym k F = k f G1).
    { intros k. unfold bindM, getM, retM, liftR. rewrite Ef. cbv beta iota. rewrite E1. done. }
    cbv beta iota. rewrite Hchoose. rewrite (bindM_step _ _ _ _ _ E2). rewrite bindM_getM.
    assert (HfG2 : f ∈ dom (f_inp G2)). { rewrite (k_inp _ _ (ph_con _ _ _ _ _ P2)). apply elem_of_union_r. unfold fnames. rewrite (ph_fs _ _ _ _ _ P2), dom_insert_L. set_solver. }
    apply elem_of_dom in HfG2 as [lm Hlm]. rewrite (bindM_liftR _ _ _ lm) by by apply at_key_ok.
    assert (Hdom : dom lm = ∅).
    { apply set_eq. intros l. split; [|set_solver]. intros [X HX]%elem_of_dom. exfalso.
      destruct (set_choose_or_empty X) as [[u Hu]|Hem].
      - assert (has_edge G2 u f l) as He. { apply (k_mirror _ _ (ph_con _ _ _ _ _ P2)). by exists lm, X. }
        apply (ph_edge _ _ _ _ _ P2) in He as [He|[[-> He]|[_ []]]].
        + apply HfF. unfold f_nodes. apply (k_edge _ _ HF) in He as [[_ ?]|[_ ?]]; set_solver.
        + apply Hm, Hv in He. done.
      - destruct (ph_ne _ _ _ _ _ P2) as [_ Hn]. specialize (Hn l). rewrite Hlm in Hn. cbn in Hn. apply Hn. rewrite HX. f_equal. by apply leibniz_equiv. }
    rewrite Hdom. cbn [dual]. rewrite (bindM_step _ _ _ _ _ E3).
    destruct P3 as [C3 Pfs Pvar Pvn Pcalls Pedge Pisv [Pne1 Pne2]].
    assert (Hfn3 : fnames G3 = {[f]} ∪ fnames F). { unfold fnames. by rewrite Pfs, dom_insert_L. }
    assert (Hfunc3 : forall g x, in_func G3 g x <-> in_func F g x).
    { intros g x. rewrite !in_func_smrel, Pfs. apply smrel_insert_empty. done. }
    destruct (iterM_total (fun c => add_call ord true false f c) (fun dn G => consistent U G /\ f_inp G = f_inp G3 /\ f_out G = f_out G3 /\
      vnames G = vnames G3 /\ fnames G = fnames G3 /\
      (forall g x, in_func G g x <-> in_func F g x \/ (g = f /\ x ∈ map c_hid dn)) /\
      (forall x cl, f_calls G !! x = Some cl <-> f_calls F !! x = Some cl \/ (x ∈ map c_hid dn /\ U !! x = Some cl)) /\
      (forall u h, in_var G u h <-> in_var F u h \/ exists c, c ∈ dn /\ ((exists l, call_input c l h /\ has_edge G3 u f l) \/
        (exists l, call_output c l h /\ has_edge G3 f u l)))) cs) with (s := G3) as (G & EG & CG & IG & OG & VG & FG & RG & LG & XG).
    - intros dn c rest G Hc (CG & IG & OG & VG & FG & RG & LG & XG).
      assert (Hcc : c ∈ cs) by (rewrite Hc; apply elem_of_app; right; left).
      destruct (Hcs c Hcc) as [HUc Ho].
      assert (Hedge : forall s d l, has_edge G s d l <-> has_edge G3 s d l) by (intros; unfold has_edge; by rewrite OG).
      assert (Hcd : c_hid c ∉ map c_hid dn).
      { rewrite Hc, map_app in Hnd. apply NoDup_app in Hnd as (_ & Hd & _). intros Hx. apply (Hd _ Hx). left. }
      destruct (add_call_called false f c G CG) as (G' & EG' & D).
      + rewrite FG, Hfn3. set_solver.
      + rewrite RG. intros [Hx|[_ Hx]]; [|done]. apply smrel_dom in Hx. done.
      + split; [done|]. rewrite IG, OG. split; [|intros; apply Pne1]. intros; apply Pne2.
      + exists G'. split; [done|]. destruct D as [D1 D2 D3 D4 D5 D6 D7 D8]. split_and!; try congruence.
        * intros g x. rewrite D6, RG, map_app, elem_of_app. cbn. rewrite elem_of_list_singleton. clear. naive_solver.
        * intros x cl. rewrite D7, map_app, elem_of_app. cbn. rewrite elem_of_list_singleton. destruct (decide (x = c_hid c)) as [->|Hx].
          -- rewrite lookup_insert. split; [intros [= <-]; auto|]. intros [Hx|[_ Hx]]; [|congruence].
             pose proof (lookup_weaken _ _ _ _ Hx (k_world _ _ HF)). congruence.
          -- rewrite lookup_insert_ne by done. rewrite LG. clear -Hx. naive_solver.
        * intros u h. rewrite D8, XG. setoid_rewrite Hedge. setoid_rewrite elem_of_app. setoid_rewrite elem_of_list_singleton. clear. split.
          -- intros [[?|(c' & ? & ?)]|?]; [auto|right; exists c'; auto|right; exists c; auto].
          -- intros [?|(c' & [?| ->] & ?)]; [auto|left; right; exists c'; auto|auto].
    - split_and!; try done.
      + intros g x. rewrite Hfunc3. cbn. rewrite elem_of_nil. tauto.
      + intros x cl. rewrite Pcalls. cbn. rewrite elem_of_nil. tauto.
      + intros u h. rewrite Pvar. setoid_rewrite elem_of_nil. clear. naive_solver.
    - exists G. split; [done|]. split; [done|]. split; [done|].
      assert (Hedge : forall s d l, has_edge G s d l <-> has_edge G3 s d l) by (intros; unfold has_edge; by rewrite OG).
      assert (HeF : forall u l, has_edge F u f l \/ has_edge F f u l -> False).
      { intros u l Hx. apply HfF. unfold f_nodes. destruct Hx as [Hx|Hx]; apply (k_edge _ _ HF) in Hx as [[? ?]|[? ?]]; set_solver. }
      split; try done.
      + by rewrite VG.
      + by rewrite FG.
      + intros v h Hvn. rewrite XG. split; [|auto]. intros [?|(c & Hc & [(l & Hi & He)|(l & Hi & He)])]; [done|..].
        * exfalso. apply Pedge in He as [He|[[-> _]|[_ He]]]; [eauto|by apply Hif, Hv|]. by apply Q1 in He as [? _].
        * apply Pedge in He as [He|[[_ He]|[-> _]]]; [exfalso; eauto|by eapply Hout|]. exfalso. by apply Hif, Hv.
      + intros v h Hvn Hx. apply XG in Hx as [Hx|(c & Hc & [(l & Hi & He)|(l & Hi & He)])].
        * apply smrel_dom in Hx. done.
        * eauto.
        * exfalso. pose proof He as He0. apply Pedge in He as [He|[[_ He]|[-> He]]]; [eauto|by apply Hvn; eapply Hm|].
          apply (k_edge _ _ C3) in He0 as [[Hx _]|[_ Hx]]; by apply Hif, Pisv.
      + intros. rewrite Hedge. apply Pedge.
      + rewrite VG. done.
  Qed.

  Record good (F : frame) : Prop := Good {
    g_con : consistent U F;
    g_tidy : tidy F;
    g_in : inputs_known F;
    g_isv : forall v, v ∈ vnames F -> isv v;
    g_isf : forall f, f ∈ fnames F -> ~ isv f;
  }.
  Lemma side_labels_elem sd cs l : l ∈ side_labels sd cs <-> exists c n r, c ∈ cs /\ (n, r) ∈ side_refs sd c /\ l = name_proj (c_op c) n.
  Proof.
    unfold side_labels. rewrite elem_of_list_to_set, elem_of_list_join. split.
    - intros (ls & Hls & HlS). apply elem_of_list_fmap in HlS as (c & -> & Hc). apply elem_of_list_fmap in Hls as ([n r] & -> & Hnr). eauto 10.
    - intros (c & n & r & Hc & Hnr & ->). eexists. split; [|apply elem_of_list_fmap; by exists c]. apply elem_of_list_fmap. by exists (n, r).
  Qed.
  Lemma expanded_good F f o m cs I G : good F -> f ∉ f_nodes F -> ~ isv f -> expanded F f m cs I G ->
    (forall c, c ∈ cs -> U !! c_hid c = Some c /\ op_name (c_op c) = o) ->
    (forall l v, smrel m l v -> v ∈ vnames F /\ exists c h, c ∈ cs /\ call_output c l h) -> good G.
  Proof.
    intros [C T K V Fn] Hf Hif [E1 E2 E3 E4 E5 E6 E7 E8 E9 E10 E11] Hcs Hm.
    assert (HGU : forall x cl, f_calls G !! x = Some cl -> U !! x = Some cl).
    { intros x cl Hx. eapply lookup_weaken; [done|]. apply E1. }
    assert (Hold : forall g x cl, in_func F g x -> f_calls G !! x = Some cl -> f_calls F !! x = Some cl).
    { intros g x cl Hg Hx. assert (x ∈ dom (f_calls F)) as [cl' Hcl']%elem_of_dom by (apply (k_calls _ _ C); eauto).
      assert (f_calls G !! x = Some cl') by (apply E7; auto). congruence. }
    assert (Hne : forall g x, in_func F g x -> g <> f).
    { intros g x Hg ->. apply Hf. apply smrel_dom in Hg. apply elem_of_union_r. exact Hg. }
    assert (Hcl : forall x cl, x ∈ map c_hid cs -> U !! x = Some cl -> cl ∈ cs).
    { intros x cl Hx HUx. apply elem_of_list_fmap in Hx as (c' & -> & Hc'). destruct (Hcs c' Hc') as [HU' _]. congruence. }
    split; try done.
    - intros g x cl Hg Hx Hml. destruct (HT x cl (HGU _ _ Hx) Hml) as [H1 H2]. split; [done|]. split; [done|].
      apply E6 in Hg as [Hg|[-> Hg]].
      + pose proof (Hold _ _ _ Hg Hx) as HxF. destruct (T g x cl Hg HxF Hml) as (_ & _ & H3). intros v l.
        pose proof (Hne _ _ Hg) as Hgf. rewrite !E8. intros [[He|[[-> He]|[? _]]]|[He|[[? _]|[-> He]]]]; [by eapply H3; left| |done|by eapply H3; right|done|].
        * apply Hm in He as [He _]. exfalso. apply (k_disj _ _ C g He). by apply smrel_dom in Hg.
        * exfalso. assert (has_edge G g f l) as Hx' by (apply E8; auto).
          apply (k_edge _ _ E1) in Hx' as [[Hx' _]|[_ Hx']]; [|by apply Hif, E9]. apply smrel_dom in Hg. by apply (Fn g), E9.
      + pose proof (Hcl _ _ Hg (HGU _ _ Hx)) as Hclc. destruct (Hcs cl Hclc) as [_ Ho].
        assert (Hmake : forall c, c ∈ cs -> is_make_list (c_op c) = true).
        { intros c Hc. destruct (Hcs c Hc) as [_ Ho']. unfold is_make_list in *. by rewrite Ho', <-Ho. }
        intros v l. rewrite !E8. intros [[He|[[-> He]|[_ He]]]|[He|[[_ He]|[-> He]]]].
        * exfalso. apply Hf. unfold f_nodes. apply (k_edge _ _ C) in He as [[_ ?]|[_ ?]]; clear -H; set_solver.
        * exfalso. apply Hm in He as [He _]. by apply Hif, V.
        * apply E10 in He as [_ He]. apply side_labels_elem in He as (c & n & r & Hc & Hnr & ->). unfold name_proj.
          rewrite (Hmake c Hc). destruct (Hcs c Hc) as [HUc _]. destruct (HT _ c HUc (Hmake c Hc)) as [H3 _].
          rewrite (H3 n r Hnr). done.
        * exfalso. apply Hf. unfold f_nodes. apply (k_edge _ _ C) in He as [[? _]|[? _]]; clear -H; set_solver.
        * apply Hm in He as (_ & c & h & Hc & n & r & Hnr & <- & _). destruct (Hcs c Hc) as [HUc _]. destruct (HT _ c HUc (Hmake c Hc)) as [_ H3].
          destruct (H3 n r Hnr) as [H4 _]. unfold name_proj. by rewrite H4, andb_false_r.
        * exfalso. assert (has_edge G f f l) as Hx' by (apply E8; auto).
          apply (k_edge _ _ E1) in Hx' as [[Hx' _]|[_ Hx']]; by apply Hif, E9.
    - intros g x cl l h Hg Hx Hi. apply E6 in Hg as [Hg|[-> Hg]].
      + destruct (K g x cl l h Hg) as [v Hv]; [by eapply Hold|done|]. exists v. apply E8. auto.
      + assert (l ∈ side_labels Inputs cs) as Hl.
        { destruct Hi as (n & r & Hnr & <- & _). apply side_labels_elem. exists cl, n, r. split; [|done]. eapply Hcl; [done|by apply HGU]. }
        apply E11 in Hl as [v Hv]. exists v. apply E8. auto.
    - intros g. rewrite E3. intros [->%elem_of_singleton|?]%elem_of_union; [done|by apply Fn].
  Qed.

  (** * Grouping *)
  Definition label_of (c : call) (nr : string * ref) : string := name_proj (c_op c) nr.1.
  Lemma connections_ok F avail c : consistent U F -> forall l acc, exists m, connections F avail c l acc = Ok m /\
    (forall lb v, smrel m lb v -> smrel acc lb v \/ (v ∈ avail /\ exists n r, (n, r) ∈ l /\ label_of c (n, r) = lb /\ in_var F v (rhid r))) /\
    (NoDup (map (label_of c) l) -> forall n r v, (n, r) ∈ l -> in_var F v (rhid r) -> v ∈ avail -> smrel m (label_of c (n, r)) v) /\
    (forall lb, lb ∉ map (label_of c) l -> m !! lb = acc !! lb).
  Proof.
    intros HF. induction l as [|[n0 r0] l IH]; intros acc; cbn [connections].
    - exists acc. split; [done|]. split; [auto|]. split; [|done]. intros _ n r v Hx. by apply elem_of_nil in Hx.
    - cbn [fst snd]. case_decide as Hd.
      + rewrite <-(k_refinv_dom _ _ HF) in Hd. apply elem_of_dom in Hd as [X HX]. unfold at_key. rewrite HX. cbn [of_option mbind result_bind].
        set (acc' := if decide _ then _ else _). destruct (IH acc') as (m & -> & H1 & H2 & H3). exists m. split; [done|].
        assert (HXv : forall v, v ∈ X <-> in_var F v (rhid r0)). { intros v. rewrite <-(k_refinv _ _ HF). split; [eauto|]. intros (X' & HX' & ?). congruence. }
        split; [|split].
        * intros lb v Hv. apply H1 in Hv as [Hv|(? & n & r & ? & ? & ?)]; [|right; split; [done|]; exists n, r; split; [by right|done]].
          unfold acc' in Hv. case_decide; [by left|]. apply smrel_insert in Hv as [[-> Hv]|[_ Hv]]; [|by left].
          right. apply elem_of_intersection in Hv as [Hv ?]. split; [done|]. exists n0, r0. split; [left|]. split; [done|]. by apply HXv.
        * cbn. intros [Hn Hnd]%NoDup_cons n r v [[= -> ->]|Hr]%elem_of_cons Hv Ha; [|by apply H2].
          apply smrel_default. rewrite H3 by exact Hn. unfold acc'. rewrite decide_False.
          -- unfold label_of. cbn. rewrite lookup_insert. cbn. apply elem_of_intersection. split; [by apply HXv|done].
          -- intros Hem. apply (not_elem_of_empty v (C := sset)). rewrite <-Hem. apply elem_of_intersection. split; [by apply HXv|done].
        * cbn. intros lb [Hn1 Hn2]%not_elem_of_cons. rewrite H3 by done. unfold acc'. case_decide; [done|]. by rewrite lookup_insert_ne.
      + destruct (IH acc) as (m & -> & H1 & H2 & H3). exists m. split; [done|]. split; [|split].
        * intros lb v Hv. apply H1 in Hv as [Hv|(? & n & r & ? & ? & ?)]; [by left|right; split; [done|]; exists n, r; split; [by right|done]].
        * cbn. intros [Hn Hnd]%NoDup_cons n r v [[= -> ->]|Hr]%elem_of_cons Hv Ha; [|by apply H2].
          exfalso. apply Hd. apply (k_refs _ _ HF). eauto.
        * cbn. intros lb [Hn1 Hn2]%not_elem_of_cons. by apply H3.
  Qed.
  Lemma out_labels c : U !! c_hid c = Some c -> map (label_of c) (c_outs c) = map fst (c_outs c).
  Proof.
    intros HUc. apply map_ext_in. intros [n r] Hnr%elem_of_list_In. unfold label_of, name_proj. cbn.
    destruct (is_make_list (c_op c)) eqn:E; [|done]. destruct (HT _ _ HUc E) as [_ H2]. destruct (H2 n r Hnr) as [-> _]. done.
  Qed.
  Lemma out_label_inj c l h h' : U !! c_hid c = Some c -> call_output c l h -> call_output c l h' -> h = h'.
  Proof.
    intros HUc (n & r & Hnr & Hl & <-) (n' & r' & Hnr' & Hl' & <-). destruct (w_names _ HU _ _ HUc) as [_ Hnd].
    assert (Hlab : forall n r, (n, r) ∈ c_outs c -> name_proj (c_op c) n = n).
    { intros n0 r0 H0. unfold name_proj. destruct (is_make_list (c_op c)) eqn:E; [|done]. destruct (HT _ _ HUc E) as [_ H2]. destruct (H2 _ _ H0) as [-> _]. done. }
    rewrite (Hlab _ _ Hnr) in Hl. rewrite (Hlab _ _ Hnr') in Hl'. subst n n'.
    f_equal. clear -Hnd Hnr Hnr'. induction (c_outs c) as [|[a b] d IH]; [by apply elem_of_nil in Hnr|].
    cbn in Hnd. apply NoDup_cons in Hnd as [Hn Hnd].
    assert (Hin : forall r, (l, r) ∈ d -> l ∈ map fst d). { intros r0 H0. apply elem_of_list_fmap. by exists (l, r0). }
    apply elem_of_cons in Hnr as [Hq1|Hnr], Hnr' as [Hq2|Hnr']; simplify_eq; try done; [| |by apply IH].
    - exfalso. by eapply Hn, Hin.
    - exfalso. by eapply Hn, Hin.
  Qed.

  Definition conn (F : frame) (avail : sset) (c : call) : setmap := match connections F avail c (c_outs c) ∅ with Ok m => m | Err _ => ∅ end.
  Definition gk (F : frame) (avail : sset) (c : call) : gkey := (op_name (c_op c), conn F avail c).
  Lemma conn_ok F avail c : consistent U F -> U !! c_hid c = Some c -> connections F avail c (c_outs c) ∅ = Ok (conn F avail c) /\
    forall l v, smrel (conn F avail c) l v <-> v ∈ avail /\ exists h, call_output c l h /\ in_var F v h.
  Proof.
    intros HF HUc. unfold conn. destruct (connections_ok F avail c HF (c_outs c) ∅) as (m & -> & H1 & H2 & _). split; [done|].
    intros l v. split.
    - intros Hx. apply H1 in Hx as [Hx|(Ha & n & r & Hnr & <- & Hv)]; [by apply smrel_empty in Hx|]. split; [done|]. exists (rhid r). split; [|done]. by exists n, r.
    - intros (Ha & h & (n & r & Hnr & <- & <-) & Hv). apply (H2) with (n := n) (r := r); try done. rewrite out_labels by done. by apply (w_names _ HU _ _ HUc).
  Qed.

  Definition groups_of (F : frame) (avail : sset) (cs : list call) (gs : list group) : Prop :=
    Forall (fun g => g.2 <> [] /\ forall c, c ∈ g.2 -> gk F avail c = g.1) gs /\ mjoin (map snd gs) ≡ₚ cs.
  Lemma add_to_group_ok F avail c cs gs : groups_of F avail cs gs -> groups_of F avail (c :: cs) (add_to_group (gk F avail c) c gs).
  Proof.
    intros [H1 H2]. revert cs H2. induction gs as [|[k ds] gs IH]; intros cs H2.
    - split; [|cbn; rewrite <-H2; done]. apply Forall_singleton. split; [done|]. intros c' ->%elem_of_list_singleton. done.
    - apply Forall_cons in H1 as [[Hne Hk] H1]. cbn [add_to_group]. cbn [fst snd] in *. case_decide as Hd.
      + split.
        * apply Forall_cons. split; [|done]. cbn. split; [by destruct ds|]. intros c' [Hc'| ->%elem_of_list_singleton]%elem_of_app; [|done]. rewrite <-Hd. by apply Hk.
        * cbn in *. rewrite <-H2, <-app_assoc. cbn. by rewrite Permutation_middle.
      + destruct (IH H1 (mjoin (map snd gs)) (reflexivity _)) as [I1 I2]. split.
        * apply Forall_cons. done.
        * cbn in *. rewrite I2, <-H2. by rewrite Permutation_middle.
  Qed.
  Lemma group_calls_ok F avail cs : consistent U F -> (forall c, c ∈ cs -> U !! c_hid c = Some c) ->
    exists gs, group_calls F cs avail Outputs = Ok gs /\ groups_of F avail cs gs.
  Proof.
    intros HF. unfold group_calls.
    cut (forall cs0 gs, (forall c, c ∈ cs -> U !! c_hid c = Some c) -> groups_of F avail cs0 gs -> exists gs', group_loop F avail Outputs cs gs = Ok gs' /\ groups_of F avail (cs ++ cs0) gs').
    { intros Hc Hcs. destruct (Hc [] [] Hcs) as (gs & ? & Hg); [split; [by apply Forall_nil|done]|]. exists gs. by rewrite app_nil_r in Hg. }
    induction cs as [|c cs IH]; intros cs0 gs Hcs Hg; cbn [group_loop]; [eauto|].
    destruct (conn_ok F avail c HF) as [E _]; [apply Hcs; left|]. cbn [side_refs]. rewrite E. cbn [mbind result_bind].
    destruct (IH (c :: cs0) (add_to_group (gk F avail c) c gs)) as (gs' & E' & [G1 G2]); [intros; apply Hcs; by right|by apply add_to_group_ok|].
    exists gs'. split; [done|]. split; [done|]. rewrite G2. cbn. by rewrite Permutation_middle.
  Qed.

  (** * A pass *)
  Context (gord : list group -> list group) (Hgord : forall l, gord l ≡ₚ l).
  Context (creators consumers : sset -> list call) (Hcr : answers U creators).

  (** [h] is in [v] without a call of the frame that created it there *)
  Definition source (F : frame) (v h : string) : Prop := in_var F v h /\
    ~ exists f c cl l, has_edge F f v l /\ in_func F f c /\ f_calls F !! c = Some cl /\ call_output cl l h.
  (** the calls a pass over the variables [A] adds *)
  Definition wanted_in (A : sset) (F : frame) (c : call) : Prop :=
    U !! c_hid c = Some c /\ exists l h v, call_output c l h /\ v ∈ A /\ source F v h.
  Definition wanted (F : frame) (c : call) : Prop := U !! c_hid c = Some c /\ exists l h v, call_output c l h /\ source F v h.

  Record passed (A : sset) (F : frame) (cs : list call) (G : frame) : Prop := Passed {
    pa_good : good G;
    pa_vn : vnames F ⊆ vnames G;
    pa_fn : fnames F ⊆ fnames G;
    pa_old : forall v h, v ∈ vnames F -> in_var G v h <-> in_var F v h;
    pa_new : forall v h, v ∉ vnames F -> in_var G v h -> exists c l, c ∈ cs /\ call_input c l h;
    pa_func : forall g x, g ∈ fnames F -> in_func G g x <-> in_func F g x;
    pa_calls : forall x cl, f_calls G !! x = Some cl <-> f_calls F !! x = Some cl \/ (x ∈ map c_hid cs /\ U !! x = Some cl);
    pa_edge : forall s d l, has_edge F s d l -> has_edge G s d l;
    pa_link : forall c l h v, c ∈ cs -> call_output c l h -> v ∈ A -> in_var F v h -> exists f, in_func G f (c_hid c) /\ has_edge G f v l;
    pa_grow : cs <> [] -> exists f, f ∈ fnames G /\ f ∉ f_nodes F;
    pa_same : cs = [] -> G = F;
    pa_back : forall f v l, v ∈ vnames F -> has_edge G f v l -> has_edge F f v l \/
      (v ∈ A /\ exists c h, c ∈ cs /\ in_func G f (c_hid c) /\ call_output c l h /\ in_var F v h);
    pa_from : forall v f l, v ∈ vnames F -> has_edge G v f l -> has_edge F v f l;
  }.
  Lemma groups_pass A F cs gs : good F -> groups_of F A cs gs -> (forall c, c ∈ cs -> U !! c_hid c = Some c) -> NoDup (map c_hid cs) ->
    exists G, iterM (expand_group ord Outputs false) gs F = (Ok tt, G) /\ passed A F cs G.
  Proof.
    intros HF [Hg Hp] HUc Hnd.
    assert (Hk : forall k ds c, (k, ds) ∈ gs -> c ∈ ds -> gk F A c = k /\ c ∈ cs).
    { intros k ds c Hin Hc. rewrite Forall_forall in Hg. split; [by apply (Hg (k, ds))|]. rewrite <-Hp. apply elem_of_list_join. exists ds. split; [done|]. apply elem_of_list_fmap. by exists (k, ds). }
    destruct (iterM_total (expand_group ord Outputs false) (fun dn G => passed A F (mjoin (map snd dn)) G) gs) with (s := F) as (G & EG & PG).
    - intros dn [[o m] ds] rest G Hgs PG.
      assert (Hin : (o, m, ds) ∈ gs) by (rewrite Hgs; apply elem_of_app; right; left).
      assert (Hds : forall c, c ∈ ds -> U !! c_hid c = Some c /\ op_name (c_op c) = o /\ conn F A c = m).
      { intros c Hc. destruct (Hk _ _ _ Hin Hc) as [Hkc Hcc]. injection Hkc as -> ->. auto. }
      assert (Hne : ds <> []). { rewrite Forall_forall in Hg. by apply (Hg _ Hin). }
      assert (Hm : forall l v, smrel m l v -> v ∈ vnames F /\ v ∈ A /\ forall c, c ∈ ds -> exists h, call_output c l h /\ in_var F v h).
      { intros l v Hv. assert (Hc0 : forall c, c ∈ ds -> v ∈ A /\ exists h, call_output c l h /\ in_var F v h).
        { intros c Hc. destruct (Hds c Hc) as (HUx & _ & <-). apply (conn_ok F _ c (g_con _ HF) HUx). exact Hv. }
        destruct ds as [|c0 ds]; [done|]. split; [destruct (Hc0 c0) as (_ & h & _ & Hin'); [left|]; by apply smrel_dom in Hin'|]. split; [apply (Hc0 c0); left|]. intros c Hc. by apply Hc0. }
      destruct PG as [A1 A2 A3 A4 A5 A6 A7 A8 A9 A10 A11 A12 A13].
      assert (Hndd : NoDup (map c_hid ds)).
      { rewrite <-Hp in Hnd. rewrite Hgs, map_app, mjoin_app in Hnd. cbn in Hnd. rewrite !map_app in Hnd. apply NoDup_app in Hnd as (_ & _ & Hnd). by apply NoDup_app in Hnd as (? & _). }
      destruct (expand_group_ok G o m ds (g_con _ A1) (g_isv _ A1) (g_isf _ A1) Hne Hndd) as (f & I & G' & E' & Hf & Hif & X).
      { intros c Hc. by destruct (Hds c Hc) as (? & ? & _). }
      { intros l v Hv. apply A2. by apply (Hm l v Hv). }
      { intros c l h v Hc Ho Hv. destruct (Hm l v Hv) as (Hvn & _ & Hx). destruct (Hx c Hc) as (h' & Ho' & Hvh).
        apply A4; [done|]. destruct (Hds c Hc) as [HUx _]. by rewrite (out_label_inj c l h h'). }
      exists G'. split; [done|].
      assert (HgG' : good G').
      { eapply (expanded_good G f o m ds I G' A1 Hf Hif X).
        - intros c Hc. by destruct (Hds c Hc) as (? & ? & _).
        - intros l v Hv. destruct (Hm l v Hv) as (Hvn & _ & Hx). split; [by apply A2|]. destruct ds as [|c0 ds]; [done|].
          destruct (Hx c0) as (h & Ho & _); [left|]. exists c0, h. split; [left|done]. }
      assert (Hj : mjoin (map snd (dn ++ [(o, m, ds)])) = mjoin (map snd dn) ++ ds).
      { rewrite map_app, mjoin_app. cbn. by rewrite app_nil_r. }
      rewrite Hj. destruct X as [X1 X2 X3 X4 X5 X6 X7 X8 X9 X10 X11]. split; try done.
      + by transitivity (vnames G).
      + rewrite X3. clear -A3. set_solver.
      + intros v h Hv. rewrite X4 by by apply A2. by apply A4.
      + intros v h Hv Hx. destruct (decide (v ∈ vnames G)) as [HvG|HvG].
        * apply X4 in Hx; [|done]. destruct (A5 v h Hv Hx) as (c & l & ? & ?). exists c, l. split; [apply elem_of_app; by left|done].
        * destruct (X5 v h HvG Hx) as (c & l & ? & ?). exists c, l. split; [apply elem_of_app; by right|done].
      + intros g x Hgn. rewrite X6, A6 by done. split; [|auto]. intros [?|[-> _]]; [done|]. exfalso. apply Hf. unfold f_nodes. apply A3 in Hgn. clear -Hgn. set_solver.
      + intros x cl. rewrite X7, A7, map_app, elem_of_app. clear. tauto.
      + intros sx d l He. apply X8. left. by apply A8.
      + intros c l h v [Hc|Hc]%elem_of_app Ho HvA Hv.
        * destruct (A9 c l h v Hc Ho HvA Hv) as (g & Hgc & He). exists g. split; [apply X6; by left|apply X8; by left].
        * exists f. split; [apply X6; right; split; [done|]; apply elem_of_list_fmap; by exists c|]. apply X8. right. left. split; [done|].
          destruct (Hds c Hc) as (HUx & _ & <-). apply (conn_ok F _ c (g_con _ HF) HUx). split; [done|eauto].
      + intros _. exists f. split; [rewrite X3; clear; set_solver|]. intros Hx. apply Hf. unfold f_nodes in *. clear -Hx A2 A3. set_solver.
      + intros Hx. apply app_nil in Hx as [_ Hx]. done.
      + intros g v l Hv He. apply X8 in He as [He|[[-> He]|[-> _]]].
        * apply A12 in He as [He|(HvA & c & h & Hc & Hgc & Ho & Hvh)]; [by left| |done]. right. split; [done|]. exists c, h.
          split; [apply elem_of_app; by left|]. split; [apply X6; by left|done].
        * right. destruct (Hm l v He) as (_ & HvA & Hx). split; [done|]. destruct ds as [|c0 ds]; [done|].
          destruct (Hx c0) as (h & Ho & Hvh); [left|]. exists c0, h. split; [apply elem_of_app; right; left|]. split; [|done].
          apply X6. right. split; [done|]. left.
        * exfalso. apply Hf. unfold f_nodes. apply A2 in Hv. clear -Hv. set_solver.
      + intros v g l Hv He. apply X8 in He as [He|[[-> He]|[-> He]]].
        * by apply A13.
        * exfalso. apply Hf. unfold f_nodes. apply A2 in Hv. clear -Hv. set_solver.
        * exfalso. apply X10 in He as [He _]. apply He. by apply A2.
    - split; try done; try (by intros; eauto).
      + intros v h Hv Hx. by apply smrel_dom in Hx.
      + intros x cl. cbn. rewrite elem_of_nil. tauto.
      + intros c l h v Hc. by apply elem_of_nil in Hc.
    - exists G. split; [done|]. destruct PG as [A1 A2 A3 A4 A5 A6 A7 A8 A9 A10 A11 A12 A13].
      assert (Hcc : forall c, c ∈ mjoin (map snd gs) <-> c ∈ cs) by (intros c; by rewrite Hp).
      assert (Hnil : mjoin (map snd gs) = [] <-> cs = []).
      { split; intros Hx; rewrite Hx in Hp; [by apply Permutation_nil in Hp|by apply Permutation_nil_r in Hp]. }
      split; try done.
      + intros v h Hv Hx. destruct (A5 v h Hv Hx) as (c & l & Hc & ?). exists c, l. by rewrite <-Hcc.
      + intros x cl. rewrite A7. by rewrite Hp.
      + intros c l h v Hc. apply A9. by apply Hcc.
      + intros Hx. apply A10. by rewrite Hnil.
      + intros Hx. apply A11. by rewrite Hnil.
      + intros f v l Hv He. destruct (A12 f v l Hv He) as [?|(? & c & h & Hc & ?)]; [by left|]. right. split; [done|]. exists c, h. by rewrite <-Hcc.
  Qed.

  Lemma step_pass_in A sk F : good F -> A ⊆ vnames F -> A <> ∅ -> exists G cs,
    expand_step ord eord gord creators consumers Back false sk A F = (Ok tt, G) /\ passed A F cs G /\
    forall c, c ∈ cs <-> wanted_in A F c /\ (sk = true -> c_hid c ∉ dom (f_calls F)).
  Proof.
    intros HF HA Hne. unfold expand_step. rewrite bindM_getM.
    destruct (boundary_ok ord eord Hords U HU Forward F (g_con _ HF) (g_tidy _ HF)) as (B & HB & HBd & HBx).
    unfold get_source_elts. rewrite (bindM_liftR _ _ _ B) by done.
    set (E := filter (fun kX : string * sset => kX.1 ∈ A) B).
    assert (HE : forall v h, smrel E v h <-> v ∈ A /\ source F v h).
    { intros v h. unfold E, smrel. setoid_rewrite map_filter_lookup_Some. cbn. split.
      - intros (X & [HX Hv] & Hh). split; [done|]. pose proof (HA _ Hv) as HvF. assert (smrel B v h) as Hs by by exists X. apply HBx in Hs as [Hi Hn].
        assert (in_var F v h) as Hvh. { destruct Hi as [?|Hi]; [done|]. exfalso. apply (k_disj _ _ (g_con _ HF) v HvF). by apply smrel_dom in Hi. }
        split; [done|]. intros (f & c & cl & l & He & Hf & Hc & Ho). apply Hn. exists f, v, l. split; [done|]. split; [done|].
        right. split; [done|]. exists c, cl. split; [by right|]. done.
      - intros [HvA [Hvh Hn]]. assert (smrel B v h) as (X & HX & Hh).
        { apply HBx. split; [by left|]. intros (f & d & l & He & -> & [[Hx _]|(Hx & c & cl & Hq & Hf & Hc & Ho)]).
          - apply (k_disj _ _ (g_con _ HF) d); [by apply smrel_dom in Hvh|by apply smrel_dom in Hx].
          - apply Hn. exists f, c, cl, l. done. }
        exists X. split; [|done]. done. }
    rewrite decide_False.
    2:{ intros HE0. apply set_choose_L in Hne as [v Hv]. assert (is_Some (B !! v)) as [X HX].
        { apply elem_of_dom. rewrite HBd. apply elem_of_union_l. by apply HA. }
        assert (E !! v = Some X) as Hx by (apply map_filter_lookup_Some; done). rewrite HE0 in Hx. by rewrite lookup_empty in Hx. }
    cbv zeta. set (cs := if sk then _ else _).
    destruct (Hcr (union_values E)) as [Hnd0 Hcs0].
    assert (Hcs : forall c, c ∈ cs <-> c ∈ creators (union_values E) /\ (sk = true -> c_hid c ∉ dom (f_calls F))).
    { intros c. unfold cs. destruct sk; [|split; [done|by intros [? _]]]. rewrite elem_of_list_filter. split; [intros [? ?]; auto|intros [? Hs]; auto]. }
    assert (Hnd : NoDup cs). { unfold cs. destruct sk; [by apply NoDup_filter|done]. }
    assert (HUc : forall c, c ∈ cs -> U !! c_hid c = Some c) by (intros c Hc; apply Hcs in Hc as [Hc _]; by apply Hcs0).
    destruct (group_calls_ok F A cs (g_con _ HF) HUc) as (gs & Egs & Hgs).
    rewrite (bindM_liftR _ _ _ gs) by done.
    assert (Hgs' : groups_of F A cs (gord gs)).
    { destruct Hgs as [H1 H2]. split; [by rewrite Hgord|]. rewrite <-H2. by rewrite Hgord. }
    assert (Hnd' : NoDup (map c_hid cs)).
    { clear -Hnd HUc. clearbody cs. induction cs as [|c cs IH]; [constructor|]. apply NoDup_cons in Hnd as [Hn Hnd]. cbn. apply NoDup_cons. split.
      - intros Hx. apply elem_of_list_fmap in Hx as (c' & Hh & Hc'). apply Hn. assert (U !! c_hid c = Some c) by (apply HUc; left).
        assert (U !! c_hid c' = Some c') by (apply HUc; by right). rewrite Hh in *. congruence.
      - apply IH; [done|]. intros. apply HUc. by right. }
    destruct (groups_pass A F cs (gord gs) HF Hgs' HUc Hnd') as (G & EG & PG).
    exists G, cs. split; [done|]. split; [done|]. intros c. rewrite Hcs, Hcs0. unfold wanted_in. split.
    - intros [(HUx & l & h & Ho & Hh) Hs]. split; [|done]. split; [done|]. apply elem_of_union_values in Hh as (v & Hv). apply HE in Hv as []. eauto 10.
    - intros [(HUx & l & h & v & Ho & HvA & Hs) Hk]. split; [|done]. split; [done|]. exists l, h. split; [done|]. apply elem_of_union_values. exists v. by apply HE.
  Qed.
  Lemma step_pass F : good F -> vnames F <> ∅ -> exists G cs,
    expand_step ord eord gord creators consumers Back false false (dom (f_vs F)) F = (Ok tt, G) /\ passed (vnames F) F cs G /\ forall c, c ∈ cs <-> wanted F c.
  Proof.
    intros HF Hne. destruct (step_pass_in (vnames F) false F HF) as (G & cs & E & PG & Hw); [done|done|].
    exists G, cs. split; [exact E|]. split; [done|]. intros c. rewrite Hw. unfold wanted, wanted_in. split.
    - intros [(? & l & h & v & ? & ? & ?) _]. eauto 10.
    - intros (? & l & h & v & ? & Hs). split; [|done]. split; [done|]. exists l, h, v. split; [done|]. split; [|done]. destruct Hs as [Hs _]. by apply smrel_dom in Hs.
  Qed.

  (** * The loop *)
  Lemma passed_kept A F cs G : good F -> passed A F cs G -> kept_in F G.
  Proof.
    intros HF [A1 A2 A3 A4 A5 A6 A7 A8 A9 A10 A11 A12 A13]. split; [|split; [|split]].
    - intros v Hv. split; [by apply A2|]. intros h. by apply A4.
    - intros f Hf. split; [by apply A3|]. intros c. by apply A6.
    - done.
    - apply map_subseteq_spec. intros x cl Hx. apply A7. by left.
  Qed.
  Lemma kept_in_trans F G H : kept_in F G -> kept_in G H -> kept_in F H.
  Proof.
    intros (A1 & A2 & A3 & A4) (B1 & B2 & B3 & B4). split; [|split; [|split]].
    - intros v Hv. destruct (A1 v Hv) as [Hg Hx]. destruct (B1 v Hg) as [? Hy]. split; [done|]. intros h. by rewrite Hy.
    - intros v Hv. destruct (A2 v Hv) as [Hg Hx]. destruct (B2 v Hg) as [? Hy]. split; [done|]. intros h. by rewrite Hy.
    - auto.
    - by transitivity (f_calls G).
  Qed.
  Lemma kept_in_refl F : kept_in F F.
  Proof. split; [done|]. split; [done|]. split; done. Qed.

  Lemma has_edge_default (F : frame) s d l : has_edge F s d l <-> d ∈ (default ∅ (default ∅ (f_out F !! s) !! l) : sset).
  Proof.
    unfold has_edge. split.
    - intros (m & X & Hm & HX & Hd). by rewrite Hm; cbn; rewrite HX.
    - destruct (f_out F !! s) as [m|] eqn:Hm; cbn; [|rewrite lookup_empty; cbn; by intros ?%elem_of_empty].
      destruct (m !! l) as [X|] eqn:HX; cbn; [eauto|by intros ?%elem_of_empty].
  Qed.
  Lemma source_not G v h c cl l : good G -> in_var G v h -> U !! c = Some cl -> call_output cl l h -> ~ source G v h ->
    exists f l', has_edge G f v l' /\ in_func G f c /\ f_calls G !! c = Some cl /\ call_output cl l' h.
  Proof.
    intros HG Hv HUc Ho Hns.
    assert (Hlk : forall c' cl' l', f_calls G !! c' = Some cl' -> call_output cl' l' h -> c' = c /\ cl' = cl).
    { intros c' cl' l' Hc' Ho'. pose proof (lookup_weaken _ _ _ _ Hc' (k_world _ _ (g_con _ HG))) as HUc'.
      assert (c' = c) as -> by (eapply (w_creator _ HU c' c cl' cl); done). split; [done|]. congruence. }
    destruct (f_calls G !! c) as [cl0|] eqn:Hc.
    2:{ exfalso. apply Hns. split; [done|]. intros (f & c' & cl' & l' & He & Hf & Hc' & Ho'). destruct (Hlk c' cl' l' Hc' Ho') as [-> ->]. congruence. }
    assert (cl0 = cl) as -> by (pose proof (lookup_weaken _ _ _ _ Hc (k_world _ _ (g_con _ HG))); congruence).
    destruct (Exists_dec (fun f => Exists (fun nr : string * ref => rhid nr.2 = h /\ c ∈ (default ∅ (f_fs G !! f) : sset) /\
      v ∈ (default ∅ (default ∅ (f_out G !! f) !! name_proj (c_op cl) nr.1) : sset)) (c_outs cl)) (elements (dom (f_fs G)))) as [Hx|Hx].
    - apply Exists_exists in Hx as (f & _ & Hx). apply Exists_exists in Hx as ([n r] & Hnr & Hr & Hf & He). apply has_edge_default in He.
      exists f, (name_proj (c_op cl) n). split; [done|]. split; [by apply smrel_default|]. split; [done|]. by exists n, r.
    - exfalso. apply Hns. split; [done|]. intros (f & c' & cl' & l' & He & Hf & Hc' & Ho'). destruct (Hlk c' cl' l' Hc' Ho') as [-> ->].
      apply Hx. apply Exists_exists. exists f. split; [apply elem_of_elements; by apply smrel_dom in Hf|].
      destruct Ho' as (n & r & Hnr & <- & Hrh). apply Exists_exists. exists (n, r). split; [done|]. split; [done|]. split; [by apply smrel_default|]. by apply has_edge_default.
  Qed.

  (** * One pass over chosen variables *)
  Theorem expand_pass_ok A sk F : good F -> A ⊆ vnames F -> A <> ∅ -> exists G,
    expand_step ord eord gord creators consumers Back false sk A F = (Ok tt, G) /\
    consistent U G /\ kept_in F G /\
    (forall c, c ∈ dom (f_calls G) <-> c ∈ dom (f_calls F) \/ exists cl, missing_creator U A F c cl) /\
    (forall h, h ∈ dom (f_refs G) <-> h ∈ dom (f_refs F) \/ exists c cl l, missing_creator U A F c cl /\ call_input cl l h) /\
    (sk = false -> forall v h c cl l, v ∈ A -> in_var F v h -> U !! c = Some cl -> call_output cl l h -> connected_creator G v h) /\
    (forall f v l, v ∈ vnames F -> has_edge G f v l -> has_edge F f v l \/
      (v ∈ A /\ exists c cl h, missing_creator U A F c cl /\ in_func G f c /\ call_output cl l h /\ in_var F v h)) /\
    (forall v f l, v ∈ vnames F -> has_edge G v f l -> has_edge F v f l).
  Proof.
    intros HF HA Hne. destruct (step_pass_in A sk F HF HA Hne) as (G & cs & E & PG & Hw). exists G.
    pose proof (passed_kept A F cs G HF PG) as HK.
    split; [done|]. split; [apply PG|]. split; [done|]. destruct PG as [A1 A2 A3 A4 A5 A6 A7 A8 A9 A10 A11 A12 A13].
    assert (Hmiss : forall c cl, missing_creator U A F c cl <-> c_hid cl = c /\ wanted_in A F cl).
    { intros c cl. unfold missing_creator, wanted_in, source. split.
      - intros [HUc Hx]. pose proof (w_key _ HU _ _ HUc) as Hk. split; [done|]. rewrite Hk. split; [done|].
        destruct Hx as (l & h & v & ? & ? & ? & ?). exists l, h, v. done.
      - intros [<- [HUc Hx]]. split; [done|]. destruct Hx as (l & h & v & ? & ? & ? & ?). exists l, h, v. done. }
    assert (Hcalls : forall c, c ∈ dom (f_calls G) <-> c ∈ dom (f_calls F) \/ exists cl, missing_creator U A F c cl).
    { intros c. rewrite !elem_of_dom. split.
      - intros [cl Hc]. apply A7 in Hc as [Hc|[Hc HUc]]; [left; eauto|]. right. apply elem_of_list_fmap in Hc as (c' & -> & Hc'). apply Hw in Hc' as [Hc' _].
        exists c'. apply Hmiss. done.
      - intros [[cl Hc]|[cl Hm]]; [exists cl; apply A7; by left|].
        apply Hmiss in Hm as [<- Hm]. destruct (f_calls F !! c_hid cl) as [cl'|] eqn:Hc; [exists cl'; apply A7; by left|].
        exists cl. apply A7. right. split; [|apply Hm]. apply elem_of_list_fmap. exists cl. split; [done|]. apply Hw. split; [done|]. intros _. by apply not_elem_of_dom. }
    split; [done|]. split.
    - intros h. split.
      + intros Hh. apply (k_refs _ _ (g_con _ A1)) in Hh as [v Hv]. destruct (decide (v ∈ vnames F)) as [HvF|HvF].
        * left. apply A4 in Hv; [|done]. apply (k_refs _ _ (g_con _ HF)). eauto.
        * right. destruct (A5 v h HvF Hv) as (c & l & Hc & Hi). apply Hw in Hc as [Hc _]. exists (c_hid c), c, l. split; [by apply Hmiss|done].
      + intros [Hh|(c & cl & l & Hm & Hi)].
        * apply (k_refs _ _ (g_con _ HF)) in Hh as [v Hv]. apply (k_refs _ _ (g_con _ A1)). exists v. apply A4; [by apply smrel_dom in Hv|done].
        * assert (c ∈ dom (f_calls G)) as Hc by (apply Hcalls; eauto). pose proof Hc as Hc0. apply elem_of_dom in Hc0 as [cl' Hcl'].
          assert (cl' = cl) as ->. { pose proof (lookup_weaken _ _ _ _ Hcl' (k_world _ _ (g_con _ A1))). destruct Hm as [HUc _]. congruence. }
          apply (k_calls _ _ (g_con _ A1)) in Hc as [f Hf].
          destruct (g_in _ A1 f c cl l h Hf Hcl' Hi) as [u Hu]. apply (k_refs _ _ (g_con _ A1)). exists u. eapply (k_ins _ _ (g_con _ A1)); done.
    - split; [|split; [|exact A13]].
      2:{ intros f v l Hv He. destruct (A12 f v l Hv He) as [?|(? & c & h & Hc & ? & ? & ?)]; [by left|]. right. split; [done|].
          exists (c_hid c), c, h. split; [apply Hmiss; split; [done|]; by apply Hw|done]. }
      intros -> v h c cl l HvA Hv HUc Ho. pose proof (w_key _ HU _ _ HUc) as Hkey.
      destruct (decide (c ∈ map c_hid cs)) as [Hc|Hc].
      + pose proof Hc as Hc0. apply elem_of_list_fmap in Hc0 as (cl' & Hh & Hcl').
        assert (cl' = cl) as ->. { pose proof Hcl' as Hx. apply Hw in Hx as [[HUx _] _]. rewrite <-Hh in HUx. congruence. }
        destruct (A9 cl l h v Hcl' Ho HvA Hv) as (f & Hf & He). exists f, (c_hid cl), cl, l. split; [done|]. split; [done|]. split; [|done].
        apply A7. right. rewrite Hkey. done.
      + assert (~ source F v h) as Hs.
        { intros Hs. apply Hc. apply elem_of_list_fmap. exists cl. split; [done|]. apply Hw. split; [|done]. split; [by rewrite Hkey|]. exists l, h, v. done. }
        destruct (source_not F v h c cl l HF Hv HUc Ho Hs) as (f & l' & He & Hf & Hcl & Ho'). exists f, c, cl, l'. split; [by apply A8|]. split; [|split; [|done]].
        * apply A6; [by apply smrel_dom in Hf|done].
        * apply A7. by left.
  Qed.

  Context (rank : string -> nat).
  Context (Hrank : forall c cl l h l' h', U !! c = Some cl -> call_output cl l h -> call_input cl l' h' -> rank h' < rank h).

  (** sources created by some recorded call *)
  Definition pending (F : frame) (v h : string) : Prop := source F v h /\ exists c l, U !! c_hid c = Some c /\ call_output c l h.

  Lemma pending_pass F cs G : good F -> passed (vnames F) F cs G -> (forall c, c ∈ cs <-> wanted F c) -> forall v h, pending G v h ->
    exists v' h', pending F v' h' /\ rank h < rank h'.
  Proof.
    intros HF [A1 A2 A3 A4 A5 A6 A7 A8 A9 A10 A11 A12 A13] Hw v h [[Hv Hs] (c & l & HUc & Ho)].
    destruct (decide (v ∈ vnames F)) as [HvF|HvF].
    - exfalso. apply A4 in Hv; [|done].
      assert (HsF : source F v h).
      { split; [done|]. intros (f & c' & cl & l' & He & Hf & Hc & Ho'). apply Hs. exists f, c', cl, l'. split; [by apply A8|]. split; [|split; [|done]].
        - apply A6; [by apply smrel_dom in Hf|done].
        - apply A7. by left. }
      assert (Hc : c ∈ cs). { apply Hw. split; [done|]. eauto. }
      destruct (A9 c l h v Hc Ho HvF Hv) as (f & Hf & He). apply Hs. exists f, (c_hid c), c, l. split; [done|]. split; [done|]. split; [|done].
      apply A7. right. split; [|done]. apply elem_of_list_fmap. by exists c.
    - destruct (A5 v h HvF Hv) as (c' & l' & Hc' & Hi). apply Hw in Hc' as (HU' & lo & h' & v' & Ho' & Hs').
      exists v', h'. split; [split; [done|]; eauto|]. eapply Hrank; [exact HU'|done|done].
  Qed.

  Definition elt (F : frame) (h : string) : Prop := h ∈ dom (f_refs F).
  Definition within (S : string -> Prop) (F0 F : frame) : Prop :=
    (forall h, elt F h -> history U S h) /\ (forall c, c ∈ dom (f_calls F) -> c ∈ dom (f_calls F0) \/ history_call U S c).
  Lemma within_pass S F0 F cs G : good F -> passed (vnames F) F cs G -> (forall c, c ∈ cs <-> wanted F c) -> within S F0 F -> within S F0 G.
  Proof.
    intros HF [A1 A2 A3 A4 A5 A6 A7 A8 A9 A10 A11 A12 A13] Hw [W1 W2].
    assert (Hcall : forall c, c ∈ cs -> exists h l, history U S h /\ U !! c_hid c = Some c /\ call_output c l h).
    { intros c Hc. apply Hw in Hc as (HUc & l & h & v & Ho & [Hs _]). exists h, l. split; [|done]. apply W1. apply (k_refs _ _ (g_con _ HF)). eauto. }
    split.
    - intros h Hh. apply (k_refs _ _ (g_con _ A1)) in Hh as [v Hv]. destruct (decide (v ∈ vnames F)) as [HvF|HvF].
      + apply A4 in Hv; [|done]. apply W1. apply (k_refs _ _ (g_con _ HF)). eauto.
      + destruct (A5 v h HvF Hv) as (c & l & Hc & Hi). destruct (Hcall c Hc) as (h' & l' & Hh' & HUc & Ho). eapply history_input; done.
    - intros c [cl Hc]%elem_of_dom. apply A7 in Hc as [Hc|[Hc HUc]]; [apply W2, elem_of_dom; eauto|]. right.
      apply elem_of_list_fmap in Hc as (c' & -> & Hc'). destruct (Hcall c' Hc') as (h' & l' & Hh' & HU' & Ho). exists h', c', l'. done.
  Qed.

  Lemma loop_ok P F0 r : forall F, good F -> vnames F <> ∅ -> (forall v h, pending F v h -> rank h < r) -> within P F0 F ->
    exists n G, (forall k, n <= k -> expand_loop ord eord gord creators consumers Back false false true k F = (Ok tt, G)) /\
      good G /\ kept_in F G /\ within P F0 G /\ forall v h, ~ pending G v h.
  Proof.
    induction r as [|r IH]; intros F HF Hne Hp HW; destruct (step_pass F HF Hne) as (G & cs & EG & PG & Hw).
    - assert (cs = []) as Hnil.
      { destruct cs as [|c cs]; [done|]. exfalso. assert (wanted F c) as (HUc & l & h & v & Ho & Hs) by (apply Hw; left).
        assert (rank h < 0); [|lia]. apply (Hp v h). split; [done|]. eauto. }
      pose proof (pa_same _ _ _ _ PG Hnil) as ->. exists 1, F. split; [|split; [done|]; split; [apply kept_in_refl|]; split; [done|]; intros v h Hx; apply Hp in Hx; lia].
      intros [|k] Hk; [lia|]. cbn [expand_loop]. rewrite bindM_getM, (bindM_step _ _ _ _ _ EG), bindM_getM. by rewrite decide_True by done.
    - destruct (decide (cs = [])) as [Hnil|Hnil].
      + pose proof (pa_same _ _ _ _ PG Hnil) as ->. exists 1, F. split; [|split; [done|]; split; [apply kept_in_refl|]; split; [done|]].
        * intros [|k] Hk; [lia|]. cbn [expand_loop]. rewrite bindM_getM, (bindM_step _ _ _ _ _ EG), bindM_getM. by rewrite decide_True by done.
        * intros v h [Hs (c & l & HUc & Ho)]. assert (c ∈ cs) as Hc by (apply Hw; split; [done|]; eauto). rewrite Hnil in Hc. by apply elem_of_nil in Hc.
      + destruct (IH G) as (n & G' & EL & HG' & HK & HW' & Hend).
        * apply PG.
        * intros He. apply Hne. pose proof (pa_vn _ _ _ _ PG) as Hx. rewrite He in Hx. clear -Hx. set_solver.
        * intros v h Hx. destruct (pending_pass F cs G HF PG Hw v h Hx) as (v' & h' & Hp' & Hlt). apply Hp in Hp'. lia.
        * by eapply within_pass.
        * exists (S n), G'. split; [|split; [done|]; split; [|done]; eapply kept_in_trans; [by eapply passed_kept|done]].
          intros [|k] Hk; [lia|]. cbn [expand_loop]. rewrite bindM_getM, (bindM_step _ _ _ _ _ EG), bindM_getM.
          rewrite decide_False; [apply EL; lia|]. intros Hsz. destruct (pa_grow _ _ _ _ PG Hnil) as (f & Hf1 & Hf2).
          assert (f_nodes F ⊂ f_nodes G) as Hsub.
          { split; [|intros Hx; apply Hf2, Hx; apply elem_of_union_r; done]. pose proof (pa_vn _ _ _ _ PG). pose proof (pa_fn _ _ _ _ PG). unfold f_nodes. clear -H H0. set_solver. }
          apply subset_size in Hsub. lia.
  Qed.

  Theorem expand_back_ok F : good F -> vnames F <> ∅ -> exists n G,
    (forall k, n <= k -> expand_loop ord eord gord creators consumers Back false false true k F = (Ok tt, G)) /\
    consistent U G /\ kept_in F G /\
    (forall h, h ∈ dom (f_refs G) <-> history U (elt F) h) /\
    (forall c, c ∈ dom (f_calls G) <-> c ∈ dom (f_calls F) \/ history_call U (elt F) c).
  Proof.
    intros HF Hne.
    assert (exists r, forall h, h ∈ dom (f_refs F) -> rank h < r) as [r Hr].
    { clear. generalize (dom (f_refs F)). intros X. induction X as [|x X Hx [r Hr]] using set_ind_L; [exists 0; set_solver|].
      exists (S (r + rank x)). intros h [->%elem_of_singleton|Hh]%elem_of_union; [lia|]. apply Hr in Hh. lia. }
    destruct (loop_ok (elt F) F r F HF Hne) as (n & G & EL & HG & HK & [W1 W2] & Hend).
    { intros v h [[Hv _] _]. apply Hr. apply (k_refs _ _ (g_con _ HF)). eauto. }
    { split; [intros h Hh; by constructor|]. auto. }
    exists n, G. split; [done|]. split; [apply HG|]. split; [done|].
    destruct HK as (K1 & K2 & K3 & K4).
    (* closed under history *)
    assert (Hcl : forall h c cl l, elt G h -> U !! c = Some cl -> call_output cl l h -> c ∈ dom (f_calls G) /\ forall l' h', call_input cl l' h' -> elt G h').
    { intros h c cl l Hh HUc Ho. apply (k_refs _ _ (g_con _ HG)) in Hh as [v Hv].
      pose proof (w_key _ HU _ _ HUc) as Hkey.
      assert (~ source G v h) as Hns. { intros Hs. apply (Hend v h). split; [done|]. exists cl, l. rewrite Hkey. done. }
      destruct (source_not G v h c cl l HG Hv HUc Ho Hns) as (f & l' & He & Hf & Hc' & _).
      split; [apply elem_of_dom; eauto|]. intros l'' h' Hi.
      destruct (g_in _ HG f c cl l'' h' Hf Hc' Hi) as [u Hu]. apply (k_refs _ _ (g_con _ HG)). exists u.
      eapply (k_ins _ _ (g_con _ HG)); done. }
    assert (Hsub : forall h, elt F h -> elt G h).
    { intros h Hh. apply (k_refs _ _ (g_con _ HF)) in Hh as [v Hv]. apply (k_refs _ _ (g_con _ HG)). exists v. apply K1; [by apply smrel_dom in Hv|done]. }
    assert (Hhist : forall h, history U (elt F) h -> elt G h).
    { intros h Hh. induction Hh as [h Hh|h c cl l l' h' _ IH HUc Ho Hi]; [auto|]. by eapply Hcl. }
    split.
    - intros h. split; [apply W1|apply Hhist].
    - intros c. split; [apply W2|]. intros [Hc|(h & cl & l & Hh & HUc & Ho)].
      + eapply subseteq_dom; [exact K4|done].
      + by eapply Hcl; [apply Hhist|..].
  Qed.
End expand.
