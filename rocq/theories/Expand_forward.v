(** Expanding a frame forwards: proofs for C51.  The mirror image of Expand_proofs.v. *)
From stdpp Require Import base strings gmap list.
From Verif Require Import Base PyDict Refs Storage Frame Spec_Frame Frame_base Frame_names Frame_ok Frame_ok2 Frame_ok3
  FrameExpand Spec_Expand Spec_Forward Frame_reach2 Frame_stream Expand_proofs.

Section forward.
  Context (ord : sset -> list string) (eord : gset edge3 -> list edge3) (Hords : orders ord eord).
  Context (U : gmap string call) (HU : world U).
  Context (isv : string -> Prop).
  Context (Hnewv : forall c cl l h G v, U !! c = Some cl -> call_output cl l h -> get_new_vname l G = Ok v -> isv v).
  Context (Hnewf : forall c cl G f, U !! c = Some cl -> get_new_fname (op_name (c_op cl)) G = Ok f -> ~ isv f).
  Local Notation phase := (phase U isv).
  Local Notation phase_ext := (phase_ext U isv).
  Local Notation phase_func := (phase_func U isv).
  Local Notation add_call_called := (add_call_called ord eord Hords U HU).
  Local Notation ph_con := (ph_con U isv).
  Local Notation ph_fs := (ph_fs U isv).
  Local Notation ph_vn := (ph_vn U isv).
  Local Notation ph_edge := (ph_edge U isv).
  Local Notation ph_ne := (ph_ne U isv).

  Lemma phase_into F f E I G v l : consistent U F -> phase F f E I G -> v ∈ vnames G -> ~ I v l -> f ∉ f_nodes F -> ~ isv f ->
    exists G', add_edge false v f l G = (Ok tt, G') /\ phase F f E (fun s l' => I s l' \/ (s = v /\ l' = l)) G'.
  Proof.
    intros HF [P1 P2 P3 P4 P5 P6 P7 P8] Hv Hn Hf Hif.
    assert (Hff : f ∈ fnames G). { unfold fnames. rewrite P2, dom_insert_L. set_solver. }
    assert (HfF : forall d l, ~ has_edge F d f l).
    { intros d l' He. apply Hf. unfold f_nodes. apply (k_edge _ _ HF) in He as [[? ?]|[? ?]]; set_solver. }
    destruct (add_edge_new false v f l G) as [G' HG'].
    { rewrite (k_out _ _ P1). by apply elem_of_union_l. } { rewrite (k_inp _ _ P1). by apply elem_of_union_r. }
    { rewrite P6. intros [He|[[-> He]|[_ He]]]; [by eapply HfF| |done]. by apply Hif, P7. }
    exists G'. split; [done|].
    assert (consistent U G').
    { eapply (add_edge_consistent ord eord Hords U HU); [done| |done]. left. split; [done|]. by rewrite P2, lookup_insert. }
    assert (labels_ne (f_out G') f /\ labels_ne (f_inp G') f) by (eapply add_edge_ne; done).
    apply add_edge_ok in HG' as (i & o & -> & Hi & Ho & Hro & Hri); [|exact (k_mirror _ _ P1)].
    split; try done. intros s d l'. rewrite has_edge_arel. cbn. rewrite Hro, <-has_edge_arel, P6. clear. naive_solver.
  Qed.

  Lemma phase_new F f E I G l : consistent U F -> phase F f E I G -> f ∉ f_nodes F -> ~ isv f ->
    (exists c cl h, U !! c = Some cl /\ call_output cl l h) ->
    (forall g, g ∈ fnames F -> ~ isv g) ->
    exists v G', v ∉ vnames F /\ (w <- new_var l ;; add_edge false f w l)%pym G = (Ok tt, G') /\ phase F f (fun d l' => E d l' \/ (d = v /\ l' = l)) I G'.
  Proof.
    intros HF [P1 P2 P3 P4 P5 P6 P7 P8] Hf Hif (c & cl & h & Hc & Hci) HisF.
    destruct (get_new_vname_ok l G) as (v & Ev & Hv). exists v.
    assert (Hvv : isv v) by by eapply Hnewv.
    assert (Hff : f ∈ fnames G). { unfold fnames. rewrite P2, dom_insert_L. set_solver. }
    assert (Hvf : v <> f) by by intros ->.
    assert (HvG : v ∉ f_nodes G).
    { unfold f_nodes. intros [?|Hx]%elem_of_union; [done|]. (* a function with the name of a variable *)
      unfold fnames in Hx. rewrite P2, dom_insert_L in Hx. apply elem_of_union in Hx as [?|Hx]; [set_solver|]. revert Hvv. by apply HisF. }
    unfold new_var. unfold bindM at 1 2 3. unfold getM, liftR at 1. rewrite Ev. cbn [bindM].
    set (G1 := set_out (<[v:=∅]> (f_out G)) (set_inp (<[v:=∅]> (f_inp G)) (set_vs (<[v:=∅]> (f_vs G)) G))).
    assert (HG1 : add_var v G = (Ok tt, G1)) by done.
    assert (C1 : consistent U G1) by by eapply (add_var_consistent U v G).
    unfold bindM. rewrite HG1. cbn [retM].
    assert (He1 : forall s d l, has_edge G1 s d l <-> has_edge G s d l).
    { intros s d l'. rewrite !has_edge_arel. cbn. rewrite arel_insert_empty; [done|]. by rewrite (k_out _ _ P1). }
    assert (Hvn1 : vnames G1 = {[v]} ∪ vnames G). { unfold vnames. cbn. by rewrite dom_insert_L. }
    destruct (add_edge_new false f v l G1) as [G' HG'].
    { rewrite (k_out _ _ C1). by apply elem_of_union_r. } { rewrite (k_inp _ _ C1). apply elem_of_union_l. rewrite Hvn1. set_solver. }
    { rewrite He1. intros He. apply HvG. unfold f_nodes. apply (k_edge _ _ P1) in He as [[_ ?]|[_ ?]]; apply elem_of_union; auto. }
    exists G'. split; [set_solver|]. split; [done|].
    assert (C2 : consistent U G').
    { eapply (add_edge_consistent ord eord Hords U HU); [exact C1| |done]. right. rewrite Hvn1. split; [set_solver|]. cbn. by rewrite P2, lookup_insert. }
    assert (N1 : labels_ne (f_out G1) f /\ labels_ne (f_inp G1) f).
    { split; intros l'; cbn; rewrite lookup_insert_ne by done; apply P8. }
    assert (labels_ne (f_out G') f /\ labels_ne (f_inp G') f) by (eapply add_edge_ne; done).
    apply add_edge_ok in HG' as (i & o & -> & Hi & Ho & Hro & Hri); [|exact (k_mirror _ _ C1)].
    split; try done.
    - intros u k. rewrite <-P3, !in_var_smrel. cbn. apply smrel_insert_empty. done.
    - unfold vnames in *. cbn. rewrite dom_insert_L. clear -P4. set_solver.
    - intros s d l'. rewrite has_edge_arel. cbn. rewrite Hro. change (arel (<[v:=∅]> (f_out G)) s l' d) with (arel (f_out G1) s l' d).
      rewrite <-has_edge_arel, He1, P6. clear. naive_solver.
    - intros w. change (w ∈ vnames G1 -> isv w). rewrite Hvn1. intros [->%elem_of_singleton|?]%elem_of_union; [done|by apply P7].
  Qed.

  Lemma phase_glue_in F f G (m : setmap) : consistent U F -> f ∉ f_nodes F -> ~ isv f -> phase F f (fun _ _ => False) (fun _ _ => False) G ->
    (forall l v, smrel m l v -> v ∈ vnames F) ->
    exists G', glue ord Inputs false f m G = (Ok tt, G') /\ phase F f (fun _ _ => False) (fun s l => smrel m l s) G'.
  Proof.
    intros HF Hf Hif HG Hm. unfold glue.
    match goal with |- context [iterM ?b _] => set (body := b) end.
    destruct (iterM_total body (fun dn G => phase F f (fun _ _ => False) (fun d l => l ∈ dn /\ smrel m l d) G) (ord (dom m))) with (s := G) as (G' & E' & P').
    - intros dn l rest G1 Hl P1. unfold body. cbn [glue_edge].
      assert (Hld : l ∉ dn). { pose proof (ord_nodup ord eord Hords (dom m)) as Hnd. rewrite Hl in Hnd. apply NoDup_app in Hnd as (_ & Hd & _). intros Hx. apply (Hd l Hx). left. }
      set (X := default ∅ (m !! l)).
      destruct (iterM_total (fun v => add_edge false v f l) (fun dv G => phase F f (fun _ _ => False) (fun d l' => (l' ∈ dn /\ smrel m l' d) \/ (l' = l /\ d ∈ dv)) G) (ord X))
        with (s := G1) as (G2 & E2 & P2).
      + intros dv v rest' G3 Hv P3. assert (HvX : v ∈ X). { apply (ord_elem ord eord Hords). rewrite Hv. apply elem_of_app. right. left. }
        destruct (phase_into F f _ _ G3 v l HF P3) as (G4 & E4 & P4).
        * apply (ph_vn _ _ _ _ _ P3). eapply Hm. apply smrel_default. exact HvX.
        * intros [[? _]|[_ Hx]]; [done|]. pose proof (ord_nodup ord eord Hords X) as Hnd. rewrite Hv in Hnd. apply NoDup_app in Hnd as (_ & Hd & _). apply (Hd v Hx). left.
        * done.
        * done.
        * exists G4. split; [done|]. eapply phase_ext; [..|exact P4]; [done|]. intros d l'. rewrite elem_of_app, elem_of_list_singleton. clear. naive_solver.
      + eapply phase_ext; [..|exact P1]; [done|]. intros d l'. rewrite elem_of_nil. tauto.
      + exists G2. split; [done|]. eapply phase_ext; [..|exact P2]; [done|]. intros d l'. rewrite elem_of_app, elem_of_list_singleton.
        rewrite (ord_elem ord eord Hords), (smrel_default m l' d). unfold X. clear. split; [intros [[? ?]|[-> ?]]; auto|intros [[?| ->] ?]; auto].
    - eapply phase_ext; [..|exact HG]; [done|]. intros d l. rewrite elem_of_nil. tauto.
    - exists G'. split; [done|]. eapply phase_ext; [..|exact P']; [done|]. intros d l. cbv beta. rewrite (ord_elem ord eord Hords). split; [tauto|].
      intros Hx. split; [by eapply smrel_dom|done].
  Qed.

  Lemma phase_dual_out F f I G cs : consistent U F -> f ∉ f_nodes F -> ~ isv f -> (forall g, g ∈ fnames F -> ~ isv g) ->
    phase F f (fun _ _ => False) I G -> (forall c, c ∈ cs -> U !! c_hid c = Some c) ->
    exists G' E, iterM (dual_var ord Inputs false f cs ∅) (ord (side_labels Outputs cs)) G = (Ok tt, G') /\ phase F f E I G' /\
      (forall s l, E s l -> s ∉ vnames F /\ l ∈ side_labels Outputs cs) /\ (forall l, l ∈ side_labels Outputs cs -> exists s, E s l).
  Proof.
    intros HF Hf Hif HisF HG Hcs.
    destruct (iterM_total (dual_var ord Inputs false f cs ∅) (fun dn G => exists E, phase F f E I G /\
      (forall s l, E s l -> s ∉ vnames F /\ l ∈ dn) /\ (forall l, l ∈ dn -> exists s, E s l)) (ord (side_labels Outputs cs))) with (s := G) as (G' & E' & E & P' & Q1 & Q2).
    - intros dn l rest G1 Hl (E & P1 & Q1 & Q2).
      assert (HlS : l ∈ side_labels Outputs cs). { apply (ord_elem ord eord Hords). rewrite Hl. apply elem_of_app. right. left. }
      destruct (phase_new F f E I G1 l HF P1 Hf Hif) as (v & G2 & Hv & E2 & P2).
      { unfold side_labels in HlS. apply elem_of_list_to_set, elem_of_list_join in HlS as (ls & Hls & HlS).
        apply elem_of_list_fmap in HlS as (c & -> & Hc). apply elem_of_list_fmap in Hls as ([n r] & -> & Hnr).
        exists (c_hid c), c, (rhid r). split; [by apply Hcs|]. exists n, r. done. }
      { done. }
      exists G2. split.
      + unfold dual_var. rewrite decide_False by set_solver. rewrite bindM_getM. cbn [glue_edge dual]. exact E2.
      + eexists. split; [exact P2|]. split.
        * intros s l' [Hx|[-> ->]]; [apply Q1 in Hx as [? ?]; split; [done|]; apply elem_of_app; auto|]. split; [done|]. apply elem_of_app. right. left.
        * intros l' [Hx|Hx%elem_of_list_singleton]%elem_of_app; [apply Q2 in Hx as [s ?]; eauto|]. subst l'. exists v. auto.
    - eexists. split; [exact HG|]. split; [done|]. intros l Hl. by apply elem_of_nil in Hl.
    - exists G', E. split; [done|]. split; [done|]. setoid_rewrite (ord_elem ord eord Hords) in Q1. setoid_rewrite (ord_elem ord eord Hords) in Q2. done.
  Qed.

  (** * A group *)
  Record grown (F : frame) (f : string) (m : setmap) (cs : list call) (E : string -> string -> Prop) (G : frame) : Prop := Grown {
    gr_con : consistent U G;
    gr_vn : vnames F ⊆ vnames G;
    gr_fn : fnames G = {[f]} ∪ fnames F;
    gr_old : forall v h, v ∈ vnames F -> in_var G v h <-> in_var F v h;
    gr_new : forall v h, v ∉ vnames F -> in_var G v h -> exists c l, c ∈ cs /\ call_output c l h /\ has_edge G f v l;
    gr_func : forall g x, in_func G g x <-> in_func F g x \/ (g = f /\ x ∈ map c_hid cs);
    gr_calls : forall x cl, f_calls G !! x = Some cl <-> f_calls F !! x = Some cl \/ (x ∈ map c_hid cs /\ U !! x = Some cl);
    gr_edge : forall s d l, has_edge G s d l <-> has_edge F s d l \/ (s = f /\ E d l) \/ (d = f /\ smrel m l s);
    gr_isv : forall v, v ∈ vnames G -> isv v;
    gr_in : forall s l, E s l -> s ∉ vnames F /\ l ∈ side_labels Outputs cs;
    gr_in' : forall l, l ∈ side_labels Outputs cs -> exists s, E s l;
  }.
  Lemma expand_group_in_ok F o m cs : consistent U F -> (forall v, v ∈ vnames F -> isv v) -> (forall g, g ∈ fnames F -> ~ isv g) ->
    cs <> [] -> NoDup (map c_hid cs) -> (forall c, c ∈ cs -> U !! c_hid c = Some c /\ op_name (c_op c) = o) ->
    (forall l v, smrel m l v -> v ∈ vnames F) ->
    (forall c l h v, c ∈ cs -> call_input c l h -> smrel m l v -> in_var F v h) ->
    exists f E G, expand_group ord Inputs false (o, m, cs) F = (Ok tt, G) /\ f ∉ f_nodes F /\ ~ isv f /\ grown F f m cs E G.
  Proof.
    intros HF Hv HisF Hne Hnd Hcs Hm Hout.
    destruct (get_new_fname_ok o F) as (f & Ef & Hf).
    assert (Hif : ~ isv f). { destruct cs as [|c cs]; [done|]. destruct (Hcs c) as [HUc Ho]; [left|]. subst o. by eapply Hnewf. }
    assert (HfF : f ∉ f_nodes F). { unfold f_nodes. intros [?|?]%elem_of_union; [by apply Hif, Hv|done]. }
    destruct (phase_func F f HF Hv HfF) as (G1 & E1 & P1).
    destruct (phase_glue_in F f G1 m HF HfF Hif P1 Hm) as (G2 & E2 & P2).
    destruct (phase_dual_out F f _ G2 cs HF HfF Hif HisF P2) as (G3 & E & E3 & P3 & Q1 & Q2); [intros c Hc; by apply Hcs|].
    exists f, E. unfold expand_group, choose_func.
    assert (Hchoose : forall (k : string -> M frame unit), bindM (F0 <- getM ;; m0 <- retM None ;;
       match m0 with Some f => retM f | None => f0 <- liftR (get_new_fname o F0) ;; add_func f0 ;;; retM f0 end)%pym k F = k f G1).
    { intros k. unfold bindM, getM, retM, liftR. rewrite Ef. cbv beta iota. rewrite E1. done. }
    cbv beta iota. rewrite Hchoose. rewrite (bindM_step _ _ _ _ _ E2). rewrite bindM_getM.
    assert (HfG2 : f ∈ dom (f_out G2)). { rewrite (k_out _ _ (ph_con _ _ _ _ _ P2)). apply elem_of_union_r. unfold fnames. rewrite (ph_fs _ _ _ _ _ P2), dom_insert_L. set_solver. }
    apply elem_of_dom in HfG2 as [lm Hlm]. rewrite (bindM_liftR _ _ _ lm) by by apply at_key_ok.
    assert (Hdom : dom lm = ∅).
    { apply set_eq. intros l. split; [|set_solver]. intros [X HX]%elem_of_dom. exfalso.
      destruct (set_choose_or_empty X) as [[u Hu]|Hem].
      - assert (has_edge G2 f u l) as He by by exists lm, X.
        apply (ph_edge _ _ _ _ _ P2) in He as [He|[[_ []]|[_ He]]].
        + apply HfF. unfold f_nodes. apply (k_edge _ _ HF) in He as [[? _]|[? _]]; apply elem_of_union; auto.
        + apply Hm, Hv in He. done.
      - destruct (ph_ne _ _ _ _ _ P2) as [Hn _]. specialize (Hn l). rewrite Hlm in Hn. cbn in Hn. apply Hn. rewrite HX. f_equal. by apply leibniz_equiv. }
    rewrite Hdom. cbn [dual]. rewrite (bindM_step _ _ _ _ _ E3).
    destruct P3 as [C3 Pfs Pvar Pvn Pcalls Pedge Pisv [Pne1 Pne2]].
    assert (Hfn3 : fnames G3 = {[f]} ∪ fnames F). { unfold fnames. by rewrite Pfs, dom_insert_L. }
    assert (Hfunc3 : forall g x, in_func G3 g x <-> in_func F g x).
    { intros g x. rewrite !in_func_smrel, Pfs. apply smrel_insert_empty. done. }
    destruct (iterM_total (fun c => add_call ord true false f c) (fun dn G => consistent U G /\ f_inp G = f_inp G3 /\ f_out G = f_out G3 /\
      vnames G = vnames G3 /\ fnames G = fnames G3 /\
      (forall g x, in_func G g x <-> in_func F g x \/ (g = f /\ x ∈ map c_hid dn)) /\
      (forall x cl, f_calls G !! x = Some cl <-> f_calls F !! x = Some cl \/ (x ∈ map c_hid dn /\ U !! x = Some cl)) /\
      (forall u h, in_var G u h <-> in_var F u h \/ exists c, c ∈ dn /\ ((exists l, call_input c l h /\ has_edge G3 u f l) \/
        (exists l, call_output c l h /\ has_edge G3 f u l)))) cs) with (s := G3) as (G & EG & CG & IG & OG & VG & FG & RG & LG & XG).
    - intros dn c rest G Hc (CG & IG & OG & VG & FG & RG & LG & XG).
      assert (Hcc : c ∈ cs) by (rewrite Hc; apply elem_of_app; right; left).
      destruct (Hcs c Hcc) as [HUc Ho].
      assert (Hedge : forall s d l, has_edge G s d l <-> has_edge G3 s d l) by (intros; unfold has_edge; by rewrite OG).
      assert (Hcd : c_hid c ∉ map c_hid dn).
      { rewrite Hc, map_app in Hnd. apply NoDup_app in Hnd as (_ & Hd & _). intros Hx. apply (Hd _ Hx). left. }
      destruct (add_call_called false f c G CG) as (G' & EG' & D).
      + rewrite FG, Hfn3. set_solver.
      + rewrite RG. intros [Hx|[_ Hx]]; [|done]. apply smrel_dom in Hx. done.
      + split; [done|]. rewrite IG, OG. split; [|intros; apply Pne1]. intros; apply Pne2.
      + exists G'. split; [done|]. destruct D as [D1 D2 D3 D4 D5 D6 D7 D8]. split_and!; try congruence.
        * intros g x. rewrite D6, RG, map_app, elem_of_app. cbn. rewrite elem_of_list_singleton. clear. naive_solver.
        * intros x cl. rewrite D7, map_app, elem_of_app. cbn. rewrite elem_of_list_singleton. destruct (decide (x = c_hid c)) as [->|Hx].
          -- rewrite lookup_insert. split; [intros [= <-]; auto|]. intros [Hx|[_ Hx]]; [|congruence].
             pose proof (lookup_weaken _ _ _ _ Hx (k_world _ _ HF)). congruence.
          -- rewrite lookup_insert_ne by done. rewrite LG. clear -Hx. naive_solver.
        * intros u h. rewrite D8, XG. setoid_rewrite Hedge. setoid_rewrite elem_of_app. setoid_rewrite elem_of_list_singleton. clear. split.
          -- intros [[?|(c' & ? & ?)]|?]; [auto|right; exists c'; auto|right; exists c; auto].
          -- intros [?|(c' & [?| ->] & ?)]; [auto|left; right; exists c'; auto|auto].
    - split_and!; try done.
      + intros g x. rewrite Hfunc3. cbn. rewrite elem_of_nil. tauto.
      + intros x cl. rewrite Pcalls. cbn. rewrite elem_of_nil. tauto.
      + intros u h. rewrite Pvar. setoid_rewrite elem_of_nil. clear. naive_solver.
    - exists G. split; [done|]. split; [done|]. split; [done|].
      assert (Hedge : forall s d l, has_edge G s d l <-> has_edge G3 s d l) by (intros; unfold has_edge; by rewrite OG).
      assert (HeF : forall u l, has_edge F u f l \/ has_edge F f u l -> False).
      { intros u l Hx. apply HfF. unfold f_nodes. destruct Hx as [Hx|Hx]; apply (k_edge _ _ HF) in Hx as [[? ?]|[? ?]]; set_solver. }
      split; try done.
      + by rewrite VG.
      + by rewrite FG.
      + intros v h Hvn. rewrite XG. split; [|auto]. intros [?|(c & Hc & [(l & Hi & He)|(l & Hi & He)])]; [done|..].
        * apply Pedge in He as [He|[[-> _]|[_ He]]]; [exfalso; eauto| |by eapply Hout]. exfalso. by apply Hif, Hv.
        * exfalso. apply Pedge in He as [He|[[_ He]|[-> _]]]; [eauto| |by apply Hif, Hv]. by apply Q1 in He as [? _].
      + intros v h Hvn Hx. apply XG in Hx as [Hx|(c & Hc & [(l & Hi & He)|(l & Hi & He)])].
        * apply smrel_dom in Hx. done.
        * exfalso. pose proof He as He0. apply Pedge in He as [He|[[-> He]|[_ He]]]; [eauto| |by apply Hvn; eapply Hm].
          apply (k_edge _ _ C3) in He0 as [[Hx _]|[_ Hx]]; by apply Hif, Pisv.
        * exists c, l. by rewrite Hedge.
      + intros. rewrite Hedge. apply Pedge.
      + rewrite VG. done.
  Qed.

  (** * Grouping *)
  (** a recorded call that does not build a list *)
  Definition plain (c : call) : Prop := U !! c_hid c = Some c /\ is_make_list (c_op c) = false.
  Lemma plain_label c n : plain c -> name_proj (c_op c) n = n.
  Proof. intros [_ Hp]. unfold name_proj. by rewrite Hp. Qed.
  Lemma in_labels c : plain c -> map (label_of c) (c_ins c) = map fst (c_ins c).
  Proof. intros Hp. apply map_ext. intros [n r]. unfold label_of. by rewrite plain_label. Qed.
  Lemma in_label_inj c l h h' : plain c -> call_input c l h -> call_input c l h' -> h = h'.
  Proof.
    intros Hp (n & r & Hnr & Hl & <-) (n' & r' & Hnr' & Hl' & <-). destruct (w_names _ HU _ _ (proj1 Hp)) as [Hnd _].
    rewrite plain_label in Hl, Hl' by done. subst n n'.
    f_equal. clear -Hnd Hnr Hnr'. induction (c_ins c) as [|[a b] d IH]; [by apply elem_of_nil in Hnr|].
    cbn in Hnd. apply NoDup_cons in Hnd as [Hn Hnd].
    assert (Hin : forall r, (l, r) ∈ d -> l ∈ map fst d). { intros r0 H0. apply elem_of_list_fmap. by exists (l, r0). }
    apply elem_of_cons in Hnr as [Hq1|Hnr], Hnr' as [Hq2|Hnr']; simplify_eq; try done; [| |by apply IH].
    - exfalso. by eapply Hn, Hin.
    - exfalso. by eapply Hn, Hin.
  Qed.

  Definition iconn (F : frame) (avail : sset) (c : call) : setmap := match connections F avail c (c_ins c) ∅ with Ok m => m | Err _ => ∅ end.
  Definition igk (F : frame) (avail : sset) (c : call) : gkey := (op_name (c_op c), iconn F avail c).
  Lemma iconn_ok F avail c : consistent U F -> plain c -> connections F avail c (c_ins c) ∅ = Ok (iconn F avail c) /\
    forall l v, smrel (iconn F avail c) l v <-> v ∈ avail /\ exists h, call_input c l h /\ in_var F v h.
  Proof.
    intros HF HUc. unfold iconn. destruct (connections_ok U F avail c HF (c_ins c) ∅) as (m & -> & H1 & H2 & _). split; [done|].
    intros l v. split.
    - intros Hx. apply H1 in Hx as [Hx|(Ha & n & r & Hnr & <- & Hv)]; [by apply smrel_empty in Hx|]. split; [done|]. exists (rhid r). split; [|done]. by exists n, r.
    - intros (Ha & h & (n & r & Hnr & <- & <-) & Hv). apply (H2) with (n := n) (r := r); try done. rewrite in_labels by done. by apply (w_names _ HU _ _ (proj1 HUc)).
  Qed.

  Definition igroups_of (F : frame) (avail : sset) (cs : list call) (gs : list group) : Prop :=
    Forall (fun g => g.2 <> [] /\ forall c, c ∈ g.2 -> igk F avail c = g.1) gs /\ mjoin (map snd gs) ≡ₚ cs.
  Lemma iadd_to_group_ok F avail c cs gs : igroups_of F avail cs gs -> igroups_of F avail (c :: cs) (add_to_group (igk F avail c) c gs).
  Proof.
    intros [H1 H2]. revert cs H2. induction gs as [|[k ds] gs IH]; intros cs H2.
    - split; [|cbn; rewrite <-H2; done]. apply Forall_singleton. split; [done|]. intros c' ->%elem_of_list_singleton. done.
    - apply Forall_cons in H1 as [[Hne Hk] H1]. cbn [add_to_group]. cbn [fst snd] in *. case_decide as Hd.
      + split.
        * apply Forall_cons. split; [|done]. cbn. split; [by destruct ds|]. intros c' [Hc'| ->%elem_of_list_singleton]%elem_of_app; [|done]. rewrite <-Hd. by apply Hk.
        * cbn in *. rewrite <-H2, <-app_assoc. cbn. by rewrite Permutation_middle.
      + destruct (IH H1 (mjoin (map snd gs)) (reflexivity _)) as [I1 I2]. split.
        * apply Forall_cons. done.
        * cbn in *. rewrite I2, <-H2. by rewrite Permutation_middle.
  Qed.
  Lemma igroup_calls_ok F avail cs : consistent U F -> (forall c, c ∈ cs -> plain c) ->
    exists gs, group_calls F cs avail Inputs = Ok gs /\ igroups_of F avail cs gs.
  Proof.
    intros HF. unfold group_calls.
    cut (forall cs0 gs, (forall c, c ∈ cs -> plain c) -> igroups_of F avail cs0 gs -> exists gs', group_loop F avail Inputs cs gs = Ok gs' /\ igroups_of F avail (cs ++ cs0) gs').
    { intros Hc Hcs. destruct (Hc [] [] Hcs) as (gs & ? & Hg); [split; [by apply Forall_nil|done]|]. exists gs. by rewrite app_nil_r in Hg. }
    induction cs as [|c cs IH]; intros cs0 gs Hcs Hg; cbn [group_loop]; [eauto|].
    destruct (iconn_ok F avail c HF) as [E _]; [apply Hcs; left|]. cbn [side_refs]. rewrite E. cbn [mbind result_bind].
    destruct (IH (c :: cs0) (add_to_group (igk F avail c) c gs)) as (gs' & E' & [G1 G2]); [intros; apply Hcs; by right|by apply iadd_to_group_ok|].
    exists gs'. split; [done|]. split; [done|]. rewrite G2. cbn. by rewrite Permutation_middle.
  Qed.

  (** * A pass *)
  Context (gord : list group -> list group) (Hgord : forall l, gord l ≡ₚ l).
  Context (creators consumers : sset -> list call) (Hco : consumer_answers U consumers).

  Record kinds (F : frame) : Prop := Kinds {
    kd_con : consistent U F;
    kd_isv : forall v, v ∈ vnames F -> isv v;
    kd_isf : forall f, f ∈ fnames F -> ~ isv f;
  }.
  Record ipassed (A : sset) (F : frame) (cs : list call) (G : frame) : Prop := Ipassed {
    ip_kinds : kinds G;
    ip_vn : vnames F ⊆ vnames G;
    ip_fn : fnames F ⊆ fnames G;
    ip_old : forall v h, v ∈ vnames F -> in_var G v h <-> in_var F v h;
    ip_new : forall v h, v ∉ vnames F -> in_var G v h -> exists c l f, c ∈ cs /\ call_output c l h /\ in_func G f (c_hid c) /\ has_edge G f v l;
    ip_func : forall g x, g ∈ fnames F -> in_func G g x <-> in_func F g x;
    ip_calls : forall x cl, f_calls G !! x = Some cl <-> f_calls F !! x = Some cl \/ (x ∈ map c_hid cs /\ U !! x = Some cl);
    ip_edge : forall s d l, has_edge F s d l -> has_edge G s d l;
    ip_link : forall c, c ∈ cs -> exists f, f ∉ fnames F /\ in_func G f (c_hid c) /\
      (forall l h v, call_input c l h -> v ∈ A -> in_var F v h -> has_edge G v f l) /\
      (forall l h, call_output c l h -> exists v, v ∉ vnames F /\ has_edge G f v l);
    ip_from : forall f v l, v ∈ vnames F -> has_edge G v f l -> has_edge F v f l \/
      (v ∈ A /\ exists c h, c ∈ cs /\ in_func G f (c_hid c) /\ call_input c l h /\ in_var F v h);
    ip_into : forall v f l, v ∈ vnames F -> has_edge G f v l -> has_edge F f v l;
    ip_fresh : forall v f l, v ∈ vnames G -> v ∉ vnames F -> ~ has_edge G v f l;
    ip_grow : cs <> [] -> exists f, f ∈ fnames G /\ f ∉ f_nodes F;
    ip_same : cs = [] -> G = F;
  }.
  Lemma igroups_pass A F cs gs : kinds F -> igroups_of F A cs gs -> (forall c, c ∈ cs -> plain c) -> NoDup (map c_hid cs) ->
    exists G, iterM (expand_group ord Inputs false) gs F = (Ok tt, G) /\ ipassed A F cs G.
  Proof.
    intros HF [Hg Hp] HUc Hnd.
    assert (Hk : forall k ds c, (k, ds) ∈ gs -> c ∈ ds -> igk F A c = k /\ c ∈ cs).
    { intros k ds c Hin Hc. rewrite Forall_forall in Hg. split; [by apply (Hg (k, ds))|]. rewrite <-Hp. apply elem_of_list_join. exists ds. split; [done|]. apply elem_of_list_fmap. by exists (k, ds). }
    destruct (iterM_total (expand_group ord Inputs false) (fun dn G => ipassed A F (mjoin (map snd dn)) G) gs) with (s := F) as (G & EG & PG).
    - intros dn [[o m] ds] rest G Hgs PG.
      assert (Hin : (o, m, ds) ∈ gs) by (rewrite Hgs; apply elem_of_app; right; left).
      assert (Hds : forall c, c ∈ ds -> plain c /\ op_name (c_op c) = o /\ iconn F A c = m).
      { intros c Hc. destruct (Hk _ _ _ Hin Hc) as [Hkc Hcc]. injection Hkc as -> ->. auto. }
      assert (Hne : ds <> []). { rewrite Forall_forall in Hg. by apply (Hg _ Hin). }
      assert (Hm : forall l v, smrel m l v -> v ∈ vnames F /\ v ∈ A /\ forall c, c ∈ ds -> exists h, call_input c l h /\ in_var F v h).
      { intros l v Hv. assert (Hc0 : forall c, c ∈ ds -> v ∈ A /\ exists h, call_input c l h /\ in_var F v h).
        { intros c Hc. destruct (Hds c Hc) as (HUx & _ & <-). apply (iconn_ok F _ c (kd_con _ HF) HUx). exact Hv. }
        destruct ds as [|c0 ds]; [done|]. split; [destruct (Hc0 c0) as (_ & h & _ & Hin'); [left|]; by apply smrel_dom in Hin'|]. split; [apply (Hc0 c0); left|]. intros c Hc. by apply Hc0. }
      destruct PG as [A1 A2 A3 A4 A5 A6 A7 A8 A9 A12 A13 A14 A15 A16].
      assert (Hndd : NoDup (map c_hid ds)).
      { rewrite <-Hp in Hnd. rewrite Hgs, map_app, mjoin_app in Hnd. cbn in Hnd. rewrite !map_app in Hnd. apply NoDup_app in Hnd as (_ & _ & Hnd). by apply NoDup_app in Hnd as (? & _). }
      destruct (expand_group_in_ok G o m ds (kd_con _ A1) (kd_isv _ A1) (kd_isf _ A1) Hne Hndd) as (f & I & G' & E' & Hf & Hif & X).
      { intros c Hc. destruct (Hds c Hc) as ([? _] & ? & _). done. }
      { intros l v Hv. apply A2. by apply (Hm l v Hv). }
      { intros c l h v Hc Ho Hv. destruct (Hm l v Hv) as (Hvn & _ & Hx). destruct (Hx c Hc) as (h' & Ho' & Hvh).
        apply A4; [done|]. destruct (Hds c Hc) as [HUx _]. by rewrite (in_label_inj c l h h'). }
      exists G'. split; [done|].
      assert (Hj : mjoin (map snd (dn ++ [(o, m, ds)])) = mjoin (map snd dn) ++ ds).
      { rewrite map_app, mjoin_app. cbn. by rewrite app_nil_r. }
      rewrite Hj. destruct X as [X1 X2 X3 X4 X5 X6 X7 X8 X9 X10 X11].
      assert (HfF : f ∉ vnames F /\ f ∉ fnames F).
      { unfold f_nodes in Hf. clear -Hf A2 A3. set_solver. }
      split; try done.
      + split; [done|done|]. intros g. rewrite X3. intros [->%elem_of_singleton|?]%elem_of_union; [done|]. by apply (kd_isf _ A1).
      + by transitivity (vnames G).
      + rewrite X3. clear -A3. set_solver.
      + intros v h Hv. rewrite X4 by by apply A2. by apply A4.
      + intros v h Hv Hx. destruct (decide (v ∈ vnames G)) as [HvG|HvG].
        * apply X4 in Hx; [|done]. destruct (A5 v h Hv Hx) as (c & l & g & ? & ? & ? & ?). exists c, l, g. split; [apply elem_of_app; by left|]. split; [done|].
          split; [apply X6; by left|apply X8; by left].
        * destruct (X5 v h HvG Hx) as (c & l & ? & ? & ?). exists c, l, f. split; [apply elem_of_app; by right|]. split; [done|]. split; [|done].
          apply X6. right. split; [done|]. apply elem_of_list_fmap. by exists c.
      + intros g x Hgn. rewrite X6, A6 by done. split; [|auto]. intros [?|[-> _]]; [done|]. exfalso. first [by apply (proj1 HfF)|by apply (proj2 HfF)].
      + intros x cl. rewrite X7, A7, map_app, elem_of_app. clear. tauto.
      + intros sx d l He. apply X8. left. by apply A8.
      + intros c [Hc|Hc]%elem_of_app.
        * destruct (A9 c Hc) as (g & Hgn & Hgc & Hi & Ho). exists g. split; [done|]. split; [apply X6; by left|]. split.
          -- intros l h v ? ? ?. apply X8. left. eauto.
          -- intros l h Hx. destruct (Ho l h Hx) as (v & ? & ?). exists v. split; [done|]. apply X8. by left.
        * exists f. split; [apply HfF|]. split; [apply X6; right; split; [done|]; apply elem_of_list_fmap; by exists c|]. split.
          -- intros l h v Hi HvA Hv. apply X8. right. right. split; [done|].
             destruct (Hds c Hc) as (HUx & _ & <-). apply (iconn_ok F _ c (kd_con _ HF) HUx). split; [done|eauto].
          -- intros l h (n & r & Hnr & <- & _). destruct (X11 (name_proj (c_op c) n)) as [v Hv].
             { apply side_labels_elem. exists c, n, r. done. }
             exists v. split; [|apply X8; right; left; done]. apply X10 in Hv as [Hv _]. intros Hx. by apply Hv, A2.
      + intros g v l Hv He. apply X8 in He as [He|[[-> _]|[-> He]]].
        * apply A12 in He as [He|(HvA & c & h & Hc & Hgc & Ho & Hvh)]; [by left| |done]. right. split; [done|]. exists c, h.
          split; [apply elem_of_app; by left|]. split; [apply X6; by left|done].
        * exfalso. first [by apply (proj1 HfF)|by apply (proj2 HfF)].
        * right. destruct (Hm l v He) as (_ & HvA & Hx). split; [done|]. destruct ds as [|c0 ds]; [done|].
          destruct (Hx c0) as (h & Ho & Hvh); [left|]. exists c0, h. split; [apply elem_of_app; right; left|]. split; [|done].
          apply X6. right. split; [done|]. left.
      + intros v g l Hv He. apply X8 in He as [He|[[-> He]|[-> He]]].
        * by apply A13.
        * exfalso. apply X10 in He as [He _]. apply He. by apply A2.
        * exfalso. first [by apply (proj1 HfF)|by apply (proj2 HfF)].
      + intros v g l HvG' HvF He. apply X8 in He as [He|[[-> _]|[_ He]]].
        * destruct (decide (v ∈ vnames G)) as [HvG|HvG]; [by eapply A14|].
          apply (k_edge _ _ (kd_con _ A1)) in He as [[? _]|[Hx _]]; [done|]. apply (kd_isf _ A1 v Hx). by apply X9.
        * by apply Hif, X9.
        * apply HvF. by apply (Hm l v He).
      + intros _. exists f. split; [rewrite X3; apply elem_of_union_l; by apply elem_of_singleton|].
        unfold f_nodes. intros [?|?]%elem_of_union; [by apply (proj1 HfF)|by apply (proj2 HfF)].
      + intros Hx. apply app_nil in Hx as [_ Hx]. done.
    - split; try done; try (by intros; eauto).
      + intros v h Hv Hx. by apply smrel_dom in Hx.
      + intros x cl. cbn. rewrite elem_of_nil. tauto.
      + intros c Hc. by apply elem_of_nil in Hc.
    - exists G. split; [done|]. destruct PG as [A1 A2 A3 A4 A5 A6 A7 A8 A9 A12 A13 A14 A15 A16].
      assert (Hcc : forall c, c ∈ mjoin (map snd gs) <-> c ∈ cs) by (intros c; by rewrite Hp).
      assert (Hnil : mjoin (map snd gs) = [] <-> cs = []).
      { split; intros Hx; rewrite Hx in Hp; [by apply Permutation_nil in Hp|by apply Permutation_nil_r in Hp]. }
      split; try done.
      + intros v h Hv Hx. destruct (A5 v h Hv Hx) as (c & l & g & Hc & ?). exists c, l, g. by rewrite <-Hcc.
      + intros x cl. rewrite A7. by rewrite Hp.
      + intros c Hc. apply A9. by apply Hcc.
      + intros f v l Hv He. destruct (A12 f v l Hv He) as [?|(? & c & h & Hc & ?)]; [by left|]. right. split; [done|]. exists c, h. by rewrite <-Hcc.
      + intros Hx. apply A15. by rewrite Hnil.
      + intros Hx. apply A16. by rewrite Hnil.
  Qed.

  Definition sink (F : frame) (v h : string) : Prop := in_var F v h /\ ~ connected_consumer F v h.
  Definition iwanted (A : sset) (F : frame) (c : call) : Prop :=
    U !! c_hid c = Some c /\ exists l h v, call_input c l h /\ v ∈ A /\ sink F v h.
  Lemma step_forward A sk F : kinds F -> tidy F -> A ⊆ vnames F -> A <> ∅ -> not_in_lists U A F -> exists G cs,
    expand_step ord eord gord creators consumers Forward false sk A F = (Ok tt, G) /\ ipassed A F cs G /\
    forall c, c ∈ cs <-> iwanted A F c /\ (sk = true -> c_hid c ∉ dom (f_calls F)).
  Proof.
    intros HF HTF HA Hne Hlists. unfold expand_step. rewrite bindM_getM.
    destruct (boundary_ok ord eord Hords U HU Back F (kd_con _ HF) HTF) as (B & HB & HBd & HBx).
    unfold get_sink_elts. rewrite (bindM_liftR _ _ _ B) by done.
    set (E := filter (fun kX : string * sset => kX.1 ∈ A) B).
    assert (HE : forall v h, smrel E v h <-> v ∈ A /\ sink F v h).
    { intros v h. unfold E, smrel. setoid_rewrite map_filter_lookup_Some. cbn. split.
      - intros (X & [HX Hv] & Hh). split; [done|]. pose proof (HA _ Hv) as HvF. assert (smrel B v h) as Hs by by exists X. apply HBx in Hs as [Hi Hn].
        assert (in_var F v h) as Hvh. { destruct Hi as [?|Hi]; [done|]. exfalso. apply (k_disj _ _ (kd_con _ HF) v HvF). by apply smrel_dom in Hi. }
        split; [done|]. intros (f & c & cl & l & He & Hf & Hc & Ho). apply Hn. exists v, f, l. split; [done|]. split; [done|].
        right. split; [done|]. exists c, cl. split; [by right|]. done.
      - intros [HvA [Hvh Hn]]. assert (smrel B v h) as (X & HX & Hh).
        { apply HBx. split; [by left|]. intros (s & f & l & He & <- & [(_ & Hx & _)|(Hx & c & cl & Hq & Hf & Hc & Ho)]).
          - apply (k_disj _ _ (kd_con _ HF) v); [by apply smrel_dom in Hvh|by apply smrel_dom in Hx].
          - apply Hn. exists f, c, cl, l. done. }
        exists X. split; [|done]. done. }
    rewrite decide_False.
    2:{ intros HE0. apply set_choose_L in Hne as [v Hv]. assert (is_Some (B !! v)) as [X HX].
        { apply elem_of_dom. rewrite HBd. apply elem_of_union_l. by apply HA. }
        assert (E !! v = Some X) as Hx by (apply map_filter_lookup_Some; done). rewrite HE0 in Hx. by rewrite lookup_empty in Hx. }
    cbv zeta. set (cs := if sk then _ else _).
    destruct (Hco (union_values E)) as [Hnd0 Hcs0].
    assert (Hcs : forall c, c ∈ cs <-> c ∈ consumers (union_values E) /\ (sk = true -> c_hid c ∉ dom (f_calls F))).
    { intros c. unfold cs. destruct sk; [|split; [done|by intros [? _]]]. rewrite elem_of_list_filter. split; [intros [? ?]; auto|intros [? Hs]; auto]. }
    assert (Hnd : NoDup cs). { unfold cs. destruct sk; [by apply NoDup_filter|done]. }
    assert (HUc : forall c, c ∈ cs -> plain c).
    { intros c Hc. apply Hcs in Hc as [Hc _]. apply Hcs0 in Hc as (HUx & l & h & Hi & Hh). split; [done|].
      apply elem_of_union_values in Hh as (v & Hv). apply HE in Hv as [HvA [Hv _]]. by apply (Hlists (c_hid c) c l h v). }
    destruct (igroup_calls_ok F A cs (kd_con _ HF) HUc) as (gs & Egs & Hgs).
    rewrite (bindM_liftR _ _ _ gs) by done.
    assert (Hgs' : igroups_of F A cs (gord gs)).
    { destruct Hgs as [H1 H2]. split; [by rewrite Hgord|]. rewrite <-H2. by rewrite Hgord. }
    assert (Hnd' : NoDup (map c_hid cs)).
    { clear -Hnd HUc. clearbody cs. induction cs as [|c cs IH]; [constructor|]. apply NoDup_cons in Hnd as [Hn Hnd]. cbn. apply NoDup_cons. split.
      - intros Hx. apply elem_of_list_fmap in Hx as (c' & Hh & Hc'). apply Hn. assert (U !! c_hid c = Some c) by (apply HUc; left).
        assert (U !! c_hid c' = Some c') by (apply HUc; by right). rewrite Hh in *. congruence.
      - apply IH; [done|]. intros. apply HUc. by right. }
    destruct (igroups_pass A F cs (gord gs) HF Hgs' HUc Hnd') as (G & EG & PG).
    exists G, cs. split; [done|]. split; [done|]. intros c. rewrite Hcs, Hcs0. unfold iwanted. split.
    - intros [(HUx & l & h & Ho & Hh) Hs]. split; [|done]. split; [done|]. apply elem_of_union_values in Hh as (v & Hv). apply HE in Hv as []. eauto 10.
    - intros [(HUx & l & h & v & Ho & HvA & Hs) Hk]. split; [|done]. split; [done|]. exists l, h. split; [done|]. apply elem_of_union_values. exists v. by apply HE.
  Qed.

  Theorem expand_forward_ok A sk F : kinds F -> tidy F -> A ⊆ vnames F -> A <> ∅ -> not_in_lists U A F -> exists G,
    expand_step ord eord gord creators consumers Forward false sk A F = (Ok tt, G) /\
    consistent U G /\ kept_in F G /\
    (forall c, c ∈ dom (f_calls G) <-> c ∈ dom (f_calls F) \/ exists cl, missing_consumer U A F c cl) /\
    (forall h, h ∈ dom (f_refs G) <-> h ∈ dom (f_refs F) \/
      exists c cl l, missing_consumer U A F c cl /\ (sk = true -> c ∉ dom (f_calls F)) /\ call_output cl l h) /\
    (forall c cl, missing_consumer U A F c cl -> (sk = true -> c ∉ dom (f_calls F)) ->
      exists f, f ∉ fnames F /\ in_func G f c /\
        (forall l h v, call_input cl l h -> v ∈ A -> in_var F v h -> has_edge G v f l) /\
        (forall l h, call_output cl l h -> exists v, v ∉ vnames F /\ has_edge G f v l /\ in_var G v h)) /\
    (forall v f l, v ∈ vnames F -> has_edge G v f l -> has_edge F v f l \/
      (v ∈ A /\ exists c cl h, missing_consumer U A F c cl /\ in_func G f c /\ call_input cl l h /\ in_var F v h)) /\
    (forall v f l, v ∈ vnames F -> has_edge G f v l -> has_edge F f v l).
  Proof.
    intros HF HTF HA Hne Hlists. destruct (step_forward A sk F HF HTF HA Hne Hlists) as (G & cs & E & PG & Hw). exists G.
    split; [done|]. destruct PG as [A1 A2 A3 A4 A5 A6 A7 A8 A9 A12 A13 A14 A15 A16].
    assert (HK : kept_in F G).
    { split; [|split; [|split]].
      - intros v Hv. split; [by apply A2|]. intros h. by apply A4.
      - intros f Hf. split; [by apply A3|]. intros c. by apply A6.
      - done.
      - apply map_subseteq_spec. intros x cl Hx. apply A7. by left. }
    split; [apply A1|]. split; [done|].
    assert (Hmiss : forall c cl, missing_consumer U A F c cl <-> c_hid cl = c /\ iwanted A F cl).
    { intros c cl. unfold missing_consumer, iwanted, sink. split.
      - intros [HUc Hx]. pose proof (w_key _ HU _ _ HUc) as Hk. split; [done|]. rewrite Hk. split; [done|].
        destruct Hx as (l & h & v & ? & ? & ? & ?). exists l, h, v. done.
      - intros [<- [HUc Hx]]. split; [done|]. destruct Hx as (l & h & v & ? & ? & ? & ?). exists l, h, v. done. }
    assert (Hcalls : forall c, c ∈ dom (f_calls G) <-> c ∈ dom (f_calls F) \/ exists cl, missing_consumer U A F c cl).
    { intros c. rewrite !elem_of_dom. split.
      - intros [cl Hc]. apply A7 in Hc as [Hc|[Hc HUc]]; [left; eauto|]. right. apply elem_of_list_fmap in Hc as (c' & -> & Hc'). apply Hw in Hc' as [Hc' _].
        exists c'. apply Hmiss. done.
      - intros [[cl Hc]|[cl Hm]]; [exists cl; apply A7; by left|].
        apply Hmiss in Hm as [<- Hm]. destruct (f_calls F !! c_hid cl) as [cl'|] eqn:Hc; [exists cl'; apply A7; by left|].
        exists cl. apply A7. right. split; [|apply Hm]. apply elem_of_list_fmap. exists cl. split; [done|]. apply Hw. split; [done|]. intros _. by apply not_elem_of_dom. }
    assert (Hlink : forall c cl, missing_consumer U A F c cl -> (sk = true -> c ∉ dom (f_calls F)) ->
      exists f, f ∉ fnames F /\ in_func G f c /\
        (forall l h v, call_input cl l h -> v ∈ A -> in_var F v h -> has_edge G v f l) /\
        (forall l h, call_output cl l h -> exists v, v ∉ vnames F /\ has_edge G f v l /\ in_var G v h)).
    { intros c cl [<- Hm]%Hmiss Hsk. assert (cl ∈ cs) as Hc by (apply Hw; done). destruct (A9 cl Hc) as (f & Hf & Hfc & Hi & Ho).
      exists f. split; [done|]. split; [done|]. split; [done|]. intros l h Hx. destruct (Ho l h Hx) as (v & Hv & He). exists v. split; [done|]. split; [done|].
      eapply (k_outs _ _ (kd_con _ A1)); [done| |done|done]. apply A7. right. split; [|apply Hm]. apply elem_of_list_fmap. by exists cl. }
    split; [done|]. split; [|split; [done|]; split; [|done]].
    - intros h. split.
      + intros Hh. apply (k_refs _ _ (kd_con _ A1)) in Hh as [v Hv]. destruct (decide (v ∈ vnames F)) as [HvF|HvF].
        * left. apply A4 in Hv; [|done]. apply (k_refs _ _ (kd_con _ HF)). eauto.
        * right. destruct (A5 v h HvF Hv) as (c & l & _ & Hc & Hi & _). apply Hw in Hc as [Hc Hk]. exists (c_hid c), c, l. split; [by apply Hmiss|done].
      + intros [Hh|(c & cl & l & Hm & Hsk & Hi)].
        * apply (k_refs _ _ (kd_con _ HF)) in Hh as [v Hv]. apply (k_refs _ _ (kd_con _ A1)). exists v. apply A4; [by apply smrel_dom in Hv|done].
        * destruct (Hlink c cl Hm Hsk) as (f & _ & _ & _ & Ho). destruct (Ho l h Hi) as (v & _ & _ & Hv). apply (k_refs _ _ (kd_con _ A1)). eauto.
    - intros v f l Hv He. destruct (A12 f v l Hv He) as [?|(? & c & h & Hc & ? & ? & ?)]; [by left|]. right. split; [done|].
      exists (c_hid c), c, h. split; [apply Hmiss; split; [done|]; by apply Hw|done].
  Qed.
End forward.
