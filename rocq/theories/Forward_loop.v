(** Expanding a frame forwards until nothing is new: proofs for C51. *)
From stdpp Require Import base strings gmap list.
From Verif Require Import Base PyDict Refs Storage Frame Spec_Frame Frame_base Frame_names Frame_ok Frame_ok2 Frame_ok3
  FrameExpand Spec_Expand Spec_Forward Frame_reach2 Frame_stream Expand_proofs Expand_forward.

Section forward.
  Context (ord : sset -> list string) (eord : gset edge3 -> list edge3) (Hords : orders ord eord).
  Context (U : gmap string call) (HU : world U) (HNL : no_lists U).
  Context (isv : string -> Prop).
  Context (Hnewv : forall c cl l h G v, U !! c = Some cl -> call_output cl l h -> get_new_vname l G = Ok v -> isv v).
  Context (Hnewf : forall c cl G f, U !! c = Some cl -> get_new_fname (op_name (c_op cl)) G = Ok f -> ~ isv f).
  Context (gord : list group -> list group) (Hgord : forall l, gord l ≡ₚ l).
  Context (creators consumers : sset -> list call) (Hco : consumer_answers U consumers).
  Context (rank : string -> nat).
  Context (Hrank : forall c cl l h l' h', U !! c = Some cl -> call_output cl l h -> call_input cl l' h' -> rank h' < rank h).
  Local Notation kinds := (kinds U isv).
  Local Notation ipassed := (ipassed U isv).
  Local Notation iwanted := (iwanted U).

  Lemma step_all F : kinds F -> vnames F <> ∅ -> exists G cs,
    expand_step ord eord gord creators consumers Forward false false (dom (f_vs F)) F = (Ok tt, G) /\ ipassed (vnames F) F cs G /\
    forall c, c ∈ cs <-> iwanted (vnames F) F c.
  Proof.
    intros HF Hne. destruct (step_forward ord eord Hords U HU isv Hnewv Hnewf gord Hgord creators consumers Hco (vnames F) false F HF) as (G & cs & E & PG & Hw).
    - intros f c cl _ Hc Hm. pose proof (lookup_weaken _ _ _ _ Hc (k_world _ _ (kd_con _ _ _ HF))) as HUc. rewrite (HNL _ _ HUc) in Hm. done.
    - done.
    - done.
    - intros c cl l h v HUc _ _ _. by eapply HNL.
    - exists G, cs. split; [exact E|]. split; [done|]. intros c. rewrite Hw. split; [by intros [? _]|done].
  Qed.

  Lemma sink_future F v h : sink F v h -> future U F h.
  Proof. intros [? ?]. by eapply future_start. Qed.
  Lemma sink_back F cs G v h : ipassed (vnames F) F cs G -> v ∈ vnames F -> sink G v h -> sink F v h.
  Proof.
    intros PG HvF [Hv Hn]. split; [by apply (ip_old _ _ _ _ _ _ PG)|]. intros (f & c & cl & l & He & Hf & Hc & Hi). apply Hn. exists f, c, cl, l.
    split; [by apply (ip_edge _ _ _ _ _ _ PG)|]. split; [|split; [|done]].
    - apply (ip_func _ _ _ _ _ _ PG); [by apply smrel_dom in Hf|done].
    - apply (ip_calls _ _ _ _ _ _ PG). by left.
  Qed.
  (** after a pass the sinks with recorded consumers are in new variables *)
  Definition pending_in (F : frame) (v h : string) : Prop := sink F v h /\ exists c l, U !! c_hid c = Some c /\ call_input c l h.
  Lemma pending_new F cs G v h : ipassed (vnames F) F cs G -> (forall c, c ∈ cs <-> iwanted (vnames F) F c) -> pending_in G v h ->
    exists v' h' c l l', pending_in F v' h' /\ U !! c_hid c = Some c /\ call_input c l h' /\ call_output c l' h.
  Proof.
    intros PG Hw [Hs (c & l & HUc & Hi)]. destruct (decide (v ∈ vnames F)) as [HvF|HvF].
    - exfalso. pose proof (sink_back F cs G v h PG HvF Hs) as HsF.
      assert (Hc : c ∈ cs). { apply Hw. split; [done|]. eauto 10. }
      destruct (ip_link _ _ _ _ _ _ PG c Hc) as (f & _ & Hfc & Hin & _). destruct Hs as [_ Hs]. apply Hs. exists f, (c_hid c), c, l.
      split; [|split; [done|split; [|done]]].
      + apply (Hin l h v Hi HvF). apply HsF.
      + apply (ip_calls _ _ _ _ _ _ PG). right. split; [|done]. apply elem_of_list_fmap. by exists c.
    - destruct (ip_new _ _ _ _ _ _ PG v h HvF) as (c' & l' & _ & Hc' & Ho & _); [apply Hs|]. apply Hw in Hc' as (HUc' & l0 & h0 & v0 & Hi0 & Hv0 & Hs0).
      exists v0, h0, c', l0, l'. split; [|done]. split; [done|eauto].
  Qed.
  Lemma future_down F cs G h : ipassed (vnames F) F cs G -> (forall c, c ∈ cs <-> iwanted (vnames F) F c) -> future U G h -> future U F h.
  Proof.
    intros PG Hw. induction 1 as [v h Hv Hn|h c cl l l' h' _ IH HUc Hi Ho]; [|by eapply future_output].
    destruct (decide (v ∈ vnames F)) as [HvF|HvF]; [apply (sink_future F v); by eapply sink_back|].
    destruct (ip_new _ _ _ _ _ _ PG v h HvF Hv) as (c & l & _ & Hc & Ho & _). apply Hw in Hc as (HUc & l0 & h0 & v0 & Hi0 & _ & Hs0).
    eapply future_output; [by eapply sink_future|exact HUc|done|done].
  Qed.
  Lemma future_up F cs G h : ipassed (vnames F) F cs G -> (forall c, c ∈ cs <-> iwanted (vnames F) F c) -> future U F h ->
    (exists v, sink F v h) \/ future U G h.
  Proof.
    intros PG Hw. induction 1 as [v h Hv Hn|h c cl l l' h' _ IH HUc Hi Ho]; [left; by exists v|]. right.
    destruct IH as [[v Hs]|IH]; [|by eapply future_output].
    pose proof (w_key _ HU _ _ HUc) as Hkey.
    assert (Hc : cl ∈ cs). { apply Hw. split; [by rewrite Hkey|]. exists l, h, v. split; [done|]. split; [|done]. destruct Hs as [Hs _]. by apply smrel_dom in Hs. }
    destruct (ip_link _ _ _ _ _ _ PG cl Hc) as (f & _ & Hfc & _ & Hout). destruct (Hout l' h' Ho) as (u & Hu & He).
    assert (Hcl : f_calls G !! c_hid cl = Some cl). { apply (ip_calls _ _ _ _ _ _ PG). right. split; [apply elem_of_list_fmap; by exists cl|by rewrite Hkey]. }
    assert (Hin : in_var G u h'). { eapply (k_outs _ _ (kd_con _ _ _ (ip_kinds _ _ _ _ _ _ PG))); done. }
    apply (future_start U G u); [done|]. intros (g & c' & cl' & l'' & He' & _). eapply (ip_fresh _ _ _ _ _ _ PG); [|exact Hu|exact He']. by apply smrel_dom in Hin.
  Qed.
  Lemma future_still F h : (forall c, ~ iwanted (vnames F) F c) -> future U F h -> exists v, sink F v h.
  Proof.
    intros Hno. induction 1 as [v h Hv Hn|h c cl l l' h' _ [v Hs] HUc Hi Ho]; [by exists v|]. exfalso. apply (Hno cl).
    pose proof (w_key _ HU _ _ HUc) as Hkey. split; [by rewrite Hkey|]. exists l, h, v. split; [done|]. split; [|done]. destruct Hs as [Hs _]. by apply smrel_dom in Hs.
  Qed.

  Lemma ipassed_kept A F cs G : ipassed A F cs G -> kept_in F G.
  Proof.
    intros [A1 A2 A3 A4 A5 A6 A7 A8 A9 A12 A13 A14 A15 A16]. split; [|split; [|split]].
    - intros v Hv. split; [by apply A2|]. intros h. by apply A4.
    - intros f Hf. split; [by apply A3|]. intros c. by apply A6.
    - done.
    - apply map_subseteq_spec. intros x cl Hx. apply A7. by left.
  Qed.

  (** the values are connected to their creators *)
  Definition with_creators (F : frame) : Prop := forall v h c cl l, in_var F v h -> U !! c = Some cl -> call_output cl l h -> connected_creator F v h.
  Lemma with_creators_pass F cs G : ipassed (vnames F) F cs G -> (forall c, c ∈ cs <-> iwanted (vnames F) F c) -> with_creators F -> with_creators G.
  Proof.
    intros PG Hw HF v h c cl l Hv HUc Ho. destruct (decide (v ∈ vnames F)) as [HvF|HvF].
    - apply (ip_old _ _ _ _ _ _ PG) in Hv; [|done]. destruct (HF v h c cl l Hv HUc Ho) as (f & c' & cl' & l' & He & Hf & Hc & Ho').
      exists f, c', cl', l'. split; [by apply (ip_edge _ _ _ _ _ _ PG)|]. split; [|split; [|done]].
      + apply (ip_func _ _ _ _ _ _ PG); [by apply smrel_dom in Hf|done].
      + apply (ip_calls _ _ _ _ _ _ PG). by left.
    - destruct (ip_new _ _ _ _ _ _ PG v h HvF Hv) as (c' & l' & f & Hc & Ho' & Hf & He). exists f, (c_hid c'), c', l'. split; [done|]. split; [done|]. split; [|done].
      apply (ip_calls _ _ _ _ _ _ PG). right. split; [apply elem_of_list_fmap; by exists c'|]. apply Hw in Hc as [? _]. done.
  Qed.

  Definition ends (F G : frame) : Prop := kinds G /\ kept_in F G /\ (with_creators F -> with_creators G) /\
    (forall h, h ∈ dom (f_refs G) <-> h ∈ dom (f_refs F) \/ future U F h) /\
    (forall c, c ∈ dom (f_calls G) <-> c ∈ dom (f_calls F) \/ future_call U F c) /\
    forall v h, ~ pending_in G v h.
  Lemma sink_ref F v h : kinds F -> sink F v h -> h ∈ dom (f_refs F).
  Proof. intros HF [Hv _]. apply (k_refs _ _ (kd_con _ _ _ HF)). eauto. Qed.
  Lemma ends_still F : kinds F -> (forall c, ~ iwanted (vnames F) F c) -> ends F F.
  Proof.
    intros HF Hno. split; [done|]. split; [apply kept_in_refl|]. split; [done|]. split; [|split].
    - intros h. split; [auto|]. intros [?|Hf]; [done|]. apply future_still in Hf as [v Hv]; [|done]. by eapply sink_ref.
    - intros c. split; [auto|]. intros [?|(h & cl & l & Hf & HUc & Hi)]; [done|]. exfalso. apply future_still in Hf as [v Hs]; [|done]. apply (Hno cl).
      pose proof (w_key _ HU _ _ HUc) as Hkey. split; [by rewrite Hkey|]. exists l, h, v. split; [done|]. split; [|done]. destruct Hs as [Hs _]. by apply smrel_dom in Hs.
    - intros v h [Hs (c & l & HUc & Hi)]. apply (Hno c). split; [done|]. exists l, h, v. split; [done|]. split; [|done]. destruct Hs as [Hs _]. by apply smrel_dom in Hs.
  Qed.
  Lemma ends_pass F cs G G' : kinds F -> ipassed (vnames F) F cs G -> (forall c, c ∈ cs <-> iwanted (vnames F) F c) -> ends G G' -> ends F G'.
  Proof.
    intros HF PG Hw (E1 & E2 & E6 & E3 & E4 & E5). pose proof (ip_kinds _ _ _ _ _ _ PG) as HG.
    split; [done|]. split; [eapply kept_in_trans; [by eapply ipassed_kept|done]|].
    split; [intros Hx; by eapply E6, with_creators_pass|]. split; [|split; [|done]].
    - intros h. rewrite E3. split.
      + intros [Hh|Hf]; [|right; by eapply future_down]. apply (k_refs _ _ (kd_con _ _ _ HG)) in Hh as [v Hv].
        destruct (decide (v ∈ vnames F)) as [HvF|HvF].
        * left. apply (k_refs _ _ (kd_con _ _ _ HF)). exists v. by apply (ip_old _ _ _ _ _ _ PG).
        * right. destruct (ip_new _ _ _ _ _ _ PG v h HvF Hv) as (c & l & _ & Hc & Ho & _). apply Hw in Hc as (HUc & l0 & h0 & v0 & Hi0 & _ & Hs0).
          eapply future_output; [by eapply sink_future|exact HUc|done|done].
      + assert (Hold : h ∈ dom (f_refs F) -> h ∈ dom (f_refs G)).
        { intros Hh. apply (k_refs _ _ (kd_con _ _ _ HF)) in Hh as [v Hv]. apply (k_refs _ _ (kd_con _ _ _ HG)). exists v.
          apply (ip_old _ _ _ _ _ _ PG); [by apply smrel_dom in Hv|done]. }
        intros [Hh|Hf]; [auto|]. destruct (future_up F cs G h PG Hw Hf) as [[v Hs]|?]; [|auto]. left. apply Hold. by eapply sink_ref.
    - intros c. rewrite E4. split.
      + intros [[cl Hc]%elem_of_dom|(h & cl & l & Hf & HUc & Hi)]; [|right; exists h, cl, l; split; [by eapply future_down|done]].
        apply (ip_calls _ _ _ _ _ _ PG) in Hc as [Hc|[Hc HUc]]; [left; apply elem_of_dom; eauto|]. right.
        apply elem_of_list_fmap in Hc as (c' & -> & Hc'). apply Hw in Hc' as (HUc' & l0 & h0 & v0 & Hi0 & _ & Hs0). exists h0, c', l0. split; [by eapply sink_future|done].
      + intros [[cl Hc]%elem_of_dom|(h & cl & l & Hf & HUc & Hi)]; [left; apply elem_of_dom; exists cl; apply (ip_calls _ _ _ _ _ _ PG); by left|].
        destruct (future_up F cs G h PG Hw Hf) as [[v Hs]|Hf']; [|right; by exists h, cl, l]. left. pose proof (w_key _ HU _ _ HUc) as Hkey.
        apply elem_of_dom. exists cl. apply (ip_calls _ _ _ _ _ _ PG). right. split; [|done]. apply elem_of_list_fmap. exists cl. split; [done|]. apply Hw.
        split; [by rewrite Hkey|]. exists l, h, v. split; [done|]. split; [|done]. destruct Hs as [Hs _]. by apply smrel_dom in Hs.
  Qed.

  Lemma rank_bound : exists M, forall c cl l h, U !! c = Some cl -> call_input cl l h -> rank h < M.
  Proof.
    clear -rank. induction U as [|c cl m _ [M IH]] using map_ind.
    - exists 0. intros c cl l h Hc. by rewrite lookup_empty in Hc.
    - assert (exists N, forall l h, call_input cl l h -> rank h < N) as [N HN].
      { unfold call_input. induction (c_ins cl) as [|[n r] d [N IHd]].
        - exists 0. intros l h (n & r & Hx & _). by apply elem_of_nil in Hx.
        - exists (S (N + rank (rhid r))). intros l h (n' & r' & Hx & Hl & <-). apply elem_of_cons in Hx as [[= -> ->]|Hx]; [lia|].
          assert (rank (rhid r') < N); [|lia]. apply (IHd l). by exists n', r'. }
      exists (M + N). intros c' cl' l h Hc Hi. apply lookup_insert_Some in Hc as [[_ <-]|[_ Hc]]; [apply HN in Hi; lia|]. eapply IH in Hi; [|done]. lia.
  Qed.

  Lemma forward_loop M : (forall c cl l h, U !! c = Some cl -> call_input cl l h -> rank h < M) -> forall d F, kinds F -> vnames F <> ∅ ->
    (forall v h, pending_in F v h -> M <= rank h + d) ->
    exists n G, (forall k, n <= k -> expand_loop ord eord gord creators consumers Forward false false true k F = (Ok tt, G)) /\ ends F G.
  Proof.
    intros HM d. induction d as [|d IH]; intros F HF Hne Hp; destruct (step_all F HF Hne) as (G & cs & EG & PG & Hw).
    all: destruct (decide (cs = [])) as [Hnil|Hnil];
      [pose proof (ip_same _ _ _ _ _ _ PG Hnil) as ->; exists 1, F; split;
        [intros [|k] Hk; [lia|]; cbn [expand_loop]; rewrite bindM_getM, (bindM_step _ _ _ _ _ EG), bindM_getM; by rewrite decide_True by done
        |apply ends_still; [done|]; intros c Hc; apply Hw in Hc; rewrite Hnil in Hc; by apply elem_of_nil in Hc]|].
    - exfalso. destruct cs as [|c cs]; [done|]. assert (iwanted (vnames F) F c) as (HUc & l & h & v & Hi & _ & Hs) by (apply Hw; left).
      assert (M <= rank h + 0) by (apply (Hp v h); split; [done|]; eauto). specialize (HM _ _ _ _ HUc Hi). lia.
    - destruct (IH G) as (n & G' & EL & HE).
      + apply PG.
      + intros He. apply Hne. pose proof (ip_vn _ _ _ _ _ _ PG) as Hx. rewrite He in Hx. clear -Hx. set_solver.
      + intros v h Hx. destruct (pending_new F cs G v h PG Hw Hx) as (v' & h' & c & l & l' & Hp' & HUc & Hi & Ho). apply Hp in Hp'.
        specialize (Hrank _ _ _ _ _ _ HUc Ho Hi). lia.
      + exists (S n), G'. split; [|by eapply ends_pass]. intros [|k] Hk; [lia|]. cbn [expand_loop].
        rewrite bindM_getM, (bindM_step _ _ _ _ _ EG), bindM_getM. rewrite decide_False; [apply EL; lia|]. intros Hsz.
        destruct (ip_grow _ _ _ _ _ _ PG Hnil) as (f & Hf1 & Hf2).
        assert (f_nodes F ⊂ f_nodes G) as Hsub.
        { split; [|intros Hx; apply Hf2, Hx; apply elem_of_union_r; done]. pose proof (ip_vn _ _ _ _ _ _ PG). pose proof (ip_fn _ _ _ _ _ _ PG). unfold f_nodes. clear -H H0. set_solver. }
        apply subset_size in Hsub. lia.
  Qed.
  Theorem forward_ok F : kinds F -> vnames F <> ∅ ->
    exists n G, (forall k, n <= k -> expand_loop ord eord gord creators consumers Forward false false true k F = (Ok tt, G)) /\ ends F G.
  Proof. intros HF Hne. destruct rank_bound as [M HM]. apply (forward_loop M HM M); [done|done|]. intros. lia. Qed.
  Lemma connected_dec F v h : connected_consumer F v h \/ ~ connected_consumer F v h.
  Proof using.
    clear. set (P := Exists (fun e : edge3 => e.1.1 = v /\ Exists (fun ccl : string * call => ccl.1 ∈ default ∅ (f_fs F !! e.1.2) /\
      Exists (fun nr => name_proj (c_op ccl.2) nr.1 = e.2 /\ rhid nr.2 = h) (c_ins ccl.2)) (map_to_list (f_calls F))) (elements (edges F))).
    assert (HP : P <-> connected_consumer F v h).
    { unfold P. rewrite Exists_exists. setoid_rewrite Exists_exists. setoid_rewrite Exists_exists. split.
      - intros ([[s f] l] & He & Hs & [c cl] & Hc & Hf & [n r] & Hnr & Hl & Hh). cbn in *. subst s. apply elem_of_elements, elem_of_edges in He.
        apply elem_of_map_to_list in Hc. exists f, c, cl, l. split; [done|]. split; [by apply in_func_smrel, smrel_default|]. split; [done|]. by exists n, r.
      - intros (f & c & cl & l & He & Hf & Hc & n & r & Hnr & Hl & Hh). exists (v, f, l). split; [by apply elem_of_elements, elem_of_edges|]. split; [done|].
        exists (c, cl). split; [by apply elem_of_map_to_list|]. split; [by apply smrel_default, in_func_smrel|]. by exists (n, r). }
    rewrite <-HP. destruct (decide P); auto.
  Qed.
  Lemma no_pending F v h c cl l : (forall v h, ~ pending_in F v h) -> in_var F v h -> U !! c = Some cl -> call_input cl l h -> connected_consumer F v h.
  Proof.
    intros Hn Hv HUc Hi. destruct (connected_dec F v h) as [?|Hx]; [done|]. exfalso. apply (Hn v h). split; [done|]. exists cl, l. by rewrite (w_key _ HU _ _ HUc).
  Qed.
End forward.
