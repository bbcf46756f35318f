(** What [get_edges_in_paths] computes: every edge of every simple path, only edges of walks;
    on graphs without cycles it ends and the two coincide. *)
From stdpp Require Import base strings gmap list relations.
From Verif Require Import Base PyDict Refs Storage Frame Paths Spec_Paths Frame_base.

(** * Chains *)
Lemma chain_app R a l1 b l2 : chain R a (l1 ++ b :: l2) <-> chain R a (l1 ++ [b]) /\ chain R b l2.
Proof. revert a. induction l1 as [|c l1 IH]; intros a; cbn; [tauto|]. rewrite IH. tauto. Qed.
Lemma rtc_chain R a b : rtc R a b -> exists ns, chain R a ns /\ last (a :: ns) = Some b.
Proof.
  induction 1 as [a|a c b Hac _ (ns & Hc & Hl)]; [by exists []|]. exists (c :: ns). split; [done|]. done.
Qed.
Lemma chain_reach R a ns x : chain R a ns -> x ∈ ns -> tc R a x.
Proof.
  revert a. induction ns as [|b ns IH]; intros a Hc Hx; [by apply elem_of_nil in Hx|]. destruct Hc as [Hab Hc].
  apply elem_of_cons in Hx as [->|Hx]; [by apply tc_once|]. eapply tc_l; [done|]. by apply IH.
Qed.
Lemma chain_NoDup R a ns : acyclic R -> chain R a ns -> NoDup (a :: ns).
Proof.
  intros HR. revert a. induction ns as [|b ns IH]; intros a Hc; [apply NoDup_singleton|].
  constructor; [|apply IH; apply Hc]. intros Ha. by eapply (HR a), chain_reach.
Qed.
Lemma chain_last R a ns b : chain R a ns -> last (a :: ns) = Some b -> rtc R a b.
Proof.
  revert a. induction ns as [|c ns IH]; intros a Hc Hl; [cbn in Hl; injection Hl as ->; done|].
  destruct Hc as [Hac Hc]. eapply rtc_l; [done|]. by apply IH.
Qed.
Lemma simple_edge_on_walk R a b u v : on_simple_path R a b u v -> on_walk R a b u v.
Proof.
  intros (ns & (Hc & _ & Hl) & l1 & l2 & E).
  revert a ns Hc Hl E. induction l1 as [|x l1 IH]; intros a ns Hc Hl E; cbn in E.
  - injection E as -> ->. destruct Hc as [Huv Hc]. split; [done|]. split; [done|].
    eapply chain_last; [exact Hc|]. done.
  - injection E as -> ->. destruct l1 as [|y l1]; cbn in *.
    + destruct Hc as [Hxu Hc]. destruct (IH u (v :: l2) Hc Hl eq_refl) as (H1 & H2 & H3).
      split; [by eapply rtc_l|done].
    + destruct Hc as [Hxu Hc]. destruct (IH y (l1 ++ u :: v :: l2) Hc Hl eq_refl) as (H1 & H2 & H3).
      split; [by eapply rtc_l|done].
Qed.
Lemma walk_edge_on_simple R a b u v : acyclic R -> on_walk R a b u v -> on_simple_path R a b u v.
Proof.
  intros HR (H1 & H2 & H3). apply rtc_chain in H1 as (l1 & C1 & L1), H3 as (l2 & C2 & L2).
  assert (exists l, a :: l1 = l ++ [u]) as (l & El).
  { apply last_Some in L1 as (l & El). by exists l. }
  exists (l1 ++ v :: l2).
  assert (Hc : chain R a (l1 ++ v :: l2)).
  { destruct l1 as [|y l1'] using rev_ind.
    - cbn in L1. injection L1 as ->. done.
    - rewrite app_comm_cons in L1. rewrite last_snoc in L1. injection L1 as ->.
      rewrite <-app_assoc. cbn. apply chain_app. split; [done|]. done. }
  split; [split; [done|]|].
  - split; [by eapply chain_NoDup|]. rewrite app_comm_cons, last_app. destruct l2; [done|]. cbn in *. by rewrite L2.
  - exists l, l2. rewrite app_comm_cons, El, <-app_assoc. done.
Qed.

(** in a graph without cycles, a node on a walk is on a simple path *)
Lemma node_on_simple R a n b : acyclic R -> rtc R a n -> rtc R n b -> exists p, simple_path R a b p /\ n ∈ a :: p.
Proof.
  intros HR H1 H2. apply rtc_chain in H1 as (l1 & C1 & L1), H2 as (l2 & C2 & L2). exists (l1 ++ l2).
  assert (Hc : chain R a (l1 ++ l2)).
  { destruct l2 as [|y l2]; [by rewrite app_nil_r|]. destruct l1 as [|z l1'] using rev_ind; [cbn in L1; by injection L1 as ->|].
    rewrite app_comm_cons, last_snoc in L1. injection L1 as ->. rewrite <-app_assoc. cbn. apply chain_app. done. }
  split; [split; [done|]; split; [by eapply chain_NoDup|]|].
  - rewrite app_comm_cons, last_app. destruct l2 as [|y l2]; [cbn in L2; injection L2 as ->; done|]. cbn in *. by rewrite L2.
  - rewrite app_comm_cons. apply elem_of_app. left. apply last_Some in L1 as (l & ->). apply elem_of_app. right. by left.
Qed.

Section proofs.
  Context (ord : sset -> list string) (Hord : forall X x, x ∈ ord X <-> x ∈ X).
  Context (g : gmap string sset) (stop : string).
  Definition step (u v : string) : Prop := exists X, g !! u = Some X /\ v ∈ X.

  Lemma ep_dfs_S fuel node path st : ep_dfs ord g stop (S fuel) node path st =
    if decide (node = stop) then Ok (st.1, st.2 ∪ list_to_set path)
    else bindR (at_key node g) (fun ns =>
         bindR (ep_loop (ep_dfs ord g stop fuel) node path (ord ns) ({[node]} ∪ st.1, st.2)) (fun st =>
         Ok (st.1 ∖ {[node]}, st.2))).
  Proof. done. Qed.

  (** an invariant rule for the loop: each neighbour is either visited with [rec] or skipped *)
  Lemma ep_loop_ind (rec : string -> list edge2 -> epst -> result epst) (node : string) (path : list edge2) (P : list string -> epst -> Prop) (l : list string) : forall st st' : epst,
    ep_loop rec node path l st = Ok st' ->
    P l st ->
    (forall nb l st, P (nb :: l) st -> nb ∈ st.1 -> P l st) ->
    (forall nb l st st1, P (nb :: l) st -> rec nb (path ++ [(node, nb)]) st = Ok st1 -> P l st1) ->
    P [] st'.
  Proof.
    induction l as [|nb l IH]; intros st st' Hr HP Hskip Hrec; cbn in Hr.
    - by injection Hr as <-.
    - assert (Hgo : bindR (rec nb (path ++ [(node, nb)]) st) (fun st => ep_loop rec node path l st) = Ok st' -> P [] st').
      { destruct (rec _ _ _) as [st1|] eqn:E; [|done]. intros H1. eapply IH; [done|by eapply Hrec|done|done]. }
      case_decide as H1; [by apply Hgo|]. case_decide as H2; [by apply Hgo|].
      eapply IH; [done| |done|done]. apply (Hskip nb); [done|]. destruct (decide (nb ∈ st.1)); [done|]. by exfalso.
  Qed.

  Lemma ep_mono fuel : forall node path st st', ep_dfs ord g stop fuel node path st = Ok st' -> st'.1 ⊆ st.1 /\ st.2 ⊆ st'.2.
  Proof.
    induction fuel as [|fuel IH]; intros node path st st' Hr; [done|]. rewrite ep_dfs_S in Hr. case_decide as Hs.
    - injection Hr as <-. cbn. split; [done|]. apply union_subseteq_l.
    - destruct (at_key node g) as [ns|]; [|done]. cbn [bindR result_bind] in Hr.
      destruct (ep_loop _ _ _ _ _) as [st1|] eqn:E; [|done]. cbn in Hr. injection Hr as <-. cbn.
      assert (st1.1 ⊆ {[node]} ∪ st.1 /\ st.2 ⊆ st1.2) as [H1 H2].
      { refine (ep_loop_ind _ _ _ (fun _ s => s.1 ⊆ {[node]} ∪ st.1 /\ st.2 ⊆ s.2) _ _ _ E _ _ _); [done|done|].
        intros nb l s s1 [H1 H2] Hs1. apply IH in Hs1 as [H3 H4]. split; [by trans s.1|by trans s.2]. }
      split; [|done]. intros x [Hx Hx2]%elem_of_difference. apply H1 in Hx. apply elem_of_union in Hx as [Hx|?]; [done|done].
  Qed.

  (** ** Only edges of walks *)
  Lemma ep_sound start fuel : forall node path st st',
    ep_dfs ord g stop fuel node path st = Ok st' ->
    rtc step start node ->
    (forall u v, (u, v) ∈ path -> rtc step start u /\ step u v /\ rtc step v node) ->
    forall u v, (u, v) ∈ st'.2 -> (u, v) ∈ st.2 \/ on_walk step start stop u v.
  Proof.
    induction fuel as [|fuel IH]; intros node path st st' Hr Hn Hp; [done|]. rewrite ep_dfs_S in Hr. case_decide as Hs.
    - injection Hr as <-. cbn. intros u v [?|Huv]%elem_of_union; [auto|]. right. subst node.
      apply elem_of_list_to_set in Huv. by apply Hp.
    - destruct (at_key node g) as [ns|] eqn:Hns; [|done]. cbn [bindR result_bind] in Hr. apply at_key_ok in Hns.
      destruct (ep_loop _ _ _ _ _) as [st1|] eqn:E; [|done]. cbn in Hr. injection Hr as <-. cbn.
      assert (Hnb : forall nb, nb ∈ ord ns -> step node nb) by (intros nb Hnb; apply Hord in Hnb; by exists ns).
      refine (proj2 (ep_loop_ind _ _ _ (fun l s => (forall x, x ∈ l -> step node x) /\ forall u v, (u, v) ∈ s.2 -> (u, v) ∈ st.2 \/ on_walk step start stop u v) _ _ _ E _ _ _)).
      + auto.
      + intros nb l s [H1 H2] _. split; [intros; apply H1; by right|done].
      + intros nb l s s1 [H1 H2] Hs1. split; [intros; apply H1; by right|].
        assert (step node nb) as Hstep by (apply H1; left).
        intros u v Huv. eapply (IH _ _ _ _ Hs1) in Huv as [?|?]; [auto|auto|by eapply rtc_r|].
        intros u' v' [Hp'|Hp']%elem_of_app.
        * destruct (Hp _ _ Hp') as (? & ? & ?). split; [done|]. split; [done|]. by eapply rtc_r.
        * apply elem_of_list_singleton in Hp'. injection Hp' as -> ->. done.
  Qed.

  (** ** All edges of simple paths *)
  Lemma ep_complete fuel : forall node path st st' ns,
    ep_dfs ord g stop fuel node path st = Ok st' ->
    simple_path step node stop ns -> (forall x, x ∈ ns -> x ∉ st.1) ->
    (forall e, e ∈ path -> e ∈ st'.2) /\ (forall u v, edge_of node ns u v -> (u, v) ∈ st'.2).
  Proof.
    induction fuel as [|fuel IH]; intros node path st st' ns Hr Hp Hv; [done|]. rewrite ep_dfs_S in Hr. case_decide as Hs.
    - subst node. injection Hr as <-. cbn. split.
      + intros e He. apply elem_of_union. right. by apply elem_of_list_to_set.
      + destruct Hp as (_ & Hnd & Hl). destruct ns as [|n ns].
        * intros u v (l1 & l2 & E). destruct l1 as [|? [|? ?]]; done.
        * exfalso. apply NoDup_cons in Hnd as [Hnd _]. apply Hnd. cbn in Hl. by apply (last_Some_elem_of (n :: ns)).
    - destruct Hp as (Hc & Hnd & Hl). destruct ns as [|n ns]; [cbn in Hl; congruence|].
      destruct Hc as [Hstep Hc]. apply NoDup_cons in Hnd as [Hnn Hnd].
      destruct Hstep as (Y & HY & HnY). rewrite (proj2 (at_key_ok _ _ _) HY) in Hr. cbn [bindR result_bind] in Hr.
      destruct (ep_loop _ _ _ _ _) as [st1|] eqn:E; [|done]. cbn in Hr. injection Hr as <-. cbn.
      set (done2 := fun s : epst => (forall e, e ∈ path ++ [(node, n)] -> e ∈ s.2) /\ (forall u v, edge_of n ns u v -> (u, v) ∈ s.2)).
      assert (done2 st1) as [D1 D2].
      { assert (Hlp : (n ∈ ([] : list string) \/ done2 st1) /\ st1.1 ⊆ {[node]} ∪ st.1).
        { refine (ep_loop_ind _ _ _ (fun l s => (n ∈ l \/ done2 s) /\ s.1 ⊆ {[node]} ∪ st.1) _ _ _ E _ _ _).
          - split; [left; by apply Hord|done].
          - intros nb l s [[Hin|Hd] Hsub] Hvis; (split; [|done]); [|auto].
            apply elem_of_cons in Hin as [->|?]; [|auto]. exfalso. apply Hsub in Hvis. apply elem_of_union in Hvis as [Hvis|Hvis].
            + apply elem_of_singleton in Hvis. subst. apply Hnn. left.
            + apply (Hv nb); [left|done].
          - intros nb l s s1 [Hin Hsub] Hs1. pose proof (ep_mono _ _ _ _ _ Hs1) as [M1 M2].
            split; [|by trans s.1]. destruct Hin as [Hin|[D1 D2]].
            + apply elem_of_cons in Hin as [->|?]; [|auto]. right. unfold done2. eapply (IH _ _ _ _ ns Hs1).
              * split; [done|]. split; [done|]. done.
              * intros x Hx Hxs. apply Hsub in Hxs. apply elem_of_union in Hxs as [Hxs|Hxs].
                -- apply elem_of_singleton in Hxs. subst. apply Hnn. by right.
                -- apply (Hv x); [by right|done].
            + right. split; [intros; by apply M2, D1|intros; by apply M2, D2]. }
        destruct Hlp as [[Hn|?] _]; [by apply elem_of_nil in Hn|done]. }
      split.
      + intros e He. apply D1. apply elem_of_app. auto.
      + intros u v (l1 & l2 & E'). destruct l1 as [|x l1]; cbn in E'.
        * injection E' as -> -> ->. apply D1. apply elem_of_app. right. by apply elem_of_list_singleton.
        * injection E' as -> E'. apply D2. by exists l1, l2.
  Qed.

  (** ** Graphs without cycles *)
  Lemma ep_total (Hac : acyclic step) (Hcl : forall u v, step u v -> v ∈ dom g) fuel : forall node path st,
    node ∈ dom g -> st.1 ⊆ dom g -> (forall x, x ∈ st.1 -> tc step x node) -> size (dom g ∖ ({[node]} ∪ st.1)) < fuel ->
    exists E, ep_dfs ord g stop fuel node path st = Ok (st.1, E).
  Proof.
    induction fuel as [|fuel IH]; intros node path [vis val] Hn Hsub Htc Hsz; [lia|]. cbn [fst] in *. rewrite ep_dfs_S. cbn [fst snd].
    case_decide as Hs; [eauto|]. apply elem_of_dom in Hn as [ns Hns]. rewrite (proj2 (at_key_ok _ _ _) Hns). cbn [bindR result_bind].
    assert (Hnv : node ∉ vis). { intros Hv. apply Htc in Hv. by apply Hac in Hv. }
    assert (Hl : forall l val, (forall x, x ∈ l -> step node x) ->
      exists E, ep_loop (ep_dfs ord g stop fuel) node path l ({[node]} ∪ vis, val) = Ok ({[node]} ∪ vis, E)).
    { induction l as [|nb l IHl]; intros val' Hl; [cbn; eauto|]. cbn [ep_loop].
      assert (Hnb : step node nb) by (apply Hl; left).
      assert (Htc' : forall x, x ∈ {[node]} ∪ vis -> tc step x nb).
      { intros x [Hx|Hx]%elem_of_union; [apply elem_of_singleton in Hx as ->; by apply tc_once|].
        apply Htc in Hx. by eapply tc_r. }
      assert (Hnbv : nb ∉ {[node]} ∪ vis) by (intros Hx; apply Htc' in Hx; by apply Hac in Hx).
      rewrite decide_True by done.
      destruct (IH nb (path ++ [(node, nb)]) ({[node]} ∪ vis, val')) as [E HE]; cbn [fst].
      - by eapply Hcl.
      - intros x [Hx|Hx]%elem_of_union; [apply elem_of_singleton in Hx as ->; apply elem_of_dom; eauto|by apply Hsub].
      - done.
      - assert (dom g ∖ ({[nb]} ∪ ({[node]} ∪ vis)) ⊂ dom g ∖ ({[node]} ∪ vis)) as Hlt%subset_size; [|lia].
        assert (nb ∈ dom g) by by eapply Hcl. clear -Hnbv H. set_solver.
      - rewrite HE. cbn [bindR result_bind fst]. apply IHl. intros; apply Hl; by right. }
    destruct (Hl (ord ns) val) as [E HE]. { intros x Hx. apply Hord in Hx. by exists ns. }
    rewrite HE. cbn. exists E. f_equal. f_equal. clear -Hnv. set_solver.
  Qed.
End proofs.

Section edges.
  Context (ord : sset -> list string) (Hord : forall X x, x ∈ ord X <-> x ∈ X) (g : gmap string sset).

  Lemma get_edges_in_paths_bounds fuel start stop E : get_edges_in_paths ord fuel g start stop = Ok E ->
    (forall u v, on_simple_path (step g) start stop u v -> (u, v) ∈ E) /\
    (forall u v, (u, v) ∈ E -> on_walk (step g) start stop u v).
  Proof.
    unfold get_edges_in_paths. destruct (ep_dfs _ _ _ _ _ _ _) as [st|] eqn:Hr; [|done]. cbn. intros [= <-]. split.
    - intros u v (ns & Hns & He). eapply (ep_complete ord Hord g stop fuel); [done|done| |done]. intros. apply not_elem_of_empty.
    - intros u v Huv. eapply (ep_sound ord Hord g stop start) in Hr as [Hr|Hr]; [by apply not_elem_of_empty in Hr|done|done| |done].
      intros ? ? H. by apply elem_of_nil in H.
  Qed.
  Lemma get_edges_in_paths_total fuel start stop : acyclic (step g) -> (forall u v, step g u v -> v ∈ dom g) ->
    start ∈ dom g -> size g <= fuel -> exists E, get_edges_in_paths ord fuel g start stop = Ok E.
  Proof.
    intros Hac Hcl Hs Hf. destruct (ep_total ord Hord g stop Hac Hcl fuel start [] (∅, ∅)) as [E HE]; cbn [fst].
    - done.
    - set_solver.
    - set_solver.
    - assert (dom g ∖ ({[start]} ∪ ∅) ⊂ dom g) as Hlt%subset_size by set_solver. rewrite size_dom in Hlt. lia.
    - unfold get_edges_in_paths. rewrite HE. cbn. eauto.
  Qed.
End edges.
