(** The super graph, the almost-topological sort and Kahn's algorithm. *)
From stdpp Require Import base list gmap relations sorting numbers fin_sets.
From Verif Require Import Base GraphAlgo Spec_GraphAlgo GraphAlgo_proofs Tarjan_proofs.

Lemma tc_first {A} (R : relation A) x y : tc R x y -> exists z, R x z /\ rtc R z y.
Proof. intros [a b Hxy|a z b Hxz Hzy]; [exists b|exists z]; (split; [done|]); [apply rtc_refl|by apply tc_rtc]. Qed.
Section before.
  Context {A : Type}.
  Implicit Types (x y z : A) (l : list A).
  Lemma before_elem x y l : before x y l -> x ∈ l /\ y ∈ l.
  Proof. intros (l1 & l2 & l3 & ->). set_solver. Qed.
  Lemma before_app l1 l2 x y : x ∈ l1 -> y ∈ l2 -> before x y (l1 ++ l2).
  Proof.
    intros Hx Hy. apply elem_of_list_split in Hx as (a & b & ->). apply elem_of_list_split in Hy as (c & d & ->).
    exists a, (b ++ c), d. by rewrite <-!app_assoc.
  Qed.
  Lemma before_inv x y l : before x y l -> exists l1 l2, l = l1 ++ l2 /\ x ∈ l1 /\ y ∈ l2.
  Proof.
    intros (l1 & l2 & l3 & ->). exists (l1 ++ [x]), (l2 ++ y :: l3). rewrite <-app_assoc. split; [done|]. set_solver.
  Qed.
  Lemma before_trans x y z l : NoDup l -> before x y l -> before y z l -> before x z l.
  Proof.
    intros N (l1 & l2 & l3 & E) (k1 & k2 & k3 & E').
    assert (Hk : k1 = l1 ++ x :: l2 /\ l3 = k2 ++ z :: k3).
    { clear -N E E'. rewrite E in E'. rewrite E in N. clear E.
      rewrite app_comm_cons, app_assoc in E', N. remember (l1 ++ x :: l2) as a eqn:Ea. clear Ea l1 l2 l.
      revert k1 E'. induction a as [|w a IH]; intros [|w' k1] E'; cbn in *.
      - injection E' as ->. done.
      - injection E' as -> E'. exfalso. apply NoDup_cons in N as [N _]. apply N. rewrite E'. set_solver.
      - injection E' as -> E'. exfalso. apply NoDup_cons in N as [N _]. apply N. set_solver.
      - injection E' as -> E'. apply NoDup_cons in N as [_ N]. destruct (IH N k1 E') as [-> ->]. done. }
    destruct Hk as [-> ->]. exists l1, (l2 ++ y :: k2), k3. rewrite E. by rewrite <-!app_assoc.
  Qed.
  Lemma before_tc (R : relation A) l : NoDup l -> (forall x y, R x y -> before x y l) -> forall x y, tc R x y -> before x y l.
  Proof. intros N HR x y Hr. induction Hr as [x y Hxy|x y z Hxy _ IH]; [auto|]. eapply before_trans; eauto. Qed.
End before.

Section super.
  Context {A : Type} `{Countable A}.
  Implicit Types (g : graph (A:=A)) (x y : A) (cs : list (list A)) (sg : list (nat * list nat)).

  Lemma fold_insert_lookup (c : list A) (i : nat) (m : gmap A nat) x :
    fold_left (fun m x => <[x := i]> m) c m !! x = if decide (x ∈ c) then Some i else m !! x.
  Proof.
    revert m. induction c as [|y c IH]; intros m; cbn.
    - rewrite decide_False by apply not_elem_of_nil. done.
    - rewrite IH. destruct (decide (x ∈ c)) as [Hx|Hx].
      + rewrite decide_True by (by right). done.
      + destruct (decide (x = y)) as [->|].
        * rewrite lookup_insert. rewrite decide_True by (by left). done.
        * rewrite lookup_insert_ne by done. rewrite decide_False; [done|]. intros [|]%elem_of_cons; done.
  Qed.

  Lemma node_to_scc_spec cs : NoDup (mjoin cs) -> forall x i c, cs !! i = Some c -> x ∈ c -> node_to_scc cs !! x = Some i.
  Proof.
    intros N. unfold node_to_scc.
    assert (Hgen : forall cs k (m : gmap A nat), NoDup (mjoin cs) -> forall x,
      (forall i c, cs !! i = Some c -> x ∈ c ->
        fold_left (fun m ic => fold_left (fun m x => <[x := ic.1]> m) ic.2 m) (imap (fun n => pair (k + n)) cs) m !! x = Some (k + i)) /\
      (x ∉ mjoin cs -> fold_left (fun m ic => fold_left (fun m x => <[x := ic.1]> m) ic.2 m) (imap (fun n => pair (k + n)) cs) m !! x = m !! x)).
    { clear. intros cs. induction cs as [|c cs IH]; intros k m N x.
      - split; [intros i c E; by rewrite lookup_nil in E|done].
      - change (mjoin (c :: cs)) with (c ++ mjoin cs) in N |- *. apply NoDup_app in N as (N1 & N3 & N2).
        assert (Eim : imap (fun n => pair (k + n)) (c :: cs) = (k + 0, c) :: imap (fun n => pair (S k + n)) cs).
        { cbn. f_equal. apply imap_ext. intros. cbn. f_equal. lia. }
        rewrite Eim. cbn [fold_left fst snd].
        destruct (IH (S k) (fold_left (fun m x => <[x := k + 0]> m) c m) N2 x) as [IH1 IH2]. split.
        + intros [|i] c' E Hx; cbn in E.
          * injection E as <-. rewrite IH2 by (by apply N3). rewrite fold_insert_lookup. by rewrite decide_True.
          * rewrite (IH1 i c' E Hx). f_equal. lia.
        + intros Hx. apply not_elem_of_app in Hx as [Hx1 Hx2]. rewrite IH2 by done. rewrite fold_insert_lookup. by rewrite decide_False. }
    intros x i c E Hx. destruct (Hgen cs 0 ∅ N x) as [H1 _]. exact (H1 i c E Hx).
  Qed.

  Definition sgok (K : nat -> Prop) (P : nat -> nat -> Prop) sg : Prop :=
    NoDup (map fst sg) /\ (forall i, i ∈ map fst sg <-> K i) /\ (forall i j, edge sg i j <-> P i j).

  Lemma sgok_ext K K' P P' sg : sgok K P sg -> (forall i, K i <-> K' i) -> (forall i j, P i j <-> P' i j) -> sgok K' P' sg.
  Proof. intros (H1 & H2 & H3) HK HP. split; [done|]. split; [intros; by rewrite H2|intros; by rewrite H3]. Qed.

  Lemma setdefault_gget i j sg : gget j (sg_setdefault i sg) = if decide (j = i) then Some (default [] (gget j sg)) else gget j sg.
  Proof.
    induction sg as [|[k l] sg IH]; cbn.
    - destruct (decide (j = i)); done.
    - destruct (decide (i = k)) as [->|]; cbn.
      + destruct (decide (j = k)); done.
      + destruct (decide (j = k)) as [->|].
        * rewrite decide_False by done. done.
        * done.
  Qed.
  Lemma setdefault_keys i sg j : j ∈ map fst (sg_setdefault i sg) <-> j = i \/ j ∈ map fst sg.
  Proof.
    rewrite !gget_key. setoid_rewrite setdefault_gget. destruct (decide (j = i)) as [->|].
    - split; [auto|]. intros _. eauto.
    - tauto.
  Qed.
  Lemma setdefault_ok i K P sg : sgok K P sg -> sgok (fun j => j = i \/ K j) P (sg_setdefault i sg).
  Proof.
    intros (N & HK & HP). split; [|split].
    - clear -N. induction sg as [|[k l] sg IH]; cbn; [apply NoDup_singleton|]. cbn in N. apply NoDup_cons in N as [N1 N2].
      destruct (decide (i = k)) as [->|]; cbn; constructor; auto. rewrite setdefault_keys. intros [|]; done.
    - intros j. by rewrite setdefault_keys, HK.
    - intros j k. rewrite <-HP. unfold edge. setoid_rewrite setdefault_gget. destruct (decide (j = i)) as [->|]; [|done].
      split.
      + intros (l & [= <-] & Hk). destruct (gget i sg) as [l|] eqn:E; cbn in Hk; [eauto|by apply elem_of_nil in Hk].
      + intros (l & E & Hk). exists (default [] (gget i sg)). split; [done|]. by rewrite E.
  Qed.
  Lemma add_gget i j k sg : gget k (sg_add i j sg) =
    if decide (k = i) then (fun l => if decide (j ∈ l) then l else l ++ [j]) <$> gget k sg else gget k sg.
  Proof.
    induction sg as [|[a l] sg IH].
    - cbn. destruct (decide (k = i)); done.
    - cbn [sg_add map gget fst snd]. destruct (decide (a = i)) as [->|]; cbn [gget fst].
      + destruct (decide (k = i)) as [->|]; [done|]. rewrite <-IH. done.
      + destruct (decide (k = a)) as [->|]; [by rewrite decide_False|]. apply IH.
  Qed.
  Lemma add_keys i j sg : map fst (sg_add i j sg) = map fst sg.
  Proof. unfold sg_add. rewrite map_map. apply map_ext. intros [a l]. cbn. by destruct (decide (a = i)). Qed.
  Lemma add_ok i j K P sg : sgok K P sg -> K i -> sgok K (fun a b => P a b \/ (a = i /\ b = j)) (sg_add i j sg).
  Proof.
    intros (N & HK & HP) Hi. split; [by rewrite add_keys|]. split; [intros; by rewrite add_keys|].
    intros a b. rewrite <-HP. unfold edge. setoid_rewrite add_gget. destruct (decide (a = i)) as [->|Hne].
    - apply HK, gget_key in Hi as [l El]. rewrite El. cbn. split.
      + intros (l' & [= <-] & Hb). destruct (decide (j ∈ l)); [eauto|]. apply elem_of_app in Hb as [Hb|Hb]; [eauto|].
        apply elem_of_list_singleton in Hb. auto.
      + intros [(l' & [= <-] & Hb)|[_ ->]].
        * eexists. split; [done|]. destruct (decide (j ∈ l)); set_solver.
        * eexists. split; [done|]. destruct (decide (j ∈ l)); set_solver.
    - split; [auto|]. intros [|[? _]]; done.
  Qed.

  Lemma sg_edges_ok (m : gmap A nat) i l : forall K P sg, sgok K P sg -> K i -> (forall y, y ∈ l -> is_Some (m !! y)) ->
    exists sg', sg_edges m i l sg = Ok sg' /\ sgok K (fun a b => P a b \/ (a = i /\ a <> b /\ exists y, y ∈ l /\ m !! y = Some b)) sg'.
  Proof.
    induction l as [|y l IH]; intros K P sg Hs Hi Hm; cbn.
    - exists sg. split; [done|]. eapply sgok_ext; [done|done|]. intros a b. split; [auto|]. intros [|(_ & _ & y & Hy & _)]; [done|].
      by apply elem_of_nil in Hy.
    - destruct (Hm y ltac:(by left)) as [j Ej]. unfold mget. rewrite Ej. cbn.
      assert (Hm' : forall z, z ∈ l -> is_Some (m !! z)) by (intros; apply Hm; by right).
      destruct (decide (i = j)) as [->|Hij].
      + destruct (IH K P sg Hs Hi Hm') as (sg' & E & Hs'). exists sg'. split; [done|]. eapply sgok_ext; [done|done|].
        intros a b. split.
        * intros [|(-> & Hab & z & Hz & Ez)]; [auto|]. right. split; [done|]. split; [done|]. exists z. split; [by right|done].
        * intros [|(-> & Hab & z & Hz & Ez)]; [auto|]. right. split; [done|]. split; [done|].
          apply elem_of_cons in Hz as [->|Hz]; [congruence|eauto].
      + destruct (IH K _ _ (add_ok i j K P sg Hs Hi) Hi Hm') as (sg' & E & Hs'). exists sg'. split; [done|]. eapply sgok_ext; [done|done|].
        intros a b. split.
        * intros [[|[-> ->]]|(-> & Hab & z & Hz & Ez)]; [auto| |].
          -- right. split; [done|]. split; [done|]. exists y. split; [by left|done].
          -- right. split; [done|]. split; [done|]. exists z. split; [by right|done].
        * intros [|(-> & Hab & z & Hz & Ez)]; [auto|]. apply elem_of_cons in Hz as [->|Hz]; [|right; eauto].
          left. right. split; congruence.
  Qed.

  Lemma sg_nodes_ok (m : gmap A nat) g : forall K P sg, sgok K P sg -> NoDup (map fst g) ->
    (forall x l, (x, l) ∈ g -> is_Some (m !! x) /\ forall y, y ∈ l -> is_Some (m !! y)) ->
    exists sg', sg_nodes m g sg = Ok sg' /\
      sgok (fun i => K i \/ exists x, x ∈ nodes_of g /\ m !! x = Some i)
           (fun a b => P a b \/ (a <> b /\ exists x y, edge g x y /\ m !! x = Some a /\ m !! y = Some b)) sg'.
  Proof.
    induction g as [|[x l] g IH]; intros K P sg Hs N Hm; cbn.
    - exists sg. split; [done|]. eapply sgok_ext; [done| |].
      + intros i. split; [auto|]. intros [|(x & Hx & _)]; [done|]. by apply elem_of_nil in Hx.
      + intros a b. split; [auto|]. intros [|(_ & x & y & (l & [=] & _) & _)]. done.
    - destruct (Hm x l ltac:(by left)) as [[i Ei] Hy]. unfold mget. rewrite Ei. cbn.
      destruct (sg_edges_ok m i l _ _ _ (setdefault_ok i K P sg Hs) ltac:(by left) Hy) as (sg1 & E1 & Hs1). rewrite E1.
      cbn in N. apply NoDup_cons in N as [N1 N2].
      destruct (IH _ _ _ Hs1 N2 ltac:(intros; apply Hm; by right)) as (sg2 & E2 & Hs2). exists sg2. split; [done|].
      assert (Hedge : forall a b, edge ((x, l) :: g) a b <-> (a = x /\ b ∈ l) \/ edge g a b).
      { intros a b. unfold edge. cbn. destruct (decide (a = x)) as [->|].
        - split; [intros (l' & [= <-] & Hb); auto|]. intros [[_ Hb]|(l' & El & Hb)]; [eauto|]. destruct N1. apply gget_key. eauto.
        - split; [auto|]. intros [[? _]|]; done. }
      eapply sgok_ext; [done| |].
      + intros j. unfold nodes_of. cbn. split.
        * intros [[->|]|(z & Hz & Ez)]; [right; exists x; split; [by left|done]|auto|]. right. exists z. split; [by right|done].
        * intros [|(z & [->|Hz]%elem_of_cons & Ez)]; [auto| |right; eauto]. left. left. congruence.
      + intros a b. split.
        * intros [[|(-> & Hab & y & Hyl & Ey)]|(Hab & u & v & Huv & Eu & Ev)]; [auto| |].
          -- right. split; [done|]. exists x, y. split; [apply Hedge; auto|done].
          -- right. split; [done|]. exists u, v. split; [apply Hedge; auto|done].
        * intros [|(Hab & u & v & Huv & Eu & Ev)]; [auto|]. apply Hedge in Huv as [[-> Hv]|Huv]; [|right; eauto 10].
          left. right. split; [congruence|]. split; [done|]. eauto.
  Qed.

  Lemma extend_all_ok cs l : (forall i, i ∈ l -> i < length cs) -> extend_all cs l = Ok (mjoin (map (fun i => default [] (cs !! i)) l)).
  Proof.
    induction l as [|i l IH]; intros Hl; cbn; [done|]. destruct (lookup_lt_is_Some_2 cs i) as [c Ec]; [apply Hl; by left|].
    rewrite Ec. rewrite IH by (intros; apply Hl; by right). done.
  Qed.

  Lemma map_seq_lookup cs : map (fun i => default [] (cs !! i)) (seq 0 (length cs)) = cs.
  Proof.
    apply list_eq. intros i. change (map ?f ?l) with (f <$> l). rewrite list_lookup_fmap.
    destruct (decide (i < length cs)) as [Hi|Hi].
    - rewrite lookup_seq_lt by done. cbn. destruct (lookup_lt_is_Some_2 cs i Hi) as [c Ec]. by rewrite Ec.
    - rewrite lookup_seq_ge by lia. cbn. symmetry. apply lookup_ge_None. lia.
  Qed.

  Lemma almost_ok leA `{!RelDecision leA} g : closed g -> NoDup (nodes_of g) ->
    exists l, almost_topological_sort leA g = Ok l /\ l ≡ₚ nodes_of g /\
      forall x y, reach g x y -> ~ reach g y x -> before x y l.
  Proof.
    intros Hc N. destruct (find_sccs_ok g Hc leA N) as (cs & Ecs & Hj & Hs & _).
    unfold almost_topological_sort. rewrite Ecs.
    assert (Nj : NoDup (mjoin cs)) by (by rewrite Hj).
    assert (Hin : forall x, x ∈ nodes_of g -> exists i c, cs !! i = Some c /\ x ∈ c).
    { intros x Hx. rewrite <-Hj in Hx. apply elem_of_list_join in Hx as (c & Hx & Hc'). apply elem_of_list_lookup in Hc' as [i Hi]. eauto. }
    set (m := node_to_scc cs).
    assert (Hm : forall x i c, cs !! i = Some c -> x ∈ c -> m !! x = Some i) by (apply node_to_scc_spec; done).
    assert (Hm' : forall x i, x ∈ nodes_of g -> m !! x = Some i -> exists c, cs !! i = Some c /\ x ∈ c).
    { intros x i Hx Ei. destruct (Hin x Hx) as (i' & c & Ec & Hxc). rewrite (Hm x i' c Ec Hxc) in Ei. injection Ei as ->. eauto. }
    destruct (sg_nodes_ok m g (fun _ => False) (fun _ _ => False) []) as (sg & Esg & Nsg & HK & HP).
    - split; [constructor|]. split; [intros i; cbn; split; [by intros ?%elem_of_nil|done]|]. intros i j. split; [|done]. by intros (l & [=] & _).
    - done.
    - intros x l Hxl. assert (Hx : x ∈ nodes_of g) by (apply elem_of_list_fmap; by exists (x, l)). split.
      + destruct (Hin x Hx) as (i & c & Ec & Hxc). eexists. eauto.
      + intros y Hy. destruct (Hin y) as (i & c & Ec & Hxc); [|eexists; eauto]. apply (Hc x). exists l. split; [by apply gget_nodup|done].
    - unfold create_super_graph. fold m. rewrite Esg.
      assert (Hkeys : forall i, i ∈ nodes_of sg <-> i < length cs).
      { intros i. rewrite HK. split.
        - intros [[]|(x & Hx & Ex)]. destruct (Hm' x i Hx Ex) as (c & Ec & _). by eapply lookup_lt_Some.
        - intros Hi. right. destruct (lookup_lt_is_Some_2 cs i Hi) as [c Ec].
          destruct (Hs c ltac:(by eapply elem_of_list_lookup_2)) as [Hne _]. destruct c as [|x c]; [done|].
          exists x. split; [|eapply Hm; [exact Ec|by left]]. rewrite <-Hj. apply elem_of_list_join. exists (x :: c). split; [by left|by eapply elem_of_list_lookup_2]. }
      assert (Hedge : forall i j, edge sg i j -> i <> j /\ exists ci cj x y, cs !! i = Some ci /\ cs !! j = Some cj /\ x ∈ ci /\ y ∈ cj /\ edge g x y).
      { intros i j He. apply HP in He as [[]|(Hij & x & y & Hxy & Ex & Ey)]. split; [done|].
        assert (Hx : x ∈ nodes_of g) by (destruct Hxy as (l & El & _); apply gget_key; eauto).
        destruct (Hm' x i Hx Ex) as (ci & Eci & Hxi). destruct (Hm' y j (Hc _ _ Hxy) Ey) as (cj & Ecj & Hyj). eauto 10. }
      assert (Hscc : forall i c x y, cs !! i = Some c -> x ∈ c -> y ∈ c -> reach g x y).
      { intros i c x y Ec Hx Hy. destruct (Hs c ltac:(by eapply elem_of_list_lookup_2)) as [_ Hsc]. by apply (Hsc x y). }
      assert (Hreach : forall i j, rtc (edge sg) i j -> forall ci cj x y, cs !! i = Some ci -> cs !! j = Some cj -> x ∈ ci -> y ∈ cj -> reach g x y).
      { intros i j Hr. induction Hr as [i|i k j He _ IH]; intros ci cj x y Ei Ej Hx Hy.
        - assert (ci = cj) as -> by congruence. eauto.
        - destruct (Hedge i k He) as (_ & ci' & ck & u & v & Ei' & Ek & Hu & Hv & Huv). assert (ci' = ci) as -> by congruence.
          etrans; [eapply (Hscc i ci x u); eauto|]. eapply rtc_l; [exact Huv|]. eapply IH; eauto. }
      assert (Hac : acyclic sg).
      { intros i Hi. apply tc_first in Hi as (k & He & Hr).
        destruct (Hedge i k He) as (Hik & ci & ck & x & y & Ei & Ek & Hx & Hy & Hxy).
        assert (Hyx : reach g y x) by (eapply Hreach; eauto).
        destruct (Hs ci ltac:(by eapply elem_of_list_lookup_2)) as [_ Hsc].
        assert (Hyc : y ∈ ci) by (apply (Hsc x y Hx); split; [by apply rtc_once|done]).
        pose proof (Hm y i ci Ei Hyc). pose proof (Hm y k ck Ek Hy). congruence. }
      destruct (topological_sort_ok sg Hac le Nsg) as (l & El & Nl & Hl & Hb). rewrite El.
      assert (Hl' : forall i, i ∈ l <-> i < length cs).
      { intros i. rewrite Hl, <-Hkeys. unfold all_nodes. rewrite elem_of_list_to_set, elem_of_app. split; [|by left].
        intros [|Hi]; [done|]. apply elem_of_list_join in Hi as (k & Hi & Hk). apply elem_of_list_fmap in Hk as ([j k'] & -> & Hk). cbn in *.
        destruct (Hedge j i) as (_ & ? & ci & ? & ? & _ & Ei & _); [exists k'; split; [by apply gget_nodup|done]|].
        apply Hkeys. by eapply lookup_lt_Some. }
      assert (Hperm : l ≡ₚ seq 0 (length cs)).
      { apply NoDup_Permutation; [done|apply NoDup_seq|]. intros i. rewrite Hl', elem_of_seq. lia. }
      rewrite extend_all_ok by (intros; by apply Hl'). eexists. split; [done|]. split.
      + rewrite <-Hj. etrans; [apply join_perm; apply (Permutation_map _ Hperm)|]. by rewrite map_seq_lookup.
      + assert (Htc : forall x y, reach g x y -> forall i j, x ∈ nodes_of g -> m !! x = Some i -> m !! y = Some j -> i = j \/ tc (edge sg) i j).
        { intros x y Hr. induction Hr as [x|x z y Hxz _ IH]; intros i j Hx Ei Ej; [left; congruence|].
          assert (Hz : z ∈ nodes_of g) by (by eapply Hc). destruct (Hin z Hz) as (k & ck & Ek & Hzk).
          pose proof (Hm z k ck Ek Hzk) as Emk. destruct (decide (i = k)) as [->|Hik]; [eauto|]. right.
          assert (He : edge sg i k) by (apply HP; right; split; [done|]; eauto).
          destruct (IH k j Hz Emk Ej) as [->|Ht]; [by apply tc_once|by eapply tc_l]. }
        intros x y Hxy Hnyx.
        assert (Hx : x ∈ nodes_of g).
        { destruct Hxy as [|? ? ? (k & Ek & _) _]; [destruct Hnyx; apply rtc_refl|apply gget_key; eauto]. }
        assert (Hy : y ∈ nodes_of g).
        { apply rtc_inv_r in Hxy as [->|(z & _ & Hzy)]; [done|by eapply Hc]. }
        destruct (Hin x Hx) as (i & ci & Ei & Hxi). destruct (Hin y Hy) as (j & cj & Ej & Hyj).
        destruct (Htc x y Hxy i j Hx ltac:(eauto) ltac:(eauto)) as [->|Ht].
        * destruct Hnyx. assert (ci = cj) as -> by congruence. eauto.
        * apply (before_tc _ l Nl Hb) in Ht. apply before_inv in Ht as (l1 & l2 & -> & H1 & H2).
          rewrite map_app, join_app. apply before_app; apply elem_of_list_join.
          -- exists ci. split; [done|]. apply elem_of_list_fmap. exists i. by rewrite Ei.
          -- exists cj. split; [done|]. apply elem_of_list_fmap. exists j. by rewrite Ej.
  Qed.
End super.
