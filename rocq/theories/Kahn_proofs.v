(** Kahn's algorithm and topsort_modulo_sccs. *)
From stdpp Require Import base list gmap relations sorting numbers fin_sets.
From Verif Require Import Base GraphAlgo Spec_GraphAlgo GraphAlgo_proofs Tarjan_proofs Topsort_proofs.

Section kahn.
  Context {A : Type} `{Countable A} {L : Type}.
  Implicit Types (x y z : A) (l k : list A) (o : outmap (A:=A) (L:=L)).

  Definition occ y l : Z := Z.of_nat (length (filter (fun z => z = y) l)).
  Lemma occ_app y l k : occ y (l ++ k) = (occ y l + occ y k)%Z.
  Proof. unfold occ. rewrite filter_app, app_length. lia. Qed.
  Lemma occ_perm y l k : l ≡ₚ k -> occ y l = occ y k.
  Proof. intros E. unfold occ. by rewrite E. Qed.
  Lemma occ_cons y z l : occ y (z :: l) = ((if decide (z = y) then 1 else 0) + occ y l)%Z.
  Proof. unfold occ. rewrite filter_cons. destruct (decide (z = y)); cbn; lia. Qed.
  Lemma occ_pos y l : (0 <= occ y l)%Z. Proof. unfold occ. lia. Qed.
  Lemma occ_zero y l : occ y l = 0%Z <-> y ∉ l.
  Proof.
    unfold occ. induction l as [|z l IH]; [cbn; split; [intros _; apply not_elem_of_nil|done]|].
    rewrite filter_cons, not_elem_of_cons, <-IH. destruct (decide (z = y)) as [->|]; cbn; [split; [lia|tauto]|].
    split; [intros ->; done|tauto].
  Qed.

  Definition outs o x : list A := all_dsts (oget x o).
  Definition outs_all o l : list A := mjoin (map (outs o) l).

  Lemma outs_all_app o l k : outs_all o (l ++ k) = outs_all o l ++ outs_all o k.
  Proof. unfold outs_all. by rewrite map_app, join_app. Qed.
  Lemma outs_all_perm o l k : l ≡ₚ k -> outs_all o l ≡ₚ outs_all o k.
  Proof. intros E. apply join_perm, Permutation_map, E. Qed.
  Lemma elem_outs_all o l y : y ∈ outs_all o l <-> exists x, x ∈ l /\ y ∈ outs o x.
  Proof.
    unfold outs_all. rewrite elem_of_list_join. split.
    - intros (k & Hy & Hk). apply elem_of_list_fmap in Hk as (x & -> & Hx). eauto.
    - intros (x & Hx & Hy). exists (outs o x). split; [done|]. apply elem_of_list_fmap. eauto.
  Qed.

  Lemma oget_elem o x d : NoDup (map fst o) -> (x, d) ∈ o -> oget x o = d.
  Proof.
    induction o as [|[y e] o IH]; cbn; [by intros _ ?%elem_of_nil|]. rewrite NoDup_cons. intros [Hn N] [[= <- <-]|Hin]%elem_of_cons.
    - by rewrite decide_True.
    - destruct (decide (x = y)) as [->|]; [|auto]. destruct Hn. apply elem_of_list_fmap. by exists (y, d).
  Qed.
  Lemma oget_none o x : x ∉ map fst o -> oget x o = [].
  Proof.
    induction o as [|[y e] o IH]; cbn; [done|]. rewrite not_elem_of_cons. intros [Hn N]. rewrite decide_False by done. auto.
  Qed.
  Lemma oedge_outs o x y : NoDup (map fst o) -> oedge o x y <-> y ∈ outs o x.
  Proof.
    intros N. unfold oedge, outs, all_dsts. rewrite elem_of_list_join. split.
    - intros (d & lbl & ys & Hd & Hl & Hy). exists ys. split; [done|]. rewrite (oget_elem o x d N Hd).
      apply elem_of_list_fmap. by exists (lbl, ys).
    - intros (ys & Hy & Hys). apply elem_of_list_fmap in Hys as ([lbl ys'] & -> & Hin). cbn in Hy.
      destruct (decide (x ∈ map fst o)) as [Hx|Hx].
      + apply elem_of_list_fmap in Hx as ([x' d] & -> & Hd). exists d, lbl, ys'. cbn in *. rewrite (oget_elem o x' d N Hd) in Hin. auto.
      + rewrite (oget_none o x Hx) in Hin. by apply elem_of_nil in Hin.
  Qed.

  Lemma occ_entries o (nodes : list A) y : NoDup nodes -> NoDup (map fst o) -> (forall x, x ∈ map fst o -> x ∈ nodes) ->
    occ y (mjoin (map (fun xd => all_dsts xd.2) o)) = occ y (outs_all o nodes).
  Proof.
    intros Nn. revert nodes Nn. induction o as [|[x d] o IH]; intros nodes Nn N Hk.
    - cbn. transitivity 0%Z; [done|]. symmetry. apply occ_zero. intros Hy. apply elem_outs_all in Hy as (x & _ & Hx).
      by apply elem_of_nil in Hx.
    - cbn in N. apply NoDup_cons in N as [Nx N].
      assert (Hx : x ∈ nodes) by (apply Hk; by left). apply elem_of_Permutation in Hx as [nodes' Hp].
      assert (Nn' : NoDup (x :: nodes')) by (by rewrite <-Hp). apply NoDup_cons in Nn' as [Nx' Nn'].
      change (mjoin (map (fun xd => all_dsts xd.2) ((x, d) :: o))) with (all_dsts d ++ mjoin (map (fun xd => all_dsts xd.2) o)).
      rewrite occ_app. rewrite (IH nodes Nn N) by (intros z Hz; apply Hk; by right).
      rewrite (occ_perm _ _ _ (outs_all_perm o _ _ Hp)), (occ_perm _ _ _ (outs_all_perm ((x, d) :: o) _ _ Hp)).
      change (outs_all o (x :: nodes')) with (outs o x ++ outs_all o nodes').
      change (outs_all ((x, d) :: o) (x :: nodes')) with (outs ((x, d) :: o) x ++ outs_all ((x, d) :: o) nodes').
      assert (outs ((x, d) :: o) x = all_dsts d) as -> by (unfold outs; cbn; by rewrite decide_True).
      assert (outs o x = []) as -> by (unfold outs; by rewrite oget_none).
      assert (outs_all ((x, d) :: o) nodes' = outs_all o nodes') as ->.
      { unfold outs_all. f_equal. apply map_ext_in. intros z Hz. apply elem_of_list_In in Hz. unfold outs. cbn. rewrite decide_False; [done|].
        intros ->. done. }
      rewrite !occ_app. cbn. change (occ y []) with 0%Z. lia.
  Qed.

  Lemma deg_incr_ok l (nodes : list A) : (forall x, x ∈ l -> x ∈ nodes) -> forall (f : A -> Z) (m : gmap A Z),
    (forall y, y ∈ nodes -> m !! y = Some (f y)) ->
    exists m', deg_incr l m = Ok m' /\ forall y, y ∈ nodes -> m' !! y = Some (f y + occ y l)%Z.
  Proof.
    induction l as [|x l IH]; intros Hl f m Hm; cbn.
    - exists m. split; [done|]. intros y Hy. rewrite Hm by done. f_equal. cbn. change (occ y []) with 0%Z. lia.
    - rewrite Hm by (apply Hl; by left). cbn.
      destruct (IH ltac:(intros; apply Hl; by right) (fun y => f y + if decide (x = y) then 1 else 0)%Z (<[x := (f x + 1)%Z]> m)) as (m' & E & Hm').
      + intros y Hy. destruct (decide (x = y)) as [->|]; [by rewrite lookup_insert|]. rewrite lookup_insert_ne by done. rewrite Hm by done. f_equal. lia.
      + exists m'. split; [done|]. intros y Hy. rewrite Hm' by done. rewrite occ_cons. f_equal. lia.
  Qed.

  Lemma deg_decr_ok (nodes B : list A) d : forall m src rest (done_ : list A),
    done_ ++ src ++ rest ≡ₚ nodes -> NoDup nodes -> (forall x, x ∈ d -> x ∈ nodes) ->
    (forall y, y ∈ nodes -> m !! y = Some (occ y (d ++ B))) ->
    (forall y, y ∈ done_ ++ src -> occ y (d ++ B) = 0%Z) -> (forall y, y ∈ rest -> occ y (d ++ B) <> 0%Z) ->
    exists m' src' rest', deg_decr d m src = Ok (m', src') /\ src' ++ rest' ≡ₚ src ++ rest /\
      (forall y, y ∈ nodes -> m' !! y = Some (occ y B)) /\
      (forall y, y ∈ done_ ++ src' -> occ y B = 0%Z) /\ (forall y, y ∈ rest' -> occ y B <> 0%Z).
  Proof.
    induction d as [|x d IH]; intros m src rest done_ Hp N Hd Hm Hz Hnz; cbn.
    - exists m, src, rest. auto.
    - assert (Hx : x ∈ nodes) by (apply Hd; by left). rewrite Hm by done.
      cbn [app] in Hm, Hz, Hnz. setoid_rewrite occ_cons in Hm. setoid_rewrite occ_cons in Hz. setoid_rewrite occ_cons in Hnz.
      cbn [app]. rewrite occ_cons, decide_True by done.
      assert (Hxr : x ∈ rest).
      { rewrite <-Hp, app_assoc in Hx. apply elem_of_app in Hx as [Hx|]; [|done]. specialize (Hz x Hx). rewrite decide_True in Hz by done.
        pose proof (occ_pos x (d ++ B)). lia. }
      replace (1 + occ x (d ++ B) - 1)%Z with (occ x (d ++ B)) by lia.
      assert (Hm1 : forall y, y ∈ nodes -> <[x := occ x (d ++ B)]> m !! y = Some (occ y (d ++ B))).
      { intros y Hy. destruct (decide (x = y)) as [->|Hne]; [by rewrite lookup_insert|]. rewrite lookup_insert_ne by done.
        rewrite Hm by done. rewrite decide_False by done. f_equal. }
      assert (Hd' : forall z, z ∈ d -> z ∈ nodes) by (intros; apply Hd; by right).
      apply elem_of_Permutation in Hxr as [rest1 Hr].
      assert (Hnd : NoDup (done_ ++ src ++ x :: rest1)) by (by rewrite <-Hr, Hp).
      assert (Hxn : x ∉ done_ ++ src /\ x ∉ rest1).
      { rewrite app_assoc in Hnd. apply NoDup_app in Hnd as (_ & Hn1 & Hn2). apply NoDup_cons in Hn2 as [Hn2 _]. split; [|done].
        intros Hin. apply (Hn1 x Hin). by left. }
      destruct (decide (occ x (d ++ B) = 0)%Z) as [E0|E0].
      + destruct (IH (<[x := occ x (d ++ B)]> m) (x :: src) rest1 done_) as (m' & src' & rest' & E & Hp' & Hm' & Hz' & Hnz').
        * rewrite <-Hp, Hr. f_equiv. cbn. by rewrite Permutation_middle.
        * done.
        * done.
        * done.
        * intros y Hy. destruct (decide (y = x)) as [->|Hyx]; [done|]. rewrite <-(Hz y); [rewrite decide_False by done; lia|].
          rewrite elem_of_app, elem_of_cons in Hy. rewrite elem_of_app. tauto.
        * intros y Hy. assert (y <> x) by (intros ->; tauto). intros E. apply (Hnz y); [rewrite Hr; by right|].
          rewrite decide_False by done. lia.
        * exists m', src', rest'. split; [done|]. split; [|done]. rewrite Hp', Hr. cbn. by rewrite Permutation_middle.
      + destruct (IH (<[x := occ x (d ++ B)]> m) src rest done_) as (m' & src' & rest' & E & Hp' & Hm' & Hz' & Hnz').
        * done.
        * done.
        * done.
        * done.
        * intros y Hy. specialize (Hz y Hy). pose proof (occ_pos y (d ++ B)). destruct (decide (x = y)); lia.
        * intros y Hy. destruct (decide (y = x)) as [->|Hyx]; [done|]. intros E. apply (Hnz y Hy). rewrite decide_False by done. lia.
        * exists m', src', rest'. auto.
  Qed.

  Definition preds_first o l : Prop := forall l1 z l2 u, l = l1 ++ z :: l2 -> z ∈ outs o u -> u ∈ l1.

  Lemma kahn_ok o (nodes : list A) (Hk : forall x y, y ∈ outs o x -> x ∈ nodes /\ y ∈ nodes) (N : NoDup nodes) n :
    forall m src rest res, res ++ src ++ rest ≡ₚ nodes -> length (src ++ rest) <= n ->
    (forall y, y ∈ nodes -> m !! y = Some (occ y (outs_all o (src ++ rest)))) ->
    (forall y, y ∈ res ++ src -> occ y (outs_all o (src ++ rest)) = 0%Z) ->
    (forall y, y ∈ rest -> occ y (outs_all o (src ++ rest)) <> 0%Z) ->
    preds_first o res ->
    exists res' rest', kahn o n m src res = Ok res' /\ res' ++ rest' ≡ₚ nodes /\ preds_first o res'.
  Proof.
    induction n as [|n IH]; intros m src rest res Hp Hn Hm Hz Hnz Hpf.
    - destruct src; [|cbn in Hn; lia]. exists res, rest. auto.
    - destruct src as [|x src]; [exists res, rest; auto|]. cbn.
      destruct (deg_decr_ok nodes (outs_all o (src ++ rest)) (outs o x) m src rest (res ++ [x])) as (m' & src' & rest' & E & Hp' & Hm' & Hz' & Hnz').
      + by rewrite <-app_assoc.
      + done.
      + intros y Hy. by apply (Hk x).
      + intros y Hy. apply Hm, Hy.
      + intros y Hy. apply (Hz y). by rewrite <-app_assoc in Hy.
      + intros y Hy. apply (Hnz y Hy).
      + unfold outs in E. rewrite E.
        assert (Ho : forall y, occ y (outs_all o (src' ++ rest')) = occ y (outs_all o (src ++ rest))).
        { intros y. apply occ_perm, outs_all_perm, Hp'. }
        destruct (IH m' src' rest' (res ++ [x])) as (res' & rest'' & Er & Hpr & Hpfr).
        * rewrite <-app_assoc. cbn. rewrite Hp'. done.
        * apply Permutation_length in Hp'. rewrite Hp'. cbn in Hn. lia.
        * intros y Hy. rewrite Ho. auto.
        * intros y Hy. rewrite Ho. auto.
        * intros y Hy. rewrite Ho. auto.
        * intros l1 z l2 u El Hu. destruct l2 as [|b l2 _] using rev_ind.
          -- apply app_inj_tail in El as [-> ->].
             assert (Hx0 : occ z (outs_all o ((z :: src) ++ rest)) = 0%Z) by (apply Hz; set_solver).
             apply occ_zero in Hx0. destruct (Hk _ _ Hu) as [Hun _]. rewrite <-Hp in Hun. apply elem_of_app in Hun as [|Hun]; [done|].
             destruct Hx0. apply elem_outs_all. eauto.
          -- rewrite app_comm_cons, app_assoc in El. apply app_inj_tail in El as [-> ->]. by eapply Hpf.
        * exists res', rest''. auto.
  Qed.

  (** the graph used when there are cycles *)
  Lemma fallback_ok o (nodes : list A) : owf nodes o ->
    exists g, fallback_graph nodes o = Ok g /\ nodes_of g = nodes /\ (forall x y, edge g x y <-> oedge o x y).
  Proof.
    intros (Nn & No & Hk & He). unfold fallback_graph.
    set (es := mjoin (map (fun xd => map (pair xd.1) (all_dsts xd.2)) o)).
    assert (Hes : forall x y, (x, y) ∈ es <-> oedge o x y).
    { intros x y. unfold es, oedge, all_dsts. rewrite elem_of_list_join. split.
      - intros (l & Hin & Hl). apply elem_of_list_fmap in Hl as ([x' d] & -> & Hd). cbn in Hin.
        apply elem_of_list_fmap in Hin as (y' & [= <- <-] & Hy). apply elem_of_list_join in Hy as (ys & Hy & Hys).
        apply elem_of_list_fmap in Hys as ([lbl ys'] & -> & Hin). eauto 10.
      - intros (d & lbl & ys & Hd & Hl & Hy). exists (map (pair x) (mjoin (map snd d))). split.
        + apply elem_of_list_fmap. exists y. split; [done|]. apply elem_of_list_join. exists ys. split; [done|].
          apply elem_of_list_fmap. by exists (lbl, ys).
        + apply elem_of_list_fmap. by exists (x, d). }
    assert (Hsrc : forall x y, (x, y) ∈ es -> x ∈ nodes).
    { intros x y Hxy. apply Hes in Hxy as (d & _ & _ & Hd & _). apply Hk. apply elem_of_list_fmap. by exists (x, d). }
    clearbody es.
    assert (Hgen : forall es (g : graph (A:=A)), nodes_of g = nodes -> (forall x y, (x, y) ∈ es -> x ∈ nodes) ->
      exists g', fold_left (fun (r : result (graph (A:=A))) e => match r with
                          | Err e => Err e
                          | Ok g => match gget e.1 g with
                                    | None => Err EKeyError
                                    | Some _ => Ok (map (fun xl => if decide (xl.1 = e.1)
                                                                   then (xl.1, if decide (e.2 ∈ xl.2) then xl.2 else xl.2 ++ [e.2])
                                                                   else xl) g)
                                    end
                          end) es (Ok g) = Ok g' /\ nodes_of g' = nodes /\ (forall x y, edge g' x y <-> edge g x y \/ (x, y) ∈ es)).
    { clear -Nn. induction es as [|[u v] es IH]; intros g Hg Hs; cbn.
      - exists g. split; [done|]. split; [done|]. intros x y. split; [auto|]. intros [|Hn]; [done|]. by apply elem_of_nil in Hn.
      - destruct (proj1 (gget_key u g)) as [l El]; [change (u ∈ nodes_of g); rewrite Hg; apply (Hs u v); by left|]. rewrite El.
        set (g1 := map _ g).
        assert (Hget : forall x, gget x g1 = if decide (x = u) then (fun l => if decide (v ∈ l) then l else l ++ [v]) <$> gget x g else gget x g).
        { intros x. unfold g1. clear. induction g as [|[a l] g IH]; cbn; [destruct (decide (x = u)); done|].
          destruct (decide (a = u)) as [->|]; cbn.
          - destruct (decide (x = u)) as [->|]; done.
          - destruct (decide (x = a)) as [->|]; [by rewrite decide_False|]. done. }
        destruct (IH g1) as (g' & E & Hn & Hed).
        + unfold g1, nodes_of. rewrite <-Hg. unfold nodes_of. rewrite map_map. apply map_ext. intros [a l']. cbn. by destruct (decide (a = u)).
        + intros x y Hxy. apply (Hs x y). by right.
        + exists g'. split; [done|]. split; [done|]. intros x y. rewrite Hed, elem_of_cons. unfold edge. setoid_rewrite Hget.
          destruct (decide (x = u)) as [->|Hne].
          * rewrite El. cbn. split.
            -- intros [(l' & [= <-] & Hy)|]; [|auto]. destruct (decide (v ∈ l)); [eauto|]. apply elem_of_app in Hy as [|Hy]; [eauto|].
               apply elem_of_list_singleton in Hy as ->. auto.
            -- intros [(l' & [= <-] & Hy)|[[= ->]|]]; [| |auto]; left; eexists; (split; [done|]); destruct (decide _); set_solver.
          * split; [tauto|]. intros [|[[= -> ->]|]]; tauto. }
    destruct (Hgen es (map (fun x => (x, [])) nodes)) as (g & E & Hn & Hed).
    - unfold nodes_of. rewrite map_map. cbn. apply map_id.
    - done.
    - exists g. split; [done|]. split; [done|]. intros x y. rewrite Hed, Hes. split; [|auto]. intros [(l & El & Hy)|]; [|done].
      apply gget_elem in El. apply elem_of_list_fmap in El as (z & [= <- ->] & _). by apply elem_of_nil in Hy.
  Qed.

  Lemma topsort_ok leA `{!RelDecision leA} o (nodes : list A) : owf nodes o ->
    exists l, topsort_modulo_sccs leA nodes o = Ok l /\ l ≡ₚ nodes /\
      forall x y, rtc (oedge o) x y -> ~ rtc (oedge o) y x -> before x y l.
  Proof.
    intros Hw. pose proof Hw as (Nn & No & Hk & He).
    assert (Hkk : forall x y, y ∈ outs o x -> x ∈ nodes /\ y ∈ nodes).
    { intros x y Hy. apply oedge_outs in Hy; [|done]. split; [|by eapply He]. destruct Hy as (d & _ & _ & Hd & _).
      apply Hk. apply elem_of_list_fmap. by exists (x, d). }
    unfold topsort_modulo_sccs.
    destruct (deg_incr_ok (mjoin (map (fun xd => all_dsts xd.2) o)) nodes) with (f := fun _ : A => 0%Z)
      (m := list_to_map (map (fun x => (x, 0%Z)) nodes) : gmap A Z) as (m & Em & Hm).
    - intros x Hx. apply elem_of_list_join in Hx as (l & Hx & Hl). apply elem_of_list_fmap in Hl as ([u d] & -> & Hd). cbn in Hx.
      apply (Hkk u x). unfold outs. by rewrite (oget_elem o u d No Hd).
    - intros y Hy. apply elem_of_list_to_map_1.
      + rewrite <-list_fmap_compose. change (NoDup (map (fun x => x) nodes)). by rewrite map_id.
      + apply elem_of_list_fmap. eauto.
    - rewrite Em.
      set (src := reverse (filter (fun x => m !! x = Some 0%Z) nodes)).
      set (rest := filter (fun x => ~ m !! x = Some 0%Z) nodes).
      assert (Hsr : src ++ rest ≡ₚ nodes).
      { unfold src, rest. rewrite reverse_Permutation. clear. induction nodes as [|a l IH]; [done|]. rewrite !filter_cons.
        destruct (decide (m !! a = Some 0%Z)) as [E|E].
        - rewrite decide_False by tauto. cbn. by rewrite IH.
        - rewrite decide_True by done. rewrite <-Permutation_middle. by rewrite IH. }
      assert (Hm2 : forall y, y ∈ nodes -> m !! y = Some (occ y (outs_all o (src ++ rest)))).
      { intros y Hy. rewrite Hm by done. f_equal. cbn. rewrite (occ_entries o nodes) by done. symmetry. apply occ_perm, outs_all_perm, Hsr. }
      destruct (kahn_ok o nodes Hkk Nn (S (length nodes)) m src rest []) as (res & rest' & Er & Hp & Hpf).
      + done.
      + apply Permutation_length in Hsr. lia.
      + done.
      + intros y Hy. cbn in Hy. unfold src in Hy. rewrite elem_of_reverse in Hy. apply elem_of_list_filter in Hy as [E Hy]. rewrite Hm2 in E by done. congruence.
      + intros y Hy E. unfold rest in Hy. apply elem_of_list_filter in Hy as [E' Hy]. apply E'. rewrite Hm2 by done. by rewrite E.
      + intros [|] ? ? ? [=].
      + rewrite Er. destruct (decide (length res = length nodes)) as [El|El].
        * assert (Hr0 : rest' = []). { apply Permutation_length in Hp. rewrite app_length in Hp. destruct rest'; [done|cbn in Hp; lia]. }
          rewrite Hr0, app_nil_r in Hp. exists res. split; [done|]. split; [done|].
          assert (Nr : NoDup res) by (by rewrite Hp).
          assert (Hb : forall x y, oedge o x y -> before x y res).
          { intros x y Hxy. assert (Hy : y ∈ res) by (rewrite Hp; by eapply He). apply elem_of_list_split in Hy as (l1 & l2 & E).
            rewrite oedge_outs in Hxy by done. pose proof (Hpf _ _ _ _ E Hxy) as Hx. rewrite E. apply before_app; [done|by left]. }
          intros x y Hxy Hyx. apply (before_tc _ res Nr Hb).
          apply rtc_tc in Hxy as [->|]; [|done]. destruct Hyx. apply rtc_refl.
        * destruct (fallback_ok o nodes Hw) as (g & Eg & Hg & Hed). rewrite Eg.
          destruct (almost_ok leA g) as (l & E & Hl & Hb).
          -- intros x y Hxy. apply Hed in Hxy. rewrite Hg. by eapply He.
          -- by rewrite Hg.
          -- exists l. split; [done|]. rewrite <-Hg. split; [done|].
             assert (Hr : forall x y, reach g x y <-> rtc (oedge o) x y).
             { intros x y. split; intros Hr; induction Hr as [|a b c Hab _ IH]; try apply rtc_refl; (eapply rtc_l; [apply Hed; exact Hab|done]). }
             intros x y Hxy Hyx. apply Hb; by rewrite Hr.
  Qed.
End kahn.
