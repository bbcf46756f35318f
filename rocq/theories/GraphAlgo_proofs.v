From stdpp Require Import base list gmap relations sorting numbers fin_sets.
From Verif Require Import Base GraphAlgo Spec_GraphAlgo.

Local Arguments g_size : simpl never.
Section gen.
  Context {A : Type} `{Countable A}.
  Implicit Types (g : graph (A:=A)) (x y z : A).

  Definition all_nodes g : gset A := list_to_set (map fst g ++ mjoin (map snd g)).
  Lemma all_nodes_size g : size (all_nodes g) < g_size g.
  Proof.
    unfold all_nodes, g_size. eapply Nat.le_lt_trans with (length (map fst g ++ mjoin (map snd g))).
    - induction (map fst g ++ mjoin (map snd g)) as [|a l IH]; cbn; [by rewrite size_empty|].
      rewrite size_union_alt, size_singleton.
      pose proof (subseteq_size (list_to_set l ∖ {[a]}) (list_to_set l : gset A) ltac:(set_solver)). lia.
    - rewrite app_length, map_length. 
      assert (length (mjoin (map snd g)) = foldr (fun p n => length p.2 + n) 0 g) as ->; [|lia].
      clear. induction g as [|[a l] g IH]; [done|]. change (mjoin (map snd ((a, l) :: g))) with (l ++ mjoin (map snd g)).
      rewrite app_length, IH. done.
  Qed.
  Lemma gget_elem x g l : gget x g = Some l -> (x, l) ∈ g.
  Proof.
    induction g as [|[y k] g IH]; cbn; [done|]. destruct (decide (x = y)) as [->|].
    - intros [= ->]. by left.
    - intros. right. auto.
  Qed.
  Lemma edge_all g x y : edge g x y -> x ∈ all_nodes g /\ y ∈ all_nodes g.
  Proof.
    intros (l & E & Hy). apply gget_elem in E. unfold all_nodes. rewrite !elem_of_list_to_set, !elem_of_app. split.
    - left. apply elem_of_list_fmap. by exists (x, l).
    - right. apply elem_of_list_join. exists l. split; [done|]. apply elem_of_list_fmap. by exists (x, l).
  Qed.
  Lemma gget_key x g : x ∈ map fst g <-> exists l, gget x g = Some l.
  Proof.
    induction g as [|[y k] g IH]; cbn.
    - split; [by intros ?%elem_of_nil|by intros [? ?]].
    - rewrite elem_of_cons, IH. destruct (decide (x = y)); naive_solver.
  Qed.

  Lemma gget_nodup x l g : NoDup (map fst g) -> (x, l) ∈ g -> gget x g = Some l.
  Proof.
    induction g as [|[y k] g IH]; cbn; [by intros _ ?%elem_of_nil|]. rewrite NoDup_cons. intros [Hn Hnd].
    rewrite elem_of_cons. intros [[= -> ->]|Hin].
    - by rewrite decide_True.
    - destruct (decide (x = y)) as [->|]; [|auto]. destruct Hn. apply elem_of_list_fmap. by exists (y, l).
  Qed.

  (** ** topological_sort *)
  Fixpoint ts_loop (rec : A -> tstate -> result tstate) (l : list A) (s : tstate) : result tstate :=
    match l with
    | [] => Ok s
    | y :: l => if decide (y ∈ s.1) then ts_loop rec l s
                else match rec y s with Ok s => ts_loop rec l s | Err e => Err e end
    end.
  Lemma ts_dfs_S g n x s :
    ts_dfs g (S n) x s = match ts_loop (ts_dfs g n) (default [] (gget x g)) ({[x]} ∪ s.1, s.2) with
                         | Ok s => Ok (s.1, s.2 ++ [x]) | Err e => Err e end.
  Proof.
    cbn. match goal with |- match ?f _ _ with _ => _ end = _ => assert (E : forall l s, f l s = ts_loop (ts_dfs g n) l s) end.
    { clear. induction l as [|y l IH]; intros s; [done|]. cbn. destruct (decide (y ∈ s.1)); [apply IH|].
      destruct (ts_dfs g n y s); [apply IH|done]. }
    by rewrite E.
  Qed.
  Lemma ts_all_loop g n l s : ts_all g n l s = ts_loop (ts_dfs g n) l s.
  Proof.
    revert s. induction l as [|y l IH]; intros s; cbn; [done|]. destruct (decide (y ∈ s.1)); [apply IH|].
    destruct (ts_dfs g n y s); [apply IH|done].
  Qed.

  Section ts.
    Context (g : graph (A:=A)) (Hac : acyclic g).
    Definition okorder (l : list A) : Prop := forall l1 z l2 y, l = l1 ++ z :: l2 -> edge g z y -> y ∈ l1.
    Record tinv (G : gset A) (s : tstate) : Prop := TInv {
      ti_vis : s.1 = list_to_set s.2 ∪ G;
      ti_dis : forall z, z ∈ s.2 -> z ∉ G;
      ti_nd : NoDup s.2;
      ti_all : forall z, z ∈ s.2 -> z ∈ all_nodes g;
      ti_ok : okorder s.2 }.

    Lemma okorder_snoc l x : okorder l -> (forall y, edge g x y -> y ∈ l) -> okorder (l ++ [x]).
    Proof.
      intros Hl Hx l1 z l2 y E Hz. destruct l2 as [|b l2 _] using rev_ind.
      - apply app_inj_tail in E as [-> ->]. auto.
      - rewrite app_comm_cons, app_assoc in E. apply app_inj_tail in E as [-> ->]. by eapply Hl.
    Qed.

    Lemma ts_dfs_ok n : forall x G s, tinv G s -> x ∈ all_nodes g -> x ∉ s.1 -> (forall z, z ∈ G -> reach g z x) ->
      size (all_nodes g ∖ s.1) <= n ->
      exists s', ts_dfs g n x s = Ok s' /\ tinv G s' /\ s.1 ⊆ s'.1 /\ x ∈ s'.2.
    Proof.
      induction n as [|n IH]; intros x G s Hs Hx Hnx HG Hn.
      { exfalso. apply Nat.le_0_r, size_empty_inv in Hn. set_solver. }
      rewrite ts_dfs_S.
      assert (Hloop : forall l s1, (forall y, y ∈ l -> edge g x y) -> tinv ({[x]} ∪ G) s1 -> {[x]} ∪ s.1 ⊆ s1.1 ->
                exists s2, ts_loop (ts_dfs g n) l s1 = Ok s2 /\ tinv ({[x]} ∪ G) s2 /\ s1.1 ⊆ s2.1 /\ (forall y, y ∈ l -> y ∈ s2.1)).
      { induction l as [|y l IHl]; intros s1 Hl Hs1 Hsub; cbn.
        - exists s1. split_and!; try done. intros y Hy. by apply elem_of_nil in Hy.
        - destruct (decide (y ∈ s1.1)) as [Hy|Hy].
          + destruct (IHl s1) as (s2 & E & H1 & H2 & H3); [intros; apply Hl; by right|done..|].
            exists s2. split_and!; try done. intros z [->|]%elem_of_cons; [set_solver|auto].
          + destruct (IH y ({[x]} ∪ G) s1) as (s2 & E & H1 & H2 & H3).
            * done.
            * apply (edge_all g x). apply Hl. by left.
            * done.
            * intros z [->%elem_of_singleton|Hz]%elem_of_union.
              -- apply rtc_once. apply Hl. by left.
              -- etrans; [by apply HG|]. apply rtc_once. apply Hl. by left.
            * assert (Hss : all_nodes g ∖ s1.1 ⊂ all_nodes g ∖ s.1); [|apply subset_size in Hss; lia].
              clear -Hsub Hx Hnx. set_solver.
            * rewrite E. destruct (IHl s2) as (s3 & E3 & G1 & G2 & G3); [intros; apply Hl; by right|done|set_solver|].
              exists s3. split_and!; [done|done|set_solver|]. intros z [->|]%elem_of_cons; [|auto].
              apply G2. rewrite (ti_vis _ _ H1). set_solver. }
      destruct (Hloop (default [] (gget x g)) ({[x]} ∪ s.1, s.2)) as (s2 & E & H1 & H2 & H3).
      - intros y Hy. destruct (gget x g) as [l|] eqn:El; cbn in Hy; [by exists l|by apply elem_of_nil in Hy].
      - destruct Hs as [V D N Al O]. split; cbn; try done; [set_solver|]. intros z Hz. specialize (D z Hz).
        assert (z <> x) by (intros ->; set_solver). set_solver.
      - done.
      - rewrite E. eexists. split; [done|]. cbn in *. destruct H1 as [V D N Al O].
        assert (Hxs : x ∉ s2.2) by (intros Hin; apply D in Hin; set_solver).
        split; [|split; [set_solver|set_solver]]. split; cbn.
        + rewrite V, list_to_set_app_L. cbn. set_solver.
        + intros z [Hz| ->%elem_of_list_singleton]%elem_of_app.
          * specialize (D z Hz). set_solver.
          * rewrite (ti_vis _ _ Hs) in Hnx. set_solver.
        + apply NoDup_app. split; [done|]. split; [|apply NoDup_singleton]. intros z Hz ->%elem_of_list_singleton. done.
        + intros z [Hz| ->%elem_of_list_singleton]%elem_of_app; auto.
        + apply okorder_snoc; [done|]. intros y Hy.
          assert (Hv : y ∈ s2.1). { apply H3. destruct Hy as (l & El & Hy). by rewrite El. }
          rewrite V in Hv. apply elem_of_union in Hv as [Hv|Hv]; [by apply elem_of_list_to_set in Hv|].
          destruct (Hac x). apply elem_of_union in Hv as [->%elem_of_singleton|Hv].
          * by apply tc_once.
          * eapply tc_rtc_r; [by apply tc_once|]. by apply HG.
    Qed.

    Lemma ts_top l : (forall x, x ∈ l -> x ∈ all_nodes g) -> forall s, tinv ∅ s ->
      exists s', ts_loop (ts_dfs g (g_size g)) l s = Ok s' /\ tinv ∅ s' /\ s.1 ⊆ s'.1 /\ (forall x, x ∈ l -> x ∈ s'.1).
    Proof.
      induction l as [|x l IHl]; intros Hl s Hs; cbn.
      - exists s. split_and!; try done. intros y Hy. by apply elem_of_nil in Hy.
      - destruct (decide (x ∈ s.1)) as [Hx|Hx].
        + destruct (IHl ltac:(intros; apply Hl; by right) s Hs) as (s2 & E & H1 & H2 & H3).
          exists s2. split_and!; try done. intros z [->|]%elem_of_cons; auto.
        + destruct (ts_dfs_ok (g_size g) x ∅ s) as (s2 & E & H1 & H2 & H3).
          * done.
          * apply Hl. by left.
          * done.
          * intros z Hz. by apply elem_of_empty in Hz.
          * pose proof (all_nodes_size g). pose proof (subseteq_size (all_nodes g ∖ s.1) (all_nodes g) ltac:(clear; set_solver)). lia.
          * rewrite E. destruct (IHl ltac:(intros; apply Hl; by right) s2 H1) as (s3 & E3 & G1 & G2 & G3).
            exists s3. split_and!; [done|done|by etrans|]. intros z [->|]%elem_of_cons; [|auto].
            apply G2. rewrite (ti_vis _ _ H1). clear -H3. set_solver.
    Qed.

    Lemma topological_sort_ok leA `{!RelDecision leA} : NoDup (map fst g) ->
      exists l, topological_sort leA g = Ok l /\ NoDup l /\ (forall x, x ∈ l <-> x ∈ all_nodes g) /\
                (forall x y, edge g x y -> before x y l).
    Proof.
      intros Hnd. unfold topological_sort. rewrite ts_all_loop.
      destruct (ts_top (merge_sort leA (map fst g))) with (s := (∅ : gset A, [] : list A)) as (s & E & H1 & H2 & H3).
      - intros x Hx. rewrite merge_sort_Permutation in Hx. unfold all_nodes. rewrite elem_of_list_to_set, elem_of_app. by left.
      - split; cbn; try done; try (by intros ? ?%elem_of_nil). + set_solver. + constructor. + intros [|] ? ? ? [=].
      - rewrite E. destruct H1 as [V D N Al O].
        assert (Hres : forall x, x ∈ s.1 <-> x ∈ s.2) by (intros; rewrite V; clear; set_solver).
        assert (Hk : forall x, x ∈ map fst g -> x ∈ s.2).
        { intros x Hx. apply Hres, H3. by rewrite merge_sort_Permutation. }
        assert (He : forall x y, edge g x y -> x ∈ s.2).
        { intros x y (l & El & _). apply Hk, gget_key. eauto. }
        eexists. split; [done|]. split; [by rewrite (reverse_Permutation s.2)|]. split.
        + intros x. rewrite elem_of_reverse. split; [apply Al|]. unfold all_nodes.
          rewrite elem_of_list_to_set, elem_of_app. intros [Hx|Hx]; [auto|].
          apply elem_of_list_join in Hx as (l & Hx & Hl). apply elem_of_list_fmap in Hl as ([z l'] & -> & Hl). cbn in *.
          assert (Hz : z ∈ map fst g) by (apply elem_of_list_fmap; by exists (z, l')).
          assert (Ed : edge g z x) by (exists l'; split; [by apply gget_nodup|done]).
          apply Hk in Hz. apply elem_of_list_split in Hz as (l1 & l2 & Ez). rewrite Ez. apply elem_of_app. left. by eapply O.
        + intros x y Ed. pose proof (He _ _ Ed) as Hx. apply elem_of_list_split in Hx as (l1 & l2 & Ex).
          pose proof (O _ _ _ _ Ex Ed) as Hy. apply elem_of_list_split in Hy as (k1 & k2 & ->).
          rewrite Ex. exists (reverse l2), (reverse k2), (reverse k1).
          repeat (rewrite reverse_app || rewrite reverse_cons). rewrite <-!app_assoc. done.
    Qed.
  End ts.
End gen.
