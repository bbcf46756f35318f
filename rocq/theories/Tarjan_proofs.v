(** Correctness of the model of Tarjan's algorithm. *)
From stdpp Require Import base list gmap relations sorting numbers fin_sets.
From Verif Require Import Base GraphAlgo Spec_GraphAlgo GraphAlgo_proofs.

Lemma join_app {B} (l k : list (list B)) : mjoin (l ++ k) = mjoin l ++ mjoin k.
Proof. induction l as [|a l IH]; [done|]. change (mjoin ((a :: l) ++ k)) with (a ++ mjoin (l ++ k)). rewrite IH. by rewrite app_assoc. Qed.
Section tarjan.
  Context {A : Type} `{Countable A} (g : graph (A:=A)).
  Context (Hcl : closed g).
  Implicit Types (x y z : A) (G : gset A).

  Definition popped s : list A := mjoin (tj_sccs s).
  Definition ix s y : nat := default 0 (tj_idx s !! y).
  Definition seen s y : Prop := is_Some (tj_idx s !! y).

  Record jinv G s : Prop := JInv {
    j_dom : forall y, seen s y <-> y ∈ tj_stack s \/ y ∈ popped s;
    j_nd : NoDup (tj_stack s ++ popped s);
    j_lt : forall y, seen s y -> ix s y < tj_index s;
    j_srt : forall l1 a l2 b, tj_stack s = l1 ++ a :: l2 -> b ∈ l2 -> ix s b < ix s a;
    j_on1 : forall y, y ∈ tj_stack s -> tj_on s !! y = Some true;
    j_on2 : forall y, y ∈ popped s -> tj_on s !! y = Some false;
    j_low : forall y, seen s y -> is_Some (tj_low s !! y);
    j_key : forall y, seen s y -> y ∈ nodes_of g;
    j_G : forall y, y ∈ G -> y ∈ tj_stack s;
    j_up : forall w y, w ∈ G -> y ∈ tj_stack s -> ix s w <= ix s y -> reach g w y;
    j_down : forall y, y ∈ tj_stack s -> exists w, w ∈ G /\ ix s w <= ix s y /\ reach g y w;
    j_bw : forall y z, seen s y -> y ∉ G -> edge g y z -> seen s z;
    j_cl : forall y z, y ∈ popped s -> edge g y z -> z ∈ popped s;
    j_scc : forall c, c ∈ tj_sccs s -> c <> [] /\ forall y z, y ∈ c -> (z ∈ c <-> same_scc g y z) }.

  Lemma j_disj G s y : jinv G s -> y ∈ tj_stack s -> y ∉ popped s.
  Proof. intros J Hy Hp. pose proof (j_nd _ _ J) as N. apply NoDup_app in N as (_ & N & _). by apply (N y). Qed.

  Lemma jinv_low G s low' : jinv G s -> (forall y, is_Some (tj_low s !! y) -> is_Some (low' !! y)) ->
    jinv G (TJ (tj_index s) (tj_idx s) low' (tj_on s) (tj_stack s) (tj_sccs s)).
  Proof. intros [] Hl. split; auto. Qed.

  Lemma visit_inv G s x : jinv G s -> ~ seen s x -> x ∈ nodes_of g -> (forall z, z ∈ G -> reach g z x) ->
    jinv ({[x]} ∪ G) (tj_visit x s).
  Proof.
    intros J Hx Hk HG. pose proof J as [Jd Jn Jl Js Jo1 Jo2 Jlo Jk JG Ju Jdn Jb Jc Jsc].
    assert (Hxs : x ∉ tj_stack s) by (intros ?; apply Hx, Jd; auto).
    assert (Hxp : x ∉ popped s) by (intros ?; apply Hx, Jd; auto).
    assert (Ex : ix (tj_visit x s) x = tj_index s) by (unfold ix; cbn; by rewrite lookup_insert).
    assert (En : forall y, y <> x -> ix (tj_visit x s) y = ix s y) by (intros; unfold ix; cbn; by rewrite lookup_insert_ne).
    assert (Es : forall y, seen (tj_visit x s) y <-> y = x \/ seen s y).
    { intros y. unfold seen. cbn. destruct (decide (y = x)) as [->|].
      - rewrite lookup_insert. split; [by left|by eexists].
      - rewrite lookup_insert_ne by done. naive_solver. }
    assert (Hst : forall y, y ∈ tj_stack s -> y <> x /\ ix s y < tj_index s).
    { intros y Hy. split; [by intros ->|]. apply Jl, Jd. auto. }
    split; cbn.
    - intros y. rewrite Es, elem_of_cons, Jd. unfold popped. cbn. tauto.
    - constructor; [|done]. rewrite elem_of_app. tauto.
    - intros y Hy. apply Es in Hy as [->|Hy]; [rewrite Ex; lia|]. rewrite En by (by intros ->). specialize (Jl y Hy). lia.
    - intros l1 a l2 b E Hb. destruct l1 as [|a1 l1]; injection E as E1 E2.
      + subst. rewrite Ex. assert (Hb' := Hst b Hb). rewrite En by tauto. tauto.
      + assert (Ha : a ∈ tj_stack s) by (rewrite E2; set_solver). assert (Hb2 : b ∈ tj_stack s) by (rewrite E2; set_solver).
        rewrite !En by (by apply Hst). by eapply Js.
    - intros y [->|Hy]%elem_of_cons; [by rewrite lookup_insert|]. rewrite lookup_insert_ne; [auto|]. intros ->. done.
    - intros y Hy. rewrite lookup_insert_ne; [auto|]. intros ->. done.
    - intros y Hy. destruct (decide (y = x)) as [->|]; [rewrite lookup_insert; by eexists|].
      rewrite lookup_insert_ne by done. apply Jlo. apply Es in Hy as [|]; done.
    - intros y Hy. apply Es in Hy as [->|]; auto.
    - intros y Hy. apply elem_of_union in Hy as [->%elem_of_singleton|Hy]; [by left|right; auto].
    - intros w y Hw Hy Hle. apply elem_of_union in Hw as [->%elem_of_singleton|Hw].
      + apply elem_of_cons in Hy as [->|Hy]; [apply rtc_refl|]. rewrite Ex in Hle. destruct (Hst y Hy). rewrite En in Hle by done. lia.
      + apply elem_of_cons in Hy as [->|Hy]; [auto|]. destruct (Hst y Hy). destruct (Hst w (JG w Hw)). rewrite !En in Hle by done. auto.
    - intros y [->|Hy]%elem_of_cons.
      + exists x. split; [set_solver|]. split; [done|apply rtc_refl].
      + destruct (Jdn y Hy) as (w & Hw & Hle & Hr). exists w. split; [set_solver|]. destruct (Hst y Hy). destruct (Hst w (JG w Hw)).
        rewrite !En by done. done.
    - intros y z Hy HyG He. apply Es. right. apply not_elem_of_union in HyG as [Hyx HyG]. apply not_elem_of_singleton in Hyx.
      apply Es in Hy as [|Hy]; [done|]. eauto.
    - apply Jc.
    - apply Jsc.
  Qed.

  Lemma tj_pop_app x s0 rest on : x ∉ s0 ->
    exists on', tj_pop x (s0 ++ x :: rest) on = Ok (s0 ++ [x], rest, on') /\
      (forall y, y ∈ s0 ++ [x] -> on' !! y = Some false) /\ (forall y, y ∉ s0 ++ [x] -> on' !! y = on !! y).
  Proof.
    revert on. induction s0 as [|w s0 IH]; intros on Hx; cbn.
    - rewrite decide_True by done. eexists. split; [done|]. split.
      + intros y ->%elem_of_list_singleton. by rewrite lookup_insert.
      + intros y Hy. rewrite lookup_insert_ne; [done|]. intros ->. set_solver.
    - apply not_elem_of_cons in Hx as [Hw Hx]. rewrite decide_False by done.
      destruct (IH (<[w := false]> on) Hx) as (on' & E & H1 & H2). rewrite E. eexists. split; [done|]. split.
      + intros y Hy. destruct (decide (y ∈ s0 ++ [x])) as [Hin|Hin]; [auto|]. rewrite H2 by done.
        assert (y = w) as -> by set_solver. by rewrite lookup_insert.
      + intros y Hy. apply not_elem_of_cons in Hy as [Hy1 Hy2]. rewrite H2 by done. by rewrite lookup_insert_ne.
  Qed.

  Lemma close_ok G s x s0 rest n :
    jinv ({[x]} ∪ G) s -> x ∉ G -> (forall z, z ∈ G -> z ∈ rest) ->
    tj_stack s = s0 ++ x :: rest -> (forall z, edge g x z -> seen s z) ->
    tj_low s !! x = Some n -> n <= ix s x -> (n = ix s x \/ exists y, y ∈ rest /\ ix s y = n /\ reach g x y) ->
    (forall a b, a ∈ s0 ++ [x] -> b ∈ rest -> edge g a b -> n <= ix s b) ->
    exists s', tj_close x s = Ok s' /\ jinv G s' /\ tj_idx s' = tj_idx s /\ tj_low s' = tj_low s /\
      ((tj_stack s' = s0 ++ x :: rest /\ exists y, y ∈ rest /\ ix s y = n /\ reach g x y) \/ (tj_stack s' = rest /\ n = ix s x)).
  Proof.
    intros J HxG HG Hstk Hxs Hlow Hle Hn Hcr. pose proof J as [Jd Jn Jl Js Jo1 Jo2 Jlo Jk JG Ju Jdn Jb Jc Jsc].
    assert (Hxin : x ∈ tj_stack s) by (rewrite Hstk; set_solver).
    assert (Hix : tj_idx s !! x = Some (ix s x)).
    { assert (Hsx : seen s x) by (apply Jd; auto). destruct Hsx as [i Ei]. unfold ix. by rewrite Ei. }
    assert (Hrest : forall b, b ∈ rest -> ix s b < ix s x) by (intros b Hb; by eapply Js).
    assert (Hs0 : forall a, a ∈ s0 ++ [x] -> ix s x <= ix s a).
    { intros a [Ha| ->%elem_of_list_singleton]%elem_of_app; [|done]. apply elem_of_list_split in Ha as (l1 & l2 & ->).
      apply Nat.lt_le_incl. eapply (Js l1 a (l2 ++ x :: rest)); [rewrite Hstk; by rewrite <-app_assoc|apply elem_of_app; right; by left]. }
    assert (Hxs0 : x ∉ s0).
    { intros Hx. rewrite Hstk in Jn. apply NoDup_app in Jn as (Jn & _). apply NoDup_app in Jn as (_ & Jn & _). apply (Jn x Hx). by left. }
    assert (HGx : forall w, w ∈ {[x]} ∪ G -> w <> x -> w ∈ G) by set_solver.
    unfold tj_close, mget. rewrite Hlow, Hix. cbn. destruct (decide (n = ix s x)) as [En|En].
    - destruct (tj_pop_app x s0 rest (tj_on s) Hxs0) as (on' & Ep & Hon1 & Hon2). rewrite Hstk, Ep.
      eexists. split; [done|].
      set (c := s0 ++ [x]) in *.
      assert (Hcstk : forall y, y ∈ tj_stack s <-> y ∈ c \/ y ∈ rest).
      { intros y. rewrite Hstk. unfold c. clear. set_solver. }
      assert (Hdis : forall y, y ∈ rest -> y ∉ c /\ y ∉ popped s).
      { intros y Hy. split; [intros Hc; apply Hs0 in Hc; specialize (Hrest y Hy); lia|]. apply (j_disj _ _ _ J). apply Hcstk. auto. }
      assert (Hcp : forall y, y ∈ c -> y ∉ popped s) by (intros y Hy; apply (j_disj _ _ _ J), Hcstk; auto).
      assert (Hncr : forall u v, u ∈ c -> edge g u v -> v ∈ rest -> False).
      { intros u v Hu He Hv. specialize (Hcr u v Hu Hv He). specialize (Hrest v Hv). lia. }
      assert (Hcl1 : forall u v, u ∈ c -> edge g u v -> v ∈ c \/ v ∈ popped s).
      { intros u v Hu He. assert (Hv : seen s v).
        - destruct (decide (u = x)) as [->|Hux]; [auto|]. apply (Jb u); [apply Jd; left; apply Hcstk; auto| |done].
          intros HuG. assert (u ∈ G) by auto. destruct (Hdis u); auto.
        - apply Jd in Hv as [Hv|Hv]; [|auto]. apply Hcstk in Hv as [Hv|Hv]; [auto|]. destruct (Hncr u v); auto. }
      assert (Hclr : forall u v, reach g u v -> u ∈ c \/ u ∈ popped s -> v ∈ c \/ v ∈ popped s).
      { intros u v Hr. induction Hr as [u|u w v He _ IH]; [done|]. intros [Hu|Hu]; apply IH; eauto. }
      assert (Hclp : forall u v, reach g u v -> u ∈ popped s -> v ∈ popped s).
      { intros u v Hr. induction Hr as [u|u w v He _ IH]; [done|]. intros Hu; apply IH; eauto. }
      assert (Hxc : x ∈ c) by (unfold c; clear; set_solver).
      assert (Hfrom : forall a, a ∈ c -> reach g x a).
      { intros a Ha. apply Ju; [by apply elem_of_union_l, elem_of_singleton|apply Hcstk; auto|auto]. }
      assert (Hto : forall a, a ∈ c -> reach g a x).
      { intros a Ha. destruct (Jdn a) as (w & Hw & Hwle & Hr); [apply Hcstk; auto|].
        destruct (decide (w = x)) as [->|Hwx]; [done|]. assert (Hwr : w ∈ rest) by auto.
        destruct (Hclr _ _ Hr) as [Hwc|Hwp]; [auto|destruct (Hdis w); done..]. }
      split; [|split; [done|split; [done|right; done]]].
      assert (Hpop : forall y, y ∈ mjoin (tj_sccs s ++ [c]) <-> y ∈ popped s \/ y ∈ c).
      { intros y. unfold popped. rewrite join_app, elem_of_app. cbn. by rewrite app_nil_r. }
      split; cbn; try (unfold popped at 1; cbn).
      + intros y. change (seen s y <-> y ∈ rest \/ y ∈ mjoin (tj_sccs s ++ [c])). rewrite Hpop, Jd, Hcstk. tauto.
      + rewrite join_app. cbn. rewrite app_nil_r. rewrite Hstk in Jn.
        replace (s0 ++ x :: rest) with (c ++ rest) in Jn by (unfold c; by rewrite <-app_assoc).
        rewrite <-app_assoc in Jn. rewrite app_assoc. by rewrite (Permutation_app_comm _ c).
      + exact Jl.
      + intros l1 a l2 b E Hb. apply (Js (c ++ l1) a l2 b); [|done]. rewrite Hstk, E. unfold c. by rewrite <-!app_assoc.
      + intros y Hy. destruct (Hdis y Hy). rewrite Hon2 by done. apply Jo1, Hcstk. auto.
      + intros y Hy. apply Hpop in Hy as [Hy|Hy]; [|auto]. rewrite Hon2; [auto|]. intros ?. by apply (Hcp y).
      + exact Jlo.
      + exact Jk.
      + exact HG.
      + intros w y Hw Hy Hwy. apply Ju; [by apply elem_of_union_r|apply Hcstk; auto|done].
      + intros y Hy. destruct (Jdn y) as (w & Hw & Hwle & Hr); [apply Hcstk; auto|]. exists w. split; [|done].
        apply HGx; [done|]. intros ->. specialize (Hrest y Hy). unfold ix in *. cbn in *. lia.
      + intros y z Hy HyG He. change (seen s z). destruct (decide (y = x)) as [->|]; [auto|]. apply (Jb y); [done|by apply not_elem_of_union; split; [apply not_elem_of_singleton|]|done].
      + intros y z Hy He. unfold popped. cbn. rewrite Hpop. apply Hpop in Hy as [Hy|Hy]; [left; eauto|].
        destruct (Hcl1 y z Hy He); auto.
      + intros c' [Hc'| ->%elem_of_list_singleton]%elem_of_app; [auto|]. split; [by destruct s0|].
        intros y z Hy. split.
        * intros Hz. split; etrans; eauto.
        * intros [Hyz Hzy]. destruct (Hclr _ _ Hyz) as [|Hp]; [auto|auto|]. exfalso. apply (Hcp y Hy). eauto.
    - destruct Hn as [|Hn]; [done|]. exists s. split; [done|]. split; [|split; [done|split; [done|left; auto]]].
      split; try done.
      + intros y Hy. rewrite Hstk. apply HG in Hy. apply elem_of_app. right. by right.
      + intros w y Hw. apply Ju. by apply elem_of_union_r.
      + intros y Hy. destruct (Jdn y Hy) as (w & Hw & Hwle & Hr). destruct (decide (w = x)) as [->|Hwx].
        * destruct Hn as (y0 & Hy0 & Hiy & Hry). destruct (Jdn y0) as (w & Hw' & Hwle' & Hr'); [rewrite Hstk; apply elem_of_app; right; by right|].
          exists w. split; [|split; [lia|etrans; [exact Hr|etrans; eauto]]]. apply HGx; [done|]. intros ->. lia.
        * exists w. auto.
      + intros y z Hy HyG He. destruct (decide (y = x)) as [->|]; [auto|]. apply (Jb y); [done|by apply not_elem_of_union; split; [apply not_elem_of_singleton|]|done].
  Qed.

  (** the loop as a function of its own *)
  Definition tj_next (rec : A -> tj (A:=A) -> result (tj (A:=A))) (x y : A) (s : tj (A:=A)) : result (tj (A:=A)) :=
    match tj_idx s !! y with
    | None => match rec y s with
              | Ok s => match mget y (tj_low s) with Ok v => tj_min x v s | Err e => Err e end
              | Err e => Err e
              end
    | Some i => match mget y (tj_on s) with
                | Ok true => tj_min x i s
                | Ok false => Ok s
                | Err e => Err e
                end
    end.
  Fixpoint tj_loop (rec : A -> tj (A:=A) -> result (tj (A:=A))) (x : A) (l : list A) (s : tj (A:=A)) : result (tj (A:=A)) :=
    match l with
    | [] => Ok s
    | y :: l => match tj_next rec x y s with Ok s => tj_loop rec x l s | Err e => Err e end
    end.
  Lemma tj_dfs_S n x s :
    tj_dfs g (S n) x s = match gget x g with
                         | None => Err EKeyError
                         | Some ns => match tj_loop (tj_dfs g n) x ns (tj_visit x s) with Ok s => tj_close x s | Err e => Err e end
                         end.
  Proof.
    cbn. destruct (gget x g) as [ns|]; [|done].
    match goal with |- match ?f _ _ with _ => _ end = _ => assert (E : forall l s, f l s = tj_loop (tj_dfs g n) x l s) end.
    { clear. induction l as [|y l IH]; intros s; [done|]. cbn. unfold tj_next.
      match goal with |- match ?r with _ => _ end = _ => destruct r; [apply IH|done] end. }
    by rewrite E.
  Qed.

  Definition unseen s : gset A := filter (fun y => tj_idx s !! y = None) (list_to_set (nodes_of g)).

  Lemma ix_sub s s' y : tj_idx s ⊆ tj_idx s' -> seen s y -> ix s' y = ix s y.
  Proof. intros Hsub [i Hi]. unfold ix. rewrite Hi. by rewrite (lookup_weaken _ _ _ _ Hi Hsub). Qed.
  Lemma seen_sub s s' y : tj_idx s ⊆ tj_idx s' -> seen s y -> seen s' y.
  Proof. intros Hsub [i Hi]. exists i. by eapply lookup_weaken. Qed.

  Record post x s s' G s1 n : Prop := Post {
    p_inv : jinv G s';
    p_sub : tj_idx s ⊆ tj_idx s';
    p_seen : seen s' x;
    p_stack : tj_stack s' = s1 ++ tj_stack s;
    p_low : forall z, seen s z -> tj_low s' !! z = tj_low s !! z;
    p_n : tj_low s' !! x = Some n;
    p_new : tj_index s <= ix s' x;
    p_res : (exists y, y ∈ tj_stack s /\ ix s y = n /\ reach g x y) \/ (s1 = [] /\ n = ix s' x);
    p_cross : forall a b, a ∈ s1 -> b ∈ tj_stack s -> edge g a b -> n <= ix s b }.

  Lemma dfs_ok n : forall x G s, jinv G s -> ~ seen s x -> x ∈ nodes_of g -> (forall z, z ∈ G -> reach g z x) ->
    size (unseen s) <= n -> exists s' s1 m, tj_dfs g n x s = Ok s' /\ post x s s' G s1 m.
  Proof.
    induction n as [|n IH]; intros x G s J Hx Hk HG Hn.
    { exfalso. apply Nat.le_0_r, size_empty_inv in Hn. apply (not_elem_of_empty (C:=gset A) x), Hn. unfold unseen. apply elem_of_filter. split.
      - apply eq_None_not_Some. exact Hx.
      - by apply elem_of_list_to_set. }
    rewrite tj_dfs_S. destruct (proj1 (gget_key x g) Hk) as [ns Ens]. rewrite Ens.
    assert (J0 := visit_inv G s x J Hx Hk HG).
    assert (Hsub0 : tj_idx s ⊆ tj_idx (tj_visit x s)).
    { cbn. apply insert_subseteq. by apply eq_None_not_Some. }
    assert (Hfuel : forall s2, tj_idx (tj_visit x s) ⊆ tj_idx s2 -> size (unseen s2) <= n).
    { intros s2 Hs2. assert (Hss : unseen s2 ⊂ unseen s); [|apply subset_size in Hss; lia]. split.
      - intros z. unfold unseen. rewrite !elem_of_filter. intros [E Hz]. split; [|done].
        eapply lookup_weaken_None; [exact E|]. by etrans.
      - intros Hss. assert (Hxx : x ∈ unseen s2).
        { apply Hss. unfold unseen. apply elem_of_filter. split; [by apply eq_None_not_Some|by apply elem_of_list_to_set]. }
        unfold unseen in Hxx. apply elem_of_filter in Hxx as [E _].
        apply (lookup_weaken_None _ _ _ E) in Hs2. cbn in Hs2. by rewrite lookup_insert in Hs2. }
    assert (Hix0 : ix (tj_visit x s) x = tj_index s) by (unfold ix; cbn; by rewrite lookup_insert).
    (* the loop *)
    assert (Hloop : forall l s2 s1 m,
      (forall y, y ∈ l -> edge g x y) ->
      jinv ({[x]} ∪ G) s2 -> tj_idx (tj_visit x s) ⊆ tj_idx s2 -> tj_stack s2 = s1 ++ x :: tj_stack s ->
      (forall z, seen s z -> tj_low s2 !! z = tj_low s !! z) -> tj_low s2 !! x = Some m -> m <= ix s2 x ->
      (m = ix s2 x \/ exists y, y ∈ tj_stack s /\ ix s y = m /\ reach g x y) ->
      (forall a b, a ∈ s1 -> b ∈ tj_stack s -> edge g a b -> m <= ix s b) ->
      exists s3 s1' m', tj_loop (tj_dfs g n) x l s2 = Ok s3 /\ m' <= m /\
        jinv ({[x]} ∪ G) s3 /\ tj_idx s2 ⊆ tj_idx s3 /\ tj_stack s3 = s1' ++ x :: tj_stack s /\
        (forall z, seen s z -> tj_low s3 !! z = tj_low s !! z) /\ tj_low s3 !! x = Some m' /\ m' <= ix s3 x /\
        (m' = ix s3 x \/ exists y, y ∈ tj_stack s /\ ix s y = m' /\ reach g x y) /\
        (forall a b, a ∈ s1' -> b ∈ tj_stack s -> edge g a b -> m' <= ix s b) /\
        (forall y, y ∈ l -> seen s3 y /\ (y ∈ tj_stack s -> m' <= ix s y))).
    { induction l as [|y l IHl]; intros s2 s1 m Hl J2 Hsub Hstk Hlow Hm Hle Hres Hcr; cbn.
      - exists s2, s1, m. split_and!; try done. intros y Hy. by apply elem_of_nil in Hy.
      - assert (Hxy : edge g x y) by (apply Hl; by left).
        assert (Hsx : seen s2 x). { apply (seen_sub _ _ _ Hsub). unfold seen. cbn. rewrite lookup_insert. by eexists. }
        assert (Hixx : ix s2 x = tj_index s).
        { rewrite (ix_sub _ _ x Hsub); [done|]. unfold seen. cbn. rewrite lookup_insert. by eexists. }
        assert (Hixo : forall z, seen s z -> ix s2 z = ix s z).
        { intros z Hz. apply ix_sub; [|done]. by etrans. }
        assert (Hso : forall z, z ∈ tj_stack s -> seen s z) by (intros z Hz; apply (j_dom _ _ J); auto).
        (* one step, then the rest *)
        assert (Hstep : exists s3 s1' m', tj_next (tj_dfs g n) x y s2 = Ok s3 /\ m' <= m /\
          jinv ({[x]} ∪ G) s3 /\ tj_idx s2 ⊆ tj_idx s3 /\ tj_stack s3 = s1' ++ x :: tj_stack s /\
          (forall z, seen s z -> tj_low s3 !! z = tj_low s !! z) /\ tj_low s3 !! x = Some m' /\ m' <= ix s3 x /\
          (m' = ix s3 x \/ exists y, y ∈ tj_stack s /\ ix s y = m' /\ reach g x y) /\
          (forall a b, a ∈ s1' -> b ∈ tj_stack s -> edge g a b -> m' <= ix s b) /\
          seen s3 y /\ (y ∈ tj_stack s -> m' <= ix s y)).
        { unfold tj_next. destruct (tj_idx s2 !! y) as [i|] eqn:Ey.
          - assert (Hsy : seen s2 y) by (by eexists). assert (Hiy : ix s2 y = i) by (unfold ix; by rewrite Ey).
            pose proof (proj1 (j_dom _ _ J2 y) Hsy) as [Hst|Hpp]; unfold mget.
            + rewrite (j_on1 _ _ J2 y Hst). cbn. unfold tj_min, mget. rewrite Hm. cbn.
              eexists _, s1, (m `min` i). split; [done|]. split; [lia|]. split; [|split; [done|]].
              { apply jinv_low; [done|]. intros z Hz. destruct (decide (z = x)) as [->|]; [rewrite lookup_insert; by eexists|by rewrite lookup_insert_ne]. }
              cbn. split; [done|]. split.
              { intros z Hz. rewrite lookup_insert_ne; [auto|]. intros ->. done. }
              split; [by rewrite lookup_insert|]. change (ix _ x) with (ix s2 x). split; [lia|]. split.
              { rewrite Hstk in Hst. apply elem_of_app in Hst as [Hst|[->|Hst]%elem_of_cons].
                - (* above x *)
                  assert (ix s2 x < ix s2 y).
                  { apply elem_of_list_split in Hst as (l1 & l2 & ->). eapply (j_srt _ _ J2 l1 y (l2 ++ x :: tj_stack s));
                      [rewrite Hstk; by rewrite <-app_assoc|apply elem_of_app; right; by left]. }
                  replace (m `min` i) with m by lia. done.
                - replace (m `min` i) with m by lia. done.
                - destruct (decide (m <= i)); [replace (m `min` i) with m by lia; done|].
                  replace (m `min` i) with i by lia. right. exists y. split; [done|]. split; [rewrite <-Hixo; auto|by apply rtc_once]. }
              split. { intros a b Ha Hb Hab. specialize (Hcr a b Ha Hb Hab). lia. }
              split; [done|]. intros Hy. rewrite <-Hixo by auto. lia.
            + rewrite (j_on2 _ _ J2 y Hpp). cbn. exists s2, s1, m. split_and!; try done.
              intros Hy. exfalso. apply (j_disj _ _ y J2); [|done]. rewrite Hstk. apply elem_of_app. right. by right.
          - assert (Hny : ~ seen s2 y) by (intros [? ?]; congruence).
            destruct (IH y ({[x]} ∪ G) s2) as (s3 & sy & my & Ed & P).
            + done.
            + done.
            + by eapply Hcl.
            + intros z [->%elem_of_singleton|Hz]%elem_of_union; [by apply rtc_once|]. etrans; [by apply HG|]. by apply rtc_once.
            + by apply Hfuel.
            + destruct P as [P1 P2 P3 P4 P5 P6 P7 P8 P9]. rewrite Ed. unfold mget. rewrite P6. cbn. unfold tj_min, mget.
              rewrite P5, Hm by done. cbn.
              assert (Hsx3 : ix s3 x = ix s2 x) by (by apply ix_sub).
              eexists _, (sy ++ s1), (m `min` my). split; [done|]. split; [lia|]. split; [|split; [done|]].
              { apply jinv_low; [done|]. intros z Hz. destruct (decide (z = x)) as [->|]; [rewrite lookup_insert; by eexists|by rewrite lookup_insert_ne]. }
              cbn. split; [rewrite P4, Hstk; by rewrite app_assoc|]. split.
              { intros z Hz. rewrite lookup_insert_ne by (intros ->; done). rewrite P5; [auto|]. apply (seen_sub s); [by etrans|done]. }
              split; [by rewrite lookup_insert|]. change (ix _ x) with (ix s3 x). split; [lia|]. split.
              { destruct P8 as [(z & Hz & Hiz & Hr)|[-> ->]].
                - rewrite Hstk in Hz. apply elem_of_app in Hz as [Hz|[->|Hz]%elem_of_cons].
                  + assert (ix s2 x < ix s2 z).
                    { apply elem_of_list_split in Hz as (l1 & l2 & ->). eapply (j_srt _ _ J2 l1 z (l2 ++ x :: tj_stack s));
                        [rewrite Hstk; by rewrite <-app_assoc|apply elem_of_app; right; by left]. }
                    replace (m `min` my) with m by lia. rewrite Hsx3. done.
                  + replace (m `min` my) with m by lia. rewrite Hsx3. done.
                  + destruct (decide (m <= my)); [replace (m `min` my) with m by lia; rewrite Hsx3; done|].
                    replace (m `min` my) with my by lia. right. exists z. split; [done|]. split; [rewrite <-Hixo; auto|].
                    eapply rtc_l; [exact Hxy|done].
                - assert (ix s2 x < tj_index s2) by (by apply (j_lt _ _ J2)).
                  replace (m `min` ix s3 y) with m by lia. rewrite Hsx3. done. }
              split.
              { intros a b [Ha|Ha]%elem_of_app Hb Hab.
                - assert (Hmb : my <= ix s2 b) by (apply (P9 a b); [done|rewrite Hstk; apply elem_of_app; right; by right|done]). rewrite Hixo in Hmb by auto. lia.
                - specialize (Hcr a b Ha Hb Hab). lia. }
              split; [exact P3|]. intros Hy. exfalso. apply Hny. apply (seen_sub s); [by etrans|auto]. }
        destruct Hstep as (s3 & s1' & m' & E & Hmm & J3 & Hsub3 & Hstk3 & Hlow3 & Hm3 & Hle3 & Hres3 & Hcr3 & Hsy3 & Hys3).
        rewrite E. destruct (IHl s3 s1' m') as (s4 & s1'' & m'' & E4 & Hmm4 & J4 & Hsub4 & Hstk4 & Hlow4 & Hm4 & Hle4 & Hres4 & Hcr4 & Hl4);
          [intros; apply Hl; by right|done|by etrans|done..|].
        exists s4, s1'', m''. split_and!; try done; [lia|by etrans|].
        intros z [->|Hz]%elem_of_cons; [|auto]. split; [by apply (seen_sub s3)|]. intros Hz. specialize (Hys3 Hz). lia. }
    destruct (Hloop ns (tj_visit x s) [] (tj_index s)) as (s3 & s1 & m & E & Hmm & J3 & Hsub3 & Hstk3 & Hlow3 & Hm3 & Hle3 & Hres3 & Hcr3 & Hl3).
    - intros y Hy. by exists ns.
    - done.
    - done.
    - done.
    - intros z Hz. cbn. rewrite lookup_insert_ne; [done|]. intros ->. done.
    - cbn. by rewrite lookup_insert.
    - by rewrite Hix0.
    - left. by rewrite Hix0.
    - intros a b Ha. by apply elem_of_nil in Ha.
    - rewrite E.
      assert (Hso : forall z, z ∈ tj_stack s -> seen s z) by (intros z Hz; apply (j_dom _ _ J); auto).
      assert (Hixo : forall z, seen s z -> ix s3 z = ix s z).
      { intros z Hz. apply ix_sub; [|done]. by etrans. }
      assert (Hed : forall z, edge g x z -> z ∈ ns). { intros z (l' & El & Hz). congruence. }
      assert (HxG : x ∉ G). { intros Hxg. apply Hx, Hso. by apply (j_G _ _ J). }
      destruct (close_ok G s3 x s1 (tj_stack s) m) as (s4 & E4 & J4 & Ei4 & El4 & Hcase).
      + done.
      + done.
      + apply (j_G _ _ J).
      + done.
      + intros z Hz. by apply Hl3, Hed.
      + done.
      + done.
      + destruct Hres3 as [|(y & Hy & Hiy & Hr)]; [by left|right]. exists y. split; [done|]. split; [rewrite Hixo; auto|done].
      + intros a b [Ha| ->%elem_of_list_singleton]%elem_of_app Hb Hab; rewrite Hixo by auto; [eauto|].
        by apply Hl3, Hb; apply Hed.
      + assert (Hix4 : forall z, ix s4 z = ix s3 z) by (intros; unfold ix; by rewrite Ei4).
        assert (Hixx : ix s3 x = tj_index s).
        { rewrite (ix_sub _ _ x Hsub3); [done|]. unfold seen. cbn. rewrite lookup_insert. by eexists. }
        destruct Hcase as [[Hst4 (y & Hy & Hiy & Hr)]|[Hst4 Hm4]].
        * exists s4, (s1 ++ [x]), m. split; [done|]. split; try done.
          -- rewrite Ei4. by etrans.
          -- unfold seen. rewrite Ei4. apply (seen_sub _ _ x Hsub3). unfold seen. cbn. rewrite lookup_insert. by eexists.
          -- rewrite Hst4. by rewrite <-app_assoc.
          -- by rewrite El4.
          -- by rewrite El4.
          -- rewrite Hix4. lia.
          -- left. exists y. split; [done|]. split; [rewrite <-Hixo; auto|done].
          -- intros a b [Ha| ->%elem_of_list_singleton]%elem_of_app Hb Hab; [eauto|]. by apply Hl3, Hb; apply Hed.
        * exists s4, [], m. split; [done|]. split; try done.
          -- rewrite Ei4. by etrans.
          -- unfold seen. rewrite Ei4. apply (seen_sub _ _ x Hsub3). unfold seen. cbn. rewrite lookup_insert. by eexists.
          -- by rewrite El4.
          -- by rewrite El4.
          -- rewrite Hix4. lia.
          -- right. split; [done|]. by rewrite Hix4.
          -- intros a b Ha. by apply elem_of_nil in Ha.
  Qed.

  Lemma jinv_empty : jinv ∅ (TJ 0 ∅ ∅ ∅ [] []).
  Proof.
    assert (Hno : forall y, ~ seen (TJ 0 ∅ ∅ ∅ [] []) y) by (intros y [i Hi]; cbn in Hi; by rewrite lookup_empty in Hi).
    split; cbn; unfold popped; cbn; try (by intros ? ?%elem_of_nil); try (by intros ? ?%elem_of_empty);
      try (by intros ? ? ?%elem_of_nil); try (by intros ? ?%Hno); try (by intros ? ? ?%Hno).
    - intros y. split; [by intros ?%Hno|]. by intros [?%elem_of_nil|?%elem_of_nil].
    - constructor.
    - intros [|] ? ? ? [=].
    - by intros ? ? ?%elem_of_empty.
  Qed.

  Lemma tj_all_ok n l : (forall x, x ∈ l -> x ∈ nodes_of g) -> size (unseen (TJ 0 ∅ ∅ ∅ [] [])) <= n ->
    forall s, jinv ∅ s -> exists s', tj_all g n l s = Ok s' /\ jinv ∅ s' /\ tj_idx s ⊆ tj_idx s' /\ (forall x, x ∈ l -> seen s' x).
  Proof.
    intros Hl Hn. induction l as [|x l IHl]; intros s Hs; cbn.
    - exists s. split_and!; try done. intros y Hy. by apply elem_of_nil in Hy.
    - assert (Hl' : forall y, y ∈ l -> y ∈ nodes_of g) by (intros; apply Hl; by right). destruct (tj_idx s !! x) as [i|] eqn:Ex.
      + destruct (IHl Hl' s Hs) as (s' & E & J & Hsub & H1). exists s'. split_and!; try done.
        intros y [->|]%elem_of_cons; [|auto]. apply (seen_sub s); [done|by eexists].
      + destruct (dfs_ok n x ∅ s Hs) as (s1 & k & m & E & P).
        * intros [? ?]. congruence.
        * apply Hl. by left.
        * by intros ? ?%elem_of_empty.
        * etrans; [|exact Hn]. apply subseteq_size. intros z. unfold unseen. rewrite !elem_of_filter. intros [_ Hz]. split; [|done].
          cbn. apply lookup_empty.
        * rewrite E. destruct (IHl Hl' s1 (p_inv _ _ _ _ _ _ P)) as (s' & E' & J & Hsub & H1). exists s'. split_and!; try done.
          -- etrans; [apply (p_sub _ _ _ _ _ _ P)|done].
          -- intros y [->|]%elem_of_cons; [|auto]. apply (seen_sub s1); [done|apply (p_seen _ _ _ _ _ _ P)].
  Qed.

  Lemma join_perm (l k : list (list A)) : l ≡ₚ k -> mjoin l ≡ₚ mjoin k.
  Proof.
    induction 1 as [|a l k _ IH|a b l|l k m _ IH1 _ IH2]; [done| | |by etrans].
    - change (a ++ mjoin l ≡ₚ a ++ mjoin k). by rewrite IH.
    - change (b ++ a ++ mjoin l ≡ₚ a ++ b ++ mjoin l). rewrite !app_assoc. by rewrite (Permutation_app_comm b a).
  Qed.

  Lemma find_sccs_ok leA `{!RelDecision leA} : NoDup (nodes_of g) ->
    exists cs, find_sccs leA g = Ok cs /\ mjoin cs ≡ₚ nodes_of g /\
      (forall c, c ∈ cs -> c <> [] /\ forall y z, y ∈ c -> (z ∈ c <-> same_scc g y z)) /\
      exists l, cs = merge_sort (lexle leA) (map (merge_sort leA) l).
  Proof.
    intros Hnd. unfold find_sccs.
    destruct (tj_all_ok (g_size g) (nodes_of g)) with (s := TJ (A:=A) 0 ∅ ∅ ∅ [] []) as (s & E & J & _ & Hall).
    - done.
    - pose proof (all_nodes_size g). assert (size (unseen (TJ 0 ∅ ∅ ∅ [] [])) <= size (all_nodes g)); [|lia].
      apply subseteq_size. intros z. unfold unseen. rewrite elem_of_filter. intros [_ Hz].
      unfold all_nodes. apply elem_of_list_to_set in Hz. apply elem_of_list_to_set, elem_of_app. by left.
    - apply jinv_empty.
    - change (map fst g) with (nodes_of g). rewrite E. eexists. split; [done|].
      assert (Hst : tj_stack s = []).
      { destruct (tj_stack s) as [|y l] eqn:Es; [done|]. destruct (j_down _ _ J y) as (w & Hw & _); [rewrite Es; by left|].
        by apply elem_of_empty in Hw. }
      assert (Hp : forall x, x ∈ popped s <-> x ∈ nodes_of g).
      { intros x. split.
        - intros Hx. apply (j_key _ _ J). apply (j_dom _ _ J). auto.
        - intros Hx. apply Hall in Hx. apply (j_dom _ _ J) in Hx as [Hx|]; [|done]. rewrite Hst in Hx. by apply elem_of_nil in Hx. }
      assert (Hpn : NoDup (popped s)). { pose proof (j_nd _ _ J) as N. by rewrite Hst in N. }
      assert (Hms : forall l : list (list A), mjoin (map (merge_sort leA) l) ≡ₚ mjoin l).
      { induction l as [|a l IH]; [done|]. change (merge_sort leA a ++ mjoin (map (merge_sort leA) l) ≡ₚ a ++ mjoin l).
        rewrite IH. f_equiv. apply merge_sort_Permutation. }
      split; [|split; [|by eexists]].
      + etrans; [apply join_perm, merge_sort_Permutation|]. rewrite Hms. by apply NoDup_Permutation.
      + intros c Hc. rewrite merge_sort_Permutation in Hc. apply elem_of_list_fmap in Hc as (c' & -> & Hc').
        destruct (j_scc _ _ J c' Hc') as [Hne Hs]. pose proof (merge_sort_Permutation leA c') as Hpm. split.
        * intros E0. rewrite E0 in Hpm. by apply Permutation_nil in Hpm.
        * intros y z Hy. rewrite Hpm in Hy |- *. auto.
  Qed.
End tarjan.

Section det.
  Context {A : Type} `{Countable A} (leA : relation A) `{!RelDecision leA}.
  Context `{!Transitive leA} `{!AntiSymm (=) leA} `{!Total leA}.

  Lemma lexle_refl : Reflexive (lexle leA).
  Proof. intros l. induction l as [|x l IH]; cbn; [done|]. by rewrite decide_True. Qed.
  Global Instance lexle_trans : Transitive (lexle leA).
  Proof.
    intros l. induction l as [|x l IH]; intros [|y k] [|z m]; cbn; try done.
    destruct (decide (x = y)) as [->|Hxy]; destruct (decide (y = z)) as [->|Hyz].
    - rewrite ?decide_True by done. apply IH.
    - rewrite ?decide_False by done. auto.
    - rewrite ?decide_False by done. auto.
    - intros H1 H2. destruct (decide (x = z)) as [->|]; [|by etrans]. destruct Hxy. by apply (anti_symm leA).
  Qed.
  Global Instance lexle_anti : AntiSymm (=) (lexle leA).
  Proof.
    intros l. induction l as [|x l IH]; intros [|y k]; cbn; try done.
    destruct (decide (x = y)) as [->|Hxy].
    - rewrite ?decide_True by done. intros. f_equal. auto.
    - rewrite ?decide_False by done. intros H1 H2. destruct Hxy. by apply (anti_symm leA).
  Qed.
  Global Instance lexle_total : Total (lexle leA).
  Proof.
    intros l. induction l as [|x l IH]; intros [|y k]; cbn; auto.
    destruct (decide (x = y)) as [->|Hxy].
    - rewrite ?decide_True by done. apply IH.
    - rewrite ?decide_False by done. apply (total leA).
  Qed.

  Lemma find_sccs_det (g g' : graph (A:=A)) : closed g -> closed g' -> NoDup (nodes_of g) -> nodes_of g ≡ₚ nodes_of g' ->
    (forall x y, edge g x y <-> edge g' x y) -> find_sccs leA g = find_sccs leA g'.
  Proof.
    intros Hc Hc' Hn Hp He.
    assert (Hn' : NoDup (nodes_of g')) by (by rewrite <-Hp).
    destruct (find_sccs_ok g Hc leA Hn) as (cs & E & Hj & Hs & l & El).
    destruct (find_sccs_ok g' Hc' leA Hn') as (cs' & E' & Hj' & Hs' & l' & El').
    rewrite E, E'. f_equal.
    assert (Hr : forall x y, same_scc g x y <-> same_scc g' x y).
    { assert (Hr1 : forall x y, reach g x y <-> reach g' x y).
      { intros x y. split; intros Hr; induction Hr as [|a b c Hab _ IH]; try apply rtc_refl; (eapply rtc_l; [apply He; exact Hab|done]). }
      intros x y. unfold same_scc. by rewrite !Hr1. }
    assert (Hnd : forall (c : list A) (L : list (list A)), NoDup (mjoin L) -> c ∈ L -> NoDup c).
    { clear. intros c L. induction L as [|a L IH]; [by intros _ ?%elem_of_nil|].
      change (mjoin (a :: L)) with (a ++ mjoin L). intros (N1 & _ & N2)%NoDup_app [->|]%elem_of_cons; auto. }
    assert (HndL : forall (L : list (list A)), NoDup (mjoin L) -> (forall c, c ∈ L -> c <> []) -> NoDup L).
    { clear. intros L. induction L as [|a L IH]; [constructor|]. change (mjoin (a :: L)) with (a ++ mjoin L).
      intros (N1 & N3 & N2)%NoDup_app Hne. constructor; [|apply IH; [done|intros; apply Hne; by right]].
      intros Ha. destruct a as [|x a]; [by apply (Hne []); [left|]|]. apply (N3 x); [by left|].
      apply elem_of_list_join. exists (x :: a). split; [by left|done]. }
    assert (Hsrt : forall L c, c ∈ merge_sort (lexle leA) (map (merge_sort leA) L) -> Sorted leA c).
    { intros L c Hc0. rewrite merge_sort_Permutation in Hc0. apply elem_of_list_fmap in Hc0 as (c0 & -> & _).
      apply Sorted_merge_sort. apply _. }
    assert (Hone : forall c, (c ∈ cs <-> c ∈ cs')).
    { assert (Hgen : forall (g1 g2 : graph (A:=A)) cs1 cs2 l1 l2 c, NoDup (nodes_of g1) -> nodes_of g1 ≡ₚ nodes_of g2 ->
        (forall x y, same_scc g1 x y <-> same_scc g2 x y) -> mjoin cs1 ≡ₚ nodes_of g1 -> mjoin cs2 ≡ₚ nodes_of g2 ->
        (forall c, c ∈ cs1 -> c <> [] /\ forall y z, y ∈ c -> (z ∈ c <-> same_scc g1 y z)) ->
        (forall c, c ∈ cs2 -> c <> [] /\ forall y z, y ∈ c -> (z ∈ c <-> same_scc g2 y z)) ->
        cs1 = merge_sort (lexle leA) (map (merge_sort leA) l1) -> cs2 = merge_sort (lexle leA) (map (merge_sort leA) l2) ->
        c ∈ cs1 -> c ∈ cs2).
      { intros g1 g2 cs1 cs2 l1 l2 c N P R J1 J2 S1 S2 E1 E2 Hin. destruct (S1 c Hin) as [Hne Hc1].
        destruct c as [|y c0] eqn:Ec; [done|]. rewrite <-Ec in *. assert (Hy : y ∈ c) by (rewrite Ec; by left).
        assert (Hyn : y ∈ mjoin cs2). { rewrite J2, <-P, <-J1. apply elem_of_list_join. by exists c. }
        apply elem_of_list_join in Hyn as (c' & Hy' & Hin'). destruct (S2 c' Hin') as [_ Hc2].
        assert (c = c') as ->; [|done].
        apply (Sorted_unique leA).
        - apply (Hsrt l1). by rewrite <-E1.
        - apply (Hsrt l2). by rewrite <-E2.
        - apply NoDup_Permutation; [eapply Hnd; [|exact Hin]; by rewrite J1|eapply Hnd; [|exact Hin']; by rewrite J2, <-P|].
          intros z. rewrite (Hc1 y z Hy), (Hc2 y z Hy'). apply R. }
      intros c. split.
      - by apply (Hgen g g' cs cs' l l').
      - by apply (Hgen g' g cs' cs l' l). }
    rewrite El, El'. apply (Sorted_unique (lexle leA)); [apply Sorted_merge_sort; apply _..|]. rewrite <-El, <-El'.
    apply NoDup_Permutation; [apply HndL; [by rewrite Hj|intros; by apply Hs]|apply HndL; [by rewrite Hj'|intros; by apply Hs']|done].
  Qed.
End det.
