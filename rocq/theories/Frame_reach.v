(** Reachable nodes and reachable elements. *)
From stdpp Require Import base strings gmap list relations.
From Verif Require Import Base PyDict PyDict_proofs Refs Storage Frame Spec_Frame Frame_base Frame_ok Frame_ok2 Frame_sel.

(** * Nodes *)
Section nodes.
  Context (ord : sset -> list string) (eord : gset edge3 -> list edge3) (Hords : orders ord eord).
  Context (U : gmap string call) (F : frame) (HF : consistent U F) (dr : dir).

  Lemma neighbors_ok n : n ∈ f_nodes F ->
    exists X, match dr with Back => in_neighbors n F | Forward => out_neighbors n F end = Ok X /\
      forall m, m ∈ X <-> nstep F dr n m.
  Proof.
    intros Hn. destruct dr; cbn.
    - assert (n ∈ dom (f_inp F)) as [m Hm]%elem_of_dom by by rewrite (k_inp _ _ HF).
      exists (union_values m). unfold in_neighbors, at_key. rewrite Hm. split; [done|].
      intros x. rewrite elem_of_union_values. unfold gstep. split.
      + intros (l & Hl). exists l. apply (k_mirror _ _ HF), has_in_edge_arel. by exists m.
      + intros (l & Hl). exists l. apply (k_mirror _ _ HF), has_in_edge_arel in Hl as (m' & Hm' & Hl). congruence.
    - assert (n ∈ dom (f_out F)) as [m Hm]%elem_of_dom by by rewrite (k_out _ _ HF).
      exists (union_values m). unfold out_neighbors, at_key. rewrite Hm. split; [done|].
      intros x. rewrite elem_of_union_values. unfold gstep. split.
      + intros (l & Hl). exists l. apply has_edge_arel. by exists m.
      + intros (l & Hl). exists l. apply has_edge_arel in Hl as (m' & Hm' & Hl). congruence.
  Qed.
  Lemma nstep_nodes n m : nstep F dr n m -> n ∈ f_nodes F /\ m ∈ f_nodes F.
  Proof.
    unfold nstep, gstep, f_nodes. rewrite !elem_of_union. destruct dr; intros (l & He); apply (k_edge _ _ HF) in He; tauto.
  Qed.

  Fixpoint rn_loop (rec : string -> sset -> result sset) (l : list string) (vis : sset) : result sset :=
    match l with
    | [] => Ok vis
    | m :: l => if decide (m ∈ vis) then rn_loop rec l vis else bindR (rec m vis) (fun vis => rn_loop rec l vis)
    end.
  Lemma rn_dfs_S fuel n vis : rn_dfs ord dr F (S fuel) n vis =
    bindR (match dr with Back => in_neighbors n F | Forward => out_neighbors n F end) (fun ns =>
      rn_loop (rn_dfs ord dr F fuel) (ord ns) ({[n]} ∪ vis)).
  Proof.
    cbn [rn_dfs]. destruct (match dr with Back => in_neighbors n F | Forward => out_neighbors n F end) as [ns|]; [|done].
    cbn. generalize ({[n]} ∪ vis). induction (ord ns) as [|m l IH]; intros v; [done|]. cbn.
    case_decide; [by rewrite IH|]. destruct (rn_dfs ord dr F fuel m v); cbn; [|done]. by rewrite IH.
  Qed.

  Definition grown (n : string -> Prop) (vis vis' : sset) : Prop :=
    vis ⊆ vis' /\ (forall x, x ∈ vis' -> x ∈ vis \/ exists m, n m /\ rtc (nstep F dr) m x) /\
    (forall x, x ∈ vis' -> x ∈ vis \/ forall y, nstep F dr x y -> y ∈ vis').

  Lemma rn_dfs_ok fuel : forall n vis, n ∈ f_nodes F -> size (f_nodes F ∖ ({[n]} ∪ vis)) < fuel ->
    exists vis', rn_dfs ord dr F fuel n vis = Ok vis' /\ n ∈ vis' /\ grown (eq n) vis vis' /\
      (forall y, nstep F dr n y -> y ∈ vis').
  Proof.
    induction fuel as [|fuel IH]; intros n vis Hn Hsz; [lia|].
    rewrite rn_dfs_S. destruct (neighbors_ok n Hn) as (X & HX & HXn). rewrite HX. cbn.
    assert (Hloop : forall l vis0, {[n]} ∪ vis ⊆ vis0 -> (forall m, m ∈ l -> nstep F dr n m) ->
      exists vis', rn_loop (rn_dfs ord dr F fuel) l vis0 = Ok vis' /\ (forall m, m ∈ l -> m ∈ vis') /\
        grown (fun m => m ∈ l) vis0 vis').
    { induction l as [|m l IHl]; intros vis0 Hv0 Hl; cbn.
      - exists vis0. split; [done|]. split; [by intros m ?%elem_of_nil|]. split; [done|]. split; auto.
      - assert (Hm : nstep F dr n m) by (apply Hl; left). pose proof (nstep_nodes _ _ Hm) as [_ Hmn].
        case_decide as Hmv.
        + destruct (IHl vis0) as (v1 & H1 & H2 & H3 & H4 & H5); [done|intros; apply Hl; by right|].
          exists v1. split; [done|]. split; [intros x [->|Hx]%elem_of_cons; [by apply H3|auto]|].
          split; [done|]. split; [|done]. intros x Hx. destruct (H4 x Hx) as [?|(y & Hy & Hr)]; [auto|].
          right. exists y. split; [by right|done].
        + destruct (IH m vis0 Hmn) as (v1 & H1 & Hmv1 & (G1 & G2 & G3) & G4).
          { eapply Nat.lt_le_trans; [|apply Nat.lt_succ_r; exact Hsz]. apply subset_size.
            split; [clear -Hv0; set_solver|]. intros Hsub. assert (m ∈ f_nodes F ∖ ({[n]} ∪ vis)) as Hin.
            { clear -Hmn Hmv Hv0. set_solver. }
            apply Hsub in Hin. clear -Hin. set_solver. }
          rewrite H1. cbn. destruct (IHl v1) as (v2 & H2 & H3 & K1 & K2 & K3).
          { etrans; done. } { intros; apply Hl; by right. }
          exists v2. split; [done|]. split; [intros x [->|Hx]%elem_of_cons; [by apply K1|auto]|].
          split; [etrans; done|]. split.
          * intros x Hx. destruct (K2 x Hx) as [Hx1|(y & Hy & Hr)].
            -- destruct (G2 x Hx1) as [?|(y & <- & Hr)]; [auto|]. right. exists m. split; [left|done].
            -- right. exists y. split; [by right|done].
          * intros x Hx. destruct (K3 x Hx) as [Hx1|Hx1]; [|auto].
            destruct (G3 x Hx1) as [?|Hx2]; [auto|]. right. intros y Hy. apply K1. auto. }
    destruct (Hloop (ord X) ({[n]} ∪ vis)) as (vis' & H1 & H2 & H3 & H4 & H5).
    { done. } { intros m. rewrite (ord_elem _ _ Hords). apply HXn. }
    exists vis'. split; [done|].
    assert (Hsucc : forall y, nstep F dr n y -> y ∈ vis'). { intros y Hy. apply H2. rewrite (ord_elem _ _ Hords). by apply HXn. }
    split; [clear -H3; set_solver|]. split; [|done]. split; [clear -H3; set_solver|]. split.
    - intros x Hx. destruct (H4 x Hx) as [Hx'|(m & Hm & Hr)].
      + apply elem_of_union in Hx' as [->%elem_of_singleton|?]; [|auto]. right. eexists. split; [done|]. apply rtc_refl.
      + right. exists n. split; [done|]. eapply rtc_l; [|done]. rewrite (ord_elem _ _ Hords) in Hm. by apply HXn.
    - intros x Hx. destruct (H5 x Hx) as [Hx'|?]; [|auto].
      apply elem_of_union in Hx' as [->%elem_of_singleton|?]; auto.
  Qed.

  Lemma rn_all_ok l : forall vis, (forall n, n ∈ l -> n ∈ f_nodes F) ->
    exists vis', rn_all ord dr F l vis = Ok vis' /\ grown (fun n => n ∈ l) vis vis' /\ (forall n, n ∈ l -> n ∈ vis').
  Proof.
    induction l as [|n l IH]; intros vis Hl; cbn [rn_all].
    - exists vis. split; [done|]. split; [|by intros n ?%elem_of_nil]. split; [done|]. split; auto.
    - destruct (rn_dfs_ok (S (size (f_nodes F))) n vis) as (v1 & H1 & Hn & (G1 & G2 & G3) & G4).
      { apply Hl. left. } { apply Nat.lt_succ_r, subseteq_size. clear. set_solver. }
      rewrite H1. change (Ok v1 ≫= ?f) with (f v1). cbv beta.
      destruct (IH v1) as (v2 & H2 & (K1 & K2 & K3) & K4); [intros; apply Hl; by right|].
      exists v2. split; [done|]. split; [|intros x [->|Hx]%elem_of_cons; [by apply K1|auto]].
      split; [etrans; done|]. split.
      + intros x Hx. destruct (K2 x Hx) as [Hx1|(y & Hy & Hr)].
        * destruct (G2 x Hx1) as [?|(y & <- & Hr)]; [auto|]. right. exists n. split; [left|done].
        * right. exists y. split; [by right|done].
      + intros x Hx. destruct (K3 x Hx) as [Hx1|Hx1]; [|auto].
        destruct (G3 x Hx1) as [?|Hx2]; [auto|]. right. intros y Hy. apply K1. auto.
  Qed.

  Lemma get_reachable_nodes_ok ns : ns ⊆ f_nodes F ->
    exists X, get_reachable_nodes ord dr ns F = Ok X /\ forall m, m ∈ X <-> exists n, n ∈ ns /\ rtc (nstep F dr) n m.
  Proof.
    intros Hns. destruct (rn_all_ok (ord ns) ∅) as (X & H1 & (G1 & G2 & G3) & G4).
    { intros n. rewrite (ord_elem _ _ Hords). apply Hns. }
    exists X. split; [done|]. intros m. split.
    - intros Hm. destruct (G2 m Hm) as [?|(n & Hn & Hr)]; [set_solver|]. rewrite (ord_elem _ _ Hords) in Hn. eauto.
    - intros (n & Hn & Hr). assert (n ∈ X) as HnX by (apply G4; by rewrite (ord_elem _ _ Hords)).
      clear Hn. induction Hr as [|x y z Hxy Hr IHr]; [done|]. apply IHr. destruct (G3 x HnX) as [?|Hs]; [set_solver|]. auto.
  Qed.
  Lemma reachable_sub ns m : ns ⊆ f_nodes F -> (exists n, n ∈ ns /\ rtc (nstep F dr) n m) -> m ∈ f_nodes F.
  Proof.
    intros Hns (n & Hn & Hr). apply Hns in Hn. induction Hr as [|x y z Hxy Hr IHr]; [done|]. apply IHr. by apply (nstep_nodes _ _ Hxy).
  Qed.
End nodes.
