(** Proofs for C20 and C21: deleting calls. *)
From stdpp Require Import base strings gmap list.
From Verif Require Import Base PyDict PyDict_proofs Returns DictStore CallStore Spec_CallStore CallStore_proofs
  Commit Refs Args Ident Storage Spec_Storage Spec_Storage2 Storage_laws.

Definition keep (D : gset string) (t : list crow) : list crow := filter (fun r => r_hid r ∉ D) t.
Lemma rows_for_keep D t hid : rows_for hid (keep D t) = if decide (hid ∈ D) then [] else rows_for hid t.
Proof.
  unfold keep, rows_for. induction t as [|r t IH].
  - by destruct (decide _).
  - rewrite filter_cons. destruct (decide (r_hid r ∉ D)) as [Hd|Hd]; rewrite !filter_cons, IH.
    + destruct (decide (r_hid r = hid)) as [<-|Hn]; [|done]. by rewrite !decide_False by done.
    + destruct (decide (hid ∈ D)) as [Hh|Hh]; [done|]. rewrite decide_False; [done|]. intros <-. done.
Qed.
Lemma keep_keep D hid t : filter (fun r => r_hid r <> hid) (keep D t) = keep ({[hid]} ∪ D) t.
Proof.
  unfold keep. induction t as [|r t IH]; [done|]. rewrite !filter_cons.
  destruct (decide (r_hid r ∉ D)) as [Hd|Hd].
  - rewrite filter_cons, IH. destruct (decide (r_hid r <> hid)) as [Hn|Hn].
    + rewrite decide_True; [done|]. set_solver.
    + rewrite decide_False; [done|]. apply dec_stable in Hn. set_solver.
  - rewrite IH, decide_False; [done|]. apply dec_stable in Hd. set_solver.
Qed.
Lemma keep_nothing D hid t : rows_for hid t = [] -> keep ({[hid]} ∪ D) t = keep D t.
Proof.
  intros Hr. unfold keep, rows_for in *. induction t as [|r t IH]; [done|]. rewrite filter_cons in Hr.
  destruct (decide (r_hid r = hid)) as [|Hn]; [done|]. rewrite !filter_cons, IH by done.
  destruct (decide (r_hid r ∉ D)) as [Hd|Hd].
  - rewrite decide_True; [done|]. set_solver.
  - rewrite decide_False; [done|]. apply dec_stable in Hd. set_solver.
Qed.

Local Arguments rows_for : simpl never.
Local Arguments keep : simpl never.
Local Arguments without : simpl never.
Section drop.
  Context (sel : list crow -> list crow) (sel_perm : forall l, sel l ≡ₚ l).

  (** the state after dropping [D] from the cache, [D'] from the database *)
  Definition dropped (D D' : gset string) (s : st) : st :=
    let t := s_tabs s in let k := t_calls t in
    St (Tabs (t_atoms t) (t_shapes t) (t_ops t)
          (CCalls (MCalls (keep D (mc_rows (cc_cache k))) (mc_hids (cc_cache k) ∖ D)) (cc_dirty k) (keep D' (cc_pers k))))
       (s_alias s) (s_allow s) (s_log s).

  Lemma drop_cached_dropped ks D hid s : cc_inv ks (t_calls (s_tabs s)) -> s_alias s = None ->
    drop_cached hid (dropped D ∅ s) = (Ok tt, dropped ({[hid]} ∪ D) ∅ s).
  Proof.
    intros [I1 I2 I3 I4 I5] Ha. unfold drop_cached, call_cache. cbn. rewrite Ha. cbn. unfold mc_exists. cbn.
    destruct (decide (hid ∈ mc_hids (cc_cache (t_calls (s_tabs s))) ∖ D)) as [Hin|Hin].
    - rewrite bool_decide_eq_true_2 by done. apply elem_of_difference in Hin as [Hin Hd].
      unfold mc_drop. cbn [mc_rows mc_hids]. rewrite rows_for_keep, decide_False by done.
      destruct (I1 hid Hin) as [[i Hi] Hh]. rewrite Hi in Hh. destruct Hh as (c & Hok & _ & _ & Hrows).
      destruct (rows_for hid (mc_rows (cc_cache (t_calls (s_tabs s))))) as [|r l] eqn:Er.
      { apply Permutation_nil_l in Hrows. by apply rows_of_nonempty in Hok. }
      rewrite decide_True by (by apply elem_of_difference). f_equal. unfold set_call_cache, dropped. cbn. rewrite Ha. cbn.
      rewrite keep_keep. unfold with_tabs. cbn.
      assert (Eh : mc_hids (cc_cache (t_calls (s_tabs s))) ∖ D ∖ {[hid]} = mc_hids (cc_cache (t_calls (s_tabs s))) ∖ ({[hid]} ∪ D)) by (clear; set_solver).
      rewrite Eh, ?Ha. reflexivity.
    - rewrite bool_decide_eq_false_2 by done. f_equal. unfold dropped.
      assert (E1 : keep ({[hid]} ∪ D) (mc_rows (cc_cache (t_calls (s_tabs s)))) = keep D (mc_rows (cc_cache (t_calls (s_tabs s))))).
      { destruct (decide (hid ∈ D)) as [Hd|Hd]; [by replace ({[hid]} ∪ D) with D by (clear -Hd; set_solver)|].
        apply keep_nothing. apply I2. intros Hc. apply Hin. by apply elem_of_difference. }
      assert (E2 : mc_hids (cc_cache (t_calls (s_tabs s))) ∖ ({[hid]} ∪ D) = mc_hids (cc_cache (t_calls (s_tabs s))) ∖ D).
      { revert Hin. generalize (mc_hids (cc_cache (t_calls (s_tabs s)))). clear. intros X Hin. set_solver. }
      by rewrite E1, E2.
  Qed.
  Lemma drop_persistent_dropped D D' hid s : drop_persistent hid (dropped D D' s) = (Ok tt, dropped D ({[hid]} ∪ D') s).
  Proof. unfold drop_persistent, dropped. cbn. unfold sql_drop. by rewrite keep_keep. Qed.

  Lemma keep_empty t : keep ∅ t = t.
  Proof. unfold keep. induction t as [|r t IH]; [done|]. rewrite filter_cons, decide_True by set_solver. by rewrite IH. Qed.
  Lemma dropped_nil s : dropped ∅ ∅ s = s.
  Proof. unfold dropped. rewrite !keep_empty, difference_empty_L. by destruct s as [[? ? ? [[] ? ?]] ? ? ?]. Qed.

  Lemma drop_calls_dropped ks order s : cc_inv ks (t_calls (s_tabs s)) -> s_alias s = None ->
    drop_calls order s = (Ok tt, dropped (list_to_set order) (list_to_set order) s).
  Proof.
    intros Hi Ha. unfold drop_calls, bindM.
    assert (forall l D, iterM drop_cached l (dropped D ∅ s) = (Ok tt, dropped (list_to_set l ∪ D) ∅ s)) as H1.
    { induction l as [|h l IH]; intros D; cbn [iterM].
      - by rewrite list_to_set_nil, union_empty_l_L.
      - unfold bindM. rewrite (drop_cached_dropped ks) by done. rewrite IH. rewrite list_to_set_cons.
        by rewrite (union_assoc_L _ {[h]} D), (union_comm_L _ {[h]}). }
    assert (forall l D D', iterM drop_persistent l (dropped D D' s) = (Ok tt, dropped D (list_to_set l ∪ D') s)) as H2.
    { induction l as [|h l IH]; intros D D'; cbn [iterM].
      - by rewrite list_to_set_nil, union_empty_l_L.
      - unfold bindM. rewrite drop_persistent_dropped, IH. rewrite list_to_set_cons.
        by rewrite (union_assoc_L _ {[h]} D'), (union_comm_L _ {[h]}). }
    specialize (H1 order ∅). rewrite dropped_nil in H1. rewrite H1. rewrite H2. by rewrite !union_empty_r_L.
  Qed.

  Lemma without_lookup D m h : without D m !! h = if decide (h ∈ D) then None else m !! h.
  Proof.
    unfold without. destruct (decide (h ∈ D)) as [Hd|Hd].
    - apply map_filter_lookup_None. right. intros x _. cbn. tauto.
    - destruct (m !! h) as [x|] eqn:E.
      + apply map_filter_lookup_Some. done.
      + apply map_filter_lookup_None. by left.
  Qed.
  Lemma dropped_inv ks D s : cc_inv ks (t_calls (s_tabs s)) -> (forall h, h ∈ D -> h ∉ cc_dirty (t_calls (s_tabs s))) ->
    cc_inv (without D ks.1, without D ks.2) (t_calls (s_tabs (dropped D D s))).
  Proof.
    intros [I1 I2 I3 I4 I5] Hd.
    assert (Hh : forall t h m, holds t h (m !! h) -> holds (keep D t) h (without D m !! h)).
    { intros t h m. rewrite without_lookup. unfold holds. rewrite rows_for_keep. by destruct (decide (h ∈ D)). }
    split; cbn.
    - intros h [Hc Hn]%elem_of_difference. destruct (I1 h Hc) as [Hs Hr]. split; [by rewrite without_lookup, decide_False|by apply Hh].
    - intros h Hc. rewrite rows_for_keep, !without_lookup. destruct (decide (h ∈ D)) as [|Hn]; [done|]. apply I2. clear -Hc Hn. set_solver.
    - intros h Hdy. destruct (I3 h Hdy). rewrite without_lookup. rewrite decide_False by (intros ?; by eapply Hd). split; [|done].
      apply elem_of_difference. split; [done|]. intros ?. by eapply Hd.
    - intros h [Hc Hn]%elem_of_difference Hdy. rewrite !without_lookup, !decide_False by done. by apply I4.
    - intros h. apply Hh, I5.
  Qed.

  (** C21: after deleting committed calls the table behaves like one where they never were *)
  Theorem drop_refines os bs k s D order r s' os' bs' k' :
    (forall c, KSave c ∈ os -> call_ok c) -> (forall c, KSave c ∈ os' -> call_ok c) ->
    ksteps sel (cc_open []) os bs k -> t_calls (s_tabs s) = k -> s_alias s = None ->
    order ≡ₚ elements D -> (forall h, h ∈ D -> h ∉ cc_dirty k) -> drop_calls order s = (r, s') ->
    ksteps sel (t_calls (s_tabs s')) os' bs' k' ->
    r = Ok tt /\
    bs' = (kspec_run (without D (kspec_run (∅, ∅) os).2.1, without D (kspec_run (∅, ∅) os).2.2) os').1.
  Proof using sel_perm.
    intros Hok Hok' Hs Hk Ha Hord Hd E Hs'.
    eapply (ksteps_refine sel sel_perm (∅, ∅)) in Hs as [_ Hi]; [| |done].
    2:{ apply (inv_open ∅). intros hid. by rewrite lookup_empty. }
    rewrite <-Hk in Hi. rewrite (drop_calls_dropped _ _ _ Hi Ha) in E. injection E as <- <-. split; [done|].
    assert (list_to_set order = D) as HD by (rewrite Hord; by rewrite list_to_set_elements_L). rewrite HD in *.
    eapply (ksteps_refine sel sel_perm) in Hs' as [-> _]; [| |done].
    2:{ apply (dropped_inv _ _ _ Hi). by rewrite Hk. }
    done.
  Qed.

  (** C20 *)
  Theorem drop_dependents os bs k s hids D order r s' :
    (forall c, KSave c ∈ os -> call_ok c) ->
    ksteps sel (cc_open []) os bs k -> cc_dirty k = ∅ -> t_calls (s_tabs s) = k -> s_alias s = None ->
    to_drop hids true s = Ok D -> order ≡ₚ elements D -> drop_calls order s = (r, s') ->
    r = Ok tt /\
    (forall h, recorded s' h <-> recorded s h /\ ~ desc_call (cc_pers k) ∅ hids h) /\
    (forall h, recorded s' h -> exists c c', cc_get sel h (t_calls (s_tabs s)) = Ok c /\ cc_get sel h (t_calls (s_tabs s')) = Ok c' /\ info c' = info c) /\
    (forall h h' x, recorded s' h -> recorded s h' -> ~ recorded s' h' -> makes (cc_pers k) h' x -> ~ uses (cc_pers k) h x) /\
    (t_atoms (s_tabs s') = t_atoms (s_tabs s) /\ t_shapes (s_tabs s') = t_shapes (s_tabs s) /\ t_ops (s_tabs s') = t_ops (s_tabs s)).
  Proof using sel_perm.
    intros Hok Hs Hdy Hk Ha HD Hord E.
    eapply (ksteps_refine sel sel_perm (∅, ∅)) in Hs as [_ Hi]; [| |done].
    2:{ apply (inv_open ∅). intros hid. by rewrite lookup_empty. }
    rewrite <-Hk in Hi. rewrite (drop_calls_dropped _ _ _ Hi Ha) in E. injection E as <- <-. split; [done|].
    assert (list_to_set order = D) as EqD by (rewrite Hord; by rewrite list_to_set_elements_L). rewrite EqD in *. clear order Hord EqD.
    unfold to_drop in HD. destruct (get_dependents_exact (cc_pers k) ∅ hids) as (refs & calls & Hg & Hrefs & Hcalls).
    rewrite Hk, Hg in HD. cbn in HD. injection HD as <-.
    assert (HD : forall h, h ∈ hids ∪ calls <-> desc_call (cc_pers k) ∅ hids h).
    { intros h. rewrite elem_of_union, Hcalls. split; [intros [Hin|?]; [by constructor|done]|by right]. }
    set (D := hids ∪ calls) in *. clearbody D.
    set (ks := (kspec_run (∅, ∅) os).2) in *.
    assert (Hi' : cc_inv (without D ks.1, without D ks.2) (t_calls (s_tabs (dropped D D s)))).
    { apply dropped_inv; [done|]. intros h _. rewrite Hk, Hdy. apply not_elem_of_empty. }
    assert (Hrec : forall h, recorded s h <-> is_Some (ks.1 !! h)).
    { intros h. unfold recorded, has_call. rewrite (inv_exists _ _ _ Hi). apply bool_decide_eq_true. }
    assert (Hrec' : forall h, recorded (dropped D D s) h <-> is_Some (ks.1 !! h) /\ h ∉ D).
    { intros h. unfold recorded, has_call. rewrite (inv_exists _ _ _ Hi'), bool_decide_eq_true. cbn [fst]. rewrite without_lookup.
      destruct (decide (h ∈ D)); [|tauto]. split; [by intros []|tauto]. }
    split_and!; try done.
    - intros h. rewrite Hrec, Hrec', <-HD. done.
    - intros h Hh. apply Hrec' in Hh as [[i Hh] Hn].
      pose proof (inv_get sel sel_perm _ _ h Hi) as G1. rewrite Hh in G1. destruct G1 as (c & G1 & I1).
      pose proof (inv_get sel sel_perm _ _ h Hi') as G2. cbn [fst] in G2. rewrite without_lookup, decide_False, Hh in G2 by done.
      destruct G2 as (c' & G2 & I2). exists c, c'. split; [done|]. split; [done|]. congruence.
    - intros h h' x Hh Hh' Hnh' Hm Hu. apply Hrec' in Hh as [_ Hn].
      assert (h' ∈ D) as Hd.
      { apply Hrec in Hh'. destruct (decide (h' ∈ D)); [done|]. destruct Hnh'. by apply Hrec'. }
      apply Hn, HD. apply HD in Hd. eapply rc_step; [|exact Hu]. by eapply rr_step.
  Qed.
End drop.
