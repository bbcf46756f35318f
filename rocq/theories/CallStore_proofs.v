(** Proofs about the call table. *)
From stdpp Require Import base strings gmap list fin_sets.
From Verif Require Import Base PyDict PyDict_proofs CallStore Spec_CallStore.

(** * Reading back what was written *)

(** equal up to the order of the dictionaries *)
Record ceqv (c c' : cdata) : Prop := {
  ceqv_op : d_op c = d_op c'; ceqv_cid : d_cid c = d_cid c'; ceqv_hid : d_hid c = d_hid c';
  ceqv_ins : d_ins c ≡ₚ d_ins c'; ceqv_outs : d_outs c ≡ₚ d_outs c';
  ceqv_sem : d_sem c = d_sem c'; ceqv_cont : d_cont c = d_cont c';
}.

Lemma call_ok_NoDup_ins c : call_ok c -> NoDup (map fst (d_ins c)).
Proof. intros [[H _]%NoDup_app _]. done. Qed.
Lemma call_ok_NoDup_outs c : call_ok c -> NoDup (map fst (d_outs c)).
Proof. intros [(_ & _ & H)%NoDup_app _]. done. Qed.

Lemma ceqv_ok c c' : ceqv c c' -> call_ok c' -> call_ok c.
Proof.
  intros E [H1 H2]. split.
  - by rewrite (ceqv_ins _ _ E), (ceqv_outs _ _ E).
  - intros H. apply H2. apply Permutation_nil_r. by rewrite <-(ceqv_ins _ _ E), <-(ceqv_outs _ _ E), H.
Qed.

Lemma ceqv_info c c' : ceqv c c' -> call_ok c' -> info c = info c'.
Proof.
  intros E Hok. pose proof (ceqv_ok _ _ E Hok) as Hok'.
  destruct E as [E1 E2 E3 E4 E5 E6 E7]. unfold info. rewrite E1, E2, E3, E6, E7. f_equal.
  - apply list_to_map_proper; [|done]. by apply call_ok_NoDup_ins.
  - apply list_to_map_proper; [|done]. by apply call_ok_NoDup_outs.
Qed.

Lemma ceqv_rows c c' : ceqv c c' -> rows_of c ≡ₚ rows_of c'.
Proof.
  intros [E1 E2 E3 E4 E5 E6 E7]. unfold rows_of.
  assert (forall d kv, row_of c d kv = row_of c' d kv) as Hr.
  { intros. unfold row_of. by rewrite E1, E2, E3, E6, E7. }
  rewrite E4, E5. f_equiv; apply Permutation_refl'; apply map_ext; auto.
Qed.

Lemma filter_dir_in c : filter (fun r => r_dir r = DIn) (rows_of c) = map (row_of c DIn) (d_ins c).
Proof.
  unfold rows_of. rewrite filter_app.
  assert (forall l, filter (fun r => r_dir r = DIn) (map (row_of c DIn) l) = map (row_of c DIn) l) as ->.
  { induction l as [|x l IH]; [done|]. simpl. rewrite filter_cons_True by done. by f_equal. }
  assert (forall l, filter (fun r => r_dir r = DIn) (map (row_of c DOut) l) = []) as ->.
  { induction l as [|x l IH]; [done|]. simpl. by rewrite filter_cons_False. }
  by rewrite app_nil_r.
Qed.
Lemma filter_dir_out c : filter (fun r => r_dir r = DOut) (rows_of c) = map (row_of c DOut) (d_outs c).
Proof.
  unfold rows_of. rewrite filter_app.
  assert (forall l, filter (fun r => r_dir r = DOut) (map (row_of c DOut) l) = map (row_of c DOut) l) as ->.
  { induction l as [|x l IH]; [done|]. simpl. rewrite filter_cons_True by done. by f_equal. }
  assert (forall l, filter (fun r => r_dir r = DOut) (map (row_of c DIn) l) = []) as ->.
  { induction l as [|x l IH]; [done|]. simpl. by rewrite filter_cons_False. }
  done.
Qed.

Lemma map_row_back c d l :
  map (fun r => (r_name r, (r_rcid r, r_rhid r))) (map (row_of c d) l) = l.
Proof.
  rewrite map_map. induction l as [|[k [a b]] l IH]; simpl; [done|]. by f_equal.
Qed.

Lemma data_of_rows_ok c rows :
  call_ok c -> rows ≡ₚ rows_of c ->
  exists c', data_of_rows (d_hid c) rows = Ok c' /\ ceqv c' c.
Proof.
  intros Hok Hp.
  assert (Hi : ins_of rows ≡ₚ d_ins c).
  { unfold ins_of. rewrite dict_of_NoDup.
    - by rewrite Hp, filter_dir_in, map_row_back.
    - rewrite Hp, filter_dir_in, map_row_back. by apply call_ok_NoDup_ins. }
  assert (Ho : outs_of rows ≡ₚ d_outs c).
  { unfold outs_of. rewrite dict_of_NoDup.
    - by rewrite Hp, filter_dir_out, map_row_back.
    - rewrite Hp, filter_dir_out, map_row_back. by apply call_ok_NoDup_outs. }
  destruct rows as [|r rows].
  { destruct Hok as [_ Hn]. apply Permutation_nil_l in Hp. unfold rows_of in Hp.
    symmetry in Hp. apply app_nil in Hp as [H1%map_eq_nil H2%map_eq_nil]. by rewrite H1, H2 in Hn. }
  eexists. split; [reflexivity|].
  assert (Hr : exists d kv, r = row_of c d kv).
  { assert (r ∈ rows_of c) as Hin by (rewrite <-Hp; left).
    unfold rows_of in Hin. apply elem_of_app in Hin as [Hin|Hin];
      apply elem_of_list_fmap in Hin as (kv & -> & _); eauto. }
  destruct Hr as (d & kv & ->). by constructor.
Qed.

Lemma rows_of_hid c r : r ∈ rows_of c -> r_hid r = d_hid c.
Proof.
  unfold rows_of. intros [Hin|Hin]%elem_of_app;
    apply elem_of_list_fmap in Hin as (kv & -> & _); done.
Qed.
Lemma rows_for_rows_of c : rows_for (d_hid c) (rows_of c) = rows_of c.
Proof.
  unfold rows_for. assert (forall l : list crow, (forall r, r ∈ l -> r_hid r = d_hid c) ->
    filter (fun r => r_hid r = d_hid c) l = l) as H.
  { induction l as [|r l IH]; intros Hl; [done|].
    rewrite filter_cons_True by (apply Hl; left). f_equal. apply IH. intros; apply Hl; by right. }
  apply H. apply rows_of_hid.
Qed.
Lemma rows_for_rows_of_ne hid c : hid <> d_hid c -> rows_for hid (rows_of c) = [].
Proof.
  intros Hne. unfold rows_for. apply elem_of_nil_inv. intros r [E Hr]%elem_of_list_filter.
  apply rows_of_hid in Hr. congruence.
Qed.
Lemma rows_of_nonempty c : call_ok c -> rows_of c <> [].
Proof.
  intros [_ Hn] H. apply app_nil in H as [H1%map_eq_nil H2%map_eq_nil]. by rewrite H1, H2 in Hn.
Qed.
Lemma rows_of_names c : map r_name (rows_of c) = map fst (d_ins c) ++ map fst (d_outs c).
Proof. unfold rows_of. by rewrite map_app, !map_map. Qed.

(** inserting the rows of a new call, in memory and in SQL *)
Lemma upsert_fresh r t : Forall (fun r' => ~ same_key r r') t -> upsert r t = t ++ [r].
Proof.
  induction 1 as [|r' t H1 H2 IH]; simpl; [done|]. rewrite decide_False by done. by rewrite IH.
Qed.

Lemma fold_upsert rows t :
  NoDup (map r_name rows) ->
  (forall r r', r ∈ rows -> r' ∈ t -> r_hid r' <> r_hid r) ->
  (forall r r', r ∈ rows -> r' ∈ rows -> r_hid r = r_hid r') ->
  fold_left (fun t r => upsert r t) rows t = t ++ rows.
Proof.
  intros Hnd Hne _.
  cut (forall t0, (forall r r', r ∈ rows -> r' ∈ t -> r_hid r' <> r_hid r) ->
       NoDup (map r_name (t0 ++ rows)) ->
       fold_left (fun t r => upsert r t) rows (t ++ t0) = t ++ t0 ++ rows).
  { intros H. specialize (H [] Hne Hnd). by rewrite app_nil_r in H. }
  clear Hnd. induction rows as [|r rows IH]; intros t0 Hne' Hnd; simpl; [by rewrite app_nil_r|].
  rewrite upsert_fresh.
  - rewrite <-app_assoc. rewrite IH.
    + by rewrite <-app_assoc.
    + intros; (apply Hne; [by right|done]).
    + intros; (apply Hne'; [by right|done]).
    + by rewrite <-app_assoc.
  - apply Forall_forall. intros r' Hr' [E1 E2]. apply elem_of_app in Hr' as [Hr'|Hr'].
    + eapply Hne'; [left|done|done].
    + rewrite map_app in Hnd. apply NoDup_app in Hnd as (_ & Hd & _).
      eapply (Hd (r_name r')).
      * by apply elem_of_list_fmap_1.
      * simpl. rewrite <-E2. left.
Qed.

Lemma sql_insert_all rows t :
  NoDup (map r_name rows) ->
  (forall r r', r ∈ rows -> r' ∈ t -> r_hid r' <> r_hid r) ->
  iterM sql_insert rows t = (Ok tt, t ++ rows).
Proof.
  intros Hnd Hne.
  cut (forall t0, NoDup (map r_name (t0 ++ rows)) ->
       iterM sql_insert rows (t ++ t0) = (Ok tt, t ++ t0 ++ rows)).
  { intros H. specialize (H [] Hnd). by rewrite app_nil_r in H. }
  clear Hnd. induction rows as [|r rows IH]; intros t0 Hnd; simpl; [by rewrite app_nil_r|].
  unfold bindM at 1, sql_insert at 1. rewrite decide_False.
  - rewrite <-app_assoc, IH.
    + by rewrite <-app_assoc.
    + intros; (apply Hne; [by right|done]).
    + by rewrite <-app_assoc.
  - intros (r' & Hr' & E1 & E2)%Exists_exists. apply elem_of_app in Hr' as [Hr'|Hr'].
    + eapply Hne; [left|done|done].
    + rewrite map_app in Hnd. apply NoDup_app in Hnd as (_ & Hd & _).
      eapply (Hd (r_name r')).
      * by apply elem_of_list_fmap_1.
      * simpl. rewrite <-E2. left.
Qed.

Lemma rows_for_app hid t t' : rows_for hid (t ++ t') = rows_for hid t ++ rows_for hid t'.
Proof. apply filter_app. Qed.
Lemma rows_for_nil hid t : rows_for hid t = [] <-> hid ∉ map r_hid t.
Proof.
  unfold rows_for. split.
  - intros H (r & -> & Hr)%elem_of_list_fmap.
    assert (r ∈ filter (fun r' => r_hid r' = r_hid r) t) as Hf by (by apply elem_of_list_filter).
    rewrite H in Hf. by apply elem_of_nil in Hf.
  - intros H. apply elem_of_nil_inv. intros r [E Hr]%elem_of_list_filter. apply H.
    apply elem_of_list_fmap. eauto.
Qed.

(** * Refinement of the cached table *)
Section refine.
  Context (sel : list crow -> list crow).
  Hypothesis sel_perm : forall l, sel l ≡ₚ l.

  Lemma holds_get t hid i rows :
    holds t hid (Some i) -> rows ≡ₚ rows_for hid t ->
    exists c', data_of_rows hid rows = Ok c' /\ info c' = i /\ call_ok c' /\ d_hid c' = hid /\
               rows_of c' ≡ₚ rows_for hid t.
  Proof.
    intros (c & Hok & <- & <- & Hp) Hr. rewrite Hp in Hr.
    destruct (data_of_rows_ok c rows Hok Hr) as (c' & E & He).
    exists c'. split_and!; [done|by apply ceqv_info|by eapply ceqv_ok|apply (ceqv_hid _ _ He)|].
    by rewrite (ceqv_rows _ _ He), Hp.
  Qed.

  Record cc_inv (ks : kstate) (s : ccalls) : Prop := {
    ci_cache : forall hid, hid ∈ mc_hids (cc_cache s) ->
                 is_Some (ks.1 !! hid) /\ holds (mc_rows (cc_cache s)) hid (ks.1 !! hid);
    ci_nocache : forall hid, hid ∉ mc_hids (cc_cache s) ->
                 rows_for hid (mc_rows (cc_cache s)) = [] /\ ks.1 !! hid = ks.2 !! hid;
    ci_dirty : forall hid, hid ∈ cc_dirty s -> hid ∈ mc_hids (cc_cache s) /\ ks.2 !! hid = None;
    ci_clean : forall hid, hid ∈ mc_hids (cc_cache s) -> hid ∉ cc_dirty s ->
                 ks.1 !! hid = ks.2 !! hid;
    ci_pers : forall hid, holds (cc_pers s) hid (ks.2 !! hid);
  }.

  Lemma holds_exists t hid o : holds t hid o -> sql_exists hid t = bool_decide (is_Some o).
  Proof.
    unfold sql_exists. destruct o as [i|]; simpl.
    - intros (c & Hok & <- & _ & Hp). apply bool_decide_eq_true_2.
      destruct (decide (d_hid c ∈ map r_hid t)) as [|Hn]; [done|exfalso].
      apply rows_for_nil in Hn. rewrite Hn in Hp. apply Permutation_nil_l in Hp.
      symmetry in Hp. by apply rows_of_nonempty in Hp.
    - intros H. apply bool_decide_eq_false_2. by apply rows_for_nil.
  Qed.

  Lemma inv_exists ks s hid :
    cc_inv ks s -> cc_exists hid s = bool_decide (is_Some (ks.1 !! hid)).
  Proof.
    intros [I1 I2 I3 I4 I5]. unfold cc_exists, mc_exists.
    destruct (decide (hid ∈ mc_hids (cc_cache s))) as [H|H].
    - rewrite bool_decide_eq_true_2 by done. simpl. destruct (I1 _ H) as [H1 _].
      by rewrite bool_decide_eq_true_2.
    - rewrite bool_decide_eq_false_2 by done. simpl. destruct (I2 _ H) as [_ H1].
      rewrite H1. by apply holds_exists.
  Qed.

  Lemma sql_get_rows hid t : sql_get sel hid t = data_of_rows hid (rows_for hid (sel (filter (fun r => r_hid r ∈ [hid]) t))).
  Proof. unfold sql_get, sql_mget. simpl. by destruct (data_of_rows _ _). Qed.

  Lemma sel_rows_for (P : crow -> Prop) `{!forall r, Decision (P r)} hid t :
    (forall r, r_hid r = hid -> P r) ->
    rows_for hid (sel (filter P t)) ≡ₚ rows_for hid t.
  Proof.
    intros HP. unfold rows_for. rewrite sel_perm. rewrite list_filter_filter.
    apply Permutation_refl'. apply list_filter_iff. naive_solver.
  Qed.

  Lemma inv_get ks s hid :
    cc_inv ks s ->
    match ks.1 !! hid with
    | Some i => exists c, cc_get sel hid s = Ok c /\ info c = i
    | None => exists e, cc_get sel hid s = Err e
    end.
  Proof.
    intros [I1 I2 I3 I4 I5]. unfold cc_get.
    destruct (mc_exists hid (cc_cache s)) eqn:Ee.
    - unfold mc_get. rewrite Ee. unfold mc_exists in Ee. apply bool_decide_eq_true in Ee.
      destruct (I1 _ Ee) as [[i Hi] H]. rewrite Hi in *.
      destruct (holds_get _ _ _ (rows_for hid (mc_rows (cc_cache s))) H) as (c & Hc & Hinfo & _); [done|].
      exists c. unfold mc_mget. simpl. by rewrite Hc.
    - unfold mc_exists in Ee. apply bool_decide_eq_false in Ee.
      destruct (I2 _ Ee) as [_ Hk]. rewrite Hk. specialize (I5 hid).
      rewrite sql_get_rows.
      assert (Hp : rows_for hid (sel (filter (fun r => r_hid r ∈ [hid]) (cc_pers s))) ≡ₚ rows_for hid (cc_pers s)).
      { apply sel_rows_for. intros r ->. by left. }
      destruct (ks.2 !! hid) as [i|].
      + destruct (holds_get _ _ _ _ I5 Hp) as (c & Hc & Hinfo & _). eauto.
      + simpl in I5. rewrite I5 in Hp. apply Permutation_nil_r in Hp. rewrite Hp. simpl. eauto.
  Qed.

  Lemma inv_save ks s c :
    cc_inv ks s -> call_ok c -> cc_exists (d_hid c) s = false ->
    cc_inv (<[d_hid c := info c]> ks.1, ks.2) (cc_save c s).
  Proof.
    intros Hinv Hok He. rewrite (inv_exists _ _ _ Hinv) in He.
    apply bool_decide_eq_false in He. apply eq_None_not_Some in He.
    destruct Hinv as [I1 I2 I3 I4 I5].
    assert (Hnc : d_hid c ∉ mc_hids (cc_cache s)).
    { intros H. apply I1 in H as [[? ?] _]. congruence. }
    destruct (I2 _ Hnc) as [Hr Hk]. rewrite He in Hk.
    assert (Hsave : mc_save c (cc_cache s) =
      MCalls (mc_rows (cc_cache s) ++ rows_of c) ({[d_hid c]} ∪ mc_hids (cc_cache s))).
    { unfold mc_save. rewrite decide_False by done. f_equal. apply fold_upsert.
      - rewrite rows_of_names. apply Hok.
      - intros r r' H1%rows_of_hid H2 E. rewrite rows_for_nil in Hr. apply Hr.
        rewrite <-H1, <-E. by apply elem_of_list_fmap_1.
      - intros r r' H1%rows_of_hid H2%rows_of_hid. congruence. }
    unfold cc_save. rewrite Hsave. constructor; simpl.
    - intros hid [->%elem_of_singleton|Hh]%elem_of_union.
      + rewrite lookup_insert. split; [eauto|]. exists c. split_and!; auto.
        by rewrite rows_for_app, Hr, rows_for_rows_of.
      + assert (hid <> d_hid c) by congruence.
        rewrite lookup_insert_ne by done. destruct (I1 _ Hh) as [[i Hi] H2]. rewrite Hi in *. split; [eauto|].
        destruct H2 as (c' & H2). exists c'. by rewrite rows_for_app, rows_for_rows_of_ne, app_nil_r.
    - intros hid [Hn1%not_elem_of_singleton Hn2]%not_elem_of_union.
      rewrite rows_for_app, rows_for_rows_of_ne, app_nil_r by done.
      rewrite lookup_insert_ne by done. auto.
    - intros hid [->%elem_of_singleton|Hh]%elem_of_union; [set_solver|]. apply I3 in Hh. set_solver.
    - intros hid Hh [Hn1%not_elem_of_singleton Hn2]%not_elem_of_union.
      rewrite lookup_insert_ne by done. apply I4; set_solver.
    - auto.
  Qed.

  (** the commit loop: [done] are the hids already written *)
  Lemma inv_commit_loop ks s order s0 :
    cc_inv ks s0 -> cc_cache s = cc_cache s0 -> cc_dirty s = cc_dirty s0 ->
    NoDup order -> (forall hid, hid ∈ order -> hid ∈ cc_dirty s0) ->
    (forall hid, hid ∉ order -> hid ∈ cc_dirty s0 -> holds (cc_pers s) hid (ks.1 !! hid)) ->
    (forall hid, hid ∈ order \/ hid ∉ cc_dirty s0 -> holds (cc_pers s) hid (ks.2 !! hid)) ->
    exists t, iterM cc_commit_hid order s = (Ok tt, CCalls (cc_cache s0) (cc_dirty s0) t) /\
      (forall hid, hid ∈ cc_dirty s0 -> holds t hid (ks.1 !! hid)) /\
      (forall hid, hid ∉ cc_dirty s0 -> holds t hid (ks.2 !! hid)).
  Proof.
    intros Hinv. revert s. induction order as [|hid order IH]; intros s Ec Ed Hnd Hsub Hdone Htodo.
    - exists (cc_pers s). simpl. unfold retM. destruct s; simpl in *; subst. split_and!; auto.
      intros; apply Hdone; [|done]. apply not_elem_of_nil.
    - apply NoDup_cons in Hnd as [Hh Hnd]. simpl. unfold bindM at 1, cc_commit_hid at 1.
      rewrite Ec. assert (Hd : hid ∈ cc_dirty s0) by (apply Hsub; left).
      destruct (ci_dirty _ _ Hinv _ Hd) as [Hc Hk2].
      destruct (ci_cache _ _ Hinv _ Hc) as [[i Hi] Hold]. rewrite Hi in Hold.
      destruct (holds_get _ _ _ (rows_for hid (mc_rows (cc_cache s0))) Hold)
        as (c & Hc1 & Hinfo & Hok & Hhid & Hrows); [done|].
      assert (mc_get hid (cc_cache s0) = Ok c) as ->.
      { unfold mc_get, mc_exists. rewrite bool_decide_eq_true_2 by done.
        unfold mc_mget. simpl. by rewrite Hc1. }
      assert (Hempty : rows_for hid (cc_pers s) = []).
      { assert (H0 : holds (cc_pers s) hid (ks.2 !! hid)) by (apply Htodo; left; left).
        rewrite Hk2 in H0. done. }
      unfold sql_save. rewrite sql_insert_all.
      2:{ rewrite rows_of_names. apply Hok. }
      2:{ intros r r' H1%rows_of_hid H2 E. rewrite rows_for_nil in Hempty. apply Hempty.
          rewrite <-Hhid, <-H1, <-E. by apply elem_of_list_fmap_1. }
      destruct (IH (CCalls (cc_cache s0) (cc_dirty s) (cc_pers s ++ rows_of c))) as (t & Ht & H1 & H2); auto.
      + intros; apply Hsub; by right.
      + intros hid' Hn Hd'. simpl. destruct (decide (hid' = hid)) as [->|Hne].
        * rewrite Hi. exists c. split_and!; auto. rewrite rows_for_app, Hempty. simpl.
          by rewrite <-Hhid, rows_for_rows_of.
        * assert (H0 : holds (cc_pers s) hid' (ks.1 !! hid')) by (apply Hdone; [by apply not_elem_of_cons|done]).
          revert H0. unfold holds. rewrite rows_for_app, rows_for_rows_of_ne, app_nil_r by congruence.
          done.
      + intros hid' Hn. simpl.
        assert (hid' <> hid) by (intros ->; tauto).
        assert (H0 : holds (cc_pers s) hid' (ks.2 !! hid')) by (apply Htodo; destruct Hn; [left; by right|by right]).
        revert H0. unfold holds. rewrite rows_for_app, rows_for_rows_of_ne, app_nil_r by congruence.
        done.
      + exists t. auto.
  Qed.

  Lemma inv_commit ks s order :
    cc_inv ks s -> order ≡ₚ elements (cc_dirty s) ->
    exists s', cc_commit order s = (Ok tt, s') /\ cc_inv (ks.1, ks.1) s' /\ cc_dirty s' = ∅.
  Proof.
    intros Hinv Hord.
    destruct (inv_commit_loop ks s order s Hinv) as (t & Ht & H1 & H2); auto.
    - rewrite Hord. apply NoDup_elements.
    - intros hid. rewrite Hord. by rewrite elem_of_elements.
    - intros hid Hn Hd. destruct Hn. by rewrite Hord, elem_of_elements.
    - intros hid _. apply (ci_pers _ _ Hinv).
    - unfold cc_commit. rewrite Ht. eexists. split; [reflexivity|]. split; [|done].
      destruct Hinv as [I1 I2 I3 I4 I5]. constructor; simpl.
      + done.
      + intros hid Hn. split; [by apply I2|done].
      + by intros hid ?%elem_of_empty.
      + done.
      + intros hid. destruct (decide (hid ∈ cc_dirty s)) as [Hd|Hd]; [auto|].
        assert (ks.1 !! hid = ks.2 !! hid) as ->; [|auto].
        destruct (decide (hid ∈ mc_hids (cc_cache s))); [auto|]. by apply I2.
  Qed.

  Lemma inv_open ks t : (forall hid, holds t hid (ks !! hid)) -> cc_inv (ks, ks) (cc_open t).
  Proof.
    intros H. constructor; simpl; try done; by intros hid ?%elem_of_empty.
  Qed.

  Lemma inv_clear ks s r s' : cc_inv ks s -> cc_clear false s = (r, s') -> cc_inv ks s'.
  Proof.
    intros Hinv. unfold cc_clear. case_bool_decide as Hd; simpl; intros [= <- <-]; [|done].
    destruct Hinv as [I1 I2 I3 I4 I5]. constructor; simpl; try done; try by intros hid ?%elem_of_empty.
    intros hid _. split; [done|].
    destruct (decide (hid ∈ mc_hids (cc_cache s))); [|by apply I2]. apply I4; [done|].
    rewrite Hd. apply not_elem_of_empty.
  Qed.

  Lemma rows_for_drop hid hid' t :
    rows_for hid (filter (fun r => r_hid r <> hid') t) = if decide (hid = hid') then [] else rows_for hid t.
  Proof.
    unfold rows_for. rewrite list_filter_filter.
    destruct (decide (hid = hid')) as [->|Hn].
    - induction t as [|r t IH]; [done|]. rewrite filter_cons, decide_False by tauto. exact IH.
    - apply list_filter_iff. intros r. split; [tauto|]. intros <-. split; congruence.
  Qed.

  Lemma inv_drop ks s hid r s' :
    cc_inv ks s -> sql_exists hid (cc_pers s) = false -> cc_drop hid s = (r, s') ->
    match ks.1 !! hid with
    | Some _ => r = Ok tt /\ cc_inv (delete hid ks.1, ks.2) s'
    | None => (exists e, r = Err e) /\ cc_inv ks s'
    end /\ ks.2 !! hid = None.
  Proof.
    intros Hinv Hne Hd. pose proof (holds_exists _ _ _ (ci_pers _ _ Hinv hid)) as Hp.
    rewrite Hne in Hp. symmetry in Hp. apply bool_decide_eq_false, eq_None_not_Some in Hp.
    split; [|done]. destruct Hinv as [I1 I2 I3 I4 I5]. unfold cc_drop, mc_drop in Hd.
    destruct (decide (hid ∈ mc_hids (cc_cache s))) as [Hin|Hin].
    - destruct (I1 _ Hin) as [[i Hi] Hh]. rewrite Hi in *. destruct Hh as (c & Hc & <- & _ & Hr).
      destruct (rows_for (d_hid c) (mc_rows (cc_cache s))) as [|x l] eqn:El.
      { apply Permutation_nil in Hr. by destruct (rows_of_nonempty _ Hc). }
      injection Hd as <- <-. split; [done|]. constructor; simpl.
      + intros h [Hh1 Hh2]%elem_of_difference. apply not_elem_of_singleton in Hh2.
        rewrite lookup_delete_ne by done. destruct (I1 _ Hh1) as [? Ho]. split; [done|].
        unfold holds in *. destruct (ks.1 !! h); rewrite rows_for_drop, decide_False by done; exact Ho.
      + intros h Hh. rewrite rows_for_drop. destruct (decide (h = d_hid c)) as [->|Hnh].
        * by rewrite lookup_delete, Hp.
        * rewrite lookup_delete_ne by done. apply I2. set_solver.
      + intros h [Hh1 Hh2]%elem_of_difference. split; [|by apply I3].
        apply elem_of_difference. split; [by apply I3|done].
      + intros h [Hh1 Hh2]%elem_of_difference Hnd. apply not_elem_of_singleton in Hh2.
        rewrite lookup_delete_ne by done. apply I4; [done|set_solver].
      + done.
    - destruct (I2 _ Hin) as [Hr Hk]. rewrite Hk, Hp. rewrite Hr in Hd. injection Hd as <- <-.
      split; [by eexists|]. by constructor.
  Qed.

  Lemma kstep_refines ks s o b s' :
    cc_inv ks s -> (forall c, o = KSave c -> call_ok c) -> kstep sel s o b s' ->
    b = (kspec_step ks o).1 /\ cc_inv (kspec_step ks o).2 s'.
  Proof.
    intros Hinv Hok Hs.
    destruct Hs as [s c He|s c He|s hid c Hg|s hid e Hg|s hid|s hid r s' He Hd|s hid He|s order r s' Hord Hc|s r s' Hc|s]; simpl.
    - split; [done|]. rewrite (inv_exists _ _ _ Hinv) in He. apply bool_decide_eq_true in He as [i ->].
      by destruct ks.
    - split; [done|]. pose proof He as He'. rewrite (inv_exists _ _ _ Hinv) in He'.
      apply bool_decide_eq_false in He'. apply eq_None_not_Some in He' as ->.
      apply inv_save; auto.
    - split; [|done]. pose proof (inv_get ks s hid Hinv) as H. destruct (ks.1 !! hid) as [i|].
      + destruct H as (c' & H1 & <-). congruence.
      + destruct H as (e & H). congruence.
    - split; [|done]. pose proof (inv_get ks s hid Hinv) as H. destruct (ks.1 !! hid) as [i|]; [|done].
      destruct H as (c' & H1 & _). congruence.
    - split; [|done]. by rewrite (inv_exists _ _ _ Hinv).
    - destruct (inv_drop _ _ _ _ _ Hinv He Hd) as [H Hn]. destruct (ks.1 !! hid) as [i|].
      + destruct H as [-> H]. rewrite Hn. done.
      + destruct H as [[e ->] H]. done.
    - rewrite (holds_exists _ _ _ (ci_pers _ _ Hinv hid)) in He. apply bool_decide_eq_true in He as [i Hi].
      rewrite Hi. by destruct (ks.1 !! hid).
    - destruct (inv_commit ks s order Hinv Hord) as (s1 & Hc1 & Hi & _).
      rewrite Hc1 in Hc. simplify_eq. auto.
    - split; [done|]. by eapply inv_clear.
    - split; [done|]. apply inv_open. apply (ci_pers _ _ Hinv).
  Qed.

  Lemma ksteps_refine ks s os bs s' :
    cc_inv ks s -> (forall c, KSave c ∈ os -> call_ok c) -> ksteps sel s os bs s' ->
    bs = (kspec_run ks os).1 /\ cc_inv (kspec_run ks os).2 s'.
  Proof.
    intros Hinv Hok Hs. revert ks Hinv Hok. induction Hs as [s|s o b s1 os bs s2 H1 H2 IH];
      intros ks Hinv Hok; simpl; [done|].
    destruct (kspec_step ks o) as [b' ks'] eqn:E1.
    destruct (kstep_refines ks s o b s1) as [Hb Hi]; auto.
    { intros c ->. apply Hok. left. }
    rewrite E1 in *. simpl in *.
    destruct (kspec_run ks' os) as [bs' ks''] eqn:E2. simpl.
    destruct (IH ks') as [-> ?]; auto.
    { intros; apply Hok; by right. }
    rewrite E2 in *. simpl in *. split; [by f_equal|done].
  Qed.

  Lemma call_table_refines os bs s' :
    (forall c, KSave c ∈ os -> call_ok c) -> ksteps sel (cc_open []) os bs s' ->
    bs = (kspec_run (∅, ∅) os).1.
  Proof.
    intros Hok Hs. eapply ksteps_refine in Hs as [? _]; eauto.
    apply (inv_open ∅). intros hid. by rewrite lookup_empty.
  Qed.

  Lemma kstep_total s o : exists b s', kstep sel s o b s'.
  Proof.
    destruct o as [c|hid|hid|hid| | |].
    - destruct (cc_exists (d_hid c) s) eqn:E; eexists _, _; [by apply ks_save_known|by apply ks_save_new].
    - destruct (cc_get sel hid s) eqn:E; eexists _, _; [by apply ks_get_ok|by eapply ks_get_err].
    - eexists _, _; apply ks_exists.
    - destruct (sql_exists hid (cc_pers s)) eqn:Ee; [eexists _, _; by apply ks_drop_not|].
      destruct (cc_drop hid s) as [r s'] eqn:E. eexists _, _. by eapply ks_drop.
    - destruct (cc_commit (elements (cc_dirty s)) s) as [r s'] eqn:E.
      eexists _, _. eapply ks_commit; [reflexivity|done].
    - destruct (cc_clear false s) as [r s'] eqn:E. eexists _, _. by eapply ks_clear.
    - eexists _, _; apply ks_reopen.
  Qed.
  Lemma ksteps_total s os : exists bs s', ksteps sel s os bs s'.
  Proof.
    revert s. induction os as [|o os IH]; intros s; [eexists _, _; constructor|].
    destruct (kstep_total s o) as (b & s1 & H1). destruct (IH s1) as (bs & s2 & H2).
    eexists _, _; econstructor; eassumption.
  Qed.

  (** * Batch reads *)
  (** the ids for which each part is asked, merged back by the mask *)
  Lemma merge_split {A B} (f : A -> result B) (l : list A) (p : A -> bool) lt lf :
    mapR f (split_list l (map p l)).1 = Ok lt ->
    mapR f (split_list l (map p l)).2 = Ok lf ->
    exists r, merge_lists lt lf (map p l) = Ok r /\ mapR f l = Ok r.
  Proof.
    revert lt lf. induction l as [|x l IH]; intros lt lf; simpl.
    - intros; simplify_eq. eauto.
    - destruct (p x) eqn:Ep.
      + rewrite (filter_cons_True (fun xm : A * bool => xm.2 = true)) by done.
        rewrite (filter_cons_False (fun xm : A * bool => xm.2 = false)) by done. simpl.
        destruct (f x) as [y|e]; simpl; [|done].
        destruct (mapR f (map fst (filter (fun xm => xm.2 = true) (zip l (map p l))))) as [lt'|] eqn:E1; simpl; [|done].
        intros [= <-] E2. destruct (IH lt' lf) as (r & -> & ->); auto. simpl. eauto.
      + rewrite (filter_cons_False (fun xm : A * bool => xm.2 = true)) by (by simpl).
        rewrite (filter_cons_True (fun xm : A * bool => xm.2 = false)) by done. simpl.
        intros E1. destruct (f x) as [y|e]; simpl; [|done].
        destruct (mapR f (map fst (filter (fun xm => xm.2 = false) (zip l (map p l))))) as [lf'|] eqn:E2; simpl; [|done].
        intros [= <-]. destruct (IH lt lf') as (r & -> & ->); auto. simpl. eauto.
  Qed.

  Lemma mget_ordered_ok (cache : mcalls) (t : list crow) (m : gmap string cinfo) hids :
    (forall hid, hid ∈ hids -> is_Some (m !! hid)) ->
    (forall hid, hid ∈ hids -> hid ∈ mc_hids cache -> holds (mc_rows cache) hid (m !! hid)) ->
    (forall hid, hid ∈ hids -> hid ∉ mc_hids cache -> holds t hid (m !! hid)) ->
    exists ds, mget_datas sel hids cache t = Ok ds /\
      Forall2 (fun hid d => m !! hid = Some (info d) /\ call_ok d) hids ds.
  Proof.
    intros Hm Hc Ht. unfold mget_datas.
    destruct (split_list hids (map (fun hid => mc_exists hid cache) hids)) as [cp dp] eqn:Es.
    assert (Hcp : forall h, h ∈ cp -> h ∈ hids /\ h ∈ mc_hids cache).
    { intros h Hh. unfold split_list in Es. injection Es as <- _.
      apply elem_of_list_fmap in Hh as ([h' b] & -> & [Hb Hin]%elem_of_list_filter). simpl in *. subst b.
      clear -Hin. induction hids as [|x hids IH]; simpl in *; [by apply elem_of_nil in Hin|].
      apply elem_of_cons in Hin as [Hin|Hin].
      - injection Hin as -> Hin. symmetry in Hin. apply bool_decide_eq_true in Hin. split; [left|done].
      - apply IH in Hin as [? ?]. split; [by right|done]. }
    assert (Hdp : forall h, h ∈ dp -> h ∈ hids /\ h ∉ mc_hids cache).
    { intros h Hh. unfold split_list in Es. injection Es as _ <-.
      apply elem_of_list_fmap in Hh as ([h' b] & -> & [Hb Hin]%elem_of_list_filter). simpl in *. subst b.
      clear -Hin. induction hids as [|x hids IH]; simpl in *; [by apply elem_of_nil in Hin|].
      apply elem_of_cons in Hin as [Hin|Hin].
      - injection Hin as -> Hin. symmetry in Hin. apply bool_decide_eq_false in Hin. split; [left|done].
      - apply IH in Hin as [? ?]. split; [by right|done]. }
    set (f := fun hid => if mc_exists hid cache
                then data_of_rows hid (rows_for hid (mc_rows cache))
                else data_of_rows hid (rows_for hid (sel (filter (fun r => r_hid r ∈ dp) t)))).
    assert (H1 : mc_mget cp cache = mapR f cp).
    { apply mapR_ext. intros h Hh. apply Hcp in Hh as [_ Hh]. unfold f, mc_exists.
      by rewrite bool_decide_eq_true_2. }
    assert (H2 : sql_mget sel dp t = mapR f dp).
    { apply mapR_ext. intros h Hh. apply Hdp in Hh as [_ Hh]. unfold f, mc_exists.
      by rewrite bool_decide_eq_false_2. }
    assert (Hf : forall h, h ∈ hids -> (h ∉ mc_hids cache -> h ∈ dp) ->
               exists d, f h = Ok d /\ m !! h = Some (info d) /\ call_ok d).
    { intros h Hh Hd. unfold f. destruct (Hm h Hh) as [i Hi].
      unfold mc_exists. case_bool_decide as He.
      - specialize (Hc h Hh He). rewrite Hi in Hc.
        destruct (holds_get _ _ _ _ Hc ltac:(reflexivity)) as (d & -> & <- & Hdok & _). eauto.
      - specialize (Ht h Hh He). rewrite Hi in Ht.
        destruct (holds_get _ _ _ (rows_for h (sel (filter (fun r => r_hid r ∈ dp) t))) Ht) as (d & -> & <- & Hdok & _); eauto.
        apply sel_rows_for. intros r ->. auto. }
    assert (Hsub : forall h, h ∈ hids -> h ∉ mc_hids cache -> h ∈ dp).
    { intros h Hh He. unfold split_list in Es. injection Es as _ <-.
      apply elem_of_list_fmap. exists (h, false). split; [done|]. apply elem_of_list_filter. split; [done|].
      clear -Hh He. induction hids as [|x hids IH]; simpl in *; [by apply elem_of_nil in Hh|].
      apply elem_of_cons in Hh as [->|Hh].
      - unfold mc_exists at 1. rewrite (bool_decide_eq_false_2 _ He). left.
      - right. auto. }
    assert (Hall : forall l, (forall h, h ∈ l -> h ∈ hids) -> exists ds, mapR f l = Ok ds /\
               Forall2 (fun hid d => m !! hid = Some (info d) /\ call_ok d) l ds).
    { induction l as [|h l IH]; intros Hl; simpl; [by exists []|].
      destruct (Hf h) as (d & -> & Hd); [apply Hl; left|intros; apply Hsub; auto; apply Hl; left|].
      destruct IH as (ds & -> & Hds); [intros; apply Hl; by right|]. simpl. exists (d :: ds). auto. }
    destruct (Hall cp) as (lt & Elt & _); [intros; by apply Hcp|].
    destruct (Hall dp) as (lf & Elf & _); [intros; by apply Hdp|].
    destruct (Hall hids) as (ds & Eds & Hds); [done|].
    rewrite H1, Elt, H2, Elf. simpl.
    destruct (merge_split f hids (fun hid => mc_exists hid cache) lt lf) as (r & -> & Hr).
    { by rewrite Es. } { by rewrite Es. }
    exists r. split; [done|]. congruence.
  Qed.
  Lemma mget_ordered (cache : mcalls) (t : list crow) (m : gmap string cinfo) hids :
    (forall hid, hid ∈ hids -> is_Some (m !! hid)) ->
    (forall hid, hid ∈ hids -> hid ∈ mc_hids cache -> holds (mc_rows cache) hid (m !! hid)) ->
    (forall hid, hid ∈ hids -> hid ∉ mc_hids cache -> holds t hid (m !! hid)) ->
    exists ds, mget_datas sel hids cache t = Ok ds /\
      Forall2 (fun hid d => m !! hid = Some (info d)) hids ds.
  Proof.
    intros H1 H2 H3. destruct (mget_ordered_ok cache t m hids H1 H2 H3) as (ds & E & Hds). exists ds. split; [done|].
    eapply Forall2_impl; [exact Hds|]. by intros ? ? [? _].
  Qed.
End refine.

(** * Provenance closure *)
Lemma in_upd (x : string) (A B : gset string) : x ∈ B -> x ∈ A ∪ (B ∖ A).
Proof. destruct (decide (x ∈ A)); set_solver. Qed.
Lemma diff_empty_in (x : string) (A B : gset string) : B ∖ A = ∅ -> x ∈ B -> x ∈ A.
Proof. destruct (decide (x ∈ A)); set_solver. Qed.

Scheme reach_ref_mut := Minimality for reach_ref Sort Prop
  with reach_call_mut := Minimality for reach_call Sort Prop.

Section closure.
  Context (calls_of refs_of : gset string -> gset string).
  Context (call_rel ref_rel : string -> string -> Prop).  (* ref -> call, call -> ref *)
  Hypothesis calls_of_spec : forall R c, c ∈ calls_of R <-> exists r, r ∈ R /\ call_rel r c.
  Hypothesis refs_of_spec : forall C r, r ∈ refs_of C <-> exists c, c ∈ C /\ ref_rel c r.

  Notation clo_ref := (reach_ref call_rel ref_rel).
  Notation clo_call := (reach_call call_rel ref_rel).

  (** invariant: everything found is reachable, and everything not in the current
      frontier has been expanded *)
  Lemma closure_loop_exact R C fuel refs calls cr cc refs' calls' :
    R ⊆ refs -> C ⊆ calls -> cr ⊆ refs -> cc ⊆ calls ->
    (forall r, r ∈ refs -> clo_ref R C r) -> (forall c, c ∈ calls -> clo_call R C c) ->
    (forall r c, r ∈ refs -> r ∉ cr -> call_rel r c -> c ∈ calls) ->
    (forall c r, c ∈ calls -> c ∉ cc -> ref_rel c r -> r ∈ refs) ->
    closure_loop fuel calls_of refs_of refs calls cr cc = Ok (refs', calls') ->
    (forall r, r ∈ refs' <-> clo_ref R C r) /\ (forall c, c ∈ calls' <-> clo_call R C c).
  Proof.
    revert refs calls cr cc. induction fuel as [|fuel IH]; intros refs calls cr cc
      HR HC Hcr Hcc Hr Hc Hr' Hc'; simpl; [done|].
    case_decide as Hd.
    - intros [= <- <-]. destruct Hd as [Hd1 Hd2].
      assert (Hclo1 : forall r c, r ∈ refs -> call_rel r c -> c ∈ calls).
      { intros r c H1 H2. destruct (decide (r ∈ cr)); [|eauto].
        assert (c ∈ calls_of cr) by (apply calls_of_spec; eauto). by eapply diff_empty_in. }
      assert (Hclo2 : forall c r, c ∈ calls -> ref_rel c r -> r ∈ refs).
      { intros c r H1 H2. destruct (decide (c ∈ cc)); [|eauto].
        assert (r ∈ refs_of cc) by (apply refs_of_spec; eauto). by eapply diff_empty_in. }
      assert (H1 : forall r, clo_ref R C r -> r ∈ refs).
      { apply (reach_ref_mut call_rel ref_rel R C (fun r => r ∈ refs) (fun c => c ∈ calls)); eauto. }
      assert (H2 : forall c, clo_call R C c -> c ∈ calls).
      { apply (reach_call_mut call_rel ref_rel R C (fun r => r ∈ refs) (fun c => c ∈ calls)); eauto. }
      split; split; auto.
    - apply IH.
      + by apply union_subseteq_l'.
      + by apply union_subseteq_l'.
      + apply union_subseteq_r.
      + apply union_subseteq_r.
      + intros r [H|H]%elem_of_union; [auto|]. apply elem_of_difference in H as [H _].
        apply refs_of_spec in H as (c & H1 & H2). eapply rr_step; [|done]. auto.
      + intros c [H|H]%elem_of_union; [auto|]. apply elem_of_difference in H as [H _].
        apply calls_of_spec in H as (r & H1 & H2). eapply rc_step; [|done]. auto.
      + intros r c Hr1 Hn Hrel. apply elem_of_union in Hr1 as [Hr1|Hr1]; [|done].
        destruct (decide (r ∈ cr)) as [Hi|Hi].
        * assert (c ∈ calls_of cr) by (apply calls_of_spec; eauto). by apply in_upd.
        * apply elem_of_union. left. eauto.
      + intros c r Hc1 Hn Hrel. apply elem_of_union in Hc1 as [Hc1|Hc1]; [|done].
        destruct (decide (c ∈ cc)) as [Hi|Hi].
        * assert (r ∈ refs_of cc) by (apply refs_of_spec; eauto). by apply in_upd.
        * apply elem_of_union. left. eauto.
  Qed.

  (** termination: every iteration finds a new call or ref of the table *)
  Lemma closure_loop_terminates (allr allc : gset string) fuel refs calls cr cc :
    (forall R, calls_of R ⊆ allc) -> (forall C, refs_of C ⊆ allr) ->
    size (allr ∖ refs) + size (allc ∖ calls) < fuel ->
    exists r, closure_loop fuel calls_of refs_of refs calls cr cc = Ok r.
  Proof.
    clear calls_of_spec refs_of_spec call_rel ref_rel.
    intros Hc Hr. revert refs calls cr cc. induction fuel as [|fuel IH];
      intros refs calls cr cc Hlt; [lia|]. simpl. case_decide as Hd; [eauto|].
    apply IH.
    assert (Hmono : forall (A B U : gset string), size (A ∖ (B ∪ U)) <= size (A ∖ B)).
    { intros. apply subseteq_size. set_solver. }
    assert (Hstrict : forall (A B U : gset string), U ⊆ A -> U ∩ B = ∅ -> U <> ∅ ->
              size (A ∖ (B ∪ U)) < size (A ∖ B)).
    { intros A B U H1 H2 H3. apply subset_size. apply set_choose_L in H3 as [x Hx].
      split; [set_solver|]. intros H4. specialize (H4 x). set_solver. }
    destruct (decide (calls_of cr ∖ calls = ∅)) as [E1|E1].
    - assert (refs_of cc ∖ refs <> ∅) as E2 by tauto.
      pose proof (Hstrict allr refs (refs_of cc ∖ refs) ltac:(set_solver) ltac:(set_solver) E2).
      pose proof (Hmono allc calls (calls_of cr ∖ calls)). lia.
    - pose proof (Hstrict allc calls (calls_of cr ∖ calls) ltac:(set_solver) ltac:(set_solver) E1).
      pose proof (Hmono allr refs (refs_of cc ∖ refs)). lia.
  Qed.
End closure.

Lemma creator_hids_spec t R c : c ∈ creator_hids R t <-> exists r, r ∈ R /\ makes t c r.
Proof.
  unfold creator_hids, makes. rewrite elem_of_list_to_set, elem_of_list_fmap. split.
  - intros (row & -> & [[H1 H2] H3]%elem_of_list_filter). eauto 10.
  - intros (r & H1 & row & H2 & H3 & H4 & H5). exists row. split; [done|].
    apply elem_of_list_filter. by subst.
Qed.
Lemma consumer_hids_spec t R c : c ∈ consumer_hids R t <-> exists r, r ∈ R /\ uses t c r.
Proof.
  unfold consumer_hids, uses. rewrite elem_of_list_to_set, elem_of_list_fmap. split.
  - intros (row & -> & [[H1 H2] H3]%elem_of_list_filter). eauto 10.
  - intros (r & H1 & row & H2 & H3 & H4 & H5). exists row. split; [done|].
    apply elem_of_list_filter. by subst.
Qed.
Lemma input_hids_spec t C r : r ∈ input_hids C t <-> exists c, c ∈ C /\ uses t c r.
Proof.
  unfold input_hids, uses. rewrite elem_of_list_to_set, elem_of_list_fmap. split.
  - intros (row & -> & [[H1 H2] H3]%elem_of_list_filter). eauto 10.
  - intros (c & H1 & row & H2 & H3 & H4 & H5). exists row. split; [done|].
    apply elem_of_list_filter. by subst.
Qed.
Lemma output_hids_spec t C r : r ∈ output_hids C t <-> exists c, c ∈ C /\ makes t c r.
Proof.
  unfold output_hids, makes. rewrite elem_of_list_to_set, elem_of_list_fmap. split.
  - intros (row & -> & [[H1 H2] H3]%elem_of_list_filter). eauto 10.
  - intros (c & H1 & row & H2 & H3 & H4 & H5). exists row. split; [done|].
    apply elem_of_list_filter. by subst.
Qed.

Lemma size_list_to_set_le (l : list string) : size (list_to_set l : gset string) <= length l.
Proof.
  induction l as [|x l IH]; [done|]. cbn [list_to_set length].
  rewrite size_union_alt. rewrite size_singleton.
  assert (size ((list_to_set l : gset string) ∖ {[x]}) <= size (list_to_set l : gset string)) by
    (apply subseteq_size; set_solver). lia.
Qed.

Lemma closure_fuel_enough t (refs calls : gset string) :
  size ((list_to_set (map r_rhid t) : gset string) ∖ refs) +
  size ((list_to_set (map r_hid t) : gset string) ∖ calls) < closure_fuel t.
Proof.
  unfold closure_fuel.
  assert (size ((list_to_set (map r_rhid t) : gset string) ∖ refs) <= length t).
  { etrans; [apply subseteq_size with (Y := list_to_set (map r_rhid t)); set_solver|].
    etrans; [apply size_list_to_set_le|]. by rewrite map_length. }
  assert (size ((list_to_set (map r_hid t) : gset string) ∖ calls) <= length t).
  { etrans; [apply subseteq_size with (Y := list_to_set (map r_hid t)); set_solver|].
    etrans; [apply size_list_to_set_le|]. by rewrite map_length. }
  lia.
Qed.

Lemma get_dependencies_exact (t : list crow) (R C : gset string) :
  exists refs calls, get_dependencies R C t = Ok (refs, calls) /\
    (forall r, r ∈ refs <-> anc_ref t R C r) /\ (forall c, c ∈ calls <-> anc_call t R C c).
Proof.
  destruct (closure_loop_terminates (fun rs => creator_hids rs t) (fun cs => input_hids cs t)
    (list_to_set (map r_rhid t)) (list_to_set (map r_hid t)) (closure_fuel t) R C R C) as [[refs calls] E].
  - intros R' c (r & _ & row & H1 & <- & _)%creator_hids_spec.
    apply elem_of_list_to_set. by apply elem_of_list_fmap_1.
  - intros C' r (c & _ & row & H1 & _ & <- & _)%input_hids_spec.
    apply elem_of_list_to_set. by apply elem_of_list_fmap_1.
  - apply closure_fuel_enough.
  - exists refs, calls. split; [done|].
    eapply (closure_loop_exact _ _ (fun r c => makes t c r) (uses t)) with (R := R) (C := C) in E;
      try done.
    + intros R' c. apply creator_hids_spec.
    + intros C' r. apply input_hids_spec.
    + intros; by apply rr_start.
    + intros; by apply rc_start.
Qed.

Lemma get_dependents_exact (t : list crow) (R C : gset string) :
  exists refs calls, get_dependents R C t = Ok (refs, calls) /\
    (forall r, r ∈ refs <-> desc_ref t R C r) /\ (forall c, c ∈ calls <-> desc_call t R C c).
Proof.
  destruct (closure_loop_terminates (fun rs => consumer_hids rs t) (fun cs => output_hids cs t)
    (list_to_set (map r_rhid t)) (list_to_set (map r_hid t)) (closure_fuel t) R C R C) as [[refs calls] E].
  - intros R' c (r & _ & row & H1 & <- & _)%consumer_hids_spec.
    apply elem_of_list_to_set. by apply elem_of_list_fmap_1.
  - intros C' r (c & _ & row & H1 & _ & <- & _)%output_hids_spec.
    apply elem_of_list_to_set. by apply elem_of_list_fmap_1.
  - apply closure_fuel_enough.
  - exists refs, calls. split; [done|].
    eapply (closure_loop_exact _ _ (fun r c => uses t c r) (makes t)) with (R := R) (C := C) in E;
      try done.
    + intros R' c. apply consumer_hids_spec.
    + intros C' r. apply output_hids_spec.
    + intros; by apply rr_start.
    + intros; by apply rc_start.
Qed.
