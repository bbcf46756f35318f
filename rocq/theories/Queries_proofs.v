(** Proofs for C08: [get_ref_creator] finds at most one creator. *)
From stdpp Require Import base strings gmap list.
From Verif Require Import Base PyDict PyDict_proofs DictStore CallStore Spec_CallStore CallStore_proofs Commit Refs Args Storage
  Spec_Storage Storage_base Storage_laws Spec_Outputs Storage_outputs Queries.

Section queries.
  Context (H : pyval -> string) (sel : list crow -> list crow) (bigA : pyval -> bool).
  Let J (s : st) : Prop := True.
  Let E (e : exn) : Prop := e <> ERuntime.

  Lemma cd_get_err {V} k (d : cdict V) e : (cd_get k d).1 = Err e -> e = EKeyError.
  Proof.
    unfold cd_get, pd_get. destruct (cd_cache d !! k); [done|]. destruct (pd_sql (cd_pers d) !! k); [done|].
    destruct (pd_over (cd_pers d)) as [o|]; [destruct (o !! k)|]; cbn; congruence.
  Qed.
  Lemma ne_get_shape k : triple J (get_shape k) (fun _ => True) E.
  Proof.
    intros s _. split; [done|]. unfold get_shape, on_tabs, on_shapes. pose proof (cd_get_err k (t_shapes (s_tabs s))) as Hk.
    destruct (cd_get k _) as [[v|e] d]; cbn in *; [done|]. by rewrite (Hk e eq_refl).
  Qed.
  Lemma ne_get_atom k : triple J (get_atom k) (fun _ => True) E.
  Proof.
    intros s _. split; [done|]. unfold get_atom, on_tabs, on_atoms. pose proof (cd_get_err k (t_atoms (s_tabs s))) as Hk.
    destruct (cd_get k _) as [[v|e] d]; cbn in *; [done|]. by rewrite (Hk e eq_refl).
  Qed.
  Lemma ne_get_op k : triple J (get_op k) (fun _ => True) E.
  Proof.
    intros s _. split; [done|]. unfold get_op, on_tabs, on_ops. pose proof (cd_get_err k (t_ops (s_tabs s))) as Hk.
    destruct (cd_get k _) as [[v|e] d]; cbn in *; [done|]. by rewrite (Hk e eq_refl).
  Qed.
  Lemma ne_mapM {X Y} (f : X -> M st Y) l : (forall x, triple J (f x) (fun _ => True) E) -> triple J (mapM' f l) (fun _ => True) E.
  Proof.
    intros Hf. eapply triple_mono; [apply (triple_mapM _ f l (fun _ _ => True) E)| |done]; [|done]. intros x _. apply Hf.
  Qed.
  Lemma ne_load_ref b h : triple J (load_ref b h) (fun _ => True) E.
  Proof.
    intros s Hs. unfold load_ref. revert s Hs. 
    enough (forall fuel h, triple J (load_ref_ fuel b h) (fun _ => True) E) as Hf by (intros s Hs; by apply Hf).
    induction fuel as [|fuel IH]; intros h'; cbn [load_ref_]; [by apply triple_raise|].
    eapply triple_bind; [apply ne_get_shape|]. intros [c' h'' o|c' h'' [l|]|c' h'' [l|]] _; try by apply triple_raise.
    - destruct b; [by apply triple_ret|]. eapply triple_bind; [apply ne_get_atom|]. intros; by apply triple_ret.
    - eapply triple_bind with (Q := fun _ => True); [|intros; by apply triple_ret]. apply triple_iterM. intros x _.
      eapply triple_bind; [apply IH|]. intros; by apply triple_ret.
    - eapply triple_bind with (Q := fun _ => True); [|intros; by apply triple_ret]. apply ne_mapM. intros x.
      eapply triple_bind; [apply IH|]. intros; by apply triple_ret.
  Qed.
  Lemma ne_call_from_data d b : triple J (call_from_data d b) (fun _ => True) E.
  Proof.
    unfold call_from_data, load_refs. eapply triple_bind; [apply ne_get_op|]. intros o _.
    eapply triple_bind with (Q := fun _ => True); [|intros ins _].
    { apply ne_mapM. intros x. eapply triple_bind; [apply ne_load_ref|]. intros; by apply triple_ret. }
    eapply triple_bind with (Q := fun _ => True); [|intros; by apply triple_ret].
    apply ne_mapM. intros x. eapply triple_bind; [apply ne_load_ref|]. intros; by apply triple_ret.
  Qed.
  Lemma merge_lists_out {X} (lt lf : list X) mask :
    match merge_lists lt lf mask with Ok r => length r = length mask | Err e => e = EIndexError end.
  Proof.
    revert lt lf. induction mask as [|[] mask IH]; intros lt lf; cbn; [done| |].
    - destruct lt as [|x lt]; [done|]. specialize (IH lt lf). destruct (merge_lists lt lf mask); cbn; [by f_equal|done].
    - destruct lf as [|x lf]; [done|]. specialize (IH lt lf). destruct (merge_lists lt lf mask); cbn; [by f_equal|done].
  Qed.
  Lemma mget_datas_out hids cache t :
    match mget_datas sel hids cache t with Ok ds => length ds = length hids | Err e => e <> ERuntime end.
  Proof.
    assert (forall h rows, data_of_rows h rows <> Err ERuntime) as Hd by (intros h [|r rows]; done).
    unfold mget_datas. destruct (split_list _ _) as [cp dp].
    destruct (mc_mget cp cache) as [l1|e] eqn:E1; cbn.
    2:{ unfold mc_mget in E1. apply mapR_err in E1 as (x & _ & E1). intros ->. by apply Hd in E1. }
    destruct (sql_mget sel dp t) as [l2|e] eqn:E2; cbn.
    2:{ unfold sql_mget in E2. apply mapR_err in E2 as (x & _ & E2). intros ->. by apply Hd in E2. }
    pose proof (merge_lists_out l1 l2 (map (fun hid => mc_exists hid cache) hids)) as Hm.
    destruct (merge_lists _ _ _); [by rewrite Hm, map_length|by subst].
  Qed.
  Lemma mget_call_out hids b s :
    match (mget_call sel hids b s).1 with Ok cs => length cs = length hids | Err e => e <> ERuntime end.
  Proof.
    unfold mget_call. pose proof (mget_datas_out hids (call_cache s) (cc_pers (t_calls (s_tabs s)))) as Hm.
    destruct (mget_datas _ _ _ _) as [ds|e]; [|done].
    assert (triple J (mapM' (fun d => call_from_data d b) ds) (Forall2 (fun _ _ => True) ds) E) as Ht.
    { apply triple_mapM. intros x _. apply ne_call_from_data. }
    destruct (Ht s I) as [_ Hr]. destruct (mapM' _ ds s) as [[cs|e] s']; cbn in *; [|done].
    rewrite <- Hm. symmetry. by eapply Forall2_length.
  Qed.
  Theorem ref_creator_unique `{!Inj (=) (=) H} s r : greach H sel bigA s -> (get_ref_creator sel r s).1 <> Err ERuntime.
  Proof.
    intros Hg. unfold get_ref_creator, get_creators, bindM.
    pose proof (greach_creators H sel bigA s (rhid r) Hg) as Hs.
    pose proof (mget_call_out (elements (creator_hids {[rhid r]} (cc_pers (t_calls (s_tabs s))))) true s) as Hm.
    destruct (mget_call _ _ _ s) as [[cs|e] s']; cbn [fst] in *; [|congruence].
    assert (length cs <= 1) as Hl by (rewrite Hm; exact Hs).
    destruct cs as [|c [|c' cs]]; [done|done|]. cbn in Hl. lia.
  Qed.
End queries.
