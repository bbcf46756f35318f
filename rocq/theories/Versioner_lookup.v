(** Lookups of versioned calls. *)
From stdpp Require Import base strings gmap list relations fin_sets.
From Verif Require Import Base Dag Spec_Dag Dag_proofs Versioner Spec_Versioner Versioner_proofs.

Section lookup.
Context (H : pyval -> string).
Implicit Types (vs : versioner) (cs : code_state).

Notation hist := (history (chash H) cpresent).
Local Notation vinv := (vinv H).

Lemma current_semantic_fun vs cs k s1 s2 :
  current_semantic H vs cs k s1 -> current_semantic H vs cs k s2 -> s1 = s2.
Proof.
  intros (n & h & d & E1 & E2 & E3 & E4) (n' & h' & d' & F1 & F2 & F3 & F4). congruence.
Qed.

(** ** The hashes of a code state *)
Definition hashes_step vs (kn : depkey * node) (acc : result (option (gmap depkey string))) :=
  o ← acc;
  match o with
  | None => Ok None
  | Some m =>
    if bool_decide (kn.1 ∈ dom (vs_topology vs)) then
      h ← node_hash H kn.2;
      match vs_dags vs !! kn.1 with
      | None => Err EKeyError
      | Some d => match d_commits d !! h with
                  | None => Ok None
                  | Some c => Ok (Some (<[kn.1 := c_shash c]> m))
                  end
      end
    else Ok (Some m)
  end.

Lemma codestate_hashes_some vs cs hs : codestate_hashes H vs cs = Ok (Some hs) ->
  dom (vs_topology vs) ⊆ dom cs /\
  forall k s, hs !! k = Some s <-> k ∈ dom (vs_topology vs) /\ current_semantic H vs cs k s.
Proof.
  unfold codestate_hashes. destruct (bool_decide _) eqn:B; [|done]. apply bool_decide_eq_true in B.
  change (foldr (hashes_step vs) (Ok (Some ∅)) (map_to_list cs) = Ok (Some hs) ->
    dom (vs_topology vs) ⊆ dom cs /\
    forall k s, hs !! k = Some s <-> k ∈ dom (vs_topology vs) /\ current_semantic H vs cs k s).
  intros E. split; auto.
  assert (P : forall (l : list (depkey * node)) hs, NoDup l.*1 ->
    foldr (hashes_step vs) (Ok (Some ∅)) l = Ok (Some hs) ->
    forall k s, hs !! k = Some s <-> k ∈ dom (vs_topology vs) /\
      exists n h d, (k, n) ∈ l /\ node_hash H n = Ok h /\ vs_dags vs !! k = Some d /\ semantic d h = Some s).
  { clear E hs. induction l as [|[k0 n0] l IH]; intros hs ND E k s; cbn in E.
    { injection E as <-. rewrite lookup_empty. split; [done|].
      intros (_ & n & h & d & []%elem_of_nil & _). }
    cbn in ND. apply NoDup_cons in ND as [N ND].
    destruct (foldr (hashes_step vs) (Ok (Some ∅)) l) as [[m|]|e] eqn:Ef; [|done|done].
    specialize (IH _ ND eq_refl). unfold hashes_step in E. cbn in E.
    assert (NN : forall n, (k0, n) ∈ l -> False).
    { intros n I. apply N. apply elem_of_list_fmap. exists (k0, n). auto. }
    destruct (bool_decide (k0 ∈ dom (vs_topology vs))) eqn:B0.
    - apply bool_decide_eq_true in B0.
      destruct (node_hash H n0) as [h0|] eqn:Eh; [|done]. cbn in E.
      destruct (vs_dags vs !! k0) as [d0|] eqn:Ed; [|done].
      destruct (d_commits d0 !! h0) as [c0|] eqn:Ec; [|done]. injection E as <-.
      destruct (decide (k = k0)) as [->|Ne].
      + rewrite lookup_insert. split.
        * intros [= <-]. split; auto. exists n0, h0, d0. split_and!; auto; [by left|].
          unfold semantic. by rewrite Ec.
        * intros (_ & n & h & d & I & E1 & E2 & E3). apply elem_of_cons in I as [[= ->]|I]; [|by apply NN in I].
          assert (h = h0) as -> by congruence. assert (d = d0) as -> by congruence.
          unfold semantic in E3. rewrite Ec in E3. cbn in E3. congruence.
      + rewrite lookup_insert_ne by done. rewrite IH. split.
        * intros (T & n & h & d & I & ?). split; auto. exists n, h, d. split; [by right|done].
        * intros (T & n & h & d & I & ?). split; auto. exists n, h, d.
          apply elem_of_cons in I as [[= -> ->]|I]; done.
    - apply bool_decide_eq_false in B0. injection E as <-. rewrite IH. split.
      + intros (T & n & h & d & I & ?). split; auto. exists n, h, d. split; [by right|done].
      + intros (T & n & h & d & I & ?). split; auto. exists n, h, d.
        apply elem_of_cons in I as [[= -> ->]|I]; done. }
  intros k s. rewrite (P _ _ (NoDup_fst_map_to_list cs) E). unfold current_semantic.
  setoid_rewrite elem_of_map_to_list. done.
Qed.

(** The code agrees with the histories. *)
Definition insync vs cs : Prop :=
  forall k, k ∈ dom (vs_topology vs) -> exists n h d, cs !! k = Some n /\ node_hash H n = Ok h /\
    vs_dags vs !! k = Some d /\ is_Some (d_commits d !! h).

Lemma codestate_hashes_insync vs cs : insync vs cs -> exists hs, codestate_hashes H vs cs = Ok (Some hs).
Proof.
  intros S. unfold codestate_hashes. rewrite bool_decide_true.
  2: { intros k Hk. destruct (S k Hk) as (n & _ & _ & E & _). apply elem_of_dom. eauto. }
  change (exists hs, foldr (hashes_step vs) (Ok (Some ∅)) (map_to_list cs) = Ok (Some hs)).
  assert (P : forall k n, (k, n) ∈ map_to_list cs -> k ∈ dom (vs_topology vs) ->
    exists h d, node_hash H n = Ok h /\ vs_dags vs !! k = Some d /\ is_Some (d_commits d !! h)).
  { intros k n I Hk. apply elem_of_map_to_list in I. destruct (S k Hk) as (n' & h & d & E & ?).
    assert (n' = n) as -> by congruence. eauto. }
  revert P. generalize (map_to_list cs). induction l as [|[k n] l IH]; intros P; [cbn; eauto|].
  destruct IH as [hs IH].
  { intros k' n' I. apply P. by right. }
  cbn. rewrite IH. unfold hashes_step. cbn.
  destruct (bool_decide (k ∈ dom (vs_topology vs))) eqn:B; [|eauto]. apply bool_decide_eq_true in B.
  destruct (P k n) as (h & d & -> & -> & [c Ec]); [by left|done|]. cbn. rewrite Ec. eauto.
Qed.

(** ** Compatibility *)
Lemma compatible_sub vs cs hs v : vgood H vs v -> codestate_hashes H vs cs = Ok (Some hs) ->
  (compatible H vs cs v <-> v_sexp v ⊆ hs).
Proof.
  intros (_ & _ & [D F] & T) [_ Hs]%codestate_hashes_some. split.
  - intros C. apply map_subseteq_spec. intros k s Es. apply Hs.
    assert (k ∈ dom (v_cexp v)) as Hk by (rewrite D; apply elem_of_dom; eauto).
    split; auto. apply elem_of_dom in Hk as [hs' Hk]. destruct (F _ _ Hk) as [Ne G].
    apply set_choose_L in Ne as [h Hh]. destruct (G _ Hh) as (d & s' & E1 & E2 & E3).
    destruct (C _ _ _ Hk Hh) as (d' & s2 & F1 & F2 & F3). congruence.
  - intros S k hs' h Hk Hh. destruct (F _ _ Hk) as [_ G]. destruct (G _ Hh) as (d & s & E1 & E2 & E3).
    exists d, s. split_and!; auto. apply (Hs k s). eapply lookup_weaken; eauto.
Qed.

Lemma restrict_hit vs hs v : vgood H vs v -> Inj (=) (=) H -> dom (v_cexp v) ⊆ dom hs ->
  exists m, restrict_to hs (dom (v_cexp v)) = Ok m /\ (hash_strs H m = v_sv v <-> v_sexp v ⊆ hs).
Proof.
  intros (_ & Esv & [D F] & T) HI S. unfold restrict_to. rewrite bool_decide_true by done.
  eexists. split; [done|]. rewrite Esv. split.
  - intros E. apply (hash_strs_inj H HI) in E. rewrite <-E. apply map_filter_subseteq.
  - intros Sub. f_equal. apply map_eq. intros k.
    destruct (v_sexp v !! k) as [s|] eqn:E.
    + apply map_filter_lookup_Some. split; [eapply lookup_weaken; eauto|].
      cbn. rewrite D. apply elem_of_dom. eauto.
    + apply map_filter_lookup_None. right. intros s _ Hk. cbn in Hk. rewrite D in Hk.
      apply elem_of_dom in Hk as [? Hk]. congruence.
Qed.

Lemma hashes_dom vs cs hs : codestate_hashes H vs cs = Ok (Some hs) ->
  (forall k, k ∈ dom (vs_topology vs) -> exists s, hs !! k = Some s).
Proof.
  unfold codestate_hashes. destruct (bool_decide _) eqn:B; [|done]. apply bool_decide_eq_true in B.
  change (foldr (hashes_step vs) (Ok (Some ∅)) (map_to_list cs) = Ok (Some hs) ->
    forall k, k ∈ dom (vs_topology vs) -> exists s, hs !! k = Some s).
  intros E k Hk.
  assert (exists n, (k, n) ∈ map_to_list cs) as [n I].
  { apply B, elem_of_dom in Hk as [n Hn]. exists n. by apply elem_of_map_to_list. }
  revert hs E I. generalize (map_to_list cs). induction l as [|[k0 n0] l IH]; intros hs E I.
  { by apply elem_of_nil in I. }
  cbn in E. destruct (foldr (hashes_step vs) (Ok (Some ∅)) l) as [[m|]|e] eqn:Ef; [|done|done].
  unfold hashes_step in E. cbn in E. apply elem_of_cons in I as [[= <- <-]|I].
  - rewrite bool_decide_true in E by done.
    destruct (node_hash H n); [|done]. cbn in E. destruct (vs_dags vs !! k); [|done].
    destruct (d_commits _ !! _); [|done]. injection E as <-. rewrite lookup_insert. eauto.
  - destruct (IH _ eq_refl I) as [s Hs].
    destruct (bool_decide (k0 ∈ _)); [|injection E as <-; eauto].
    destruct (node_hash H n0); [|done]. cbn in E. destruct (vs_dags vs !! k0); [|done].
    destruct (d_commits _ !! _); [|done]. injection E as <-.
    destruct (decide (k = k0)) as [->|Ne]; [rewrite lookup_insert; eauto|].
    rewrite lookup_insert_ne by done. eauto.
Qed.

(** A row and the version it refers to. *)
Lemma row_version vs r comp v : Inj (=) (=) H -> vinv vs -> r ∈ vs_df vs -> recorded vs comp (r_cv r) v ->
  r_sv r = v_sv v.
Proof.
  intros HI I Hr Hv. destruct (vi_rows _ _ I _ Hr) as (k & v' & Hv' & ->).
  destruct (vi_vers _ _ I _ _ _ Hv) as (E & _ & G).
  symmetry. symmetry. eapply (recorded_unique_sem H vs v k (r_cv r) v'); eauto.
Qed.

(** ** Lookups in the rows *)
Lemma lookup_rows_sound vs cs comp hs rows cv sv : Inj (=) (=) H -> vinv vs ->
  codestate_hashes H vs cs = Ok (Some hs) ->
  (forall r, r ∈ rows -> r ∈ vs_df vs) ->
  lookup_rows H vs comp hs rows = Ok (Some (cv, sv)) ->
  exists v r, r ∈ rows /\ r_cv r = cv /\ r_sv r = sv /\ recorded vs comp cv v /\ v_sv v = sv /\ v_sexp v ⊆ hs.
Proof.
  intros HI I Hs. induction rows as [|r rows IH]; intros Sub E; [done|]. cbn in E.
  destruct (get_version _ _ _) as [v|] eqn:Ev; [|done]. cbn in E. apply recorded_get in Ev.
  destruct (vi_vers _ _ I _ _ _ Ev) as (Ecv & _ & G).
  destruct (restrict_hit vs hs v G HI) as (m & Em & Hit).
  { etrans; [apply G|]. intros k Hk. destruct (hashes_dom _ _ _ Hs k Hk) as [s ?]. apply elem_of_dom. eauto. }
  rewrite Em in E. cbn in E.
  assert (Er : r_sv r = v_sv v). { eapply row_version; eauto. apply Sub. by left. }
  destruct (decide (hash_strs H m = r_sv r)) as [D|D].
  - injection E as <- <-. exists v, r. split_and!; auto; [by left|]. apply Hit. congruence.
  - destruct IH as (v' & r' & ? & ?); auto.
    { intros r' Hr'. apply Sub. by right. }
    exists v', r'. split; [by right|done].
Qed.

Lemma lookup_rows_complete vs cs comp hs rows : Inj (=) (=) H -> vinv vs ->
  codestate_hashes H vs cs = Ok (Some hs) ->
  (forall r, r ∈ rows -> r ∈ vs_df vs) ->
  (forall r, r ∈ rows -> exists v, recorded vs comp (r_cv r) v) ->
  exists o, lookup_rows H vs comp hs rows = Ok o /\
    (o = None -> forall r v, r ∈ rows -> recorded vs comp (r_cv r) v -> ~ v_sexp v ⊆ hs).
Proof.
  intros HI I Hs. induction rows as [|r rows IH]; intros Sub Ex; cbn.
  { exists None. split; auto. by intros _ r v ?%elem_of_nil. }
  destruct (Ex r) as [v Ev]; [by left|]. pose proof Ev as Ev'. apply recorded_get in Ev' as ->. cbn.
  destruct (vi_vers _ _ I _ _ _ Ev) as (Ecv & _ & G).
  destruct (restrict_hit vs hs v G HI) as (m & Em & Hit).
  { etrans; [apply G|]. intros k Hk. destruct (hashes_dom _ _ _ Hs k Hk) as [s ?]. apply elem_of_dom. eauto. }
  rewrite Em. cbn.
  assert (Er : r_sv r = v_sv v). { eapply row_version; eauto. apply Sub. by left. }
  destruct (decide (hash_strs H m = r_sv r)) as [D|D]; [eexists; split; [done|done]|].
  destruct IH as (o & Eo & Ho).
  { intros r' Hr'. apply Sub. by right. }
  { intros r' Hr'. apply Ex. by right. }
  exists o. split; auto. intros -> r' v' [->|Hr']%elem_of_cons Hv'; [|eauto].
  intros S. apply D. rewrite Er. apply Hit.
  destruct (recorded_unique_sem H vs v comp (r_cv r) v' HI I G Ecv Hv') as (_ & E & _).
  by rewrite <-E.
Qed.

(** At most one row is compatible. *)
Lemma rows_unique vs cs i j r1 r2 k1 k2 v1 v2 : Inj (=) (=) H -> vinv vs ->
  vs_df vs !! i = Some r1 -> vs_df vs !! j = Some r2 -> r_uid r1 = r_uid r2 ->
  recorded vs k1 (r_cv r1) v1 -> recorded vs k2 (r_cv r2) v2 ->
  compatible H vs cs v1 -> compatible H vs cs v2 -> i = j.
Proof.
  intros HI I E1 E2 Eu R1 R2 C1 C2.
  assert (NC : conflict (v_sexp v1) (v_sexp v2) -> False).
  { intros (k & s1 & s2 & F1 & F2 & Ne). apply Ne.
    assert (CS : forall kk vv ss cvv, recorded vs kk cvv vv -> compatible H vs cs vv -> v_sexp vv !! k = Some ss ->
      current_semantic H vs cs k ss).
    { intros kk vv ss cvv Rv Cv Fv. destruct (vi_vers _ _ I _ _ _ Rv) as (_ & _ & _ & _ & [D F] & _).
      assert (k ∈ dom (v_cexp vv)) as Hk by (rewrite D; apply elem_of_dom; eauto).
      apply elem_of_dom in Hk as [hs' Hk]. destruct (F _ _ Hk) as [Nh G].
      apply set_choose_L in Nh as [h Hh]. destruct (G _ Hh) as (d & s' & G1 & G2 & G3).
      destruct (Cv _ _ _ Hk Hh) as (d' & s'' & X1 & X2 & X3). congruence. }
    eapply current_semantic_fun; eauto. }
  assert (P : forall i j r1 r2 k1 k2 v1 v2, vs_df vs !! i = Some r1 -> vs_df vs !! j = Some r2 -> i < j ->
    r_uid r1 = r_uid r2 -> recorded vs k1 (r_cv r1) v1 -> recorded vs k2 (r_cv r2) v2 ->
    conflict (v_sexp v1) (v_sexp v2)).
  { clear - HI I. intros i j r1 r2 k1 k2 v1 v2 E1 E2 L Eu R1 R2.
    assert (rconf H r1 r2) as (e1 & e2 & F1 & F2 & C); auto.
    { pose proof (vi_conf _ _ I) as FO. revert i j E1 E2 L. generalize (vs_df vs) FO. clear.
      intros l FO. induction FO as [|y l F FO IH]; intros i j E1 E2 L; [done|].
      destruct j as [|j]; [lia|]. destruct i as [|i].
      - cbn in E1. injection E1 as ->. rewrite List.Forall_forall in F. apply F.
        apply elem_of_list_In. eapply elem_of_list_lookup_2, E2.
      - apply (IH i j); auto. lia. }
    rewrite (row_version vs r1 k1 v1) in F1; eauto using elem_of_list_lookup_2.
    rewrite (row_version vs r2 k2 v2) in F2; eauto using elem_of_list_lookup_2.
    destruct (vi_vers _ _ I _ _ _ R1) as (_ & _ & _ & S1 & _).
    destruct (vi_vers _ _ I _ _ _ R2) as (_ & _ & _ & S2 & _).
    rewrite S1 in F1. rewrite S2 in F2. apply (hash_strs_inj H HI) in F1 as ->, F2 as ->. done. }
  destruct (lt_eq_lt_dec i j) as [[L| ->]|L]; [|done|].
  - exfalso. apply NC. eauto.
  - exfalso. apply NC. apply conflict_sym. eauto.
Qed.

(** ** The session invariant *)
Lemma session_inv vs cs : Inj (=) (=) H -> session H vs cs -> vinv vs /\ vtopo vs /\ insync vs cs.
Proof.
  intros HI. induction 1 as [vs cs u vs' u' R T E|vs cs tr uid r vs' cs' S IH OR E
    |vs cs k sem cs0 u r vs' u' S IH E|vs cs sv S IH].
  - destruct (vreach_inv H vs HI R) as [I TP].
    destruct (sync_codebase_inv H _ _ _ _ _ _ I E) as (I' & E1 & E2 & _ & Q).
    split_and!; auto.
    + unfold vtopo in *. congruence.
    + intros k Hk. rewrite E1, TP in Hk. destruct (Q eq_refl k Hk) as (n & h & d & ? & ? & ? & ? & _).
      exists n, h, d. auto.
  - destruct IH as (I & TP & IS).
    destruct (finish_call_inv H tr uid vs cs r vs' cs' HI I TP OR E) as [I' TP']. split_and!; auto.
    unfold finish_call in E.
    destruct (apply_state_hypothesis _ _ _) as [nodes|e] eqn:Ea; [|injection E as <- <- <-; auto].
    destruct (process_trace _ _ _ _ _) as [r0 vs2] eqn:Ep. injection E as <- <- <-.
    pose proof (apply_state_hypothesis_ok _ _ _ _ Ea) as HN.
    apply (process_trace_inv H) in Ep as (vs1 & G & _ & Ed & Et & _ & _ & _); auto.
    2: { by apply vinv_topology. }
    2: { cbn. intros k n En Etm. split.
         - apply update_topology_dom. eauto.
         - destruct (HN _ _ En) as [[? _]|(c & _ & ? & _)]; [congruence|eauto]. }
    intros k Hk. rewrite Et, update_topology_dom in Hk. rewrite Ed. cbn in G.
    assert (CS : forall n, cs !! k = Some n -> add_globals_from nodes cs !! k = Some n).
    { intros n En. unfold add_globals_from. by apply lookup_union_Some_l. }
    destruct (decide (k ∈ dom (vs_topology vs))) as [Hk'|Hk'].
    + destruct (IS k Hk') as (n & h & d & F1 & F2 & F3 & F4). exists n, h, d. split_and!; auto.
      apply (gr_old _ _ _ _ G). exact F3.
    + destruct Hk as [?|(n & En & Etm)]; [done|].
      assert (ND : vs_dags vs !! k = None). { apply not_elem_of_dom. by rewrite <-TP. }
      assert (k ∈ dom (vs_dags vs1)) as HD.
      { apply (gr_dom _ _ _ _ G). right. exists n. split; auto. by apply elem_of_map_to_list. }
      apply elem_of_dom in HD as [d HD].
      destruct (gr_new _ _ _ _ G k d ND HD) as (n' & h & P & _ & Eh & S').
      apply elem_of_map_to_list in P. assert (n' = n) as -> by congruence.
      destruct (HN _ _ En) as [[? _]|(c & _ & Ec & [(n2 & F1 & F2)|[F1 F2]])]; [congruence| |].
      * exists n2, h, d. split_and!; auto. unfold node_hash in *. rewrite F2. rewrite Ec in Eh. done.
      * exists n, h, d. split_and!; auto. unfold add_globals_from.
        rewrite lookup_union_r by done. by apply map_filter_lookup_Some.
  - destruct IH as (I & TP & IS).
    destruct (sync_component_inv H _ _ _ _ _ _ _ _ I E) as (I' & E1 & E2 & X & _). split_and!; auto.
    + unfold vtopo in *. congruence.
    + intros k' Hk. rewrite E1 in Hk. destruct (IS k' Hk) as (n & h & d & F1 & F2 & F3 & [c F4]).
      destruct (X _ _ F3) as (d' & F5 & F6). exists n, h, d'. split_and!; auto.
      exists c. eapply lookup_weaken; eauto.
  - destruct IH as (I & TP & IS). split_and!; auto. by apply vinv_drop.
Qed.

(** ** A call that just ran is found *)
Lemma found_again vs cs tr uid v vs' cs' : Inj (=) (=) H -> session H vs cs -> one_root tr ->
  (forall k d cv, t_nodes tr !! k = Some (NTerm d cv) ->
     exists v', recorded vs d cv v' /\ compatible H vs cs v') ->
  finish_call H tr uid (vs, cs) = (Ok v, (vs', cs')) ->
  lookup_call H vs' (v_comp v) uid cs' = Ok (Some (v_cv v, v_sv v)).
Proof.
  intros HI S OR TM E.
  destruct (session_inv _ _ HI S) as (I & TP & IS).
  assert (S' : session H vs' cs') by (eapply se_call; eauto).
  destruct (session_inv _ _ HI S') as (I' & TP' & IS').
  destruct (codestate_hashes_insync _ _ IS') as [hs Hs].
  unfold finish_call in E.
  destruct (apply_state_hypothesis _ _ _) as [nodes|e] eqn:Ea; [|done].
  destruct (process_trace _ _ _ _ _) as [r0 vs2] eqn:Ep. injection E as -> <- <-.
  pose proof (apply_state_hypothesis_ok _ _ _ _ Ea) as HN.
  assert (TT : forall k n, nodes !! k = Some n -> is_term n = false ->
    k ∈ dom (vs_topology (update_topology nodes vs)) /\ exists c, node_content n = Ok c).
  { intros k n En Etm. split.
    - apply update_topology_dom. eauto.
    - destruct (HN _ _ En) as [[? _]|(c & _ & ? & _)]; [congruence|eauto]. }
  apply (process_trace_inv H) in Ep as (vs1 & G & _ & Ed & Et & _ & Rec & Q); auto.
  2: { by apply vinv_topology. }
  destruct (Q v eq_refl) as (Mv & Ert & Edf & (v' & Rv) & Old). clear Q. cbn in G.
  cbn in Mv. destruct (make_version_ok H vs1 (v_comp v) nodes v (gr_inv _ _ _ _ G)) as (Gv & _ & X); [|done|].
  { intros k n En Etm. rewrite (gr_topo _ _ _ _ G). by apply (TT k n). }
  assert (Gv' : vgood H vs2 v).
  { apply (vgood_dags H vs1); auto. rewrite Et. symmetry. apply G. }
  (* the version agrees with the code *)
  assert (Sub : v_sexp v ⊆ hs).
  { pose proof (proj2 (codestate_hashes_some _ _ _ Hs)) as Hs'.
    apply map_subseteq_spec. intros k s Es. apply Hs'. split.
    { assert (k ∈ dom (v_cexp v)) as Hk.
      { destruct Gv as (_ & _ & [D _] & _). rewrite D. apply elem_of_dom. eauto. }
      by apply Gv'. }
    destruct (X _ _ Es) as [(n & h & d & F1 & F2 & F3 & F4)|(k' & d & cv & v2 & F1 & F2 & F3)].
    - rewrite <-Ed in F3.
      destruct (HN _ _ F1) as [[Et' _]|(c & _ & Ec & [(n2 & E1 & E2)|[E1 E2]])].
      + destruct n; try done.
      + exists n2, h, d. split_and!; auto.
        * unfold add_globals_from. by apply lookup_union_Some_l.
        * unfold node_hash in *. rewrite E2. by rewrite Ec in F2.
      + exists n, h, d. split_and!; auto. unfold add_globals_from.
        rewrite lookup_union_r by done. by apply map_filter_lookup_Some.
    - apply (gr_rec _ _ _ _ G) in F2. change (recorded vs d cv v2) in F2.
      destruct (HN _ _ F1) as [[_ F0]|(c & ? & _)]; [|done].
      destruct (TM _ _ _ F0) as (v3 & R3 & C3).
      assert (v3 = v2) as ->.
      { destruct R3 as (m3 & M1 & M2), F2 as (m4 & M3 & M4). congruence. }
      destruct (vi_vers _ _ I _ _ _ R3) as (_ & _ & _ & _ & [D F] & _).
      assert (k ∈ dom (v_cexp v2)) as Hk by (rewrite D; apply elem_of_dom; eauto).
      apply elem_of_dom in Hk as [hs' Hk]. destruct (F _ _ Hk) as [Nh GG].
      apply set_choose_L in Nh as [h Hh]. destruct (GG _ Hh) as (dd & s' & G1 & G2 & G3).
      destruct (C3 _ _ _ Hk Hh) as (d' & s'' & X1 & X2 & X3).
      assert (s'' = s) as -> by congruence.
      destruct X3 as (n & h2 & d3 & Y1 & Y2 & Y3 & Y4). exists n, h2, d3. split_and!; auto.
      + unfold add_globals_from. by apply lookup_union_Some_l.
      + rewrite Ed. by apply (gr_old _ _ _ _ G). }
  unfold lookup_call. rewrite Hs. cbn.
  destruct (lookup_rows_complete vs2 (add_globals_from nodes cs) (v_comp v) hs
    (filter (fun r => r_uid r = uid) (vs_df vs2)) HI I' Hs) as (o & Eo & Ho).
  { intros r [_ ?]%elem_of_list_filter. done. }
  { intros r [Eu Hr]%elem_of_list_filter. rewrite Edf in Hr.
    apply elem_of_app in Hr as [Hr|Hr%elem_of_list_singleton].
    - apply Old; auto.
    - subst r. cbn. eauto. }
  rewrite Eo.
  destruct o as [[cv sv]|].
  - apply (lookup_rows_sound _ _ _ _ _ _ _ HI I' Hs) in Eo as (v2 & r & Hr & <- & <- & R2 & E2 & Sub2).
    2: { intros r [_ ?]%elem_of_list_filter. done. }
    apply elem_of_list_filter in Hr as [Eu Hr]. rewrite Edf in Hr.
    apply elem_of_app in Hr as [Hr|Hr%elem_of_list_singleton].
    + exfalso. destruct (Old _ Hr Eu) as [(e & F1 & F2) _].
      assert (e = v_sexp v2) as ->.
      { apply (hash_strs_inj H HI). rewrite F1, <-E2.
        destruct (vi_vers _ _ I' _ _ _ R2) as (_ & _ & _ & Y & _). done. }
      eapply conflict_sub; eauto.
    + by subst r.
  - exfalso. apply (Ho eq_refl (VRow uid (v_sv v) (v_cv v)) v'); auto.
    + apply elem_of_list_filter. split; auto. rewrite Edf. apply elem_of_app. right.
      by apply elem_of_list_singleton.
    + destruct (recorded_unique_sem H vs2 v (v_comp v) (v_cv v) v' HI I' Gv' eq_refl Rv) as (_ & -> & _).
      done.
Qed.
End lookup.
