(** Computing a versioned call again after its semantic version was dropped. *)
From stdpp Require Import base strings gmap list relations fin_sets.
From Verif Require Import Base Dag Spec_Dag Dag_proofs Versioner Spec_Versioner Versioner_proofs Versioner_lookup.

Section recompute.
Context (H : pyval -> string).
Implicit Types (vs : versioner) (cs : code_state).
Local Notation vinv := (vinv H).

(** ** The code state of the second run *)
Lemma hypothesis_again strict cs tn nodes : apply_state_hypothesis strict cs tn = Ok nodes ->
  apply_state_hypothesis strict (add_globals_from nodes cs) tn = Ok nodes.
Proof.
  intros E. pose proof (foldr_map_to_list tn (hypothesis_node strict cs) nodes E) as [I1 I2].
  assert (P : forall k n, tn !! k = Some n -> hypothesis_node strict (add_globals_from nodes cs) k n = hypothesis_node strict cs k n).
  { intros k n En. destruct (I1 _ _ En) as (o & Eo & Ek). unfold add_globals_from.
    destruct (cs !! k) as [n'|] eqn:Ec.
    - assert (Ec' : (cs ∪ filter (fun kn : depkey * node => is_global kn.2 = true) nodes) !! k = Some n') by by apply lookup_union_Some_l.
      unfold hypothesis_node. by rewrite Ec, Ec'.
    - assert (Ec' : (cs ∪ filter (fun kn : depkey * node => is_global kn.2 = true) nodes) !! k = filter (fun kn : depkey * node => is_global kn.2 = true) nodes !! k) by by apply lookup_union_r.
      unfold hypothesis_node in *. rewrite Ec in *. rewrite Ec'. destruct n as [s rt|h r|d cv]; [| |done].
      + destruct strict; [done|]. injection Eo as <-.
        assert (filter (fun kn : depkey * node => is_global kn.2 = true) nodes !! k = None) as ->; [|done].
        apply map_filter_lookup_None. by left.
      + injection Eo as <-.
        assert (filter (fun kn : depkey * node => is_global kn.2 = true) nodes !! k = Some (NGlobal h r)) as ->; [by apply map_filter_lookup_Some|].
        cbn. by rewrite decide_True. }
  rewrite <-E. unfold apply_state_hypothesis.
  assert (Q : forall k n, (k, n) ∈ map_to_list tn -> hypothesis_node strict (add_globals_from nodes cs) k n = hypothesis_node strict cs k n).
  { intros k n Hkn. apply P. by apply elem_of_map_to_list. }
  clear -Q. induction (map_to_list tn) as [|[k n] l IH]; [done|]. cbn [foldr fst snd].
  rewrite IH; [|intros; apply Q; by right]. rewrite (Q k n); [done|left].
Qed.

(** ** The expansions of the second run *)
Lemma fold_get {A} (f : A -> version -> result A) (V V' : gmap depkey (gmap string version)) (refs : list (depkey * string)) a0 :
  (forall kc, kc ∈ refs -> get_version V' kc.1 kc.2 = get_version V kc.1 kc.2) ->
  foldl (fun acc kc => m ← acc; v ← get_version V' kc.1 kc.2; f m v) a0 refs =
  foldl (fun acc kc => m ← acc; v ← get_version V kc.1 kc.2; f m v) a0 refs.
Proof.
  revert a0. induction refs as [|kc refs IH]; intros a0 P; [done|]. cbn [foldl].
  rewrite P by left. apply IH. intros. apply P. by right.
Qed.
Lemma make_version_eq vs vs' comp nodes : vs_dags vs' = vs_dags vs ->
  (forall k d cv, nodes !! k = Some (NTerm d cv) -> get_version (vs_versions vs') d cv = get_version (vs_versions vs) d cv) ->
  make_version H vs' comp nodes = make_version H vs comp nodes.
Proof.
  intros Ed P. unfold make_version. destruct (from_trace_direct H nodes) as [direct|]; [|done]. cbn.
  assert (Q : forall kc, kc ∈ memo_refs (from_trace_memo nodes) -> get_version (vs_versions vs') kc.1 kc.2 = get_version (vs_versions vs) kc.1 kc.2).
  { intros [k cv] Hk. apply memo_refs_elem, from_trace_memo_elem in Hk as [k' Hk']. by eapply P. }
  unfold content_expansion. rewrite (fold_get (fun m v => Ok (add_exp m (v_cexp v))) _ _ _ _ Q).
  unfold semantic_expansion. rewrite (fold_get (fun m v => if agree_on_overlap m (v_sexp v) then Ok (v_sexp v ∪ m) else Err EValueError) _ _ _ _ Q).
  by rewrite Ed.
Qed.

(** ** The recorded calls of the second run *)
Lemma exist_fold_err vs comp e (rows : list vrow) : foldl (exist_step vs comp) (Err e) rows = Err e.
Proof. induction rows; auto. Qed.
Lemma exist_fold vs vs' comp sv rows : 
  (forall r v, r ∈ rows -> r_sv r <> sv -> get_version (vs_versions vs) comp (r_cv r) = Ok v -> get_version (vs_versions vs') comp (r_cv r) = Ok v) ->
  forall m0 m m0', foldl (exist_step vs comp) (Ok m0) rows = Ok m ->
  (forall k, k <> sv -> m0' !! k = m0 !! k) -> m0' !! sv = None ->
  exists m', foldl (exist_step vs' comp) (Ok m0') (filter (fun r => r_sv r <> sv) rows) = Ok m' /\ m' !! sv = None /\
    forall k, k <> sv -> m' !! k = m !! k.
Proof.
  induction rows as [|r rows IH]; intros P m0 m m0' E E0 En.
  { cbn in *. injection E as <-. exists m0'. done. }
  cbn [foldl] in E. rewrite filter_cons. case_decide as Hs.
  - cbn [foldl]. unfold exist_step at 2. unfold exist_step at 2 in E. cbn [mbind result_bind] in *. rewrite (E0 _ Hs).
    destruct (m0 !! r_sv r) as [e0|].
    + apply (IH) with (m0 := m0); auto. intros r' v Hr'. apply P. by right.
    + destruct (get_version (vs_versions vs) comp (r_cv r)) as [v|e] eqn:Ev; cbn [mbind result_bind] in E; [|by rewrite exist_fold_err in E].
      rewrite (P r v) by (done || left). cbn [mbind result_bind].
      apply (IH) with (m0 := <[r_sv r:=v_sexp v]> m0); auto.
      * intros r' v' Hr'. apply P. by right.
      * intros k Hk. destruct (decide (k = r_sv r)) as [->|]; [by rewrite !lookup_insert|]. rewrite !lookup_insert_ne by done. auto.
      * by rewrite lookup_insert_ne.
  - assert (exists m1, exist_step vs comp (Ok m0) r = Ok m1 /\ forall k, k <> sv -> m1 !! k = m0 !! k) as (m1 & E1 & M1).
    { destruct (exist_step vs comp (Ok m0) r) as [m1|e] eqn:E1; [|by rewrite exist_fold_err in E]. exists m1. split; [done|].
      unfold exist_step in E1. cbn in E1. destruct (m0 !! r_sv r); [by injection E1 as <-|].
      destruct (get_version _ _ _); [|done]. injection E1 as <-. intros k Hk. rewrite lookup_insert_ne; [done|]. intros <-. done. }
    rewrite E1 in E. apply (IH) with (m0 := m1); auto.
    + intros r' v Hr'. apply P. by right.
    + intros k Hk. rewrite M1 by done. auto.
Qed.
Lemma check_after_drop vs vs' comp uid v sv : 
  vs_df vs' = filter (fun r => r_sv r <> sv) (vs_df vs) ->
  (forall r v, r ∈ vs_df vs -> r_sv r <> sv -> get_version (vs_versions vs) comp (r_cv r) = Ok v -> get_version (vs_versions vs') comp (r_cv r) = Ok v) ->
  check_distinguishable vs comp uid v = Ok tt -> check_distinguishable vs' comp uid v = Ok tt.
Proof.
  intros Edf P. unfold check_distinguishable. destruct (existing_expansions vs comp uid) as [m|] eqn:E; [|done]. cbn [mbind result_bind].
  destruct (forallb _ _) eqn:F; [|done]. intros _.
  destruct (exist_fold vs vs' comp sv (filter (fun r => r_uid r = uid) (vs_df vs))) with (m0 := (∅ : gmap string (gmap depkey string))) (m := m) (m0' := (∅ : gmap string (gmap depkey string)))
    as (m' & E' & N' & M'); auto.
  { intros r v' Hr. apply elem_of_list_filter in Hr as [_ Hr]. by apply P. }
  assert (existing_expansions vs' comp uid = Ok m') as ->.
  { unfold existing_expansions. rewrite Edf. rewrite <-E'. f_equal. rewrite !list_filter_filter. apply list_filter_iff. intros r. tauto. }
  cbn [mbind result_bind].
  assert (forallb (fun se : string * gmap depkey string => negb (agree_on_overlap se.2 (v_sexp v))) (map_to_list m') = true) as ->; [|done].
  apply forallb_forall. intros [k e] Hk. apply elem_of_list_In, elem_of_map_to_list in Hk. rewrite forallb_forall in F. apply (F (k, e)).
  apply elem_of_list_In, elem_of_map_to_list. rewrite <-M'; [done|]. intros ->. congruence.
Qed.

Lemma create_nothing (nodes : list (depkey * node)) vs : (forall k n, (k, n) ∈ nodes -> is_term n = false -> k ∈ dom (vs_nodes vs)) ->
  iterM (fun kn : depkey * node => fun vs =>
    if bool_decide (kn.1 ∈ dom (vs_nodes vs)) || is_term kn.2 then (Ok tt, vs)
    else init_component H kn.1 kn.2 vs) nodes vs = (Ok tt, vs).
Proof.
  induction nodes as [|[k n] nodes IH]; intros P; [done|]. cbn. unfold bindM.
  assert (bool_decide (k ∈ dom (vs_nodes vs)) || is_term n = true) as ->.
  { destruct (is_term n) eqn:Et; [by rewrite orb_true_r|]. rewrite orb_false_r. apply bool_decide_eq_true. eapply P; [left|done]. }
  apply IH. intros k' n' Hk. apply P. by right.
Qed.

Lemma recorded_drop vs sv k cv v : recorded vs k cv v -> v_sv v <> sv -> recorded (drop_semantic_version sv vs) k cv v.
Proof.
  intros (m & E1 & E2) Hn. exists (filter (fun kv : string * version => v_sv kv.2 <> sv) m). cbn. rewrite lookup_fmap, E1. split; [done|].
  by apply map_filter_lookup_Some.
Qed.
Lemma recorded_drop_inv vs sv k cv v : recorded (drop_semantic_version sv vs) k cv v -> recorded vs k cv v.
Proof.
  intros (m & E1 & E2). cbn in E1. rewrite lookup_fmap in E1. destruct (vs_versions vs !! k) as [m0|] eqn:E0; [|done]. injection E1 as <-.
  apply map_filter_lookup_Some in E2 as [E2 _]. by exists m0.
Qed.

Lemma recompute vs cs tr uid v vs1 cs1 : Inj (=) (=) H -> vinv vs -> one_root tr ->
  (forall k d cv, t_nodes tr !! k = Some (NTerm d cv) -> exists v', recorded vs d cv v' /\ v_sv v' <> v_sv v) ->
  finish_call H tr uid (vs, cs) = (Ok v, (vs1, cs1)) ->
  (exists vs2, finish_call H tr uid (drop_semantic_version (v_sv v) vs1, cs1) = (Ok v, (vs2, cs1))) /\
  (forall k d, vs_dags vs !! k = Some d -> vs_dags vs1 !! k = Some d) /\ cs ⊆ cs1 /\
  (forall k cv v', recorded vs k cv v' -> recorded vs1 k cv v').
Proof.
  intros HI I [comp Er] TM. unfold finish_call at 1.
  destruct (apply_state_hypothesis _ _ _) as [nodes|e] eqn:Ea; [|done].
  pose proof (apply_state_hypothesis_ok _ _ _ _ Ea) as HN.
  set (vsA := update_topology nodes vs). assert (IA : vinv vsA) by by apply vinv_topology.
  unfold process_trace. cbn [t_roots t_nodes]. rewrite Er, elements_singleton.
  destruct (create_ok H (map_to_list nodes) vsA IA) as (vsB & EB & GB).
  { intros k n P Et. apply elem_of_map_to_list in P. split.
    - apply update_topology_dom. eauto.
    - destruct (HN _ _ P) as [[? _]|(c & _ & ? & _)]; [congruence|eauto]. }
  unfold create_new_components, bindM. rewrite EB. unfold sync_version.
  pose proof (gr_inv _ _ _ _ GB) as IB.
  assert (TB : forall k n, nodes !! k = Some n -> is_term n = false -> k ∈ dom (vs_topology vsB)).
  { intros k n En Et. rewrite (gr_topo _ _ _ _ GB). apply update_topology_dom. eauto. }
  destruct (make_version H vsB comp nodes) as [v0|e] eqn:Ev; [|done].
  destruct (make_version_ok H _ _ _ _ IB TB Ev) as (Gv & Ec & _).
  unfold bindM. destruct (add_version v0 vsB) as [[[]|e] vsC] eqn:EC; [|done].
  destruct (add_version_ok H _ _ _ _ IB Gv EC) as (IC & Ed & Edf & Et & Es & Rec & _).
  unfold retM. cbv beta iota. destruct (check_distinguishable vsC comp uid v0) as [[]|e] eqn:Ech; [|done].
  intros [= -> <- <-].
  set (vs1 := Versioner _ _ _ _ _ _). set (vsD := drop_semantic_version (v_sv v) vs1).
  assert (RD : forall k cv v', recorded vsC k cv v' -> v_sv v' <> v_sv v -> recorded vsD k cv v').
  { intros k cv v' Hr Hn. by apply (recorded_drop vs1). }
  split.
  2:{ split; [intros k d Hd; cbn; rewrite Ed; apply (gr_old _ _ _ _ GB); exact Hd|]. split; [apply map_union_subseteq_l|].
      intros k cv v' Hv. apply (Rec k cv v'). apply (gr_rec _ _ _ _ GB). exact Hv. }
  unfold finish_call. assert (vs_strict vsD = vs_strict vs) as ->.
  { cbn. rewrite Es, (gr_strict _ _ _ _ GB). done. }
  rewrite (hypothesis_again _ _ _ _ Ea).
  assert (add_globals_from nodes (add_globals_from nodes cs) = add_globals_from nodes cs) as ->.
  { unfold add_globals_from. rewrite <-(assoc_L (∪)). by rewrite (idemp_L (∪)). }
  assert (update_topology nodes vsD = vsD) as ->.
  { unfold update_topology, vsD, drop_semantic_version, vs1. cbn. f_equal. rewrite Et, (gr_topo _ _ _ _ GB). cbn. rewrite (assoc_L (∪)). by rewrite (idemp_L (∪)). }
  unfold process_trace. cbn [t_roots t_nodes]. rewrite Er, elements_singleton. unfold create_new_components, bindM.
  rewrite create_nothing.
  2:{ intros k n Hk Etm. change (vs_nodes vsD) with (vs_nodes vsC). rewrite (vi_dom1 _ _ IC), Ed. apply (gr_dom _ _ _ _ GB). right. eauto. }
  unfold sync_version. rewrite (make_version_eq vsB vsD comp nodes).
  2:{ cbn. done. }
  2:{ intros k d cv Hk. destruct (HN _ _ Hk) as [[_ Hk']|(c & ? & _)]; [|done]. destruct (TM _ _ _ Hk') as (v' & Rv' & Nv').
      assert (recorded vsB d cv v') as RB by (apply (gr_rec _ _ _ _ GB); exact Rv').
      rewrite (proj2 (recorded_get vsB d cv v') RB). apply recorded_get. apply RD; [by apply Rec|done]. }
  rewrite Ev. unfold bindM.
  assert (exists vsE, add_version v vsD = (Ok tt, vsE) /\ vs_df vsE = vs_df vsD /\ forall k cv v', recorded vsD k cv v' -> recorded vsE k cv v') as (vsE & -> & EdfE & RE).
  { unfold add_version. assert (v_comp v ∈ dom (vs_versions vsD)) as Hd.
    { cbn. rewrite dom_fmap_L. rewrite (vi_dom2 _ _ IC), <-(vi_dom2 _ _ IC). unfold add_version in EC.
      destruct (vs_versions vsB !! v_comp v) as [m|] eqn:Em; [|done].
      destruct (m !! v_cv v); injection EC as <-; cbn; [|rewrite dom_insert_L; set_solver]. apply elem_of_dom. eauto. }
    apply elem_of_dom in Hd as [m Hm]. rewrite Hm. destruct (m !! v_cv v) as [v''|] eqn:Hv; [exists vsD; done|]. eexists. split; [done|]. split; [done|].
    intros k cv v' (m' & E1 & E2). unfold recorded. cbn -[vsD]. destruct (decide (k = v_comp v)) as [->|Hk].
    - rewrite lookup_insert. eexists. split; [done|]. assert (m' = m) as -> by congruence. rewrite lookup_insert_ne; [done|]. intros <-. congruence.
    - rewrite lookup_insert_ne by done. eauto. }
  unfold retM. cbn -[vsD check_distinguishable].
  rewrite (check_after_drop vsC vsE comp uid v (v_sv v)); [eexists; done| |  |done].
  - rewrite EdfE. cbn. rewrite filter_app, filter_cons, filter_nil. cbn. rewrite decide_False by (intros Hx; by apply Hx). by rewrite app_nil_r.
  - intros r v' Hr Hn Hg. apply recorded_get. apply recorded_get in Hg. apply RE, RD; [done|].
    rewrite <-(row_version H vsC r comp v' HI IC Hr Hg). done.
Qed.

Lemma compatible_ext vs vs' cs cs' v : (forall k d, vs_dags vs !! k = Some d -> vs_dags vs' !! k = Some d) -> cs ⊆ cs' ->
  compatible H vs cs v -> compatible H vs' cs' v.
Proof.
  intros Hd Hc Hv k hs h E1 E2. destruct (Hv k hs h E1 E2) as (d & s & F1 & F2 & n & h' & d' & G1 & G2 & G3 & G4).
  exists d, s. split; [auto|]. split; [done|]. exists n, h', d'. split; [by eapply lookup_weaken|]. split_and!; auto.
Qed.

Lemma recompute_found vs cs tr uid v vs1 cs1 : Inj (=) (=) H -> session H vs cs -> one_root tr ->
  (forall k d cv, t_nodes tr !! k = Some (NTerm d cv) -> exists v', recorded vs d cv v' /\ compatible H vs cs v' /\ v_sv v' <> v_sv v) ->
  finish_call H tr uid (vs, cs) = (Ok v, (vs1, cs1)) ->
  exists vs2, finish_call H tr uid (drop_semantic_version (v_sv v) vs1, cs1) = (Ok v, (vs2, cs1)) /\
    lookup_call H vs2 (v_comp v) uid cs1 = Ok (Some (v_cv v, v_sv v)).
Proof.
  intros HI S OR TM E. destruct (session_inv H _ _ HI S) as (I & _ & _).
  destruct (recompute vs cs tr uid v vs1 cs1 HI I OR) as ((vs2 & E2) & Hd & Hc & Hr); [|done|].
  { intros k d cv Hk. destruct (TM k d cv Hk) as (v' & ? & _ & ?). eauto. }
  exists vs2. split; [done|].
  apply (found_again H (drop_semantic_version (v_sv v) vs1) cs1 tr uid v vs2 cs1 HI); [|done| |done].
  - apply se_drop. by eapply se_call.
  - intros k d cv Hk. destruct (TM k d cv Hk) as (v' & R & C & N). exists v'. split; [by apply recorded_drop; [apply Hr|]|].
    apply (compatible_ext vs _ cs); auto.
Qed.
End recompute.
