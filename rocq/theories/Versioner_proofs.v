(** Invariants of the versioner. *)
From stdpp Require Import base strings gmap list relations fin_sets.
From Verif Require Import Base Dag Spec_Dag Dag_proofs Versioner Spec_Versioner.

(** ** Hashes of dictionaries *)
Lemma list_fmap_eq_inj {A B} (f : A -> B) (l l' : list A) :
  f <$> l = f <$> l' -> (forall x y, f x = f y -> x = y) -> l = l'.
Proof.
  intros E I. revert l' E. induction l as [|x l IH]; intros [|y l'] E; try done.
  cbn in E. injection E as E1 E2. f_equal; auto.
Qed.

Lemma hash_strs_inj H : Inj (=) (=) H -> Inj (=) (=) (hash_strs H).
Proof.
  intros I m m' E. apply I in E. injection E as E.
  apply (list_fmap_eq_inj (fun kv : depkey * string => VTuple [vkey kv.1; VStr kv.2])) in E.
  - rewrite <-(list_to_map_to_list m), <-(list_to_map_to_list m'). by rewrite E.
  - intros [[a b] s] [[a' b'] s'] F. unfold vkey in F; cbn in F. congruence.
Qed.

Lemma hash_sets_inj H : Inj (=) (=) H -> Inj (=) (=) (hash_sets H).
Proof.
  intros I m m' E. apply I in E. injection E as E.
  apply (list_fmap_eq_inj (fun kv : depkey * gset string =>
    VTuple [vkey kv.1; VTuple (VStr <$> elements kv.2)])) in E.
  - rewrite <-(list_to_map_to_list m), <-(list_to_map_to_list m'). by rewrite E.
  - intros [[a b] s] [[a' b'] s'] F. unfold vkey in F; cbn in F. injection F as -> -> F.
    apply (list_fmap_eq_inj VStr) in F; [|intros ?? [= ->]; done].
    f_equal. rewrite <-(list_to_set_elements_L s), <-(list_to_set_elements_L s'). by rewrite F.
Qed.

(** ** Conflicts *)
Definition conflict (e1 e2 : gmap depkey string) : Prop :=
  exists k s1 s2, e1 !! k = Some s1 /\ e2 !! k = Some s2 /\ s1 <> s2.

Lemma agree_on_overlap_spec e1 e2 : agree_on_overlap e1 e2 = false <-> conflict e1 e2.
Proof.
  unfold agree_on_overlap. split.
  - intros F.
    assert (exists kv, kv ∈ map_to_list e1 /\
      (match e2 !! kv.1 with Some s => bool_decide (s = kv.2) | None => true end) = false)
      as ([k s] & I & E).
    { revert F. generalize (map_to_list e1). induction l as [|x l IH]; cbn; [done|].
      destruct (match e2 !! x.1 with Some s => bool_decide (s = x.2) | None => true end) eqn:E.
      - intros (kv & I & ?)%IH. exists kv. split; auto. by right.
      - intros _. exists x. split; auto. by left. }
    apply elem_of_map_to_list in I. cbn in E.
    destruct (e2 !! k) as [s2|] eqn:E2; [|done]. apply bool_decide_eq_false in E.
    exists k, s, s2. auto.
  - intros (k & s1 & s2 & E1 & E2 & Ne).
    destruct (forallb _ _) eqn:F; auto. exfalso.
    rewrite forallb_forall in F. specialize (F (k, s1)).
    cbn in F. rewrite E2 in F. apply Ne. symmetry. eapply bool_decide_eq_true, F.
    by apply elem_of_list_In, elem_of_map_to_list.
Qed.

Lemma agree_on_overlap_true e1 e2 : agree_on_overlap e1 e2 = true <->
  forall k s1 s2, e1 !! k = Some s1 -> e2 !! k = Some s2 -> s1 = s2.
Proof.
  split.
  - intros A k s1 s2 E1 E2. destruct (decide (s1 = s2)); auto.
    assert (agree_on_overlap e1 e2 = false); [|congruence].
    apply agree_on_overlap_spec. exists k, s1, s2. auto.
  - intros F. destruct (agree_on_overlap e1 e2) eqn:E; auto.
    apply agree_on_overlap_spec in E as (k & s1 & s2 & E1 & E2 & Ne). naive_solver.
Qed.

Lemma conflict_sym e1 e2 : conflict e1 e2 -> conflict e2 e1.
Proof. intros (k & s1 & s2 & ? & ? & ?). exists k, s2, s1. auto. Qed.

Lemma conflict_sub e1 e2 m : conflict e1 e2 -> e1 ⊆ m -> e2 ⊆ m -> False.
Proof.
  intros (k & s1 & s2 & E1 & E2 & Ne) S1 S2.
  pose proof (lookup_weaken _ _ _ _ E1 S1). pose proof (lookup_weaken _ _ _ _ E2 S2). congruence.
Qed.

Section proofs.
Context (H : pyval -> string).
Implicit Types (vs : versioner) (cs : code_state).

Notation hist := (history (chash H) cpresent).

(** ** The invariant *)

(** The expansion of a version agrees with the histories. *)
Definition vsem vs (cexp : gmap depkey (gset string)) (sexp : gmap depkey string) : Prop :=
  dom cexp = dom sexp /\
  forall k hs, cexp !! k = Some hs -> hs <> ∅ /\
    forall h, h ∈ hs -> exists d s, vs_dags vs !! k = Some d /\ semantic d h = Some s /\ sexp !! k = Some s.

Definition vgood vs (v : version) : Prop :=
  v_cv v = hash_sets H (v_cexp v) /\ v_sv v = hash_strs H (v_sexp v) /\ vsem vs (v_cexp v) (v_sexp v) /\
  dom (v_cexp v) ⊆ dom (vs_topology vs).

Definition rconf (r1 r2 : vrow) : Prop :=
  r_uid r1 = r_uid r2 -> exists e1 e2, hash_strs H e1 = r_sv r1 /\ hash_strs H e2 = r_sv r2 /\ conflict e1 e2.

Record vinv vs : Prop := {
  vi_dom1 : dom (vs_nodes vs) = dom (vs_dags vs);
  vi_dom2 : dom (vs_versions vs) = dom (vs_dags vs);
  vi_topo : dom (vs_dags vs) ⊆ dom (vs_topology vs);
  vi_dags : forall k d, vs_dags vs !! k = Some d -> hist d /\ is_Some (d_head d);
  vi_vers : forall k cv v, recorded vs k cv v -> v_cv v = cv /\ v_comp v = k /\ vgood vs v;
  vi_rows : forall r, r ∈ vs_df vs -> exists k v, recorded vs k (r_cv r) v /\ r_sv r = v_sv v;
  vi_conf : ForallOrdPairs rconf (vs_df vs);
}.

Lemma vsem_unique vs cexp s1 s2 : vsem vs cexp s1 -> vsem vs cexp s2 -> s1 = s2.
Proof.
  intros [D1 F1] [D2 F2]. apply map_eq. intros k.
  destruct (cexp !! k) as [hs|] eqn:E.
  - destruct (F1 _ _ E) as [Ne G1]. destruct (F2 _ _ E) as [_ G2].
    apply set_choose_L in Ne as [h Hh].
    destruct (G1 _ Hh) as (d & s & Ed & Es & E1). destruct (G2 _ Hh) as (d' & s' & Ed' & Es' & E2).
    congruence.
  - assert (s1 !! k = None) as ->.
    { apply not_elem_of_dom. rewrite <-D1. by apply not_elem_of_dom. }
    symmetry. apply not_elem_of_dom. rewrite <-D2. by apply not_elem_of_dom.
Qed.

(** ** Lookups in the folds *)
Lemma foldr_map_to_list {A B : Type} (m : gmap depkey A) (f : depkey -> A -> result (option B)) (res : gmap depkey B) :
  foldr (fun (kn : depkey * A) acc =>
    m ← acc; o ← f kn.1 kn.2; Ok (match o with Some b => <[kn.1 := b]> m | None => m end))
    (Ok ∅) (map_to_list m) = Ok res ->
  (forall k a, m !! k = Some a -> exists o, f k a = Ok o /\ res !! k = o) /\
  (forall k, m !! k = None -> res !! k = None).
Proof.
  assert (P : forall k a, m !! k = Some a <-> (k, a) ∈ map_to_list m) by (intros; by rewrite elem_of_map_to_list).
  assert (Q : forall k, m !! k = None <-> k ∉ (map_to_list m).*1).
  { intros k. rewrite eq_None_not_Some. split; intros N I; apply N.
    - apply elem_of_list_fmap in I as ([k' a] & -> & I). apply P in I. cbn. eauto.
    - destruct I as [a I]. apply P in I. apply elem_of_list_fmap. exists (k, a). auto. }
  setoid_rewrite P. setoid_rewrite Q. clear P Q.
  pose proof (NoDup_fst_map_to_list m) as ND. revert ND res.
  generalize (map_to_list m). induction l as [|[k a] l IH]; intros ND res E; cbn in *.
  { injection E as <-. split; [by intros ?? ?%elem_of_nil|intros; apply lookup_empty]. }
  destruct (foldr _ _ l) as [res'|e] eqn:E'; [|done]. cbn in E.
  destruct (f k a) as [o|e] eqn:Ef; [|done]. cbn in E. injection E as <-.
  apply NoDup_cons in ND as [Nk ND]. destruct (IH ND _ eq_refl) as [I1 I2]. split.
  - intros k' a' [[= -> ->]|I]%elem_of_cons.
    + exists o. split; auto. destruct o; [by rewrite lookup_insert|]. auto.
    + destruct (I1 _ _ I) as (o' & Eo & Er). exists o'. split; auto.
      assert (k' <> k). { intros ->. apply Nk. apply elem_of_list_fmap. exists (k, a'). auto. }
      destruct o; auto. by rewrite lookup_insert_ne.
  - intros k' [Ne N]%not_elem_of_cons. destruct o; auto. rewrite lookup_insert_ne by done. auto.
Qed.

Lemma from_trace_direct_ok nodes direct : from_trace_direct H nodes = Ok direct ->
  forall k, match nodes !! k with
    | Some n => if is_term n then direct !! k = None else exists h, node_hash H n = Ok h /\ direct !! k = Some h
    | None => direct !! k = None end.
Proof.
  intros E. destruct (foldr_map_to_list nodes
    (fun _ n => if is_term n then Ok None else h ← node_hash H n; Ok (Some h)) direct) as [I1 I2].
  { rewrite <-E. unfold from_trace_direct. clear E. induction (map_to_list nodes) as [|[k n] l IH]; [reflexivity|].
    cbn -[node_hash]. rewrite IH; clear IH. destruct (foldr _ _ l) as [m|e]; [|reflexivity]. cbn -[node_hash].
    destruct n as [s rt|h r|d cv]; cbn -[node_hash]; try reflexivity;
      destruct (node_hash H _); reflexivity. }
  intros k. destruct (nodes !! k) as [n|] eqn:En; [|auto].
  destruct (I1 _ _ En) as (o & Eo & Ek). destruct (is_term n); [injection Eo as <-; auto|].
  destruct (node_hash H n) as [h|]; [|done]. injection Eo as <-. eauto.
Qed.

Lemma direct_semantic_ok dags direct sexp : direct_semantic dags direct = Ok sexp ->
  forall k, match direct !! k with
    | Some h => exists d s, dags !! k = Some d /\ semantic d h = Some s /\ sexp !! k = Some s
    | None => sexp !! k = None end.
Proof.
  intros E. destruct (foldr_map_to_list direct
    (fun k h => match dags !! k with
      | None => Err EKeyError
      | Some d => match d_commits d !! h with
                  | None => Err EKeyError
                  | Some c => Ok (Some (c_shash c))
                  end
      end) sexp) as [I1 I2].
  { rewrite <-E. unfold direct_semantic. clear E. induction (map_to_list direct) as [|[k h] l IH]; [reflexivity|].
    cbn. rewrite IH; clear IH. destruct (foldr _ _ l) as [m|e]; [|reflexivity]. cbn -[node_hash].
    destruct (dags !! k) as [d|]; [|reflexivity]. destruct (d_commits d !! h); reflexivity. }
  intros k. destruct (direct !! k) as [h|] eqn:En; [|auto].
  destruct (I1 _ _ En) as (o & Eo & Ek). destruct (dags !! k) as [d|] eqn:Ed; [|done].
  destruct (d_commits d !! h) as [c|] eqn:Ec; [|done]. injection Eo as <-.
  exists d, (c_shash c). unfold semantic. rewrite Ec. auto.
Qed.

(** ** Making a version *)
Definition vdags_ext vs vs' : Prop :=
  forall k d, vs_dags vs !! k = Some d -> exists d', vs_dags vs' !! k = Some d' /\
    d_commits d ⊆ d_commits d'.

Lemma semantic_ext (d d' : dag content) h s : d_commits d ⊆ d_commits d' ->
  semantic d h = Some s -> semantic d' h = Some s.
Proof.
  intros E. unfold semantic. intros (c & C & ->)%fmap_Some.
  by rewrite (lookup_weaken _ _ _ _ C E).
Qed.

Lemma vsem_ext vs vs' cexp sexp : vdags_ext vs vs' -> vsem vs cexp sexp -> vsem vs' cexp sexp.
Proof.
  intros X [D F]. split; auto. intros k hs E. destruct (F _ _ E) as [Ne G]. split; auto.
  intros h Hh. destruct (G _ Hh) as (d & s & Ed & Es & E').
  destruct (X _ _ Ed) as (d' & Ed' & S). exists d', s. eauto using semantic_ext.
Qed.

Lemma fold_exp_ok vs refs : (forall k cv v, recorded vs k cv v -> vsem vs (v_cexp v) (v_sexp v)) ->
  forall cexp0 sexp0 cexp sexp, vsem vs cexp0 sexp0 ->
  foldl (fun acc (kc : depkey * string) =>
    m ← acc; v ← get_version (vs_versions vs) kc.1 kc.2; Ok (add_exp m (v_cexp v)))
    (Ok cexp0) refs = Ok cexp ->
  foldl (fun acc (kc : depkey * string) =>
    m ← acc; v ← get_version (vs_versions vs) kc.1 kc.2;
    if agree_on_overlap m (v_sexp v) then Ok (v_sexp v ∪ m) else Err EValueError)
    (Ok sexp0) refs = Ok sexp ->
  vsem vs cexp sexp /\ sexp0 ⊆ sexp /\
  (forall k cv, (k, cv) ∈ refs -> exists v, recorded vs k cv v /\ v_sexp v ⊆ sexp) /\
  (forall k, k ∈ dom sexp -> k ∈ dom sexp0 \/ exists k' cv v, (k', cv) ∈ refs /\ recorded vs k' cv v /\ k ∈ dom (v_cexp v)) /\
  (forall k s, sexp !! k = Some s -> sexp0 !! k = Some s \/
     exists k' cv v, (k', cv) ∈ refs /\ recorded vs k' cv v /\ v_sexp v !! k = Some s).
Proof.
  intros V. induction refs as [|[k0 cv0] refs IH]; intros cexp0 sexp0 cexp sexp W E1 E2.
  { cbn in *. injection E1 as <-. injection E2 as <-. split_and!; auto.
    by intros ?? ?%elem_of_nil. }
  cbn in E1, E2.
  assert (FE : forall (l : list (depkey * string)) e, foldl (fun acc (kc : depkey * string) =>
    m ← acc; v ← get_version (vs_versions vs) kc.1 kc.2; Ok (add_exp m (v_cexp v)))
    (Err e) l = Err e) by (induction l; auto).
  assert (FE2 : forall (l : list (depkey * string)) e, foldl (fun acc (kc : depkey * string) =>
    m ← acc; v ← get_version (vs_versions vs) kc.1 kc.2;
    if agree_on_overlap m (v_sexp v) then Ok (v_sexp v ∪ m) else Err EValueError)
    (Err e) l = Err e) by (induction l; auto).
  destruct (get_version (vs_versions vs) k0 cv0) as [v|e] eqn:Ev; cbn in E1, E2; [|by rewrite FE in E1].
  assert (R : recorded vs k0 cv0 v).
  { unfold get_version in Ev. unfold recorded. destruct (vs_versions vs !! k0) as [m|]; [|done].
    exists m. destruct (m !! cv0) eqn:Em; [|done]. cbn in Ev. injection Ev as ->. auto. }
  pose proof (V _ _ _ R) as WV.
  destruct (agree_on_overlap sexp0 (v_sexp v)) eqn:A; [|by rewrite FE2 in E2].
  rewrite agree_on_overlap_true in A.
  assert (Sub : sexp0 ⊆ v_sexp v ∪ sexp0).
  { apply map_subseteq_spec. intros k s Es. destruct (v_sexp v !! k) as [s'|] eqn:Es'.
    - rewrite (lookup_union_Some_l _ _ _ s'); auto. f_equal. symmetry. eauto.
    - rewrite lookup_union_r; auto. }
  edestruct IH as (W' & S' & R' & D' & X'); [|exact E1|exact E2|].
  { destruct W as [D F], WV as [DV FV]. split.
    - apply set_eq. intros k. rewrite dom_union_L, elem_of_union, <-D, <-DV, !elem_of_dom.
      unfold add_exp. rewrite lookup_union_with.
      destruct (cexp0 !! k), (v_cexp v !! k); cbn; clear; unfold is_Some; naive_solver.
    - intros k hs. unfold add_exp. rewrite lookup_union_with.
      destruct (cexp0 !! k) as [h1|] eqn:E3, (v_cexp v !! k) as [h2|] eqn:E4; cbn; intros [= <-].
      + destruct (F _ _ E3) as [N1 G1], (FV _ _ E4) as [N2 G2]. split.
        { apply set_choose_L in N1 as [x N1]. clear -N1. set_solver. }
        assert (U : exists s, (v_sexp v ∪ sexp0) !! k = Some s /\ v_sexp v !! k = Some s /\ sexp0 !! k = Some s).
        { apply set_choose_L in N1 as [x N1]. destruct (G1 _ N1) as (_ & s & _ & _ & Es).
          apply set_choose_L in N2 as [y N2]. destruct (G2 _ N2) as (_ & s' & _ & _ & Es').
          assert (s = s') as <- by eauto. exists s. split_and!; auto.
          by apply lookup_union_Some_l. }
        destruct U as (s & U1 & U2 & U3).
        intros h [Hh|Hh]%elem_of_union.
        * destruct (G1 _ Hh) as (d & s' & Ed & Es & E5). exists d, s. split_and!; auto. congruence.
        * destruct (G2 _ Hh) as (d & s' & Ed & Es & E5). exists d, s. split_and!; auto. congruence.
      + destruct (F _ _ E3) as [N1 G1]. split; auto. intros h Hh.
        destruct (G1 _ Hh) as (d & s & Ed & Es & E5). exists d, s. split_and!; auto.
        eapply lookup_weaken; eauto.
      + destruct (FV _ _ E4) as [N1 G1]. split; auto. intros h Hh.
        destruct (G1 _ Hh) as (d & s & Ed & Es & E5). exists d, s. split_and!; auto.
        by apply lookup_union_Some_l. }
  split_and!.
  - done.
  - etrans; [exact Sub|done].
  - intros k cv [[= -> ->]|I]%elem_of_cons; [|auto].
    exists v. split; auto. etrans; [|exact S']. apply map_union_subseteq_l.
  - intros k [I|I]%D'.
    + rewrite dom_union_L, elem_of_union in I. destruct I as [I|I]; [|auto].
      right. exists k0, cv0, v. split_and!; auto; [by left|].
      destruct WV as [-> _]. done.
    + destruct I as (k' & cv & v' & I & ? & ?). right. exists k', cv, v'. split_and!; auto. by right.
  - intros k s [I|I]%X'.
    + apply lookup_union_Some_raw in I as [I|[_ I]]; [|auto].
      right. exists k0, cv0, v. split_and!; auto. by left.
    + destruct I as (k' & cv & v' & I & ? & ?). right. exists k', cv, v'. split_and!; auto. by right.
Qed.

Lemma memo_refs_elem memo k cv : (k, cv) ∈ memo_refs memo <-> exists s, memo !! k = Some s /\ cv ∈ s.
Proof.
  unfold memo_refs. rewrite elem_of_list_bind. split.
  - intros ([k' s] & I & M). apply elem_of_list_fmap in I as (cv' & [= -> ->] & I).
    apply elem_of_map_to_list in M. exists s. split; auto. by apply elem_of_elements.
  - intros (s & M & I). exists (k, s). split.
    + apply elem_of_list_fmap. exists cv. split; auto. by apply elem_of_elements.
    + by apply elem_of_map_to_list.
Qed.

Lemma from_trace_memo_elem (nodes : gmap depkey node) k cv :
  (exists s, from_trace_memo nodes !! k = Some s /\ cv ∈ s) <->
  exists k', nodes !! k' = Some (NTerm k cv).
Proof.
  transitivity (exists k', (k', NTerm k cv) ∈ map_to_list nodes).
  2: { split; intros [k' I]; exists k'; by apply elem_of_map_to_list. }
  unfold from_trace_memo. induction (map_to_list nodes) as [|[k0 n] l IH]; cbn.
  - split.
    + intros (s & E & _). by rewrite lookup_empty in E.
    + intros (k' & []%elem_of_nil).
  - destruct n as [s rt|h r|d cv0]; cbn; rewrite ?IH.
    + split; intros [k' I]; exists k'; [by right|apply elem_of_cons in I as [[=]|I]; auto].
    + split; intros [k' I]; exists k'; [by right|apply elem_of_cons in I as [[=]|I]; auto].
    + destruct (decide (k = d)) as [->|Ne].
      * rewrite lookup_insert. split.
        -- intros (s & [= <-] & I). apply elem_of_union in I as [->%elem_of_singleton|I].
           { exists k0. by left. }
           destruct (foldr _ _ l !! d) as [s|] eqn:E; [|by apply elem_of_empty in I].
           destruct IH as [IH _]. destruct IH as [k' I']; [exists s; auto|]. exists k'. by right.
        -- intros [k' I]. eexists. split; [done|]. apply elem_of_cons in I as [[= -> ->]|I].
           { apply elem_of_union_l. by apply elem_of_singleton. }
           destruct IH as [_ IH]. destruct IH as (s & -> & I'); [eauto|]. by apply elem_of_union_r.
      * rewrite lookup_insert_ne by done. rewrite IH. split; intros [k' I]; exists k'; [by right|].
        apply elem_of_cons in I as [[= -> -> ->]|I]; [done|auto].
Qed.

Lemma recorded_get vs k cv v : get_version (vs_versions vs) k cv = Ok v <-> recorded vs k cv v.
Proof.
  unfold get_version, recorded. split.
  - destruct (vs_versions vs !! k) as [m|]; [|done]. destruct (m !! cv) eqn:E; [|done].
    cbn. intros [= ->]. eauto.
  - intros (m & -> & ->). done.
Qed.

Lemma make_version_ok vs comp nodes v : vinv vs ->
  (forall k n, nodes !! k = Some n -> is_term n = false -> k ∈ dom (vs_topology vs)) ->
  make_version H vs comp nodes = Ok v ->
  vgood vs v /\ v_comp v = comp /\
  (forall k s, v_sexp v !! k = Some s ->
    (exists n h d, nodes !! k = Some n /\ node_hash H n = Ok h /\ vs_dags vs !! k = Some d /\
       semantic d h = Some s) \/
    (exists k' d cv v', nodes !! k' = Some (NTerm d cv) /\ recorded vs d cv v' /\ v_sexp v' !! k = Some s)).
Proof.
  intros I T. unfold make_version.
  destruct (from_trace_direct H nodes) as [direct|] eqn:Ed; [|done]. cbn.
  destruct (content_expansion _ _ _) as [cexp|] eqn:Ec; [|done]. cbn.
  destruct (semantic_expansion _ _ _ _) as [sexp|] eqn:Es; [|done]. cbn. intros [= <-].
  pose proof (from_trace_direct_ok _ _ Ed) as D.
  unfold semantic_expansion in Es.
  destruct (direct_semantic (vs_dags vs) direct) as [sexp0|e] eqn:Eds.
  2: { exfalso. revert Es. generalize (memo_refs (from_trace_memo nodes)).
       clear. intros l. induction l; [done|]. auto. }
  pose proof (direct_semantic_ok _ _ _ Eds) as DS.
  assert (W0 : vsem vs ((fun h => {[h]}) <$> direct) sexp0).
  { split.
    - apply set_eq. intros k. rewrite !elem_of_dom, lookup_fmap. specialize (DS k).
      destruct (direct !! k) as [h|]; cbn.
      + destruct DS as (d & s & _ & _ & ->). split; eauto.
      + rewrite DS. split; intros [? [=]].
    - intros k hs. rewrite lookup_fmap. specialize (DS k).
      destruct (direct !! k) as [h|]; cbn; [|done]. intros [= <-]. split.
      + intros E. apply (elem_of_empty (C:=gset string) h). rewrite <-E. by apply elem_of_singleton.
      + intros h' ->%elem_of_singleton. done. }
  edestruct (fold_exp_ok vs (memo_refs (from_trace_memo nodes)))
    as (W & S0 & R & DD & X); [|exact W0|exact Ec|exact Es|].
  { intros k cv v Hv. by apply (vi_vers _ I) in Hv as (_ & _ & _ & _ & ? & _). }
  cbn. split_and!; auto.
  - split_and!; cbn; auto. intros k Hk. destruct W as [DW _]. rewrite DW in Hk.
    apply DD in Hk as [Hk|(k' & cv & v' & _ & Hv & Hk)].
    + apply elem_of_dom in Hk as [s Hk]. specialize (DS k). specialize (D k).
      destruct (direct !! k) as [h|]; [|congruence].
      destruct (nodes !! k) as [n|] eqn:En; [|done].
      destruct (is_term n) eqn:Et; [done|]. eauto.
    + apply (vi_vers _ I) in Hv as (_ & _ & _ & _ & _ & Hs). auto.
  - intros k s [Hs|(k' & cv & v' & M & Hv & Hs)]%X.
    + left. specialize (DS k). specialize (D k). destruct (direct !! k) as [h|]; [|congruence].
      destruct DS as (d & s' & E1 & E2 & E3). destruct (nodes !! k) as [n|]; [|done].
      destruct (is_term n); [done|]. destruct D as (h' & E4 & [= <-]).
      exists n, h, d. split_and!; auto. congruence.
    + right. apply memo_refs_elem, from_trace_memo_elem in M as [k0 M]. exists k0, k', cv, v'. auto.
Qed.

(** ** New components *)
Record grown (l : list (depkey * node)) vs vs' : Prop := {
  gr_inv : vinv vs';
  gr_strict : vs_strict vs' = vs_strict vs;
  gr_topo : vs_topology vs' = vs_topology vs;
  gr_df : vs_df vs' = vs_df vs;
  gr_rec : forall k cv v, recorded vs' k cv v <-> recorded vs k cv v;
  gr_old : forall k d, vs_dags vs !! k = Some d -> vs_dags vs' !! k = Some d;
  gr_dom : forall k, k ∈ dom (vs_dags vs') <-> k ∈ dom (vs_dags vs) \/ exists n, (k, n) ∈ l /\ is_term n = false;
  gr_new : forall k d, vs_dags vs !! k = None -> vs_dags vs' !! k = Some d ->
    exists n h, (k, n) ∈ l /\ is_term n = false /\ node_hash H n = Ok h /\ is_Some (d_commits d !! h);
}.

Lemma init_component_ok k n c vs : vinv vs -> k ∉ dom (vs_dags vs) -> k ∈ dom (vs_topology vs) ->
  is_term n = false -> node_content n = Ok c ->
  exists vs', init_component H k n vs = (Ok tt, vs') /\ grown [(k, n)] vs vs'.
Proof.
  intros I N T Et En. unfold init_component. rewrite En. cbn. eexists. split; [done|].
  set (d := Dag _ _ _).
  assert (NV : vs_versions vs !! k = None).
  { apply not_elem_of_dom. by rewrite (vi_dom2 _ I). }
  assert (ND : vs_dags vs !! k = None) by by apply not_elem_of_dom.
  assert (RR : forall k' cv v, recorded (Versioner (vs_strict vs) (vs_topology vs) (<[k:=n]> (vs_nodes vs))
    (<[k:=d]> (vs_dags vs)) (<[k:=∅]> (vs_versions vs)) (vs_df vs)) k' cv v <-> recorded vs k' cv v).
  { intros k' cv v. unfold recorded. cbn. destruct (decide (k' = k)) as [->|Ne].
    - rewrite lookup_insert, NV. split.
      + intros (m & [= <-] & E). by rewrite lookup_empty in E.
      + intros (m & [=] & _).
    - by rewrite lookup_insert_ne. }
  assert (OLD : forall k' d', vs_dags vs !! k' = Some d' -> <[k:=d]> (vs_dags vs) !! k' = Some d').
  { intros k' d' E. rewrite lookup_insert_ne; auto. intros ->. congruence. }
  constructor; cbn; auto.
  - constructor; cbn.
    + rewrite !dom_insert_L. by rewrite (vi_dom1 _ I).
    + rewrite !dom_insert_L. by rewrite (vi_dom2 _ I).
    + rewrite dom_insert_L. apply union_subseteq. split; [|apply (vi_topo _ I)].
      by apply singleton_subseteq_l.
    + intros k' d'. destruct (decide (k' = k)) as [->|Ne].
      * rewrite lookup_insert. intros [= <-]. split; [|cbn; eauto].
        eapply (later_step _ _ _ (OInit c) (User [] [])); [|constructor].
        cbn. unfold bindM, init. cbn. reflexivity.
      * rewrite lookup_insert_ne by done. apply (vi_dags _ I).
    + intros k' cv v Hv. apply RR in Hv. apply (vi_vers _ I) in Hv as (E1 & E2 & E3 & E4 & E5 & E6).
      split_and!; auto. split_and!; auto. eapply vsem_ext; [|exact E5].
      intros k2 d2 Ed. cbn. exists d2. split; auto.
    + intros r Hr. destruct (vi_rows _ I _ Hr) as (k' & v & Hv & E). exists k', v. by rewrite RR.
    + apply (vi_conf _ I).
  - intros k'. rewrite dom_insert, elem_of_union, elem_of_singleton. split.
    + intros [->|?]; auto. right. exists n. split; auto. by left.
    + intros [?|(n' & [= -> ->]%elem_of_list_singleton & _)]; auto.
  - intros k' d' E1 E2. destruct (decide (k' = k)) as [->|Ne].
    + rewrite lookup_insert in E2. injection E2 as <-. exists n, (chash H c).
      split_and!; auto; [by left|unfold node_hash; by rewrite En|].
      cbn. rewrite lookup_insert. eauto.
    + rewrite lookup_insert_ne in E2 by done. congruence.
Qed.

Lemma grown_refl vs : vinv vs -> grown [] vs vs.
Proof.
  intros I. constructor; auto; try done.
  - intros k. split; auto. intros [?|(n & []%elem_of_nil & _)]; auto.
  - intros k d E1 E2. congruence.
Qed.

Lemma grown_trans l1 l2 vs1 vs2 vs3 : grown l1 vs1 vs2 -> grown l2 vs2 vs3 -> grown (l1 ++ l2) vs1 vs3.
Proof.
  intros [I1 S1 T1 F1 R1 O1 D1 N1] [I2 S2 T2 F2 R2 O2 D2 N2]. constructor; try congruence; auto.
  - intros k cv v. by rewrite R2.
  - intros k. rewrite D2, D1. setoid_rewrite elem_of_app. naive_solver.
  - intros k d E1 E2. destruct (vs_dags vs2 !! k) as [d2|] eqn:E3.
    + pose proof (O2 _ _ E3). assert (d2 = d) as -> by congruence.
      destruct (N1 _ _ E1 E3) as (n & h & P & ? & ? & ?). exists n, h. split_and!; auto.
      apply elem_of_app. auto.
    + destruct (N2 _ _ E3 E2) as (n & h & P & ? & ? & ?). exists n, h. split_and!; auto.
      apply elem_of_app. auto.
Qed.

Lemma create_ok l vs : vinv vs ->
  (forall k n, (k, n) ∈ l -> is_term n = false -> k ∈ dom (vs_topology vs) /\ exists c, node_content n = Ok c) ->
  exists vs', iterM (fun kn : depkey * node => fun vs =>
    if bool_decide (kn.1 ∈ dom (vs_nodes vs)) || is_term kn.2 then (Ok tt, vs)
    else init_component H kn.1 kn.2 vs) l vs = (Ok tt, vs') /\ grown l vs vs'.
Proof.
  revert vs. induction l as [|[k n] l IH]; intros vs I T.
  { exists vs. split; auto using grown_refl. }
  assert (exists vs1, (if bool_decide (k ∈ dom (vs_nodes vs)) || is_term n then (Ok tt, vs)
    else init_component H k n vs) = (Ok tt, vs1) /\ grown [(k, n)] vs vs1) as (vs1 & E1 & G1).
  { destruct (bool_decide (k ∈ dom (vs_nodes vs))) eqn:B.
    { exists vs. split; auto. apply bool_decide_eq_true in B. rewrite (vi_dom1 _ I) in B.
      destruct (grown_refl vs I) as [I1 S1 T1 F1 R1 O1 D1 N1]. constructor; auto.
      - intros k'. split; auto. intros [?|(n' & [= -> ->]%elem_of_list_singleton & _)]; auto.
      - intros k' d E1 E2. congruence. }
    destruct (is_term n) eqn:Et.
    { exists vs. split; auto.
      destruct (grown_refl vs I) as [I1 S1 T1 F1 R1 O1 D1 N1]. constructor; auto.
      - intros k'. split; auto. intros [?|(n' & [= -> ->]%elem_of_list_singleton & ?)]; auto. congruence.
      - intros k' d E1 E2. congruence. }
    apply bool_decide_eq_false in B. rewrite (vi_dom1 _ I) in B.
    destruct (T k n) as [Tk [c Ec]]; auto; [by left|].
    destruct (init_component_ok k n c vs) as (vs1 & E & G); eauto. }
  destruct (IH vs1) as (vs2 & E2 & G2).
  { apply G1. }
  { intros k' n' P Et. rewrite (gr_topo _ _ _ G1). apply (T k' n'); auto. by right. }
  exists vs2. split.
  - cbn. unfold bindM. rewrite E1. exact E2.
  - apply (grown_trans [(k, n)] l _ vs1); auto.
Qed.

(** ** Recording a version *)
Lemma recorded_unique_sem vs v k1 cv v1 : Inj (=) (=) H -> vinv vs -> vgood vs v -> v_cv v = cv ->
  recorded vs k1 cv v1 -> v_cexp v1 = v_cexp v /\ v_sexp v1 = v_sexp v /\ v_sv v1 = v_sv v.
Proof.
  intros HI I (G1 & G2 & G3 & _) <- Hv. apply (vi_vers _ I) in Hv as (E1 & _ & E2 & E3 & E4 & _).
  assert (v_cexp v1 = v_cexp v) as E.
  { apply (hash_sets_inj H HI). congruence. }
  assert (v_sexp v1 = v_sexp v) as E'.
  { eapply vsem_unique; [exact E4|]. rewrite E. exact G3. }
  split_and!; auto. congruence.
Qed.

Lemma add_version_ok vs v r vs' : vinv vs -> vgood vs v -> add_version v vs = (r, vs') ->
  vinv vs' /\ vs_dags vs' = vs_dags vs /\ vs_df vs' = vs_df vs /\ vs_topology vs' = vs_topology vs /\
  vs_strict vs' = vs_strict vs /\
  (forall k cv v', recorded vs k cv v' -> recorded vs' k cv v') /\
  (r = Ok tt -> exists v', recorded vs' (v_comp v) (v_cv v) v').
Proof.
  intros I G. unfold add_version.
  destruct (vs_versions vs !! v_comp v) as [m|] eqn:Em; [|intros [= <- <-]; split_and!; auto; done].
  destruct (m !! v_cv v) as [v0|] eqn:E0.
  { intros [= <- <-]. split_and!; auto. intros _. exists v0, m. auto. }
  intros [= <- <-]. cbn. set (vs' := Versioner _ _ _ _ _ _).
  assert (RR : forall k cv v', recorded vs' k cv v' <->
    recorded vs k cv v' \/ (k = v_comp v /\ cv = v_cv v /\ v' = v)).
  { intros k cv v'. unfold recorded. cbn. destruct (decide (k = v_comp v)) as [->|Ne].
    - rewrite lookup_insert, Em. split.
      + intros (m' & [= <-] & E). destruct (decide (cv = v_cv v)) as [->|Nc].
        * rewrite lookup_insert in E. injection E as <-. auto.
        * rewrite lookup_insert_ne in E by done. left. eauto.
      + intros [(m' & [= <-] & E)|(_ & -> & ->)].
        * eexists. split; [done|]. rewrite lookup_insert_ne; auto. intros <-. congruence.
        * eexists. split; [done|]. by rewrite lookup_insert.
    - rewrite lookup_insert_ne by done. split; auto. intros [?|(-> & _)]; auto. done. }
  split_and!; auto.
  - constructor; cbn.
    + apply I.
    + rewrite dom_insert_L, <-(vi_dom2 _ I). apply elem_of_dom_2 in Em. set_solver.
    + apply I.
    + apply I.
    + intros k cv v' [Hv|(-> & -> & ->)]%RR; [|auto].
      apply (vi_vers _ I) in Hv. exact Hv.
    + intros r Hr. destruct (vi_rows _ I _ Hr) as (k & v' & Hv & E). exists k, v'. rewrite RR. auto.
    + apply I.
  - intros k cv v' Hv. apply RR. auto.
  - intros _. exists v. apply RR. auto.
Qed.

(** ** The check *)
Definition exist_step vs (comp : depkey) (acc : result (gmap string (gmap depkey string))) (r : vrow)
    : result (gmap string (gmap depkey string)) :=
  m ← acc;
  match m !! r_sv r with
  | Some _ => Ok m
  | None => v ← get_version (vs_versions vs) comp (r_cv r); Ok (<[r_sv r := v_sexp v]> m)
  end.

Lemma existing_ok vs comp uid m : Inj (=) (=) H -> vinv vs -> existing_expansions vs comp uid = Ok m ->
  (forall r, r ∈ vs_df vs -> r_uid r = uid -> is_Some (m !! r_sv r)) /\
  (forall sv e, m !! sv = Some e -> hash_strs H e = sv) /\
  (forall r, r ∈ vs_df vs -> r_uid r = uid -> NoDup (map r_sv (filter (fun r => r_uid r = uid) (vs_df vs))) ->
     exists v, recorded vs comp (r_cv r) v).
Proof.
  intros HI I E.
  assert (RW : forall r, r ∈ filter (fun r => r_uid r = uid) (vs_df vs) ->
    exists k v, recorded vs k (r_cv r) v /\ r_sv r = v_sv v).
  { intros r [_ Hr]%elem_of_list_filter. apply (vi_rows _ I _ Hr). }
  assert (P : forall (rows : list vrow) (m0 m : gmap string (gmap depkey string)), (forall r, r ∈ rows -> exists k v, recorded vs k (r_cv r) v /\ r_sv r = v_sv v) ->
    (forall sv e, m0 !! sv = Some e -> hash_strs H e = sv) ->
    foldl (exist_step vs comp) (Ok m0) rows = Ok m ->
    (forall sv, is_Some (m0 !! sv) -> is_Some (m !! sv)) /\
    (forall r, r ∈ rows -> is_Some (m !! r_sv r)) /\
    (forall sv e, m !! sv = Some e -> hash_strs H e = sv) /\
    (NoDup (map r_sv rows) -> (forall r, r ∈ rows -> m0 !! r_sv r = None) ->
      forall r, r ∈ rows -> exists v, recorded vs comp (r_cv r) v)).
  { clear E m RW. induction rows as [|r rows IH]; intros m0 m RW M0 E; cbn in E.
    { injection E as <-. split_and!; auto.
      - by intros ? ?%elem_of_nil.
      - by intros _ _ ? ?%elem_of_nil. }
    assert (FE : forall e (rows : list vrow), foldl (exist_step vs comp) (Err e) rows = Err e) by (intros e rs; induction rs; auto).
    destruct (m0 !! r_sv r) as [e0|] eqn:E0.
    - edestruct IH as (D & A & B & C); [|exact M0|exact E|].
      { intros r' Hr'. apply RW. by right. }
      split_and!; auto.
      + intros r' [->|Hr']%elem_of_cons; [|by apply A]. apply D. rewrite E0. eauto.
      + intros ND NN. exfalso. rewrite (NN r) in E0; [done|by left].
    - destruct (get_version (vs_versions vs) comp (r_cv r)) as [v|e] eqn:Ev; cbn in E.
      2: { by rewrite FE in E. }
      apply recorded_get in Ev.
      assert (HV : hash_strs H (v_sexp v) = r_sv r).
      { destruct (RW r) as (k & v' & Hv & ->); [by left|].
        pose proof (vi_vers _ I _ _ _ Ev) as (Ecv & _ & G).
        destruct (recorded_unique_sem vs v k _ v' HI I G Ecv Hv) as (_ & _ & ->).
        destruct G as (_ & -> & _). done. }
      edestruct IH as (D & A & B & C); [| |exact E|].
      { intros r' Hr'. apply RW. by right. }
      { intros sv e. destruct (decide (sv = r_sv r)) as [->|Ne].
        - rewrite lookup_insert. intros [= <-]. done.
        - rewrite lookup_insert_ne by done. auto. }
      split_and!; auto.
      + intros sv S. apply D. destruct (decide (sv = r_sv r)) as [->|Ne].
        * rewrite lookup_insert. eauto.
        * by rewrite lookup_insert_ne.
      + intros r' [->|Hr']%elem_of_cons; [|by apply A]. apply D. rewrite lookup_insert. eauto.
      + intros ND NN r' Hr'. cbn in ND. apply NoDup_cons in ND as [N1 ND].
        apply elem_of_cons in Hr' as [->|Hr']; [eauto|].
        apply C; auto. intros r2 Hr2. rewrite lookup_insert_ne.
        * apply NN. by right.
        * intros Eq. apply N1. rewrite Eq. apply elem_of_list_In, in_map, elem_of_list_In, Hr2. }
  edestruct P as (_ & A & B & C); [exact RW| |exact E|].
  { intros sv e. by rewrite lookup_empty. }
  split_and!; auto.
  - intros r Hr Eu. apply A. apply elem_of_list_filter. auto.
  - intros r Hr Eu ND. apply C; auto. apply elem_of_list_filter. auto.
Qed.

Lemma check_ok vs comp uid v : Inj (=) (=) H -> vinv vs -> vgood vs v ->
  check_distinguishable vs comp uid v = Ok tt ->
  forall r, r ∈ vs_df vs -> r_uid r = uid -> exists e, hash_strs H e = r_sv r /\ conflict e (v_sexp v).
Proof.
  intros HI I G. unfold check_distinguishable.
  destruct (existing_expansions vs comp uid) as [m|] eqn:E; [|done]. cbn.
  destruct (forallb _ _) eqn:F; [|done]. intros _ r Hr Eu.
  destruct (existing_ok _ _ _ _ HI I E) as (A & B & _).
  destruct (A _ Hr Eu) as [e Ee]. exists e. split; [auto|].
  rewrite forallb_forall in F. apply agree_on_overlap_spec.
  apply negb_true_iff. apply (F (r_sv r, e)). by apply elem_of_list_In, elem_of_map_to_list.
Qed.

Lemma FOP_app (R : vrow -> vrow -> Prop) l x : ForallOrdPairs R l -> (forall y, y ∈ l -> R y x) ->
  ForallOrdPairs R (l ++ [x]).
Proof.
  induction 1 as [|y l F FO IH]; intros A; cbn.
  - repeat constructor.
  - constructor.
    + rewrite List.Forall_forall in *. intros z Hz. apply List.in_app_or in Hz as [Hz|[<-|[]]]; auto.
      apply A. by left.
    + apply IH. intros z Hz. apply A. by right.
Qed.

Lemma FOP_filter (R : vrow -> vrow -> Prop) (P : vrow -> Prop) `{!forall x, Decision (P x)} l :
  ForallOrdPairs R l -> ForallOrdPairs R (filter P l).
Proof.
  induction 1 as [|y l F FO IH]; [constructor|]. rewrite filter_cons.
  destruct (decide (P y)); auto. constructor; auto.
  rewrite List.Forall_forall in *. intros z Hz. apply elem_of_list_In, elem_of_list_filter in Hz as [_ Hz].
  apply F. by apply elem_of_list_In.
Qed.

Lemma conflict_irrefl e : conflict e e -> False.
Proof. intros (k & s1 & s2 & E1 & E2 & Ne). congruence. Qed.

Lemma conf_NoDup uid (l : list vrow) : Inj (=) (=) H -> ForallOrdPairs rconf l ->
  NoDup (map r_sv (filter (fun r => r_uid r = uid) l)).
Proof.
  intros HI. induction 1 as [|r l F FO IH]; [constructor|].
  rewrite filter_cons. destruct (decide (r_uid r = uid)) as [Eu|]; [|done].
  cbn. apply NoDup_cons. split; auto.
  intros (r' & E & I)%elem_of_list_In%in_map_iff. apply elem_of_list_In, elem_of_list_filter in I as [Eu' I].
  rewrite List.Forall_forall in F. apply elem_of_list_In in I.
  destruct (F _ I) as (e1 & e2 & E1 & E2 & C); [congruence|].
  assert (e1 = e2) as -> by (apply (hash_strs_inj H HI); congruence).
  by apply conflict_irrefl in C.
Qed.

(** ** Preservation *)
Lemma vgood_dags vs vs' v : vs_dags vs' = vs_dags vs -> vs_topology vs' = vs_topology vs ->
  vgood vs v -> vgood vs' v.
Proof.
  intros Ed Et (G1 & G2 & [D F] & G4). split_and!; auto.
  - split; auto. intros k hs E. destruct (F _ _ E) as [Ne G]. split; auto.
    intros h Hh. rewrite Ed. auto.
  - by rewrite Et.
Qed.

Lemma process_trace_inv tr uid vs r vs' : Inj (=) (=) H -> vinv vs -> one_root tr ->
  (forall k n, t_nodes tr !! k = Some n -> is_term n = false ->
    k ∈ dom (vs_topology vs) /\ exists c, node_content n = Ok c) ->
  process_trace H tr uid false vs = (r, vs') ->
  exists vs1, grown (map_to_list (t_nodes tr)) vs vs1 /\ vinv vs' /\ vs_dags vs' = vs_dags vs1 /\
  vs_topology vs' = vs_topology vs /\ vs_strict vs' = vs_strict vs /\
  (forall k cv v', recorded vs k cv v' -> recorded vs' k cv v') /\
  (forall v, r = Ok v ->
    make_version H vs1 (v_comp v) (t_nodes tr) = Ok v /\
    t_roots tr = {[v_comp v]} /\
    vs_df vs' = vs_df vs ++ [VRow uid (v_sv v) (v_cv v)] /\
    (exists v', recorded vs' (v_comp v) (v_cv v) v') /\
    (forall r, r ∈ vs_df vs -> r_uid r = uid ->
       (exists e, hash_strs H e = r_sv r /\ conflict e (v_sexp v)) /\
       exists v', recorded vs' (v_comp v) (r_cv r) v')).
Proof.
  intros HI I [comp Er] T. unfold process_trace.
  rewrite Er, elements_singleton.
  destruct (create_ok (map_to_list (t_nodes tr)) vs I) as (vs1 & E1 & G1).
  { intros k n P Et. apply elem_of_map_to_list in P. eauto. }
  unfold create_new_components, bindM. rewrite E1. clear E1.
  pose proof (gr_inv _ _ _ G1) as I1.
  assert (T1 : forall k n, t_nodes tr !! k = Some n -> is_term n = false -> k ∈ dom (vs_topology vs1)).
  { intros k n En Et. rewrite (gr_topo _ _ _ G1). by apply (T k n). }
  intros E. exists vs1. split; [done|].
  unfold sync_version in E.
  destruct (make_version H vs1 comp (t_nodes tr)) as [v|e] eqn:Ev.
  2: { injection E as <- <-. split_and!; try apply G1; auto; try done. }
  destruct (make_version_ok _ _ _ _ I1 T1 Ev) as (Gv & Ec & _). subst comp.
  unfold bindM in E. destruct (add_version v vs1) as [ra vs2] eqn:Ea.
  destruct (add_version_ok _ _ _ _ I1 Gv Ea) as (I2 & Ed & Edf & Et & Es & Rec & Rnew).
  assert (Rec' : forall k cv v', recorded vs k cv v' -> recorded vs2 k cv v').
  { intros k cv v' Hv. apply Rec. by apply G1. }
  destruct ra as [[]|e].
  2: { injection E as <- <-. rewrite Ed, Et, Es. split_and!; try apply G1; auto; done. }
  cbn in E. unfold retM in E. cbn in E.
  assert (Gv2 : vgood vs2 v) by (by apply (vgood_dags vs1)).
  destruct (check_distinguishable vs2 (v_comp v) uid v) as [[]|e] eqn:Ech.
  2: { injection E as <- <-. rewrite Ed, Et, Es. split_and!; try apply G1; auto; done. }
  injection E as <- <-. cbn.
  rewrite Edf, (gr_df _ _ _ G1).
  assert (Edf' : vs_df vs2 = vs_df vs) by (rewrite Edf; apply G1).
  pose proof (check_ok vs2 (v_comp v) uid v HI I2 Gv2 Ech) as CK. rewrite Edf' in CK.
  destruct Rnew as [v' Rnew]; [done|].
  split_and!; auto.
  - constructor; cbn.
    + apply I2. + apply I2. + apply I2. + apply I2.
    + intros k cv v'' Hv. destruct (vi_vers _ I2 k cv v'' Hv) as (? & ? & Gv''). split_and!; auto.
    + intros r' [Hr| ->%elem_of_list_singleton]%elem_of_app.
      * rewrite <-Edf' in Hr. exact (vi_rows _ I2 _ Hr).
      * exists (v_comp v), v'. split; [exact Rnew|].
        cbn. symmetry. apply (recorded_unique_sem vs2 v (v_comp v) (v_cv v) v' HI I2 Gv2 eq_refl Rnew).
    + apply FOP_app.
      * rewrite <-Edf'. apply I2.
      * intros y Hy Eu. cbn in Eu. destruct (CK _ Hy Eu) as (e & E1 & E2).
        exists e, (v_sexp v). split_and!; auto. cbn. symmetry. apply Gv2.
  - by rewrite Et, (gr_topo _ _ _ G1).
  - by rewrite Es, (gr_strict _ _ _ G1).
  - intros v0 [= <-]. split_and!; auto.
    + exists v'. exact Rnew.
    + intros r' Hr Eu. split; [auto|].
      unfold check_distinguishable in Ech.
      destruct (existing_expansions vs2 (v_comp v) uid) as [m|] eqn:Em; [|done].
      destruct (existing_ok _ _ _ _ HI I2 Em) as (_ & _ & C).
      rewrite Edf' in C. apply C; auto. apply conf_NoDup; auto. apply I.
Qed.

(** Traces compared with the code state. *)
Lemma apply_state_hypothesis_ok strict cs nodes nodes' :
  apply_state_hypothesis strict cs nodes = Ok nodes' ->
  forall k n, nodes' !! k = Some n ->
    (is_term n = true /\ nodes !! k = Some n) \/
    (exists c, is_term n = false /\ node_content n = Ok c /\
      ((exists n', cs !! k = Some n' /\ node_content n' = Ok c) \/ (cs !! k = None /\ is_global n = true))).
Proof.
  intros E k n En. destruct (foldr_map_to_list nodes (hypothesis_node strict cs) nodes' E) as [I1 I2].
  destruct (nodes !! k) as [n0|] eqn:E0; [|rewrite (I2 _ E0) in En; done].
  destruct (I1 _ _ E0) as (o & Eo & Ek). rewrite En in Ek. subst o.
  unfold hypothesis_node in Eo. destruct n0 as [s rt|h r|d cv].
  - destruct (cs !! k) as [[[src|] rt'|h' r'|d' cv']|] eqn:Ec.
    + destruct (_ && _); [done|]. injection Eo as <-. right. exists (CCode src).
      split_and!; auto. left. eexists; split; [done|]. done.
    + destruct (_ && _); done.
    + done.
    + done.
    + destruct strict; done.
  - destruct (cs !! k) as [n'|] eqn:Ec.
    + destruct (node_content n') as [c|] eqn:Enc; [|done]. cbn in Eo.
      destruct (decide (c = CGlobal h r)) as [->|]; [|done]. injection Eo as <-.
      right. exists (CGlobal h r). split_and!; auto. left. eauto.
    + injection Eo as <-. right. exists (CGlobal h r). split_and!; auto.
  - injection Eo as <-. auto.
Qed.

Lemma vinv_topology nodes vs : vinv vs -> vinv (update_topology nodes vs).
Proof.
  intros I. constructor; try apply I; cbn.
  - rewrite dom_union. etrans; [apply I|]. apply union_subseteq_r.
  - intros k cv v Hv. destruct (vi_vers _ I k cv v Hv) as (E1 & E2 & G1 & G2 & G3 & G4).
    split_and!; auto. split_and!; auto. cbn. rewrite dom_union. etrans; [exact G4|].
    apply union_subseteq_r.
Qed.

Lemma update_topology_dom nodes vs k : k ∈ dom (vs_topology (update_topology nodes vs)) <->
  k ∈ dom (vs_topology vs) \/ exists n, nodes !! k = Some n /\ is_term n = false.
Proof.
  cbn. rewrite dom_union, elem_of_union, (elem_of_dom (filter _ _)). unfold is_Some.
  setoid_rewrite map_filter_lookup_Some. cbn. naive_solver.
Qed.

(** One step of the reachable versioners. *)
Definition vtopo vs : Prop := dom (vs_topology vs) = dom (vs_dags vs).

Lemma finish_call_inv tr uid vs cs r vs' cs' : Inj (=) (=) H -> vinv vs -> vtopo vs -> one_root tr ->
  finish_call H tr uid (vs, cs) = (r, (vs', cs')) -> vinv vs' /\ vtopo vs'.
Proof.
  intros HI I TP OR. unfold finish_call.
  destruct (apply_state_hypothesis _ _ _) as [nodes|e] eqn:Ea; [|intros [= <- <- <-]; auto].
  destruct (process_trace _ _ _ _ _) as [r0 vs2] eqn:Ep. intros [= <- <- <-].
  pose proof (apply_state_hypothesis_ok _ _ _ _ Ea) as HN.
  apply process_trace_inv in Ep as (vs1 & G & I' & Ed & Et & _ & _ & _); auto.
  - split; auto. unfold vtopo. apply set_eq. intros k. rewrite Et, Ed, (gr_dom _ _ _ G).
    rewrite update_topology_dom. setoid_rewrite elem_of_map_to_list. unfold vtopo in TP. rewrite TP. done.
  - by apply vinv_topology.
  - cbn. intros k n En Etm. split.
    + apply update_topology_dom. eauto.
    + destruct (HN _ _ En) as [[? _]|(c & _ & ? & _)]; [congruence|eauto].
Qed.

Lemma later_trans (d1 d2 d3 : dag content) : later (chash H) cpresent d1 d2 ->
  later (chash H) cpresent d2 d3 -> later (chash H) cpresent d1 d3.
Proof. induction 1; intros; auto. eapply later_step; eauto. Qed.

Lemma csync_ok c sem d u r d' u' : hist d -> is_Some (d_head d) -> csync H c sem (d, u) = (r, (d', u')) ->
  hist d' /\ is_Some (d_head d') /\ d_commits d ⊆ d_commits d' /\
  (r = Ok (chash H c) /\ d_head d' = Some (chash H c) /\ is_Some (d_commits d' !! chash H c) \/
   exists e, r = Err e /\ d' = d).
Proof.
  intros Hd Hh E.
  assert (L : later (chash H) cpresent d d').
  { eapply (later_step _ _ _ (OSync c sem) u (match r with Ok _ => Ok tt | Err e => Err e end)); [|constructor].
    cbn. unfold bindM. unfold csync in E. rewrite E. destruct r; reflexivity. }
  destruct (history_wf _ _ _ Hd) as [ord W]. destruct (later_wf _ _ _ _ _ W L) as [X _].
  split; [eapply later_trans; eauto|].
  apply (sync_inv _ _ _ _ _ _ _ _ _ _ W) in E as [[-> [e ->]]|[(S & _ & -> & -> & ->)|(E & -> & N)]].
  - split_and!; eauto.
  - cbn. split_and!; eauto.
  - apply (commit_inv _ _ _ _ _ _ _ _ _ _ W) in E as [[-> [e [=]]]|(hd & hc & b & cur & _ & _ & _ & _ & _ & ->)].
    cbn in *. split_and!; eauto. left. rewrite lookup_insert. eauto.
Qed.

Lemma vinv_set_dags vs dags : vinv vs -> dom dags = dom (vs_dags vs) ->
  (forall k d, vs_dags vs !! k = Some d -> exists d', dags !! k = Some d' /\ d_commits d ⊆ d_commits d') ->
  (forall k d, dags !! k = Some d -> hist d /\ is_Some (d_head d)) -> vinv (set_dags dags vs).
Proof.
  intros I D X Hd. constructor; cbn; try apply I.
  - rewrite D. apply I.
  - rewrite D. apply I.
  - rewrite D. apply I.
  - exact Hd.
  - intros k cv v Hv. destruct (vi_vers _ I k cv v Hv) as (E1 & E2 & G1 & G2 & G3 & G4).
    split_and!; auto. split_and!; auto. eapply vsem_ext; [|exact G3]. exact X.
Qed.

Local Arguments csync : simpl never.

Lemma sync_dags_ok cs todo dags u r dags' u' :
  (forall k d, dags !! k = Some d -> hist d /\ is_Some (d_head d)) ->
  sync_dags H cs todo (dags, u) = (r, (dags', u')) ->
  dom dags' = dom dags /\
  (forall k d, dags !! k = Some d -> exists d', dags' !! k = Some d' /\ d_commits d ⊆ d_commits d') /\
  (forall k d, dags' !! k = Some d -> hist d /\ is_Some (d_head d)) /\
  (r = Ok tt -> forall k, k ∈ todo -> exists n h d, cs !! k = Some n /\ node_hash H n = Ok h /\
     dags' !! k = Some d /\ is_Some (d_commits d !! h) /\ (NoDup todo -> d_head d = Some h)) /\
  (forall k, k ∉ todo -> dags' !! k = dags !! k).
Proof.
  revert dags u. induction todo as [|k todo IH]; intros dags u Hd E; cbn in E.
  { injection E as <- <- <-. split_and!; eauto. by intros _ k ?%elem_of_nil. }
  destruct (cs !! k) as [n|] eqn:En; [|injection E as <- <- <-; split_and!; eauto; done].
  destruct (node_content n) as [c|] eqn:Ec; [|injection E as <- <- <-; split_and!; eauto; done].
  destruct (dags !! k) as [d|] eqn:Ed; [|injection E as <- <- <-; split_and!; eauto; done].
  destruct (csync H c None (d, u)) as [rc [d1 u1]] eqn:Es.
  destruct (Hd _ _ Ed) as [Hh Hs].
  destruct (csync_ok _ _ _ _ _ _ _ Hh Hs Es) as (H1 & H2 & X & R).
  assert (Hd1 : forall k' d', <[k:=d1]> dags !! k' = Some d' -> hist d' /\ is_Some (d_head d')).
  { intros k' d' E'. apply lookup_insert_Some in E' as [[<- <-]|[_ E']]; eauto. }
  assert (DD : dom (<[k:=d1]> dags) = dom dags).
  { rewrite dom_insert_L. apply elem_of_dom_2 in Ed. clear -Ed. set_solver. }
  assert (XX : forall k' d', dags !! k' = Some d' -> exists d2, <[k:=d1]> dags !! k' = Some d2 /\ d_commits d' ⊆ d_commits d2).
  { intros k' d' E'. destruct (decide (k' = k)) as [->|Ne].
    - rewrite lookup_insert. exists d1. split; auto. rewrite Ed in E'. by injection E' as <-.
    - rewrite lookup_insert_ne by done. eauto. }
  destruct R as [(-> & R1 & R2)|(e & -> & ->)].
  - destruct (IH _ _ Hd1 E) as (D & X2 & Hd2 & Q & K). split_and!.
    + congruence.
    + intros k' d' E'. destruct (XX _ _ E') as (d2 & E2 & S2). destruct (X2 _ _ E2) as (d3 & E3 & S3).
      exists d3. split; auto. by etrans.
    + exact Hd2.
    + intros -> k' [->|Hk]%elem_of_cons.
      * destruct (X2 k d1) as (d3 & E3 & S3); [by rewrite lookup_insert|].
        exists n, (chash H c), d3. split_and!; auto.
        -- unfold node_hash. by rewrite Ec.
        -- destruct R2 as [c2 R2]. exists c2. eapply lookup_weaken; eauto.
        -- intros [N _]%NoDup_cons. rewrite (K k N), lookup_insert in E3. congruence.
      * destruct (Q eq_refl _ Hk) as (n' & h & d' & ? & ? & ? & ? & ND). exists n', h, d'. split_and!; auto.
        intros [_ ?]%NoDup_cons. auto.
    + intros k' [Ne N]%not_elem_of_cons. rewrite (K k' N). by rewrite lookup_insert_ne.
  - injection E as <- <- <-. split_and!; auto; [done|].
    intros k' [Ne N]%not_elem_of_cons. by rewrite lookup_insert_ne.
Qed.

Lemma vinv_new strict : vinv (new_versioner strict).
Proof.
  constructor; cbn; rewrite ?dom_empty_L; [done|done|done| | | |].
  - intros k d E. by rewrite lookup_empty in E.
  - intros k cv v (m & E & _). cbn in E. by rewrite lookup_empty in E.
  - by intros r ?%elem_of_nil.
  - constructor.
Qed.

Lemma vinv_drop sv vs : vinv vs -> vinv (drop_semantic_version sv vs).
Proof.
  intros I.
  assert (RR : forall k cv v, recorded (drop_semantic_version sv vs) k cv v <->
    recorded vs k cv v /\ v_sv v <> sv).
  { intros k cv v. unfold recorded. cbn. rewrite lookup_fmap. split.
    - intros (m & E & E'). destruct (vs_versions vs !! k) as [m0|]; [|done]. injection E as <-.
      apply map_filter_lookup_Some in E' as [E' Ne]. cbn in Ne. split; auto. exists m0. auto.
    - intros [(m & -> & E) Ne]. eexists. split; [done|]. by apply map_filter_lookup_Some. }
  constructor; cbn; try apply I.
  - rewrite dom_fmap_L. apply I.
  - intros k cv v [Hv _]%RR. apply (vi_vers _ I _ _ _ Hv).
  - intros r [Ne Hr]%elem_of_list_filter. destruct (vi_rows _ I _ Hr) as (k & v & Hv & E).
    exists k, v. split; auto. apply RR. split; auto. congruence.
  - apply FOP_filter, I.
Qed.

Lemma sync_codebase_inv cs vs u r vs' u' : vinv vs -> sync_codebase H cs (vs, u) = (r, (vs', u')) ->
  vinv vs' /\ vs_topology vs' = vs_topology vs /\ dom (vs_dags vs') = dom (vs_dags vs) /\
  ((exists e, r = Err e) -> vs' = vs) /\
  (r = Ok tt -> forall k, k ∈ dom (vs_dags vs) -> exists n h d, cs !! k = Some n /\ node_hash H n = Ok h /\
     vs_dags vs' !! k = Some d /\ is_Some (d_commits d !! h) /\ d_head d = Some h).
Proof.
  intros I. unfold sync_codebase.
  destruct (sync_dags _ _ _ _) as [rs [dags u1]] eqn:E.
  pose proof (sync_dags_ok _ _ _ _ _ _ _ (vi_dags _ I) E) as (D & X & Hd & Q & _).
  destruct rs as [[]|e]; intros [= <- <- <-].
  2: { split_and!; auto. done. }
  split_and!; auto.
  - by apply vinv_set_dags.
  - intros [? [=]].
  - intros _ k Hk. destruct (Q eq_refl k) as (n & h & d & ? & ? & ? & ? & ND).
    { apply elem_of_list_fmap. apply elem_of_dom in Hk as [d Hk]. exists (k, d). split; auto.
      by apply elem_of_map_to_list. }
    exists n, h, d. split_and!; auto. apply ND. apply NoDup_fst_map_to_list.
Qed.

Lemma sync_component_inv k sem cs vs u r vs' u' : vinv vs ->
  sync_component H k sem cs (vs, u) = (r, (vs', u')) ->
  vinv vs' /\ vs_topology vs' = vs_topology vs /\ dom (vs_dags vs') = dom (vs_dags vs) /\ vdags_ext vs vs' /\
  ((exists e, r = Err e) -> vs_dags vs' = vs_dags vs).
Proof.
  intros I. unfold sync_component.
  assert (RX : vdags_ext vs vs) by (intros k' d' E; eauto).
  destruct (vs_dags vs !! k) as [d|] eqn:Ed; [|intros [= <- <- <-]; auto].
  destruct (cs !! k) as [n|] eqn:En; [|intros [= <- <- <-]; auto].
  destruct (node_content n) as [c|] eqn:Ec; [|intros [= <- <- <-]; auto].
  destruct (csync H c sem (d, u)) as [rc [d1 u1]] eqn:Es. intros [= <- <- <-].
  destruct (vi_dags _ I _ _ Ed) as [Hh Hs].
  destruct (csync_ok _ _ _ _ _ _ _ Hh Hs Es) as (H1 & H2 & X & R).
  assert (DD : dom (<[k:=d1]> (vs_dags vs)) = dom (vs_dags vs)).
  { rewrite dom_insert_L. apply elem_of_dom_2 in Ed. clear -Ed. set_solver. }
  assert (XX : forall k' d', vs_dags vs !! k' = Some d' -> exists d2, <[k:=d1]> (vs_dags vs) !! k' = Some d2 /\ d_commits d' ⊆ d_commits d2).
  { intros k' d' E'. destruct (decide (k' = k)) as [->|Ne].
    - rewrite lookup_insert. exists d1. split; auto. rewrite Ed in E'. by injection E' as <-.
    - rewrite lookup_insert_ne by done. eauto. }
  split_and!; auto.
  - apply vinv_set_dags; auto.
    intros k' d' E'. apply lookup_insert_Some in E' as [[<- <-]|[_ E']]; auto. by apply (vi_dags _ I _ _ E').
  - intros [e ->]. destruct R as [([=] & _)|(e' & _ & ->)]. cbn. by apply insert_id.
Qed.

Lemma vreach_inv vs : Inj (=) (=) H -> vreach H vs -> vinv vs /\ vtopo vs.
Proof.
  intros HI. induction 1 as [strict|vs cs u r vs' u' _ [I T] E|vs k sem cs u r vs' u' _ [I T] E
    |vs cs tr uid r vs' cs' _ [I T] OR E|vs sv _ [I T]].
  - split; [apply vinv_new|]. unfold vtopo. cbn. by rewrite !dom_empty_L.
  - destruct (sync_codebase_inv _ _ _ _ _ _ I E) as (I' & E1 & E2 & _). split; auto.
    unfold vtopo in *. congruence.
  - destruct (sync_component_inv _ _ _ _ _ _ _ _ I E) as (I' & E1 & E2 & _). split; auto.
    unfold vtopo in *. congruence.
  - eauto using finish_call_inv.
  - split; [by apply vinv_drop|done].
Qed.
End proofs.
