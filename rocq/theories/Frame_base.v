(** Basic facts on the frame model: membership relations of dicts of sets and of adjacencies,
    and what the elementary in-place updates do to them. *)
From stdpp Require Import base strings gmap list relations.
From Verif Require Import Base PyDict Refs Storage Frame Spec_Frame.
Local Open Scope pym_scope.

(** * Dicts of sets *)
Definition arel (a : adj) (n l x : string) : Prop := exists m, a !! n = Some m /\ smrel m l x.

Lemma smrel_empty k x : ~ smrel ∅ k x.
Proof. intros (X & HX & _). by rewrite lookup_empty in HX. Qed.
Lemma smrel_default m k x : smrel m k x <-> x ∈ default ∅ (m !! k).
Proof.
  unfold smrel. destruct (m !! k) as [X|]; cbn.
  - split; [intros (? & [= <-] & ?)|]; eauto.
  - split; [intros (? & ? & _); done|set_solver].
Qed.
Lemma smrel_add m k x k' x' : smrel (sm_add k x m) k' x' <-> smrel m k' x' \/ (k' = k /\ x' = x).
Proof.
  rewrite !smrel_default. unfold sm_add. destruct (decide (k' = k)) as [->|Hn].
  - rewrite lookup_insert. cbn. set_solver.
  - rewrite lookup_insert_ne by done. naive_solver.
Qed.
Lemma dom_sm_add m k x : dom (sm_add k x m) = {[k]} ∪ dom m.
Proof. unfold sm_add. apply dom_insert_L. Qed.
Lemma sm_remove_ok m k x m' : sm_remove k x m = Ok m' <->
  exists X, m !! k = Some X /\ x ∈ X /\ m' = <[k := X ∖ {[x]}]> m.
Proof.
  unfold sm_remove, at_key. destruct (m !! k) as [X|]; cbn.
  - case_decide; cbn; split.
    + intros [= <-]. eauto.
    + intros (? & [= <-] & ? & ->). done.
    + done.
    + intros (? & [= <-] & ? & ->). done.
  - split; [done|intros (? & ? & _); done].
Qed.
Lemma smrel_remove m k x m' : sm_remove k x m = Ok m' ->
  (forall k' x', smrel m' k' x' <-> smrel m k' x' /\ ~ (k' = k /\ x' = x)) /\ dom m' = dom m /\ smrel m k x.
Proof.
  rewrite sm_remove_ok. intros (X & HX & Hx & ->). split_and!.
  - intros k' x'. rewrite !smrel_default. destruct (decide (k' = k)) as [->|Hn].
    + rewrite lookup_insert, HX. cbn. set_solver.
    + rewrite lookup_insert_ne by done. naive_solver.
  - apply dom_insert_lookup_L. eauto.
  - by exists X.
Qed.
Lemma sm_remove_total m k x : smrel m k x -> exists m', sm_remove k x m = Ok m'.
Proof. intros (X & HX & Hx). eexists. apply sm_remove_ok. eauto. Qed.
Lemma sm_remove_cases m k x : (exists m', sm_remove k x m = Ok m') \/ sm_remove k x m = Err EKeyError.
Proof.
  unfold sm_remove, at_key. destruct (m !! k); cbn; [|eauto]. case_decide; eauto.
Qed.

Lemma elem_of_union_values m x : x ∈ union_values m <-> exists k, smrel m k x.
Proof.
  unfold union_values, smrel. rewrite elem_of_union_list. split.
  - intros (X & HX & Hx). apply elem_of_list_fmap in HX as ([k X'] & -> & HkX).
    apply elem_of_map_to_list in HkX. eauto.
  - intros (k & X & HX & Hx). exists X. split; [|done]. apply elem_of_list_fmap.
    exists (k, X). split; [done|]. by apply elem_of_map_to_list.
Qed.

(** * Adjacencies *)
Lemma arel_empty n l x : ~ arel ∅ n l x.
Proof. intros (m & Hm & _). by rewrite lookup_empty in Hm. Qed.
Lemma arel_add n l x a a' : adj_add n l x a = Ok a' ->
  (forall n' l' x', arel a' n' l' x' <-> arel a n' l' x' \/ (n' = n /\ l' = l /\ x' = x)) /\
  dom a' = dom a /\ n ∈ dom a.
Proof.
  unfold adj_add, at_key. destruct (a !! n) as [m|] eqn:Hn; cbn; [|done]. intros [= <-].
  split_and!.
  - intros n' l' x'. unfold arel. destruct (decide (n' = n)) as [->|Hne].
    + rewrite lookup_insert. setoid_rewrite Hn. split.
      * intros (m' & [= <-] & Hm). apply smrel_add in Hm as [Hm|[-> ->]]; eauto.
      * intros [(m' & [= <-] & Hm)|(_ & -> & ->)]; (eexists; split; [done|]); apply smrel_add; eauto.
    + rewrite lookup_insert_ne by done. naive_solver.
  - apply dom_insert_lookup_L. eauto.
  - apply elem_of_dom. eauto.
Qed.
Lemma adj_add_total n l x a : n ∈ dom a -> exists a', adj_add n l x a = Ok a'.
Proof. intros [m Hm]%elem_of_dom. unfold adj_add, at_key. rewrite Hm. cbn. eauto. Qed.
Lemma arel_remove n l x a a' : adj_remove n l x a = Ok a' ->
  (forall n' l' x', arel a' n' l' x' <-> arel a n' l' x' /\ ~ (n' = n /\ l' = l /\ x' = x)) /\
  dom a' = dom a /\ arel a n l x.
Proof.
  unfold adj_remove, at_key. destruct (a !! n) as [m|] eqn:Hn; cbn; [|done].
  destruct (sm_remove l x m) as [m'|] eqn:Hm; cbn; [|done]. intros [= <-].
  apply smrel_remove in Hm as (Hm & Hdom & Hx). split_and!.
  - intros n' l' x'. unfold arel. destruct (decide (n' = n)) as [->|Hne].
    + rewrite lookup_insert. setoid_rewrite Hn. split.
      * intros (m'' & [= <-] & Hm'). apply Hm in Hm' as [? ?]. split; [eauto|naive_solver].
      * intros ((m'' & [= <-] & Hm') & Hno). eexists; split; [done|]. apply Hm. naive_solver.
    + rewrite lookup_insert_ne by done. naive_solver.
  - apply dom_insert_lookup_L. eauto.
  - exists m. eauto.
Qed.
Lemma adj_remove_total n l x a : arel a n l x -> exists a', adj_remove n l x a = Ok a'.
Proof.
  intros (m & Hm & Hx). unfold adj_remove, at_key. rewrite Hm. cbn.
  destruct (sm_remove_total _ _ _ Hx) as [m' ->]. cbn. eauto.
Qed.

Lemma has_edge_arel F s d l : has_edge F s d l <-> arel (f_out F) s l d.
Proof. unfold has_edge, arel, smrel. naive_solver. Qed.
Lemma has_in_edge_arel F s d l : has_in_edge F s d l <-> arel (f_inp F) d l s.
Proof. unfold has_in_edge, arel, smrel. naive_solver. Qed.
Lemma in_var_smrel F v h : in_var F v h <-> smrel (f_vs F) v h.
Proof. done. Qed.
Lemma in_func_smrel F f c : in_func F f c <-> smrel (f_fs F) f c.
Proof. done. Qed.

Lemma elem_of_edges F s d l : (s, d, l) ∈ edges F <-> has_edge F s d l.
Proof.
  unfold edges, edges_list. rewrite elem_of_list_to_set. split.
  - intros H. apply elem_of_list_bind in H as ([s' m] & H & Hs). apply elem_of_map_to_list in Hs.
    apply elem_of_list_bind in H as ([l' X] & H & Hl). cbn in *. apply elem_of_map_to_list in Hl.
    apply elem_of_list_fmap in H as (d' & [= <- <- <-] & Hd). apply elem_of_elements in Hd.
    exists m, X. done.
  - intros (m & X & Hs & Hl & Hd). apply elem_of_list_bind. exists (s, m).
    split; [|by apply elem_of_map_to_list]. cbn. apply elem_of_list_bind. exists (l, X).
    split; [|by apply elem_of_map_to_list]. cbn. apply elem_of_list_fmap. exists d.
    split; [done|]. by apply elem_of_elements.
Qed.
Lemma elem_of_edges_list F s d l : (s, d, l) ∈ edges_list F <-> has_edge F s d l.
Proof. rewrite <-elem_of_edges. unfold edges. by rewrite elem_of_list_to_set. Qed.
Lemma elem_of_in_edges F n s d l : (s, d, l) ∈ in_edges n F <-> has_edge F s d l /\ d = n.
Proof. unfold in_edges. rewrite elem_of_filter, elem_of_edges. naive_solver. Qed.
Lemma elem_of_out_edges F n s d l : (s, d, l) ∈ out_edges n F <-> has_edge F s d l /\ s = n.
Proof. unfold out_edges. rewrite elem_of_filter, elem_of_edges. naive_solver. Qed.
Lemma elem_of_adjacent F n s d l : (s, d, l) ∈ adjacent n F <-> has_edge F s d l /\ (s = n \/ d = n).
Proof. unfold adjacent. rewrite elem_of_filter, elem_of_edges. naive_solver. Qed.

(** * The state monad *)
Lemma bindM_ok {S A B} (m : M S A) (k : A -> M S B) s s' b :
  bindM m k s = (Ok b, s') -> exists a s1, m s = (Ok a, s1) /\ k a s1 = (Ok b, s').
Proof. unfold bindM. destruct (m s) as [[a|e] s1]; [eauto|done]. Qed.
Lemma bindM_step {S A B} (m : M S A) (k : A -> M S B) s a s1 : m s = (Ok a, s1) -> bindM m k s = k a s1.
Proof. unfold bindM. by intros ->. Qed.
Lemma bindM_getM {S B} (k : S -> M S B) s : bindM getM k s = k s s.
Proof. done. Qed.
Lemma bindM_modM {S B} f (k : unit -> M S B) s : bindM (modM f) k s = k tt (f s).
Proof. done. Qed.
Lemma bindM_liftR {S A B} (r : result A) (k : A -> M S B) s a : r = Ok a -> bindM (liftR r) k s = k a s.
Proof. by intros ->. Qed.
Lemma liftR_ok {S A} (r : result A) (s s' : S) a : liftR r s = (Ok a, s') -> r = Ok a /\ s' = s.
Proof. unfold liftR. naive_solver. Qed.
Lemma at_key_ok {A} k (m : gmap string A) a : at_key k m = Ok a <-> m !! k = Some a.
Proof. unfold at_key. destruct (m !! k); cbn; naive_solver. Qed.
Lemma m_del_ok {A} k (m m' : gmap string A) : m_del k m = Ok m' <-> is_Some (m !! k) /\ m' = delete k m.
Proof. unfold m_del. case_decide; naive_solver. Qed.

(** a loop whose steps keep a relation between the start and now *)
Lemma iterM_ind {S A} (f : A -> M S unit) (P : list A -> S -> Prop) l :
  (forall done x rest s s', l = done ++ x :: rest -> P done s -> f x s = (Ok tt, s') -> P (done ++ [x]) s') ->
  forall s s', P [] s -> iterM f l s = (Ok tt, s') -> P l s'.
Proof.
  intros Hstep.
  cut (forall rest done s s', l = done ++ rest -> P done s -> iterM f rest s = (Ok tt, s') -> P l s').
  { intros H s s' HP Hr. by eapply (H l [] s s'). }
  intros rest. induction rest as [|x rest IH]; intros done s s' Hl HP Hr.
  - cbn in Hr. unfold retM in Hr. injection Hr as <-. rewrite app_nil_r in Hl. by subst.
  - cbn in Hr. apply bindM_ok in Hr as ([] & s1 & H1 & H2).
    eapply (IH (done ++ [x])); [by rewrite <-app_assoc| |done]. eapply Hstep; eauto.
Qed.
(** the same for loops that never fail *)
Lemma iterM_total {S A} (f : A -> M S unit) (P : list A -> S -> Prop) l :
  (forall done x rest s, l = done ++ x :: rest -> P done s -> exists s', f x s = (Ok tt, s') /\ P (done ++ [x]) s') ->
  forall s, P [] s -> exists s', iterM f l s = (Ok tt, s') /\ P l s'.
Proof.
  intros Hstep.
  cut (forall rest done s, l = done ++ rest -> P done s -> exists s', iterM f rest s = (Ok tt, s') /\ P l s').
  { intros H s HP. by eapply (H l [] s). }
  intros rest. induction rest as [|x rest IH]; intros done s Hl HP.
  - rewrite app_nil_r in Hl. subst. cbn. unfold retM. eauto.
  - destruct (Hstep done x rest s) as (s1 & H1 & HP1); [done..|].
    destruct (IH (done ++ [x]) s1) as (s2 & H2 & HP2); [by rewrite <-app_assoc|done|].
    exists s2. cbn. unfold bindM. by rewrite H1.
Qed.

Section orders.
  Context (ord : sset -> list string) (eord : gset edge3 -> list edge3).
  Context (Hords : orders ord eord).
  Lemma ord_elem X x : x ∈ ord X <-> x ∈ X.
  Proof. destruct Hords as [H _]. by rewrite (H X), elem_of_elements. Qed.
  Lemma ord_nodup X : NoDup (ord X).
  Proof. destruct Hords as [H _]. rewrite (H X). apply NoDup_elements. Qed.
  Lemma eord_elem X x : x ∈ eord X <-> x ∈ X.
  Proof. destruct Hords as [_ H]. by rewrite (H X), elem_of_elements. Qed.
  Lemma eord_nodup X : NoDup (eord X).
  Proof. destruct Hords as [_ H]. rewrite (H X). apply NoDup_elements. Qed.
End orders.

(** * Dropping edges *)
Definition mirrored (F : frame) : Prop := forall s d l, has_edge F s d l <-> has_in_edge F s d l.

Lemma drop_edge_total F s d l : mirrored F -> has_edge F s d l -> exists i o,
  drop_edge (s, d, l) F = (Ok tt, set_inp i (set_out o F)) /\
  dom i = dom (f_inp F) /\ dom o = dom (f_out F) /\
  (forall s' l' d', arel o s' l' d' <-> arel (f_out F) s' l' d' /\ (s', d', l') <> (s, d, l)) /\
  (forall s' l' d', arel i d' l' s' <-> arel (f_inp F) d' l' s' /\ (s', d', l') <> (s, d, l)).
Proof.
  intros Hm He. pose proof (proj1 (Hm s d l) He) as Hi.
  apply has_edge_arel in He. apply has_in_edge_arel in Hi.
  destruct (adj_remove_total _ _ _ _ He) as [o Ho]. destruct (adj_remove_total _ _ _ _ Hi) as [i Hi'].
  exists i, o. unfold drop_edge, bindM, getM, liftR, modM. cbn. rewrite Ho. cbn. rewrite Hi'. cbn.
  apply arel_remove in Ho as (Ho1 & Ho2 & _). apply arel_remove in Hi' as (Hi1 & Hi2 & _).
  split_and!; [done|done|done|intros; rewrite Ho1; naive_solver|intros; rewrite Hi1; naive_solver].
Qed.

Lemma drop_edges_total F es : mirrored F -> NoDup es -> (forall s d l, (s, d, l) ∈ es -> has_edge F s d l) ->
  exists i o,
    iterM drop_edge es F = (Ok tt, set_inp i (set_out o F)) /\
    dom i = dom (f_inp F) /\ dom o = dom (f_out F) /\
    (forall s l d, arel o s l d <-> arel (f_out F) s l d /\ (s, d, l) ∉ es) /\
    (forall s l d, arel i d l s <-> arel (f_inp F) d l s /\ (s, d, l) ∉ es).
Proof.
  intros Hm Hnd Hes.
  destruct (iterM_total drop_edge (fun dn G => exists i o, G = set_inp i (set_out o F) /\
    dom i = dom (f_inp F) /\ dom o = dom (f_out F) /\
    (forall s l d, arel o s l d <-> arel (f_out F) s l d /\ (s, d, l) ∉ dn) /\
    (forall s l d, arel i d l s <-> arel (f_inp F) d l s /\ (s, d, l) ∉ dn)) es) with (s := F)
    as (G & HG & i & o & -> & H).
  - intros dn [[s d] l] rest G -> (i & o & -> & Hi & Ho & Ho' & Hi').
    apply NoDup_app in Hnd as (_ & Hnd & _).
    set (G := set_inp i (set_out o F)).
    assert (mirrored G).
    { intros s' d' l'. rewrite has_edge_arel, has_in_edge_arel. unfold G. cbn. rewrite Ho', Hi'.
      rewrite <-has_edge_arel, <-has_in_edge_arel, (Hm s' d' l'). done. }
    assert (has_edge G s d l).
    { rewrite has_edge_arel. unfold G. cbn. rewrite Ho'. split.
      - apply has_edge_arel, Hes. apply elem_of_app. right. left.
      - intros Hin. eapply (Hnd (s, d, l)); [done|left]. }
    destruct (drop_edge_total G s d l) as (i' & o' & Hd & Hdi & Hdo & Ho2 & Hi2); [done..|].
    exists (set_inp i' (set_out o' G)). split; [done|].
    exists i', o'. split; [done|]. split; [by rewrite Hdi|]. split; [by rewrite Hdo|]. split.
    + intros. rewrite Ho2. unfold G. cbn. rewrite Ho', elem_of_app, elem_of_list_singleton. naive_solver.
    + intros. rewrite Hi2. unfold G. cbn. rewrite Hi', elem_of_app, elem_of_list_singleton. naive_solver.
  - exists (f_inp F), (f_out F). split; [by destruct F|]. split; [done|]. split; [done|].
    split; intros; set_solver.
  - eauto.
Qed.
