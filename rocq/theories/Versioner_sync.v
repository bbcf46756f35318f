(** Synchronizing twice, failing synchronizations, and declared equalities. *)
From stdpp Require Import base strings gmap list relations fin_sets.
From Verif Require Import Base Dag Spec_Dag Dag_proofs Versioner Spec_Versioner Versioner_proofs Versioner_lookup.

Section dagsync.
Context {T : Type} (hash : T -> string) (present : T -> string).
Implicit Types (d : dag T) (u : user).

Lemma sync_head t sem d u h d' u' : sync hash present t sem (d, u) = (Ok h, (d', u')) ->
  d_head d' = Some (hash t).
Proof.
  unfold sync. destruct (d_head d) as [hd|]; [|done].
  destruct (if decide _ then _ else _) as [[r|] [d1 u1]]; [|done].
  destruct (decide (d_head d1 = Some (hash t))); [|done]. by intros [= _ <- _].
Qed.
Lemma sync_again t sem d u : d_head d = Some (hash t) ->
  sync hash present t sem (d, u) = (Ok (hash t), (d, u)).
Proof. intros E. unfold sync. rewrite E. rewrite decide_True by done. by rewrite decide_True by done. Qed.
Lemma sync_twice t sem sem' d u h d' u' u2 : sync hash present t sem (d, u) = (Ok h, (d', u')) ->
  sync hash present t sem' (d', u2) = (Ok (hash t), (d', u2)).
Proof. intros E%sync_head. by apply sync_again. Qed.

(** Every history was built by answers. *)
Lemma later_declared eqs d d' : declared_history hash present eqs d -> later hash present d d' ->
  exists eqs', declared_history hash present eqs' d' /\ (forall p, p ∈ eqs -> p ∈ eqs').
Proof.
  intros D L. revert eqs D. induction L as [d|d o u r d1 u1 d2 R L IH]; intros eqs D.
  { eauto. }
  assert (exists eqs1, declared_history hash present eqs1 d1 /\ (forall p, p ∈ eqs -> p ∈ eqs1)) as (eqs1 & D1 & S1).
  { assert (AD : forall (b : bool) (x : string * string) p, p ∈ eqs -> p ∈ (if b then eqs else x :: eqs)).
    { intros [] x p Hp; [done|]. by right. }
    destruct (history_wf _ _ _ (declared_later _ _ _ _ D)) as [ord W].
    destruct o as [t|t sem|h|t sem]; cbn in R; unfold bindM in R.
    - destruct (init hash t (d, u)) as [[h|e] [d3 u3]] eqn:E; cbn in R.
      + injection R as <- <- <-. exists eqs. split; auto. by eapply dh_init.
      + unfold init in E. destruct (d_head d); [|done]. injection E as <- <- <-. injection R as <- <- <-. eauto.
    - destruct (commit_content hash present t sem (d, u)) as [rc [d3 u3]] eqn:E.
      pose proof E as E'. apply (commit_inv _ _ _ _ _ _ _ _ _ _ W) in E' as [[-> [e ->]]|(hd & hc & b & cur & E1 & E2 & E3 & E4 & -> & _)].
      + cbn in R. injection R as <- <- <-. eauto.
      + cbn in R. injection R as <- <- <-. exists (if b then eqs else (hd, hash t) :: eqs). split; auto.
        by eapply dh_commit.
    - destruct r as [[]|e].
      + exists eqs. split; auto. by eapply dh_checkout.
      + unfold checkout in R. destruct (d_commits d !! h); [done|]. injection R as <- <- <-. eauto.
    - destruct (sync hash present t sem (d, u)) as [rc [d3 u3]] eqn:E.
      pose proof E as E'. apply (sync_inv _ _ _ _ _ _ _ _ _ _ W) in E' as [[-> [e ->]]|[(S & _ & -> & -> & _)|(E' & -> & N)]];
        cbn in R; injection R as <- <- <-.
      + eauto.
      + exists eqs. split; auto. eapply dh_sync_known; eauto. by apply elem_of_dom.
      + apply (commit_inv _ _ _ _ _ _ _ _ _ _ W) in E' as [[_ [e [=]]]|(hd & hc & b & cur & E1 & E2 & E3 & E4 & _ & _)].
        exists (if b then eqs else (hd, hash t) :: eqs). split; auto.
        eapply dh_sync_new; eauto. by apply not_elem_of_dom. }
  destruct (IH _ D1) as (eqs2 & D2 & S2). exists eqs2. auto.
Qed.
Lemma history_declared d : history hash present d -> exists eqs, declared_history hash present eqs d.
Proof.
  intros L. destruct (later_declared [] _ _ (dh_empty _ _) L) as (eqs & D & _). eauto.
Qed.

(** A new semantic version is new. *)
Lemma semantic_fresh d (a h : string) : history hash present d -> d_commits d !! h = None -> semantic d a <> Some h.
Proof. intros Hd N E. apply (semantic_known hash present d a h Hd) in E as [? E]. congruence. Qed.
End dagsync.

Section vsync.
Context (H : pyval -> string).
Implicit Types (vs : versioner) (cs : code_state).
Local Arguments csync : simpl never.

Definition at_head (dags : gmap depkey (dag content)) cs k : Prop :=
  exists n c d, cs !! k = Some n /\ node_content n = Ok c /\ dags !! k = Some d /\ d_head d = Some (chash H c).

Lemma sync_dags_heads cs todo dags u r dags' u' :
  sync_dags H cs todo (dags, u) = (r, (dags', u')) -> NoDup todo ->
  (r = Ok tt -> forall k, k ∈ todo -> at_head dags' cs k) /\
  (forall k, k ∉ todo -> dags' !! k = dags !! k).
Proof.
  revert dags u. induction todo as [|k todo IH]; intros dags u E ND; cbn in E.
  { injection E as <- <- <-. split; auto. by intros _ k ?%elem_of_nil. }
  apply NoDup_cons in ND as [N ND].
  destruct (cs !! k) as [n|] eqn:En; [|injection E as <- <- <-; done].
  destruct (node_content n) as [c|] eqn:Ec; [|injection E as <- <- <-; done].
  destruct (dags !! k) as [d|] eqn:Ed; [|injection E as <- <- <-; done].
  destruct (csync H c None (d, u)) as [[h|e] [d1 u1]] eqn:Es.
  - apply IH in E as [I1 I2]; [|done]. split.
    + intros -> k' [->|Hk]%elem_of_cons; [|by apply I1].
      exists n, c, d1. split_and!; auto.
      * rewrite I2 by done. by rewrite lookup_insert.
      * by eapply sync_head.
    + intros k' [Ne Nk]%not_elem_of_cons. rewrite I2 by done. by rewrite lookup_insert_ne.
  - injection E as <- <- <-. split; [done|]. intros k' [Ne Nk]%not_elem_of_cons.
    by rewrite lookup_insert_ne.
Qed.

Lemma sync_dags_again cs todo dags u : (forall k, k ∈ todo -> at_head dags cs k) ->
  sync_dags H cs todo (dags, u) = (Ok tt, (dags, u)).
Proof.
  induction todo as [|k todo IH]; intros A; [done|]. cbn.
  destruct (A k) as (n & c & d & -> & -> & E & Eh); [by left|]. rewrite E.
  unfold csync. rewrite sync_again by done. rewrite insert_id by done. apply IH.
  intros k' Hk. apply A. by right.
Qed.

Lemma sync_codebase_twice cs vs u vs' u' u2 : sync_codebase H cs (vs, u) = (Ok tt, (vs', u')) ->
  sync_codebase H cs (vs', u2) = (Ok tt, (vs', u2)).
Proof.
  unfold sync_codebase. destruct (sync_dags _ _ _ _) as [[[]|e] [dags u1]] eqn:E; [|done].
  intros [= <- <-]. apply sync_dags_heads in E as [I1 I2]; [|apply NoDup_fst_map_to_list].
  cbn. rewrite sync_dags_again; [done|].
  intros k ([k' d] & -> & I)%elem_of_list_fmap. cbn. apply elem_of_map_to_list in I.
  apply I1; [done|]. destruct (decide (k' ∈ (map_to_list (vs_dags vs)).*1)) as [|N]; [done|].
  pose proof (I2 _ N) as E. rewrite I in E. exfalso. apply N, elem_of_list_fmap.
  exists (k', d). split; auto. by apply elem_of_map_to_list.
Qed.

Lemma sync_component_twice k sem sem' cs vs u h vs' u' u2 :
  sync_component H k sem cs (vs, u) = (Ok h, (vs', u')) ->
  exists h', sync_component H k sem' cs (vs', u2) = (Ok h', (vs', u2)).
Proof.
  unfold sync_component. destruct (vs_dags vs !! k) as [d|] eqn:Ed; [|done].
  destruct (cs !! k) as [n|]; [|done]. destruct (node_content n) as [c|]; [|done].
  destruct (csync H c sem (d, u)) as [r [d1 u1]] eqn:Es. intros [= -> <- <-]. cbn.
  rewrite lookup_insert. unfold csync in *. apply sync_head in Es. rewrite sync_again by done.
  eexists. do 2 f_equal. unfold set_dags. cbn. f_equal. by rewrite insert_insert.
Qed.

Lemma sync_codebase_fail cs vs u e vs' u' : sync_codebase H cs (vs, u) = (Err e, (vs', u')) -> vs' = vs.
Proof.
  unfold sync_codebase. destruct (sync_dags _ _ _ _) as [[[]|e'] [dags u1]] eqn:E; [done|]. by intros [= _ <- _].
Qed.

Lemma csync_fail c sem d u e d' u' : csync H c sem (d, u) = (Err e, (d', u')) -> d' = d.
Proof.
  unfold csync, sync. destruct (d_head d) as [hd|] eqn:Eh; [|by intros [= _ <- _]].
  destruct (decide (hd = chash H c)) as [->|Ne].
  { rewrite decide_True by done. done. }
  destruct (d_commits d !! chash H c) as [cc|] eqn:Ec.
  { unfold bindM, checkout, retM. rewrite Ec. cbn. rewrite decide_True by done. done. }
  destruct (commit_content _ _ _ _ _) as [[r|e'] [d1 u1]] eqn:E.
  - unfold commit_content in E. rewrite Eh, Ec in E. destruct (d_commits d !! hd); [|done].
    destruct (decide_semantic _ _ _ _ _) as [[b|] [d2 u2]]; [|done].
    destruct (get_content d2 hd); [|done]. injection E as <- <- <-. cbn. rewrite decide_True by done. done.
  - intros [= _ <- _]. unfold commit_content in E. rewrite Eh, Ec in E.
    destruct (d_commits d !! hd); [|by injection E].
    destruct (decide_semantic _ _ _ _ _) as [rr [d2 u2]] eqn:E2.
    apply (decide_semantic_inv (chash H)) in E2 as [-> _]. destruct rr as [b|]; [|by injection E].
    destruct (get_content d hd); [done|]. by injection E.
Qed.

Lemma sync_component_fail k sem cs vs u e vs' u' :
  sync_component H k sem cs (vs, u) = (Err e, (vs', u')) -> vs' = vs.
Proof.
  unfold sync_component. destruct (vs_dags vs !! k) as [d|] eqn:Ed; [|by intros [= _ <- _]].
  destruct (cs !! k) as [n|]; [|by intros [= _ <- _]].
  destruct (node_content n) as [c|]; [|by intros [= _ <- _]].
  destruct (csync H c sem (d, u)) as [r [d1 u1]] eqn:Es. intros [= -> <- _].
  apply csync_fail in Es as ->. rewrite insert_id by done. by destruct vs.
Qed.

(** ** Lookups *)
Lemma lookup_call_sound vs cs comp uid cv sv : Inj (=) (=) H -> vreach H vs ->
  lookup_call H vs comp uid cs = Ok (Some (cv, sv)) ->
  exists v r, r ∈ vs_df vs /\ r_uid r = uid /\ r_cv r = cv /\ r_sv r = sv /\
    recorded vs comp cv v /\ v_sv v = sv /\ compatible H vs cs v.
Proof.
  intros HI R. destruct (vreach_inv H vs HI R) as [I _]. unfold lookup_call.
  destruct (codestate_hashes H vs cs) as [[hs|]|e] eqn:Hs; [|done|done]. cbn. intros E.
  apply (lookup_rows_sound H _ _ _ _ _ _ _ HI I Hs) in E as (v & r & Hr & E1 & E2 & Rv & E3 & S).
  2: { intros r [_ ?]%elem_of_list_filter. done. }
  apply elem_of_list_filter in Hr as [Eu Hr]. exists v, r. split_and!; auto.
  apply (compatible_sub H _ _ hs); auto. by apply (vi_vers _ _ I) in Rv as (_ & _ & ?).
Qed.

Lemma compatible_declared vs cs v k hs h d n hc eqs : Inj (=) (=) H -> vreach H vs ->
  compatible H vs cs v -> v_cexp v !! k = Some hs -> h ∈ hs ->
  vs_dags vs !! k = Some d -> cs !! k = Some n -> node_hash H n = Ok hc ->
  declared_history (chash H) cpresent eqs d -> declared_equal eqs h hc.
Proof.
  intros HI R C Ek Hh Ed En Eh D.
  destruct (C _ _ _ Ek Hh) as (d' & s & E1 & E2 & (n' & h' & d'' & F1 & F2 & F3 & F4)).
  assert (d' = d) as -> by congruence. assert (d'' = d) as -> by congruence.
  assert (n' = n) as -> by congruence. assert (h' = hc) as -> by congruence.
  apply (semantic_declared _ _ eqs d h hc D).
  - unfold semantic in E2. apply fmap_Some in E2 as (c & E2 & _). eauto.
  - unfold semantic in F4. apply fmap_Some in F4 as (c & F4 & _). eauto.
  - congruence.
Qed.

Lemma lookup_order vs df' cs comp uid : Inj (=) (=) H -> vreach H vs -> df' ≡ₚ vs_df vs ->
  (forall r, r ∈ vs_df vs -> r_uid r = uid -> exists v, recorded vs comp (r_cv r) v) ->
  lookup_call H (Versioner (vs_strict vs) (vs_topology vs) (vs_nodes vs) (vs_dags vs) (vs_versions vs) df')
    comp uid cs = lookup_call H vs comp uid cs.
Proof.
  intros HI R P Ex. destruct (vreach_inv H vs HI R) as [I _]. unfold lookup_call.
  change (codestate_hashes H (Versioner (vs_strict vs) (vs_topology vs) (vs_nodes vs) (vs_dags vs) (vs_versions vs) df') cs)
    with (codestate_hashes H vs cs).
  destruct (codestate_hashes H vs cs) as [[hs|]|e] eqn:Hs; [|done|done]. cbn.
  assert (LR : forall rows, lookup_rows H (Versioner (vs_strict vs) (vs_topology vs) (vs_nodes vs) (vs_dags vs) (vs_versions vs) df')
    comp hs rows = lookup_rows H vs comp hs rows).
  { induction rows as [|r rows IH]; [done|]. cbn. by rewrite IH. }
  rewrite LR.
  set (rows1 := filter (fun r => r_uid r = uid) df'). set (rows2 := filter (fun r => r_uid r = uid) (vs_df vs)).
  assert (P12 : rows1 ≡ₚ rows2) by (by apply filter_Permutation).
  assert (A2 : forall r, r ∈ rows2 -> r ∈ vs_df vs /\ r_uid r = uid) by (intros r [? ?]%elem_of_list_filter; done).
  assert (A1 : forall r, r ∈ rows1 -> r ∈ vs_df vs /\ r_uid r = uid) by (intros r Hr; apply A2; by rewrite <-P12).
  destruct (lookup_rows_complete H vs cs comp hs rows1 HI I Hs) as (o1 & E1 & N1).
  { intros r Hr. by apply A1. }
  { intros r Hr. apply A1 in Hr as [? ?]. auto. }
  destruct (lookup_rows_complete H vs cs comp hs rows2 HI I Hs) as (o2 & E2 & N2).
  { intros r Hr. by apply A2. }
  { intros r Hr. apply A2 in Hr as [? ?]. auto. }
  rewrite E1, E2. f_equal.
  assert (S : forall rows cv sv, (forall r, r ∈ rows -> r ∈ vs_df vs /\ r_uid r = uid) ->
    lookup_rows H vs comp hs rows = Ok (Some (cv, sv)) ->
    exists v r, r ∈ rows /\ r_cv r = cv /\ r_sv r = sv /\ recorded vs comp cv v /\ v_sexp v ⊆ hs).
  { intros rows cv sv A E. apply (lookup_rows_sound H _ _ _ _ _ _ _ HI I Hs) in E as (v & r & ? & ? & ? & ? & ? & ?).
    - exists v, r. auto.
    - intros r Hr. by apply A. }
  destruct o1 as [[cv1 sv1]|], o2 as [[cv2 sv2]|].
  - apply S in E1 as (v1 & r1 & Hr1 & <- & <- & R1 & S1); auto.
    apply S in E2 as (v2 & r2 & Hr2 & <- & <- & R2 & S2); auto.
    apply A1 in Hr1 as [Hr1 U1]. apply A2 in Hr2 as [Hr2 U2].
    apply elem_of_list_lookup in Hr1 as [i Hi], Hr2 as [j Hj].
    assert (i = j) as ->.
    { eapply (rows_unique H vs cs i j r1 r2 comp comp v1 v2); eauto; [congruence| |].
      - apply (compatible_sub H _ _ hs); auto. by apply (vi_vers _ _ I) in R1 as (_ & _ & ?).
      - apply (compatible_sub H _ _ hs); auto. by apply (vi_vers _ _ I) in R2 as (_ & _ & ?). }
    congruence.
  - apply S in E1 as (v1 & r1 & Hr1 & <- & <- & R1 & S1); auto. exfalso.
    apply (N2 eq_refl r1 v1); auto. by rewrite <-P12.
  - apply S in E2 as (v2 & r2 & Hr2 & <- & <- & R2 & S2); auto. exfalso.
    apply (N1 eq_refl r2 v2); auto. by rewrite P12.
  - done.
Qed.
End vsync.
