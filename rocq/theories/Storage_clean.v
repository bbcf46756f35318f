(** Proofs for C22: deleting calls and cleaning up keep the invariant of Storage_atoms.v. *)
From stdpp Require Import base strings gmap list.
From Verif Require Import Base PyDict PyDict_proofs Returns Spec_Returns Returns_proofs DictStore Spec_DictStore DictStore_proofs
  CallStore Spec_CallStore CallStore_proofs Commit Spec_Commit Commit_proofs Refs Args Ident Storage Spec_Storage Storage_base
  Storage_laws Storage_tabs Spec_Atoms Atoms_rel Storage_atoms Storage_atoms2 Storage_atoms3 Storage_atoms4 Storage_atoms5 Spec_Cleanup.

(** * Dropping many keys from a table *)
Definition drops {V} (l : list string) (d : cdict V) : cdict V := fold_left (fun d k => cd_drop k d) l d.
Definition without {V} (l : list string) (m : gmap string V) : gmap string V := fold_left (fun m k => delete k m) l m.

Lemma without_lookup {V} l (m : gmap string V) k : without l m !! k = if decide (k ∈ l) then None else m !! k.
Proof.
  unfold without. revert m. induction l as [|x l IH]; intros m; cbn [fold_left]; [by rewrite decide_False by apply not_elem_of_nil|].
  rewrite IH. destruct (decide (k ∈ l)) as [Hl|Hl]; [by rewrite decide_True by by right|].
  destruct (decide (k = x)) as [->|Hne]; [rewrite lookup_delete, decide_True by left; done|].
  rewrite lookup_delete_ne by done. rewrite decide_False; [done|]. by intros [?|?]%elem_of_cons.
Qed.
Lemma drops_cache {V} l (d : cdict V) : cd_cache (drops l d) = without l (cd_cache d).
Proof. unfold drops, without. revert d. induction l as [|x l IH]; intros d; cbn [fold_left]; [done|]. by rewrite IH. Qed.
Lemma drops_sql {V} l (d : cdict V) : pd_sql (cd_pers (drops l d)) = without l (pd_sql (cd_pers d)).
Proof. unfold drops, without. revert d. induction l as [|x l IH]; intros d; cbn [fold_left]; [done|]. by rewrite IH. Qed.
Lemma drops_over {V} l (d : cdict V) : pd_over (cd_pers (drops l d)) = without l <$> pd_over (cd_pers d).
Proof.
  unfold drops, without. revert d. induction l as [|x l IH]; intros d; cbn [fold_left]; [by destruct (pd_over _)|].
  rewrite IH. cbn. by destruct (pd_over _).
Qed.
Lemma drops_dirty {V} l (d : cdict V) : cd_dirty d = ∅ -> cd_dirty (drops l d) = ∅.
Proof. unfold drops. revert d. induction l as [|x l IH]; intros d Hd; cbn [fold_left]; [done|]. apply IH. cbn. rewrite Hd. set_solver. Qed.
Lemma drops_plook {V} l (d : cdict V) k : plook k (cd_pers (drops l d)) = if decide (k ∈ l) then None else plook k (cd_pers d).
Proof.
  unfold plook. rewrite drops_sql, drops_over, without_lookup. destruct (decide (k ∈ l)) as [Hl|Hl].
  - destruct (pd_over _) as [o|]; cbn; [|done]. by rewrite without_lookup, decide_True.
  - destruct (_ !! k); [done|]. destruct (pd_over _) as [o|]; cbn; [|done]. by rewrite without_lookup, decide_False.
Qed.
Lemma drops_get {V} l (d : cdict V) k : (cd_get k (drops l d)).1 = if decide (k ∈ l) then Err EKeyError else (cd_get k d).1.
Proof.
  unfold cd_get. rewrite drops_cache, without_lookup, !pd_get_plook, drops_plook.
  destruct (decide (k ∈ l)) as [Hl|Hl]; [done|]. destruct (cd_cache d !! k); [done|]. by destruct (plook k (cd_pers d)).
Qed.
Lemma drops_inv {V} (ok : string -> V -> Prop) ho (okf : ho = true -> forall k v w, ok k v -> ok k w -> v = w) l m (d : cdict V) :
  cd_inv ok ho m d -> cd_inv ok ho (without l m) (drops l d).
Proof.
  unfold drops, without. revert m d. induction l as [|x l IH]; intros m d Hi; cbn [fold_left]; [done|]. apply IH.
  destruct (cd_step_refines (fun _ => false) ok ho okf m d (ODrop x) BUnit (cd_drop x d) Hi) as [_ Hx]; [done|constructor|done].
Qed.
Lemma pd_keys_plook {V} (p : pdict V) k : k ∈ pd_keys p <-> is_Some (plook k p).
Proof.
  unfold pd_keys, plook. rewrite elem_of_app. split.
  - intros [([k' v] & -> & Hx%elem_of_map_to_list)%elem_of_list_fmap|Hx].
    + cbn. rewrite Hx. eauto.
    + destruct (pd_sql p !! k); [eauto|]. destruct (pd_over p) as [o|]; [|by apply elem_of_nil in Hx].
      apply elem_of_list_fmap in Hx as ([k' v'] & -> & Hx%elem_of_map_to_list). cbn in *. eauto.
  - intros [v Hv]. destruct (pd_sql p !! k) as [w|] eqn:E.
    + left. apply elem_of_list_fmap. exists (k, w). split; [done|]. by apply elem_of_map_to_list.
    + right. destruct (pd_over p) as [o|]; [|done]. cbn in Hv. apply elem_of_list_fmap. exists (k, v). split; [done|]. by apply elem_of_map_to_list.
Qed.
Lemma pd_values_elem {V} (p : pdict V) v : v ∈ pd_values p <-> exists k, pd_sql p !! k = Some v \/ exists o, pd_over p = Some o /\ o !! k = Some v.
Proof.
  unfold pd_values. rewrite elem_of_app. split.
  - intros [([k' v'] & -> & Hx%elem_of_map_to_list)%elem_of_list_fmap|Hx].
    + exists k'. by left.
    + destruct (pd_over p) as [o|]; [|by apply elem_of_nil in Hx].
      apply elem_of_list_fmap in Hx as ([k' v'] & -> & Hx%elem_of_map_to_list). exists k'. right. eauto.
  - intros (k & [Hk|(o & -> & Hk)]).
    + left. apply elem_of_list_fmap. exists (k, v). split; [done|]. by apply elem_of_map_to_list.
    + right. apply elem_of_list_fmap. exists (k, v). split; [done|]. by apply elem_of_map_to_list.
Qed.

(** * What [cleanup_refs] does *)
Definition set_tabs_as (a : cdict pyval) (sh : cdict ref) (s : st) : st :=
  with_tabs (Tabs a sh (t_ops (s_tabs s)) (t_calls (s_tabs s))) s.
Lemma drop_shapes l s : iterM (fun hid => on_tabs (on_shapes (upd (cd_drop hid)))) l s =
  (Ok tt, set_tabs_as (t_atoms (s_tabs s)) (drops l (t_shapes (s_tabs s))) s).
Proof.
  unfold drops. revert s. induction l as [|x l IH]; intros s; cbn [iterM fold_left]; [by destruct s as [[] ? ? ?]|].
  unfold bindM at 1. unfold on_tabs at 1, on_shapes at 1, upd at 1. rewrite IH. by destruct s as [[] ? ? ?].
Qed.
Lemma drop_atoms l s : iterM (fun hid => on_tabs (on_atoms (upd (cd_drop hid)))) l s =
  (Ok tt, set_tabs_as (drops l (t_atoms (s_tabs s))) (t_shapes (s_tabs s)) s).
Proof.
  unfold drops. revert s. induction l as [|x l IH]; intros s; cbn [iterM fold_left]; [by destruct s as [[] ? ? ?]|].
  unfold bindM at 1. unfold on_tabs at 1, on_atoms at 1, upd at 1. rewrite IH. by destruct s as [[] ? ? ?].
Qed.
(** the keys that are dropped *)
Definition dead_shapes (s : st) : list string := elements (get_orphans s).
Definition mid (s : st) : st := set_tabs_as (t_atoms (s_tabs s)) (drops (dead_shapes s) (t_shapes (s_tabs s))) s.
Definition dead_atoms (s : st) : list string := elements (get_unreferenced_cids (mid s)).
Definition cleaned (s : st) : st := set_tabs_as (drops (dead_atoms s) (t_atoms (s_tabs s))) (drops (dead_shapes s) (t_shapes (s_tabs s))) s.
Lemma cleanup_eq s : cleanup_refs s = (Ok tt, cleaned s).
Proof.
  unfold cleanup_refs. rewrite drop_shapes. cbn zeta. cbn [snd]. fold (dead_shapes s). fold (mid s). rewrite drop_atoms. fold (dead_atoms s).
  by destruct s as [[] ? ? ?].
Qed.
Lemma dead_shapes_spec s h : h ∈ dead_shapes s <-> (exists r, db_shape s h r) /\ ~ mentioned s h.
Proof.
  unfold dead_shapes, get_orphans. rewrite elem_of_elements, elem_of_difference, !elem_of_list_to_set, pd_keys_plook.
  assert (is_Some (plook h (cd_pers (t_shapes (s_tabs s)))) <-> exists r, db_shape s h r) as ->.
  { unfold plook, db_shape. split.
    - intros [r Hr]. exists r. destruct (pd_sql _ !! h) eqn:E; [left; by simplify_eq|]. right. destruct (pd_over _) as [o|]; [|done]. eauto.
    - intros (r & [Hr|(o & -> & Hr)]); [by rewrite Hr|]. destruct (pd_sql _ !! h); cbn; [eauto|]. rewrite Hr; eauto. }
  assert (h ∈ map r_rhid (cc_pers (t_calls (s_tabs s))) <-> mentioned s h) as ->; [|done].
  unfold mentioned. rewrite elem_of_list_fmap. split; intros (row & A & B); exists row; subst; done.
Qed.
Lemma mid_shape s h r : db_shape (mid s) h r <-> db_shape s h r /\ mentioned s h.
Proof.
  assert (db_shape (mid s) h r <-> db_shape s h r /\ h ∉ dead_shapes s) as ->.
  { unfold db_shape. cbn [mid set_tabs_as s_tabs with_tabs t_shapes]. rewrite drops_sql, drops_over, without_lookup. split.
    - intros [Hr|(o & Ho & Hr)].
      + case_decide; [done|]. by split; [left|].
      + destruct (pd_over _) as [o'|]; [|done]. cbn in Ho. simplify_eq. rewrite without_lookup in Hr. case_decide; [done|]. split; [right; eauto|done].
    - intros [[Hr|(o & Ho & Hr)] Hd].
      + left. by rewrite decide_False.
      + right. rewrite Ho. cbn. eexists. split; [done|]. by rewrite without_lookup, decide_False. }
  rewrite dead_shapes_spec. split.
  - intros [Hd Hn]. split; [done|]. unfold mentioned. destruct (decide (h ∈ map r_rhid (cc_pers (t_calls (s_tabs s))))) as [Hm|Hm].
    + apply elem_of_list_fmap in Hm as (row & -> & Hrow). eauto.
    + exfalso. apply Hn. split; [eauto|]. intros (row & Hrow & <-). apply Hm. by apply elem_of_list_fmap_1.
  - intros [Hd Hm]. split; [done|]. by intros [_ Hn].
Qed.
Lemma dead_atoms_spec s c : c ∈ dead_atoms s <-> db_atom s c /\ ~ mentioned_cid s c /\ ~ exists h r, db_shape s h r /\ mentioned s h /\ rcid r = c.
Proof.
  unfold dead_atoms, get_unreferenced_cids. rewrite elem_of_elements, !elem_of_difference, !elem_of_list_to_set, pd_keys_plook.
  cbn [mid set_tabs_as s_tabs with_tabs t_atoms t_calls].
  assert (is_Some (plook c (cd_pers (t_atoms (s_tabs s)))) <-> db_atom s c) as ->.
  { unfold plook, db_atom. split.
    - intros [r Hr]. exists r. destruct (pd_sql _ !! c) eqn:E; [left; by simplify_eq|]. right. destruct (pd_over _) as [o|]; [|done]. eauto.
    - intros (r & [Hr|(o & -> & Hr)]); [by rewrite Hr|]. destruct (pd_sql _ !! c); cbn; [eauto|]. rewrite Hr; eauto. }
  assert (c ∈ map r_rcid (cc_pers (t_calls (s_tabs s))) <-> mentioned_cid s c) as ->.
  { unfold mentioned_cid. rewrite elem_of_list_fmap. split; intros (row & A & B); exists row; subst; done. }
  assert (c ∈ map rcid (pd_values (cd_pers (t_shapes (s_tabs (mid s))))) <-> exists h r, db_shape s h r /\ mentioned s h /\ rcid r = c) as Hx.
  { rewrite elem_of_list_fmap. setoid_rewrite pd_values_elem. split.
    - intros (r & -> & h & Hr). exists h, r. assert (db_shape (mid s) h r) as []%mid_shape; [|done]. exact Hr.
    - intros (h & r & Hr & Hm & <-). exists r. split; [done|]. exists h. assert (db_shape (mid s) h r) as Hx; [by apply mid_shape|]. exact Hx. }
  rewrite <-Hx. tauto.
Qed.

(** * Deleting calls *)
Definition cache_ok (k : gmap string cinfo) (c : mcalls) : Prop :=
  (forall hid, hid ∈ mc_hids c -> is_Some (k !! hid) /\ holds (mc_rows c) hid (k !! hid)) /\
  (forall hid, hid ∉ mc_hids c -> rows_for hid (mc_rows c) = []).
Lemma cache_drop k c hid : cache_ok k c -> hid ∈ mc_hids c -> exists c', mc_drop hid c = (Ok tt, c') /\ cache_ok (delete hid k) c'.
Proof.
  intros [A1 A2] Hin. destruct (A1 _ Hin) as [[i Hi] Hh]. rewrite Hi in Hh. destruct Hh as (d & Hok & <- & Hinf & Hp). unfold mc_drop.
  destruct (rows_for (d_hid d) (mc_rows c)) as [|r l] eqn:E; [apply Permutation_nil in Hp; by apply rows_of_nonempty in Hp|].
  rewrite decide_True by done. eexists. split; [done|]. split; cbn [mc_hids mc_rows].
  - intros h [Hh Hne%not_elem_of_singleton]%elem_of_difference. rewrite lookup_delete_ne by done. destruct (A1 _ Hh) as [? Ho]. split; [done|].
    unfold holds in *. destruct (k !! h); rewrite rows_for_drop, decide_False by done; exact Ho.
  - intros h Hh. rewrite rows_for_drop. case_decide; [done|]. apply A2. intros Hx. apply Hh. apply elem_of_difference. split; [done|]. by apply not_elem_of_singleton.
Qed.
Lemma cache_absent k c hid : cache_ok k c -> hid ∉ mc_hids c -> cache_ok (delete hid k) c.
Proof.
  intros [A1 A2] Hn. split; [|done]. intros h Hh. destruct (decide (h = hid)) as [->|Hne]; [done|]. rewrite lookup_delete_ne by done. auto.
Qed.
Definition with_calls (c : ccalls) (s : st) : st := with_tabs (Tabs (t_atoms (s_tabs s)) (t_shapes (s_tabs s)) (t_ops (s_tabs s)) c) s.
Lemma drop_cached_all k l s : s_alias s = None -> cache_ok k (cc_cache (t_calls (s_tabs s))) ->
  exists c', iterM drop_cached l s = (Ok tt, with_calls (CCalls c' (cc_dirty (t_calls (s_tabs s))) (cc_pers (t_calls (s_tabs s)))) s) /\ cache_ok (without l k) c'.
Proof.
  unfold without. revert k s. induction l as [|h l IH]; intros k s Hal Hc; cbn [iterM fold_left].
  - exists (cc_cache (t_calls (s_tabs s))). split; [|done]. by destruct s as [[? ? ? []] ? ? ?].
  - unfold bindM, drop_cached at 1. unfold call_cache, set_call_cache. rewrite Hal. cbn [default from_option]. unfold mc_exists. case_bool_decide as Hin.
    + destruct (cache_drop _ _ _ Hc Hin) as (c' & E & Hc'). unfold default, from_option. rewrite E.
      match goal with |- context [iterM drop_cached l ?s1] => destruct (IH (delete h k) s1) as (c'' & E2 & Hc''); [done|exact Hc'|] end.
      exists c''. split; [|done]. rewrite E2. done.
    + destruct (IH (delete h k) s) as (c'' & E2 & Hc''); [done|by apply cache_absent|]. exists c''. split; [|done]. exact E2.
Qed.
Definition sql_without (l : list string) (t : list crow) : list crow := fold_left (fun t h => sql_drop h t) l t.
Lemma drop_persistent_all l s : iterM drop_persistent l s =
  (Ok tt, with_calls (CCalls (cc_cache (t_calls (s_tabs s))) (cc_dirty (t_calls (s_tabs s))) (sql_without l (cc_pers (t_calls (s_tabs s))))) s).
Proof.
  unfold sql_without. revert s. induction l as [|h l IH]; intros s; cbn [iterM fold_left]; [by destruct s as [[? ? ? []] ? ? ?]|].
  unfold bindM, drop_persistent at 1. rewrite IH. by destruct s as [[? ? ? []] ? ? ?].
Qed.
Lemma sql_without_elem l t row : row ∈ sql_without l t <-> row ∈ t /\ r_hid row ∉ l.
Proof.
  unfold sql_without. revert t. induction l as [|h l IH]; intros t; cbn [fold_left]; [split; [intros; split; [done|apply not_elem_of_nil]|tauto]|].
  rewrite IH. unfold sql_drop. rewrite elem_of_list_filter, not_elem_of_cons. tauto.
Qed.
Lemma sql_without_holds l t k : (forall hid, holds t hid (k !! hid)) -> forall hid, holds (sql_without l t) hid (without l k !! hid).
Proof.
  unfold sql_without, without. revert t k. induction l as [|h l IH]; intros t k Hh; cbn [fold_left]; [done|]. apply IH. intros hid.
  destruct (decide (hid = h)) as [->|Hne].
  - rewrite lookup_delete. cbn. unfold sql_drop. by rewrite rows_for_drop, decide_True.
  - rewrite lookup_delete_ne by done. specialize (Hh hid). unfold holds, sql_drop in *. destruct (k !! hid); rewrite rows_for_drop, decide_False by done; exact Hh.
Qed.

(** rows and infos *)
Lemma row_info t (k : gmap string cinfo) row : (forall hid, holds t hid (k !! hid)) -> row ∈ t -> exists i, k !! r_hid row = Some i /\
  match r_dir row with DIn => i_ins i | DOut => i_outs i end !! r_name row = Some (r_rcid row, r_rhid row).
Proof.
  intros Hh Hrow. specialize (Hh (r_hid row)). destruct (k !! r_hid row) as [i|] eqn:E.
  - exists i. split; [done|]. destruct Hh as (c & Hok & Hhid & <- & Hp).
    assert (row ∈ rows_of c) as Hr. { rewrite <-Hp. unfold rows_for. apply elem_of_list_filter. done. }
    unfold rows_of in Hr. apply elem_of_app in Hr as [([n x] & -> & Hx)%elem_of_list_fmap|([n x] & -> & Hx)%elem_of_list_fmap]; cbn.
    + apply elem_of_list_to_map; [by apply call_ok_NoDup_ins|]. by destruct x.
    + apply elem_of_list_to_map; [by apply call_ok_NoDup_outs|]. by destruct x.
  - cbn in Hh. apply rows_for_nil in Hh. exfalso. apply Hh. by apply elem_of_list_fmap_1.
Qed.
Lemma info_row t (k : gmap string cinfo) hid i (d : dir) n x : (forall hid, holds t hid (k !! hid)) -> k !! hid = Some i ->
  match d with DIn => i_ins i | DOut => i_outs i end !! n = Some x ->
  exists row, row ∈ t /\ r_hid row = hid /\ r_dir row = d /\ r_rcid row = x.1 /\ r_rhid row = x.2.
Proof.
  intros Hh Hk Hx. specialize (Hh hid). rewrite Hk in Hh. destruct Hh as (c & Hok & <- & <- & Hp).
  exists (row_of c d (n, x)). split; [|done].
  assert (row_of c d (n, x) ∈ rows_for (d_hid c) t) as Hr; [|unfold rows_for in Hr; by apply elem_of_list_filter in Hr as [_ ?]].
  rewrite Hp. unfold rows_of. apply elem_of_app. destruct d; cbn in Hx; apply elem_of_list_to_map_2 in Hx; [left|right]; by apply elem_of_list_fmap_1.
Qed.

Section clean.
  Context (H : pyval -> string) (sel : list crow -> list crow) (bigA : pyval -> bool).
  Hypothesis Hinj : Inj (=) (=) H.
  Hypothesis sel_perm : forall l, sel l ≡ₚ l.
  Notation good := (good H).
  Notation ainv := (ainv H).
  Notation contents := (contents pyval ref op).

  Definition clean_contents (s : st) (m : contents) : contents :=
    Contents (without (dead_atoms s) (m_atoms m)) (without (dead_shapes s) (m_shapes m)) (m_ops m) (m_calls m).
  Lemma cleaned_inv s m : sinv H s m -> sinv H (cleaned s) (clean_contents s m).
  Proof using Hinj.
    intros [A B C D]. split; cbn; [|..|done].
    - apply (drops_inv _ _ (okA_fun H Hinj)), A.
    - apply (drops_inv _ _ any_fun), B.
    - exact C.
  Qed.

  Lemma clean_plook {V} ok ho (m : gmap string V) d : cd_inv ok ho m d -> cd_dirty d = ∅ -> forall k, plook k (cd_pers d) = m !! k.
  Proof.
    intros [I1 I2 I3 I4 I5] Hd k. rewrite <-I1. unfold view. destruct (cd_cache d !! k) as [v|] eqn:E; [|done]. apply I3; [done|]. rewrite Hd. apply not_elem_of_empty.
  Qed.
  Lemma db_shape_contents s m h r : sinv H s m -> nothing_dirty s -> db_shape s h r <-> m_shapes m !! h = Some r.
  Proof.
    intros [A B C D] (D1 & D2 & D3 & D4). rewrite <-(clean_plook _ _ _ _ B D2). unfold db_shape, plook.
    assert (pd_over (cd_pers (t_shapes (s_tabs s))) = None) as ->.
    { destruct (inv_pers _ _ _ _ B) as [Ho _]. destruct (pd_over _); [|done]. by discriminate Ho. }
    cbn. destruct (pd_sql _ !! h); split; try tauto; intros [?|(? & ? & ?)]; done.
  Qed.
  Lemma holds_contents s m : sinv H s m -> nothing_dirty s -> forall hid, holds (cc_pers (t_calls (s_tabs s))) hid (m_calls m !! hid).
  Proof.
    intros [A B C [mc [I1 I2 I3 I4 I5]]] (D1 & D2 & D3 & D4) hid. cbn in *.
    destruct (decide (hid ∈ mc_hids (cc_cache (t_calls (s_tabs s))))) as [Hin|Hin].
    - rewrite (I4 _ Hin); [apply I5|]. rewrite D4. apply not_elem_of_empty.
    - destruct (I2 _ Hin) as [_ ->]. apply I5.
  Qed.

  Lemma kept_shape s m h r : sinv H s m -> nothing_dirty s -> m_shapes m !! h = Some r -> h ∉ dead_shapes s -> mentioned s h.
  Proof.
    intros Hs Hn Hr Hd. assert (db_shape (mid s) h r) as Hx; [|by apply mid_shape in Hx as [_ ?]].
    assert (db_shape s h r) as Hsh by by eapply db_shape_contents.
    unfold db_shape. cbn [mid set_tabs_as s_tabs with_tabs t_shapes]. rewrite drops_sql, drops_over, without_lookup, decide_False by done.
    destruct Hsh as [Hsh|(o & Ho & Hsh)]; [by left|]. right. rewrite Ho. cbn. eexists. split; [done|]. by rewrite without_lookup, decide_False.
  Qed.
  Lemma mentioned_alive s h : mentioned s h -> h ∉ dead_shapes s.
  Proof. intros Hm [_ Hn]%dead_shapes_spec. done. Qed.

  (** [s1]: some calls of a good state have been deleted *)
  Lemma prune_good s m m0 : good m0 -> sinv H s m -> nothing_dirty s ->
    m_shapes m = m_shapes m0 -> m_atoms m = m_atoms m0 -> m_ops m = m_ops m0 -> m_calls m ⊆ m_calls m0 ->
    (forall ch k i c h, m_calls m0 !! ch = Some i -> i_outs i !! k = Some (c, h) -> mentioned s h -> m_calls m !! ch = Some i) ->
    good (clean_contents s m).
  Proof.
    intros [G1 G2 G3] Hs Hn E1 E2 E3 Hsub Hkeep. split.
    - intros h r. cbn. rewrite without_lookup. destruct (decide (h ∈ dead_shapes s)) as [Hd|Hd]; [done|]. intros Hr.
      pose proof (kept_shape _ _ _ _ Hs Hn Hr Hd) as Hm. pose proof Hr as Hr0. rewrite E1 in Hr0. destruct (G1 _ _ Hr0) as (c & -> & Ha & Hc).
      exists c. split; [done|]. split.
      + rewrite without_lookup, decide_False; [by rewrite E2|]. intros (_ & _ & Hx)%dead_atoms_spec. apply Hx. exists h, (RAtom c h None).
        split; [by eapply db_shape_contents|done].
      + destruct Hc as [->|(ch & k & i & -> & Hch & Ho)]; [by left|]. right. exists ch, k, i. split; [done|]. split; [by eapply Hkeep|done].
    - intros n o. cbn. rewrite E3. apply G2.
    - intros h i Hi. cbn in Hi. assert (m_calls m0 !! h = Some i) as Hi0 by by eapply lookup_weaken.
      destruct (G3 _ _ Hi0) as [C1 C2 C3 C4 C5].
      assert (Hsh : forall d n x, match d with DIn => i_ins i | DOut => i_outs i end !! n = Some x -> shape_in m0 x -> shape_in (clean_contents s m) x).
      { intros d n x Hx Hx0. unfold shape_in in *. cbn. rewrite without_lookup, decide_False; [by rewrite E1|]. apply mentioned_alive.
        destruct (info_row _ _ _ _ d n x (holds_contents _ _ Hs Hn) Hi Hx) as (row & Hrow & _ & _ & _ & Hrh). by exists row. }
      split; [done|cbn; by rewrite E3|done| |].
      + intros k x Hx. by apply (Hsh DIn k x Hx), (C4 k).
      + intros k x Hx. destruct (C5 k x Hx) as [Hy ->]. split; [by apply (Hsh DOut k x Hx)|done].
  Qed.
  Lemma prune_rok s m m0 r : sinv H s m -> m_shapes m = m_shapes m0 -> rok H m0 r -> mentioned s (rhid r) -> rok H (clean_contents s m) r.
  Proof.
    intros Hs E1 (c & h & o & -> & Hsh & Hv) Hm. exists c, h, o. split; [done|]. split; [|done]. unfold shape_in in *. cbn in *.
    rewrite without_lookup, decide_False; [by rewrite E1|]. by apply mentioned_alive.
  Qed.

  Lemma drop_inv s m l : sinv H s m -> nothing_dirty s -> s_alias s = None -> exists s1,
    drop_calls l s = (Ok tt, s1) /\ sinv H s1 (Contents (m_atoms m) (m_shapes m) (m_ops m) (without l (m_calls m))) /\ nothing_dirty s1 /\
    (forall row, row ∈ cc_pers (t_calls (s_tabs s1)) <-> row ∈ cc_pers (t_calls (s_tabs s)) /\ r_hid row ∉ l).
  Proof.
    intros Hs Hn Hal. pose proof (holds_contents _ _ Hs Hn) as Hh. destruct Hs as [A B C [mc IC]].
    assert (cache_ok (m_calls m) (cc_cache (t_calls (s_tabs s)))) as Hc.
    { destruct IC as [I1 I2 I3 I4 I5]. cbn in *. split; [done|]. intros hid Hx. by apply I2. }
    destruct (drop_cached_all _ l s Hal Hc) as (c' & E & Hc').
    unfold drop_calls, bindM. rewrite E, drop_persistent_all. eexists. split; [done|]. destruct Hn as (N1 & N2 & N3 & N4). split; [|split].
    - split; cbn; [done..|]. exists (without l (m_calls m)). destruct Hc' as [H1 H2]. split; cbn; try done.
      + intros hid Hx. split; [by apply H2|done].
      + rewrite N4. by intros hid ?%elem_of_empty.
      + intros hid. by apply sql_without_holds.
    - done.
    - intros row. cbn. apply sql_without_elem.
  Qed.
  Lemma deleted_closed s m D hids s1 order : good m -> sinv H s m -> nothing_dirty s -> to_drop hids true s = Ok D -> order ≡ₚ elements D ->
    (forall row, row ∈ cc_pers (t_calls (s_tabs s1)) <-> row ∈ cc_pers (t_calls (s_tabs s)) /\ r_hid row ∉ order) ->
    forall ch k i c h, m_calls m !! ch = Some i -> i_outs i !! k = Some (c, h) -> mentioned s1 h -> ch ∉ order.
  Proof using Hinj.
    intros Hg Hs Hn HD Hord Hrows ch k i c h Hch Ho (row & Hrow & Hh) Hin. apply Hrows in Hrow as [Hrow Hni].
    pose proof (holds_contents _ _ Hs Hn) as Hho. rewrite Hord, elem_of_elements in Hni, Hin.
    unfold to_drop in HD. destruct (get_dependents_exact (cc_pers (t_calls (s_tabs s))) ∅ hids) as (rs & cs & E & Hrs & Hcs).
    rewrite E in HD. cbn in HD. injection HD as <-.
    assert (desc_call (cc_pers (t_calls (s_tabs s))) ∅ hids ch) as Hdc.
    { apply elem_of_union in Hin as [Hin|Hin]; [by apply rc_start|by apply Hcs]. }
    destruct (row_info _ _ _ Hho Hrow) as (i2 & Hi2 & Hx). destruct (r_dir row) eqn:Hd.
    - apply Hni, elem_of_union_r, Hcs. eapply rc_step; [eapply rr_step; [exact Hdc|]|exists row; done].
      destruct (info_row _ _ _ _ DOut k (c, h) Hho Hch Ho) as (row' & R1 & R2 & R3 & R4 & R5). exists row'. subst h. done.
    - assert (r_hid row = ch) as Heq; [|by rewrite Heq in Hni].
      destruct (cg_outs _ _ _ _ (g_calls _ _ Hg _ _ Hi2) _ _ Hx) as [_ Ex]. destruct (cg_outs _ _ _ _ (g_calls _ _ Hg _ _ Hch) _ _ Ho) as [_ Ey].
      cbn in Ex, Ey. rewrite Hh, Ey in Ex. by apply (output_hid_inj H Hinj) in Ex as [-> _].
  Qed.

  Lemma cstep_good x y m : ainv x m -> cstep H sel bigA x y -> exists m', ainv y m'.
  Proof using Hinj sel_perm.
    intros Hi Hst. destruct Hst as [x e y Hst|held s s' held' Hn E Hh|held s hids D order s1 s' held' Hn Hal HD Hord E1 E2 Hh].
    - destruct (astep_good H sel bigA Hinj sel_perm _ _ _ _ Hi Hst) as (m' & _ & ?). eauto.
    - rewrite cleanup_eq in E. injection E as <-. destruct Hi as [Hs Hg Hr]. cbn in Hs. exists (clean_contents s m). split; cbn.
      + by apply cleaned_inv.
      + by apply (prune_good s m m).
      + intros r Hin. destruct (Hh r Hin) as [Hin' Hm]. by apply (prune_rok s m m), Hm; [|done|apply Hr].
    - rewrite cleanup_eq in E2. injection E2 as <-. destruct Hi as [Hs Hg Hr]. cbn in Hs.
      destruct (drop_inv s m order Hs Hn Hal) as (s1' & E1' & Hs1 & Hn1 & Hrows). rewrite E1 in E1'. injection E1' as <-.
      set (m1 := Contents (m_atoms m) (m_shapes m) (m_ops m) (without order (m_calls m))) in *.
      exists (clean_contents s1 m1). split; cbn [fst snd].
      + by apply cleaned_inv.
      + apply (prune_good s1 m1 m); try done.
        * apply map_subseteq_spec. intros ch i. cbn. rewrite without_lookup. by case_decide.
        * intros ch k i c h Hch Ho Hm. cbn. rewrite without_lookup, decide_False; [done|]. by eapply deleted_closed.
      + intros r Hin. destruct (Hh r Hin) as [Hin' Hm]. by apply (prune_rok s1 m1 m), Hm; [|done|apply Hr].
  Qed.
  Lemma creach_good y : creach H sel bigA y -> exists m, ainv y m.
  Proof using Hinj sel_perm.
    intros [ov Hs]. assert (exists m, ainv ([], new_storage ov) m) as Hi.
    { exists (Contents ∅ ∅ ∅ ∅). split; cbn; [apply tabs_new|apply good_empty|by intros ? ?%elem_of_nil]. }
    revert Hi. induction Hs as [x|x y z H1 H2 IH]; intros [m Hi]; [eauto|]. apply IH. by eapply cstep_good.
  Qed.

  (** ** What a recorded call loads as, with values *)
  Definition full_refs (m : contents) (d : pydict ids) : pydict ref := map (fun kv => (kv.1, RAtom kv.2.1 kv.2.2 (m_atoms m !! kv.2.1))) d.
  Lemma load_refs_full m k al b lg (d : pydict ids) : good m -> (forall kv, kv ∈ d -> shape_in m kv.2) ->
    triple (frozen H m k al b lg) (load_refs false d) (fun l => l = full_refs m d) (fun _ => False).
  Proof using Hinj.
    intros Hg Hd. unfold load_refs. eapply triple_mono.
    - apply triple_mapM with (Q := fun kv y => y = (kv.1, RAtom kv.2.1 kv.2.2 (m_atoms m !! kv.2.1))). intros [k' [c h]] Hx.
      eapply triple_bind; [apply (load_ref_triple H Hinj m k al b lg Hg c h false); by apply (Hd _ Hx)|]. intros r (v & Hv & ->). apply triple_ret. cbn. by rewrite Hv.
    - intros l Hl. clear Hd. unfold full_refs. induction Hl; cbn; [done|]. by f_equal.
    - done.
  Qed.
  Lemma load_full m k al b lg d o : good m -> m_calls m !! d_hid d = Some (info d) -> call_ok d -> m_ops m !! d_op d = Some o ->
    triple (frozen H m k al b lg) (call_from_data d false)
      (fun c => c = Call o (d_cid d) (d_hid d) (full_refs m (d_ins d)) (full_refs m (d_outs d)) (d_sem d) (d_cont d)) (fun _ => False).
  Proof using Hinj.
    intros Hg Hi Hok Ho. destruct (g_calls _ _ Hg _ _ Hi) as [_ _ _ Gi Go]. cbn in Gi, Go.
    apply triple_bind with (Q := fun o' => o' = o).
    { eapply triple_mono; [apply get_op_triple| |]; cbn; [congruence|]. intros e He. congruence. }
    intros _ ->. eapply triple_bind.
    { apply load_refs_full; [done|]. intros [k' x] Hx. apply (Gi k'). apply elem_of_list_to_map; [by apply call_ok_NoDup_ins|done]. }
    intros l1 ->. eapply triple_bind.
    { apply load_refs_full; [done|]. intros [k' x] Hx. apply (Go k'). apply elem_of_list_to_map; [by apply call_ok_NoDup_outs|done]. }
    intros l2 ->. by apply triple_ret.
  Qed.
  Lemma cleanup_loads held s hid : creach H sel bigA (held, s) -> nothing_dirty s -> recorded s hid ->
    exists d c s1 s2, cc_get sel hid (t_calls (s_tabs s)) = Ok d /\ cc_get sel hid (t_calls (s_tabs (cleaned s))) = Ok d /\
      call_from_data d false s = (Ok c, s1) /\ call_from_data d false (cleaned s) = (Ok c, s2) /\ loaded H false d c.
  Proof using Hinj sel_perm.
    intros Hre Hn Hrec. destruct (creach_good _ Hre) as [m [Hs Hg Hh]]. cbn in Hs.
    pose proof (cleaned_inv _ _ Hs) as Hs'. pose proof (prune_good s m m Hg Hs Hn eq_refl eq_refl eq_refl ltac:(done) ltac:(done)) as Hg'.
    destruct (recorded_info H _ _ _ Hs Hrec) as [i Hi].
    destruct (calls_get sel sel_perm _ _ _ _ (sinv_calls H _ _ Hs) Hi) as (d & Ed & <- & Hok).
    pose proof (cg_hid _ _ _ _ (g_calls _ _ Hg _ _ Hi)) as Hhid. cbn in Hhid. rewrite <-Hhid in Hi.
    destruct (cg_op _ _ _ _ (g_calls _ _ Hg _ _ Hi)) as [o Ho]. cbn in Ho.
    destruct (load_full m _ _ _ _ d o Hg Hi Hok Ho s (froz_start H _ _ Hs)) as [_ Hc].
    destruct (load_full (clean_contents s m) _ _ _ _ d o Hg' Hi Hok Ho (cleaned s) (froz_start H _ _ Hs')) as [_ Hc'].
    destruct (call_from_data_any H Hinj m _ _ _ _ Hg false d Hi Hok s (froz_start H _ _ Hs)) as [_ Hl].
    destruct (call_from_data d false s) as [[c|e] s1] eqn:Ec; [|done]. destruct (call_from_data d false (cleaned s)) as [[c'|e] s2] eqn:Ec'; [|done].
    cbn in Hc, Hc', Hl. exists d, c, s1, s2. split_and!; try done. subst. rewrite Ec'. f_equal. f_equal. f_equal.
    - unfold full_refs. apply map_ext_in. intros [k [c h]] Hx. apply elem_of_list_In in Hx. f_equal. f_equal. cbn.
      assert (Hsh : shape_in (clean_contents s m) (c, h)).
      { apply (cg_ins _ _ _ _ (g_calls _ _ Hg' _ _ Hi) k). apply elem_of_list_to_map; [by apply call_ok_NoDup_ins|done]. }
      unfold shape_in in Hsh. cbn [snd fst] in Hsh. destruct (good_shape _ _ _ _ Hg' Hsh) as [v Hv]. cbn in Hv. rewrite Hv. rewrite without_lookup in Hv. by case_decide.
    - unfold full_refs. apply map_ext_in. intros [k [c h]] Hx. apply elem_of_list_In in Hx. f_equal. f_equal. cbn.
      assert (Hsh : shape_in (clean_contents s m) (c, h)).
      { apply (cg_outs _ _ _ _ (g_calls _ _ Hg' _ _ Hi) k). apply elem_of_list_to_map; [by apply call_ok_NoDup_outs|done]. }
      unfold shape_in in Hsh. cbn [snd fst] in Hsh. destruct (good_shape _ _ _ _ Hg' Hsh) as [v Hv]. cbn in Hv. rewrite Hv. rewrite without_lookup in Hv. by case_decide.
  Qed.
End clean.
