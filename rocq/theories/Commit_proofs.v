(** Proofs about commits with failures and crashes. *)
From stdpp Require Import base strings gmap list.
From Verif Require Import Base PyDict PyDict_proofs DictStore Spec_DictStore DictStore_proofs
  CallStore Spec_CallStore CallStore_proofs Commit Spec_Commit.

(** a loop with failing statements behaves like the loop over a prefix *)
Lemma iterM_fault {St X} (fault : X -> option exn) (m : X -> M St unit) l s r s' :
  iterM (fun x => with_fault (fault x) (m x)) l s = (r, s') ->
  (r = Ok tt /\ iterM m l s = (Ok tt, s')) \/
  (exists e pre x post r', r = Err e /\ l = pre ++ x :: post /\ iterM m pre s = (Ok tt, r') /\
     ((fault x = Some e /\ s' = r') \/ (fault x = None /\ m x r' = (Err e, s')))).
Proof.
  revert s. induction l as [|x l IH]; intros s; simpl.
  - intros [= <- <-]. left. auto.
  - unfold bindM. destruct (fault x) as [e|] eqn:Ef; simpl.
    + unfold raiseM. intros [= <- <-]. right. exists e, [], x, l, s. simpl. auto 10.
    + destruct (m x s) as [[[]|e] s1] eqn:E1.
      * intros H. apply IH in H as [(-> & H)|(e & pre & y & post & r' & -> & -> & H & H')]; [left; auto|].
        right. exists e, (x :: pre), y, post, r'. split_and!; auto. simpl. unfold bindM. by rewrite E1.
      * intros [= <- <-]. right. exists e, [], x, l, s. split_and!; auto.
Qed.

Section dict.
  Context {V : Type} (big : V -> bool) (okval : string -> V -> Prop) (has_over : bool).
  Hypothesis okval_fun : has_over = true -> forall k v w, okval k v -> okval k w -> v = w.

  (** overflow files after some writes: new ones belong to dirty keys *)
  Definition over_ext (d d' : cdict V) : Prop :=
    match pd_over (cd_pers d), pd_over (cd_pers d') with
    | None, None => True
    | Some o, Some o' => forall k, o' !! k = o !! k \/
        (k ∈ cd_dirty d /\ o !! k = None /\ o' !! k = cd_cache d !! k)
    | _, _ => False
    end.

  Lemma commit_key_over k (d d' : cdict V) r :
    cd_commit_key big k d = (r, d') -> k ∈ cd_dirty d ->
    over_ext d d' /\ cd_cache d' = cd_cache d /\ cd_dirty d' = cd_dirty d.
  Proof.
    unfold cd_commit_key, over_ext. destruct (cd_cache d !! k) as [v|] eqn:Ev.
    - unfold pd_set. destruct (big v), (pd_over (cd_pers d)) as [o|] eqn:Eo; intros; simplify_eq/=;
        rewrite ?Eo; split_and!; auto.
      intros k'. unfold over_set. destruct (o !! k) eqn:Ek; [auto|].
      destruct (decide (k' = k)) as [->|Hne].
      + rewrite lookup_insert. right. split_and!; auto.
      + rewrite lookup_insert_ne by done. auto.
    - intros; simplify_eq. destruct (pd_over (cd_pers d')); auto.
  Qed.

  Lemma over_ext_trans d d1 d2 :
    cd_cache d1 = cd_cache d -> cd_dirty d1 = cd_dirty d ->
    over_ext d d1 -> over_ext d1 d2 -> over_ext d d2.
  Proof.
    unfold over_ext. intros Ec Ed. destruct (pd_over (cd_pers d)) as [o|], (pd_over (cd_pers d1)) as [o1|],
      (pd_over (cd_pers d2)) as [o2|]; try done.
    intros H1 H2 k. destruct (H1 k) as [E1|(? & ? & E1)], (H2 k) as [E2|(? & ? & E2)].
    - left. congruence.
    - right. split_and!; congruence.
    - right. split_and!; congruence.
    - right. split_and!; congruence.
  Qed.
  Lemma over_ext_refl d : over_ext d d.
  Proof. unfold over_ext. destruct (pd_over (cd_pers d)); auto. Qed.

  Lemma commit_loop_over order (d d' : cdict V) r :
    iterM (cd_commit_key big) order d = (r, d') -> Forall (fun k => k ∈ cd_dirty d) order ->
    over_ext d d' /\ cd_cache d' = cd_cache d /\ cd_dirty d' = cd_dirty d.
  Proof.
    revert d. induction order as [|k order IH]; intros d; simpl.
    - intros [= <- <-] _. split_and!; auto using over_ext_refl.
    - intros H [Hk Hall]%Forall_cons. unfold bindM in H.
      destruct (cd_commit_key big k d) as [r1 d1] eqn:E1.
      destruct (commit_key_over _ _ _ _ E1 Hk) as (H1 & H2 & H3).
      destruct r1 as [[]|e]; [|by simplify_eq].
      destruct (IH d1 H) as (H4 & H5 & H6); [by rewrite H3|].
      split_and!; [by eapply over_ext_trans|congruence|congruence].
  Qed.

  (** a failed loop: the invariant survives, with or without the rollback *)
  Lemma dict_loop_fault m fault order (d d' : cdict V) r :
    cd_inv okval has_over m d -> Forall (fun k => k ∈ cd_dirty d) order ->
    iterM (fun k => with_fault (fault k) (cd_commit_key big k)) order d = (r, d') ->
    cd_inv okval has_over m d' /\ over_ext d d' /\ cd_cache d' = cd_cache d /\ cd_dirty d' = cd_dirty d /\
    (r = Ok tt -> iterM (cd_commit_key big) order d = (Ok tt, d')).
  Proof.
    intros Hinv Hall H. apply iterM_fault in H as [(-> & H)|(e & pre & k & post & d1 & -> & -> & H & H')].
    - destruct (commit_loop big okval has_over okval_fun _ _ _ _ _ Hinv Hall H) as (Hi & _).
      destruct (commit_loop_over _ _ _ _ H Hall) as (? & ? & ?). auto.
    - apply Forall_app in Hall as [Hpre Hall]. apply Forall_cons in Hall as [Hk _].
      destruct (commit_loop big okval has_over okval_fun _ _ _ _ _ Hinv Hpre H) as (Hi & _).
      destruct (commit_loop_over _ _ _ _ H Hpre) as (H1 & H2 & H3).
      destruct H' as [[_ ->]|[_ H']]; [by split_and!|].
      assert (Hk1 : k ∈ cd_dirty d1) by (by rewrite H3).
      destruct (commit_key_over _ _ _ _ H' Hk1) as (H4 & H5 & H6).
      assert (Hl : iterM (cd_commit_key big) [k] d1 = (Err e, d')).
      { simpl. unfold bindM. by rewrite H'. }
      destruct (commit_loop big okval has_over okval_fun m [k] d1 _ _ Hi ltac:(by constructor) Hl) as (Hi' & _).
      split_and!; auto; [by eapply over_ext_trans|congruence|congruence|done].
  Qed.

  Lemma roll_inv m (d d' : cdict V) :
    cd_inv okval has_over m d -> cd_inv okval has_over m d' -> over_ext d d' ->
    cd_cache d' = cd_cache d -> cd_dirty d' = cd_dirty d ->
    cd_inv okval has_over m (roll_dict d d').
  Proof.
    intros [Iv Id Ic Ip Ik] [Iv' Id' Ic' Ip' Ik'] Hov Ec Ed.
    assert (Hpl : forall k, k ∉ cd_dirty d ->
       plook k (PDict (pd_sql (cd_pers d)) (pd_over (cd_pers d'))) = plook k (cd_pers d)).
    { intros k Hk. unfold plook; simpl. destruct (pd_sql (cd_pers d) !! k); [done|].
      unfold over_ext in Hov. destruct (pd_over (cd_pers d)), (pd_over (cd_pers d')); try done.
      simpl. destruct (Hov k) as [?|(? & _)]; done. }
    constructor; simpl.
    - intros k. rewrite <-Iv. unfold view; simpl. rewrite Ec. destruct (cd_cache d !! k) eqn:Ek; [done|].
      apply Hpl. intros Hk. apply Id in Hk as [? ?]. congruence.
    - rewrite Ec, Ed. done.
    - intros k v. rewrite Ec, Ed. intros H1 H2. rewrite Hpl by done. auto.
    - destruct Ip as (P1 & P2 & P3), Ip' as (P1' & P2' & P3'). split_and!; simpl; auto.
    - intros k v. rewrite Ec. auto.
  Qed.

  (** fault-free commit after anything that kept the invariant *)
  Lemma dict_commit_nofault m order (d d' : cdict V) :
    cd_inv okval has_over m d -> order ≡ₚ elements (cd_dirty d) ->
    cd_commit big order d = (Ok tt, d') -> forall k, plook k (cd_pers d') = m !! k.
  Proof.
    intros Hi Ho Hc. destruct (commit_inv big okval has_over okval_fun _ _ _ _ _ Hi Ho Hc) as [_ H].
    by apply H.
  Qed.
  (** overflow files only grow during a commit *)
  Lemma dict_commit_over m fault order (d d' : cdict V) r :
    cd_inv okval has_over m d -> order ≡ₚ elements (cd_dirty d) ->
    dict_commit big fault order d = (r, d') ->
    over_ext d d' /\ cd_cache d' = cd_cache d /\
    cd_inv okval has_over m d' /\ (r <> Ok tt -> cd_dirty d' = cd_dirty d).
  Proof.
    intros Hi Ho. unfold dict_commit. destruct (iterM _ order d) as [r1 d1] eqn:E.
    assert (Hall : Forall (fun k => k ∈ cd_dirty d) order).
    { apply Forall_forall. intros k Hk. rewrite Ho in Hk. by apply elem_of_elements. }
    destruct (dict_loop_fault _ _ _ _ _ _ Hi Hall E) as (H1 & H2 & H3 & H4 & H5).
    destruct r1 as [[]|e]; intros [= <- <-].
    - split_and!; auto; [|done].
      assert (Hc : cd_commit big order d = (Ok tt, CDict (cd_cache d1) ∅ (cd_pers d1))).
      { unfold cd_commit. by rewrite H5. }
      by destruct (commit_inv big _ _ okval_fun _ _ _ _ _ Hi Ho Hc) as [? _].
    - auto.
  Qed.

  (** what a process reads is unchanged by a commit, successful or rolled back *)
  Lemma roll_view m fault order (d d' : cdict V) r k :
    cd_inv okval has_over m d -> order ≡ₚ elements (cd_dirty d) ->
    dict_commit big fault order d = (r, d') ->
    view (roll_dict d d') k = m !! k.
  Proof.
    intros Hi Ho Hc. destruct (dict_commit_over _ _ _ _ _ _ Hi Ho Hc) as (Hov & Ec & _).
    rewrite <-(inv_view _ _ _ _ Hi). unfold view, roll_dict; simpl. rewrite Ec.
    destruct (cd_cache d !! k) eqn:Ek; [done|].
    assert (k ∉ cd_dirty d) as Hk.
    { intros Hk. apply (inv_dirty _ _ _ _ Hi) in Hk as [? ?]. congruence. }
    unfold plook; simpl. destruct (pd_sql (cd_pers d) !! k); [done|].
    unfold over_ext in Hov. destruct (pd_over (cd_pers d)), (pd_over (cd_pers d')); try done.
    simpl. destruct (Hov k) as [?|(? & _)]; done.
  Qed.

  (** a table without overflow files is fully restored *)
  Lemma roll_pers m fault order (d d' : cdict V) r :
    cd_inv okval has_over m d -> has_over = false -> order ≡ₚ elements (cd_dirty d) ->
    dict_commit big fault order d = (r, d') -> cd_pers (roll_dict d d') = cd_pers d.
  Proof.
    intros Hi Hf Ho Hc. destruct (dict_commit_over _ _ _ _ _ _ Hi Ho Hc) as (Hov & _).
    destruct (inv_pers _ _ _ _ Hi) as [Hn _]. unfold roll_dict; simpl.
    unfold over_ext in Hov. destruct (cd_pers d) as [sql [o|]]; simpl in *.
    - rewrite Hn in Hf; [done|]. done.
    - by destruct (pd_over (cd_pers d')).
  Qed.
End dict.

Lemma dict_commit_ok {V} (big : V -> bool) fault order (d d' : cdict V) :
  dict_commit big fault order d = (Ok tt, d') -> cd_commit big order d = (Ok tt, d').
Proof.
  unfold dict_commit, cd_commit. destruct (iterM _ order d) as [r d1] eqn:E.
  apply iterM_fault in E as [(-> & H)|(e & pre & x & post & r' & -> & _)]; [|done].
  by rewrite H.
Qed.
Lemma dict_commit_none {V} (big : V -> bool) order (d : cdict V) :
  dict_commit big (fun _ => None) order d = cd_commit big order d.
Proof. reflexivity. Qed.

Lemma calls_hid_ok fault hid (s s' : ccalls) :
  calls_commit_hid fault hid s = (Ok tt, s') -> cc_commit_hid hid s = (Ok tt, s').
Proof.
  unfold calls_commit_hid, cc_commit_hid. destruct (mc_get hid (cc_cache s)) as [c|]; [|done].
  unfold sql_save. destruct (iterM _ (rows_of c) (cc_pers s)) as [r t] eqn:E.
  intros [= -> <-]. apply iterM_fault in E as [(_ & ->)|(e & pre & x & post & r' & H & _)]; [done|].
  discriminate.
Qed.
Lemma calls_commit_ok fault order (s s' : ccalls) :
  calls_commit fault order s = (Ok tt, s') -> cc_commit order s = (Ok tt, s').
Proof.
  unfold calls_commit, cc_commit. destruct (iterM _ order s) as [r s1] eqn:E.
  intros H. destruct r as [[]|e]; [|done]. injection H as <-.
  assert (iterM cc_commit_hid order s = (Ok tt, s1)) as ->; [|done].
  revert s E. induction order as [|h order IH]; intros s; simpl; [done|].
  unfold bindM. destruct (calls_commit_hid fault h s) as [[[]|e] s2] eqn:E2; [|done].
  intros E. rewrite (calls_hid_ok _ _ _ _ E2). auto.
Qed.
(** the call cache is never changed by a commit *)
Lemma calls_commit_cache fault order (s s' : ccalls) r :
  calls_commit fault order s = (r, s') -> cc_cache s' = cc_cache s.
Proof.
  unfold calls_commit. destruct (iterM _ order s) as [r1 s1] eqn:E.
  assert (cc_cache s1 = cc_cache s) as H.
  { revert s E. induction order as [|h order IH]; intros s; simpl; [by intros [= <- <-]|].
    unfold bindM. destruct (calls_commit_hid fault h s) as [r2 s2] eqn:E2.
    assert (cc_cache s2 = cc_cache s) as H2.
    { unfold calls_commit_hid in E2. destruct (mc_get h (cc_cache s)); [|by simplify_eq].
      destruct (iterM _ _ (cc_pers s)); by simplify_eq. }
    destruct r2 as [[]|e]; [|intros; by simplify_eq]. intros E. rewrite <-H2. by apply IH. }
  destruct r1; intros; by simplify_eq.
Qed.

Section storage.
  Context {A S O : Type} (bigA : A -> bool) (bigS : S -> bool) (bigO : O -> bool).
  Context (val : string -> A) (sel : list crow -> list crow).
  Hypothesis sel_perm : forall l, sel l ≡ₚ l.

  Definition keyed (k : string) (v : A) : Prop := v = val k.
  Definition anyv {V} (_ : string) (_ : V) : Prop := True.
  Lemma keyed_fun : true = true -> forall k (v w : A), keyed k v -> keyed k w -> v = w.
  Proof. unfold keyed. congruence. Qed.
  Lemma any_fun {V} : false = true -> forall k (v w : V), anyv k v -> anyv k w -> v = w.
  Proof. done. Qed.

  (** the invariants of the tables *)
  Record tinv (s : tabs A S O) (m : contents A S O) : Prop := {
    ti_atoms : cd_inv keyed true (m_atoms m) (t_atoms s);
    ti_shapes : cd_inv anyv false (m_shapes m) (t_shapes s);
    ti_ops : cd_inv anyv false (m_ops m) (t_ops s);
    ti_calls : exists mc, cc_inv (m_calls m, mc) (t_calls s);
  }.

  Lemma reached_tinv s m : reached bigA bigS bigO val sel s m -> tinv s m.
  Proof.
    intros [(p & os & bs & H1 & H2 & H3 & H4 & EA) (sql & os1 & bs1 & H5 & ES)
      (sql2 & os2 & bs2 & H6 & EO) (os3 & bs3 & H7 & H8 & EC)].
    constructor; rewrite ?EA, ?ES, ?EO, ?EC.
    - eapply (cd_steps_refine bigA keyed true keyed_fun) with (m := pd_load_all p) in H4 as [_ ?]; [done| |done].
      apply cd_inv_open; [by apply keyed_ok|]. intros k. eapply plook_load_all; eauto.
    - eapply (cd_steps_refine bigS anyv false any_fun) with (m := sql) in H5 as [_ ?]; [done| |done].
      apply cd_inv_open; [apply sql_ok|]. intros k. unfold plook; simpl. by destruct (sql !! k).
    - eapply (cd_steps_refine bigO anyv false any_fun) with (m := sql2) in H6 as [_ ?]; [done| |done].
      apply cd_inv_open; [apply sql_ok|]. intros k. unfold plook; simpl. by destruct (sql2 !! k).
    - eapply (ksteps_refine sel sel_perm) with (ks := (∅, ∅)) in H8 as [_ ?]; [|apply (inv_open ∅)|done].
      + exists (kspec_run (∅, ∅) os3).2.2. by rewrite <-surjective_pairing.
      + intros hid. by rewrite lookup_empty.
  Qed.

  Lemma dict_shows_plook {V} (p : pdict V) m : (forall k, plook k p = m !! k) -> dict_shows p m.
  Proof. intros H k. by rewrite pd_get_plook, H. Qed.

  (** what each table looks like after the body *)
  Lemma body_cases f o (s s' : tabs A S O) r :
    commit_body bigA bigS bigO f o s = (r, s') ->
    exists rA rS rO rC,
      (dict_commit bigA (fun k => f (SAtom k)) (o_atoms o) (t_atoms s) = (rA, t_atoms s')) /\
      (if decide (rA = Ok tt) then
         dict_commit bigS (fun k => f (SShape k)) (o_shapes o) (t_shapes s) = (rS, t_shapes s')
       else t_shapes s' = t_shapes s /\ rS = rA) /\
      (if decide (rS = Ok tt) then
         dict_commit bigO (fun k => f (SOp k)) (o_ops o) (t_ops s) = (rO, t_ops s')
       else t_ops s' = t_ops s /\ rO = rS) /\
      (if decide (rO = Ok tt) then
         calls_commit (fun r => f (SRow r)) (o_calls o) (t_calls s) = (rC, t_calls s')
       else t_calls s' = t_calls s /\ rC = rO) /\
      (r = Ok tt -> rC = Ok tt) /\ (rC <> Ok tt -> r <> Ok tt).
  Proof.
    unfold commit_body, bindM, on_atoms, on_shapes, on_ops, on_calls.
    destruct (dict_commit bigA _ _ (t_atoms s)) as [rA dA].
    destruct rA as [[]|e]; simpl.
    2:{ intros [= <- <-]. exists (Err e), (Err e), (Err e), (Err e). split_and!; done. }
    destruct (dict_commit bigS _ _ (t_shapes s)) as [rS dS].
    destruct rS as [[]|e]; simpl.
    2:{ intros [= <- <-]. exists (Ok tt), (Err e), (Err e), (Err e). split_and!; done. }
    destruct (dict_commit bigO _ _ (t_ops s)) as [rO dO].
    destruct rO as [[]|e]; simpl.
    2:{ intros [= <- <-]. exists (Ok tt), (Ok tt), (Err e), (Err e). split_and!; done. }
    destruct (calls_commit _ _ (t_calls s)) as [rC dC].
    destruct rC as [[]|e]; simpl.
    2:{ intros [= <- <-]. exists (Ok tt), (Ok tt), (Ok tt), (Err e). split_and!; done. }
    unfold with_fault, raiseM, retM. destruct (f SCommit); intros [= <- <-];
      exists (Ok tt), (Ok tt), (Ok tt), (Ok tt); split_and!; done.
  Qed.

  Lemma body_ok f o (s s' : tabs A S O) :
    commit_body bigA bigS bigO f o s = (Ok tt, s') ->
    cd_commit bigA (o_atoms o) (t_atoms s) = (Ok tt, t_atoms s') /\
    cd_commit bigS (o_shapes o) (t_shapes s) = (Ok tt, t_shapes s') /\
    cd_commit bigO (o_ops o) (t_ops s) = (Ok tt, t_ops s') /\
    cc_commit (o_calls o) (t_calls s) = (Ok tt, t_calls s').
  Proof.
    intros H. apply body_cases in H as (rA & rS & rO & rC & HA & HS & HO & HC & Hr & _).
    specialize (Hr eq_refl) as ->.
    case_decide as E3; [subst|by destruct HC].
    case_decide as E2; [subst|by destruct HO].
    case_decide as E1; [subst|by destruct HS].
    eauto 10 using dict_commit_ok, calls_commit_ok.
  Qed.

  Lemma tinv_commit_ok m f o s s' :
    tinv s m -> orders_of o s -> commit_body bigA bigS bigO f o s = (Ok tt, s') ->
    shows (db_of s') m /\ tinv s' m.
  Proof.
    intros [IA IS IO [mc IC]] (OA & OS & OO & OC) H.
    apply body_ok in H as (HA & HS & HO & HC).
    destruct (commit_inv bigA _ _ keyed_fun _ _ _ _ _ IA OA HA) as [IA' PA].
    destruct (commit_inv bigS _ _ any_fun _ _ _ _ _ IS OS HS) as [IS' PS].
    destruct (commit_inv bigO _ _ any_fun _ _ _ _ _ IO OO HO) as [IO' PO].
    destruct (inv_commit _ _ _ IC OC) as (c' & HC' & IC' & _).
    rewrite HC in HC'. injection HC' as <-. simpl in IC'.
    split.
    - split_and!; simpl.
      + apply dict_shows_plook. by apply PA.
      + apply dict_shows_plook. by apply PS.
      + apply dict_shows_plook. by apply PO.
      + intros hid. apply (ci_pers _ _ IC').
    - constructor; eauto.
  Qed.

  Lemma roll_rows (s s' : tabs A S O) : same_rows (db_of (rollback s s')) (db_of s).
  Proof. by split_and!. Qed.

  Lemma commit_atomic m f o s r s' :
    reached bigA bigS bigO val sel s m -> orders_of o s ->
    commit_disk bigA bigS bigO f o s = (r, s') ->
    (r = Ok tt /\ shows (db_of s') m) \/ (r <> Ok tt /\ same_rows (db_of s') (db_of s)).
  Proof.
    intros Hr%reached_tinv Ho. unfold commit_disk.
    destruct (commit_body bigA bigS bigO f o s) as [[[]|e] s1] eqn:E; intros [= <- <-].
    - left. split; [done|]. by eapply tinv_commit_ok.
    - right. split; [done|]. apply roll_rows.
  Qed.

  (** reading from a database where SQL is unchanged and overflow files only grew *)
  Lemma read_grown (p : pdict A) o' k v :
    pd_get k p = Ok v ->
    (forall o k, pd_over p = Some o -> is_Some (o !! k) -> exists o1, o' = Some o1 /\ o1 !! k = o !! k) ->
    pd_get k (PDict (pd_sql p) o') = Ok v.
  Proof.
    unfold pd_get; simpl. destruct (pd_sql p !! k); [done|].
    destruct (pd_over p) as [o|]; [|done]. intros Hk Hgrow.
    destruct (o !! k) as [w|] eqn:Ek; simpl in Hk; [|done].
    destruct (Hgrow o k eq_refl ltac:(eauto)) as (o1 & -> & ->). by rewrite Ek.
  Qed.

  Lemma roll_self_pers {V} (d : cdict V) : cd_pers (roll_dict d d) = cd_pers d.
  Proof. unfold roll_dict; simpl. by destruct (cd_pers d). Qed.

  (** after the rollback: shapes, ops and calls are untouched on disk *)
  Lemma rolled_db m f o s r s1 :
    tinv s m -> orders_of o s -> commit_body bigA bigS bigO f o s = (r, s1) ->
    cd_pers (roll_dict (t_shapes s) (t_shapes s1)) = cd_pers (t_shapes s) /\
    cd_pers (roll_dict (t_ops s) (t_ops s1)) = cd_pers (t_ops s) /\
    over_ext (t_atoms s) (t_atoms s1).
  Proof.
    intros [IA IS IO _] (OA & OS & OO & OC) E.
    apply body_cases in E as (rA & rS & rO & rC & HA & HS & HO & HC & _).
    split_and!.
    - destruct (decide (rA = Ok tt)); [eapply (roll_pers bigS anyv false any_fun); eauto|].
      destruct HS as [-> _]. apply roll_self_pers.
    - destruct (decide (rS = Ok tt)); [eapply (roll_pers bigO anyv false any_fun); eauto|].
      destruct HO as [-> _]. apply roll_self_pers.
    - by destruct (dict_commit_over bigA _ _ keyed_fun _ _ _ _ _ _ IA OA HA).
  Qed.

  Lemma rolled_intact need m f o s r s1 torn :
    tinv s m -> orders_of o s -> commit_body bigA bigS bigO f o s = (r, s1) ->
    intact val need (db_of s) ->
    intact val need
      (DB (PDict (pd_sql (cd_pers (t_atoms s)))
                 (match torn with None => pd_over (cd_pers (t_atoms s1))
                  | Some (k, v) => over_set k v <$> pd_over (cd_pers (t_atoms s1)) end))
          (cd_pers (roll_dict (t_shapes s) (t_shapes s1)))
          (cd_pers (roll_dict (t_ops s) (t_ops s1))) (cc_pers (t_calls s))).
  Proof.
    intros Hi Ho E [H1 H2]. destruct (rolled_db _ _ _ _ _ _ Hi Ho E) as (-> & -> & Hov).
    split; simpl; [exact H1|]. intros hid sh cid Hs Hc.
    apply read_grown; [by eapply H2|]. intros ov k Hov0 [w Hw].
    unfold over_ext in Hov. simpl in Hov0. rewrite Hov0 in Hov.
    destruct (pd_over (cd_pers (t_atoms s1))) as [o1|]; [|done].
    assert (o1 !! k = ov !! k) as Hk1.
    { destruct (Hov k) as [?|(_ & Hn & _)]; [done|]. congruence. }
    destruct torn as [[k' v']|]; [|eauto].
    simpl. eexists. split; [done|]. unfold over_set.
    destruct (o1 !! k') eqn:E'; [done|]. rewrite lookup_insert_ne; [done|]. congruence.
  Qed.

  Lemma crash_intact need m f o torn s :
    reached bigA bigS bigO val sel s m -> orders_of o s -> intact val need (db_of s) ->
    intact val need (crash_disk bigA bigS bigO f o torn s) /\
    same_rows (crash_disk bigA bigS bigO f o torn s) (db_of s).
  Proof.
    intros Hr%reached_tinv Ho Hint. unfold crash_disk.
    destruct (commit_body bigA bigS bigO f o s) as [r s1] eqn:E. simpl. split.
    - pose proof (rolled_intact need m f o s r s1 torn Hr Ho E Hint) as H.
      destruct torn as [[k v]|]; exact H.
    - destruct torn as [[k v]|]; by split_and!.
  Qed.

  (** the contents form an intact database *)
  Lemma commit_intact need m f o s r s' :
    reached bigA bigS bigO val sel s m -> orders_of o s -> intact val need (db_of s) ->
    (forall hid i, m_calls m !! hid = Some i -> is_Some (m_ops m !! i_op i) /\
       forall n p, i_ins i !! n = Some p \/ i_outs i !! n = Some p -> is_Some (m_shapes m !! p.2)) ->
    (forall hid sh cid, m_shapes m !! hid = Some sh -> cid ∈ need sh -> is_Some (m_atoms m !! cid)) ->
    commit_disk bigA bigS bigO f o s = (r, s') ->
    intact val need (db_of s').
  Proof.
    intros Hr%reached_tinv Ho Hint HmC HmS. unfold commit_disk.
    destruct (commit_body bigA bigS bigO f o s) as [[[]|e] s1] eqn:E; intros [= <- <-].
    2:{ exact (rolled_intact need m f o s (Err e) s1 None Hr Ho E Hint). }
    destruct (tinv_commit_ok _ _ _ _ _ Hr Ho E) as [(SA & SS & SO & SC) Ht]. split.
    - intros row Hrow. specialize (SC (r_hid row)). unfold holds in SC.
      assert (row ∈ rows_for (r_hid row) (db_calls (db_of s1))) as Hin.
      { unfold rows_for. by apply elem_of_list_filter. }
      destruct (m_calls m !! r_hid row) as [i|] eqn:Ei.
      2:{ rewrite SC in Hin. by apply elem_of_nil in Hin. }
      destruct SC as (c & Hok & Hh & <- & Hp). rewrite Hp in Hin.
      destruct (HmC _ _ Ei) as [[op Hop] Hrefs].
      assert (r_op row = d_op c /\ exists n, (n, (r_rcid row, r_rhid row)) ∈ d_ins c \/ (n, (r_rcid row, r_rhid row)) ∈ d_outs c)
        as (-> & n & Hn).
      { unfold rows_of in Hin. apply elem_of_app in Hin as [Hin|Hin];
          apply elem_of_list_fmap in Hin as ([n [a b]] & -> & Hn); simpl; eauto 10. }
      assert (is_Some (m_shapes m !! r_rhid row)) as [sh Hsh].
      { apply (Hrefs n (r_rcid row, r_rhid row)). destruct Hok as [Hnd _].
        apply NoDup_app in Hnd as (N1 & _ & N2).
        destruct Hn as [Hn|Hn]; [left|right]; simpl; apply elem_of_list_to_map_1; auto. }
      split.
      + exists sh. rewrite (SS (r_rhid row)), Hsh. done.
      + exists op. rewrite (SO (d_op c)). simpl in Hop. by rewrite Hop.
    - intros hid sh cid Hs Hc. rewrite (SS hid) in Hs.
      destruct (m_shapes m !! hid) as [sh'|] eqn:Eh; simpl in Hs; [|done]. injection Hs as ->.
      destruct (HmS _ _ _ Eh Hc) as [v Hv]. rewrite (SA cid), Hv. simpl. f_equal.
      pose proof (ti_atoms _ _ Ht) as Hia. rewrite <-(inv_view _ _ _ _ Hia) in Hv.
      unfold view in Hv. destruct (cd_cache (t_atoms s1) !! cid) eqn:Ec.
      + simplify_eq. by apply (inv_cache _ _ _ _ Hia) in Ec.
      + by apply (plook_ok _ _ _ _ _ (inv_pers _ _ _ _ Hia)) in Hv.
  Qed.

  (** what the process sees *)
  Lemma view_get {V} (d : cdict V) k v : view d k = v -> (cd_get k d).1 = of_option EKeyError v.
  Proof.
    unfold view, cd_get. intros <-. destruct (cd_cache d !! k); [done|].
    rewrite pd_get_plook. by destruct (plook k (cd_pers d)).
  Qed.
  Lemma roll_self_view {V} (d : cdict V) k : view (roll_dict d d) k = view d k.
  Proof. unfold view. by rewrite roll_self_pers. Qed.

  Lemma failed_sees m f o s e s' :
    reached bigA bigS bigO val sel s m -> orders_of o s ->
    commit_disk bigA bigS bigO f o s = (Err e, s') -> sees sel s' m.
  Proof.
    intros Hr%reached_tinv Ho. unfold commit_disk.
    destruct (commit_body bigA bigS bigO f o s) as [[[]|e'] s1] eqn:E; intros [= <- <-].
    destruct Hr as [IA IS IO [mc IC]], Ho as (OA & OS & OO & OC).
    apply body_cases in E as (rA & rS & rO & rC & HA & HS & HO & HC & _).
    split_and!; simpl.
    - intros k. apply view_get. by eapply (roll_view bigA keyed true keyed_fun).
    - intros k. apply view_get. destruct (decide (rA = Ok tt)); [by eapply (roll_view bigS anyv false any_fun)|].
      destruct HS as [-> _]. rewrite roll_self_view. apply (inv_view _ _ _ _ IS).
    - intros k. apply view_get. destruct (decide (rS = Ok tt)); [by eapply (roll_view bigO anyv false any_fun)|].
      destruct HO as [-> _]. rewrite roll_self_view. apply (inv_view _ _ _ _ IO).
    - intros hid. pose proof (inv_get sel sel_perm _ _ hid IC) as Hg. simpl in Hg.
      assert (cc_cache (t_calls s1) = cc_cache (t_calls s)) as Hcc.
      { destruct (decide (rO = Ok tt)); [by eapply calls_commit_cache|]. by destruct HC as [-> _]. }
      unfold cc_get in *. simpl. rewrite Hcc. exact Hg.
  Qed.

  (** failures in the first table *)
  Lemma loop_faulted {V} (big : V -> bool) fault order (d : cdict V) k e0 :
    k ∈ order -> fault k = Some e0 -> (dict_commit big fault order d).1 <> Ok tt.
  Proof.
    intros Hk Hf. unfold dict_commit. destruct (iterM _ order d) as [r d'] eqn:E.
    assert (r <> Ok tt); [|by destruct r as [[]|]].
    intros ->. revert d E. induction order as [|k' order IH]; intros d; [by apply elem_of_nil in Hk|].
    simpl. unfold bindM. destruct (with_fault (fault k') (cd_commit_key big k') d) as [[[]|e'] d1] eqn:E1; [|done].
    apply elem_of_cons in Hk as [->|Hk]; [|by apply IH].
    unfold with_fault in E1. by rewrite Hf in E1.
  Qed.

  Lemma first_table_tinv m f o s e s' k :
    tinv s m -> orders_of o s -> k ∈ o_atoms o -> f (SAtom k) <> None ->
    commit_disk bigA bigS bigO f o s = (Err e, s') ->
    tinv s' m.
  Proof.
    intros [IA IS IO IC] Ho Hk Hf. unfold commit_disk.
    destruct (commit_body bigA bigS bigO f o s) as [[[]|e'] s1] eqn:E; intros [= <- <-].
    destruct Ho as (OA & OS & OO & OC).
    apply body_cases in E as (rA & rS & rO & rC & HA & HS & HO & HC & _).
    destruct (f (SAtom k)) as [e0|] eqn:Ef; [|done].
    pose proof (loop_faulted bigA (fun k => f (SAtom k)) (o_atoms o) (t_atoms s) k e0 Hk Ef) as Hn.
    rewrite HA in Hn. simpl in Hn. rewrite decide_False in HS by done. destruct HS as [HS ->].
    rewrite decide_False in HO by done. destruct HO as [HO ->].
    rewrite decide_False in HC by done. destruct HC as [HC ->].
    destruct (dict_commit_over bigA _ _ keyed_fun _ _ _ _ _ _ IA OA HA) as (Hov & Hc & IA' & Hd).
    constructor; simpl.
    - apply roll_inv; auto.
    - rewrite HS. unfold roll_dict. by destruct (t_shapes s) as [? ? []].
    - rewrite HO. unfold roll_dict. by destruct (t_ops s) as [? ? []].
    - rewrite HC. destruct IC as [mc IC]. exists mc. by destruct (t_calls s).
  Qed.

  Lemma retry_first_table m f o s e s1 k f' o' s2 :
    reached bigA bigS bigO val sel s m -> orders_of o s -> k ∈ o_atoms o -> f (SAtom k) <> None ->
    commit_disk bigA bigS bigO f o s = (Err e, s1) ->
    orders_of o' s1 -> commit_disk bigA bigS bigO f' o' s1 = (Ok tt, s2) ->
    shows (db_of s2) m.
  Proof.
    intros Hr%reached_tinv Ho Hk Hf H1 Ho' H2.
    assert (Ht : tinv s1 m) by (by eapply first_table_tinv).
    unfold commit_disk in H2. destruct (commit_body bigA bigS bigO f' o' s1) as [[[]|?] s3] eqn:E; [|done].
    injection H2 as <-. by eapply tinv_commit_ok.
  Qed.

  (** in-memory databases: failures before the call rows *)
  Lemma mem_tinv m f o s e s1 :
    tinv s m -> orders_of o s -> (forall r, f (SRow r) = None) ->
    commit_mem bigA bigS bigO f o s = (Err e, s1) -> tinv s1 m.
  Proof.
    intros [IA IS IO [mc IC]] (OA & OS & OO & OC) Hrow E. unfold commit_mem in E.
    apply body_cases in E as (rA & rS & rO & rC & HA & HS & HO & HC & _).
    destruct (dict_commit_over bigA _ _ keyed_fun _ _ _ _ _ _ IA OA HA) as (_ & _ & IA' & _).
    constructor; auto.
    - destruct (decide (rA = Ok tt)); [|by destruct HS as [-> _]].
      by destruct (dict_commit_over bigS _ _ any_fun _ _ _ _ _ _ IS OS HS) as (_ & _ & ? & _).
    - destruct (decide (rS = Ok tt)); [|by destruct HO as [-> _]].
      by destruct (dict_commit_over bigO _ _ any_fun _ _ _ _ _ _ IO OO HO) as (_ & _ & ? & _).
    - destruct (decide (rO = Ok tt)); [|destruct HC as [-> _]; by eauto].
      assert (Hcc : calls_commit (fun r => f (SRow r)) (o_calls o) (t_calls s) = cc_commit (o_calls o) (t_calls s)).
      { unfold calls_commit, cc_commit. f_equal.
        assert (forall l st, iterM (calls_commit_hid (fun r => f (SRow r))) l st = iterM cc_commit_hid l st) as Hit.
        { clear -Hrow. induction l as [|h l IH]; intros st; simpl; [done|]. unfold bindM.
          assert (calls_commit_hid (fun r => f (SRow r)) h st = cc_commit_hid h st) as ->.
          { unfold calls_commit_hid, cc_commit_hid, sql_save. destruct (mc_get h (cc_cache st)); [|done].
            assert (forall l t, iterM (fun r => with_fault (f (SRow r)) (sql_insert r)) l t = iterM sql_insert l t) as H.
            { induction l0 as [|r l0 IH0]; intros t; simpl; [done|]. unfold bindM.
              rewrite Hrow. simpl. destruct (sql_insert r t) as [[]?]; [apply IH0|done]. }
            by rewrite H. }
          destruct (cc_commit_hid h st) as [[]?]; [apply IH|done]. }
        by rewrite Hit. }
      rewrite Hcc in HC. destruct (inv_commit _ _ _ IC OC) as (c' & HC' & IC' & _).
      rewrite HC in HC'. injection HC' as -> ->. eauto.
  Qed.

  Lemma mem_retry m f o s e s1 f' o' s2 :
    reached bigA bigS bigO val sel s m -> orders_of o s -> (forall r, f (SRow r) = None) ->
    commit_mem bigA bigS bigO f o s = (Err e, s1) ->
    orders_of o' s1 -> commit_mem bigA bigS bigO f' o' s1 = (Ok tt, s2) ->
    shows (db_of s2) m.
  Proof.
    intros Hr%reached_tinv Ho Hrow H1 Ho' H2.
    assert (Ht : tinv s1 m) by (by eapply mem_tinv).
    by eapply tinv_commit_ok.
  Qed.

  (** a commit without failing statements succeeds *)
  Lemma body_succeeds m f o s :
    tinv s m -> orders_of o s -> (forall x, f x = None) ->
    (forall k v, m_atoms m !! k = Some v -> bigA v = true -> pd_over (cd_pers (t_atoms s)) <> None) ->
    (forall k v, m_shapes m !! k = Some v -> bigS v = false) ->
    (forall k v, m_ops m !! k = Some v -> bigO v = false) ->
    exists s', commit_body bigA bigS bigO f o s = (Ok tt, s').
  Proof.
    intros [IA IS IO [mc IC]] (OA & OS & OO & OC) Hf HbA HbS HbO.
    destruct (commit_succeeds bigA _ _ _ _ _ keyed_fun IA OA HbA) as [dA HA].
    destruct (commit_succeeds bigS _ _ _ _ _ any_fun IS OS) as [dS HS]; [intros k v Hk Hb; by rewrite (HbS _ _ Hk) in Hb|].
    destruct (commit_succeeds bigO _ _ _ _ _ any_fun IO OO) as [dO HO]; [intros k v Hk Hb; by rewrite (HbO _ _ Hk) in Hb|].
    destruct (inv_commit _ _ _ IC OC) as (dC & HC & _).
    assert (forall V (big : V -> bool) (g : string -> option exn) l (d : cdict V), (forall k, g k = None) ->
      dict_commit big g l d = cd_commit big l d) as Hd.
    { clear. intros V big g l d Hg. unfold dict_commit, cd_commit.
      assert (forall l d, iterM (fun k => with_fault (g k) (cd_commit_key big k)) l d = iterM (cd_commit_key big) l d) as H.
      { induction l0 as [|r l0 IH0]; intros t; simpl; [done|]. unfold bindM.
        rewrite Hg. simpl. destruct (cd_commit_key big r t) as [[]?]; [apply IH0|done]. }
      by rewrite H. }
    assert (calls_commit (fun r => f (SRow r)) (o_calls o) (t_calls s) = cc_commit (o_calls o) (t_calls s)) as Hc.
    { unfold calls_commit, cc_commit.
      assert (forall l st, iterM (calls_commit_hid (fun r => f (SRow r))) l st = iterM cc_commit_hid l st) as Hit.
      { clear -Hf. induction l as [|h l IH]; intros st; simpl; [done|]. unfold bindM.
        assert (calls_commit_hid (fun r => f (SRow r)) h st = cc_commit_hid h st) as ->.
        { unfold calls_commit_hid, cc_commit_hid, sql_save. destruct (mc_get h (cc_cache st)); [|done].
          assert (forall l t, iterM (fun r => with_fault (f (SRow r)) (sql_insert r)) l t = iterM sql_insert l t) as H.
          { induction l0 as [|r l0 IH0]; intros t; simpl; [done|]. unfold bindM.
            rewrite Hf. simpl. destruct (sql_insert r t) as [[]?]; [apply IH0|done]. }
          by rewrite H. }
        destruct (cc_commit_hid h st) as [[]?]; [apply IH|done]. }
      by rewrite Hit. }
    unfold commit_body, bindM, on_atoms, on_shapes, on_ops, on_calls.
    rewrite Hd by auto. rewrite HA. cbn [t_shapes t_ops t_calls].
    rewrite Hd by auto. rewrite HS. cbn [t_shapes t_ops t_calls t_atoms].
    rewrite Hd by auto. rewrite HO. cbn [t_shapes t_ops t_calls t_atoms].
    rewrite Hc, HC. rewrite Hf. simpl. eauto.
  Qed.

  Lemma cd_clear_inv {V} (okval : string -> V -> Prop) ho m b (d d' : cdict V) r :
    cd_inv okval ho m d -> cd_clear b d = (r, d') -> (b = true -> cd_dirty d = ∅) ->
    cd_inv okval ho m d' /\ cd_pers d' = cd_pers d /\ (r = Ok tt <-> cd_dirty d = ∅) /\ cd_dirty d' = cd_dirty d.
  Proof.
    intros [I1 I2 I3 I4 I5] Hc Hb. unfold cd_clear in Hc.
    case_bool_decide as Hd; simpl in Hc.
    - injection Hc as <- <-. split; [|split; [done|split; [done|by rewrite Hd]]].
      constructor; simpl; auto.
      + intros k. rewrite <-I1. unfold view; simpl. rewrite lookup_empty.
        destruct (cd_cache d !! k) as [v|] eqn:E; [|done].
        apply I3; [done|]. rewrite Hd. apply not_elem_of_empty.
      + intros k Hk. by apply elem_of_empty in Hk.
      + intros k v Hk. by rewrite lookup_empty in Hk.
      + intros k v Hk. by rewrite lookup_empty in Hk.
    - destruct b; [by destruct Hd; apply Hb|]. injection Hc as <- <-. split; [by constructor|done].
  Qed.

  Lemma clear_tinv m s r s' :
    tinv s m -> clear_cache false s = (r, s') ->
    tinv s' m /\ db_of s' = db_of s /\
    (r = Ok tt <-> cd_dirty (t_atoms s) = ∅ /\ cd_dirty (t_shapes s) = ∅ /\
                  cd_dirty (t_ops s) = ∅ /\ cc_dirty (t_calls s) = ∅) /\
    (r = Ok tt -> s' = open_db (db_of s)).
  Proof.
    intros [IA IS IO [mc IC]]. unfold clear_cache, bindM, on_atoms, on_shapes, on_ops, on_calls.
    destruct (cd_clear false (t_atoms s)) as [rA dA] eqn:EA.
    destruct (cd_clear_inv _ _ _ _ _ _ _ IA EA ltac:(done)) as (IA' & PA & RA & DA).
    destruct rA as [[]|e].
    2:{ intros [= <- <-]. unfold db_of; simpl. rewrite PA. split_and!; try done; [constructor; eauto|].
        split; [done|]. intros (H & _). apply RA in H. done. }
    cbn [t_shapes t_ops t_calls].
    destruct (cd_clear false (t_shapes s)) as [rS dS] eqn:ES.
    destruct (cd_clear_inv _ _ _ _ _ _ _ IS ES ltac:(done)) as (IS' & PS & RS & DS).
    destruct rS as [[]|e].
    2:{ intros [= <- <-]. unfold db_of; simpl. rewrite PA, PS. split_and!; try done; [constructor; eauto|].
        split; [done|]. intros (_ & H & _). apply RS in H. done. }
    cbn [t_shapes t_ops t_calls t_atoms].
    destruct (cd_clear false (t_ops s)) as [rO dO] eqn:EO.
    destruct (cd_clear_inv _ _ _ _ _ _ _ IO EO ltac:(done)) as (IO' & PO & RO & DO).
    destruct rO as [[]|e].
    2:{ intros [= <- <-]. unfold db_of; simpl. rewrite PA, PS, PO. split_and!; try done; [constructor; eauto|].
        split; [done|]. intros (_ & _ & H & _). apply RO in H. done. }
    cbn [t_shapes t_ops t_calls t_atoms].
    destruct (cc_clear false (t_calls s)) as [rC dC] eqn:EC.
    pose proof (inv_clear _ _ _ _ IC EC) as IC'.
    unfold cc_clear in EC. case_bool_decide as HdC; simpl in EC; injection EC as <- <-; intros [= <- <-];
      unfold db_of, open_db; simpl; rewrite PA, PS, PO.
    - split_and!; [constructor; eauto|done| |].
      + split; [|done]. intros _. split_and!; [by apply RA|by apply RS|by apply RO|done].
      + intros _. unfold cd_open, cc_open.
        assert (forall V (d d' : cdict V) , cd_clear false d = (Ok tt, d') -> d' = CDict ∅ ∅ (cd_pers d)) as Hcl.
        { intros V d d'. unfold cd_clear. case_bool_decide; simpl; congruence. }
        by rewrite (Hcl _ _ _ EA), (Hcl _ _ _ ES), (Hcl _ _ _ EO).
    - split_and!; [constructor; eauto|by destruct (t_calls s)| |done].
      split; [done|]. by intros (_ & _ & _ & ?).
  Qed.

  Lemma tinv_sees s m : tinv s m -> sees sel s m.
  Proof.
    intros [IA IS IO [mc IC]]. split_and!.
    - intros k. apply view_get. apply (inv_view _ _ _ _ IA).
    - intros k. apply view_get. apply (inv_view _ _ _ _ IS).
    - intros k. apply view_get. apply (inv_view _ _ _ _ IO).
    - intros hid. exact (inv_get sel sel_perm _ _ hid IC).
  Qed.

  Lemma cd_preload_inv {V} (okval : string -> V -> Prop) ho m (d : cdict V) :
    (forall k, plook k (cd_pers d) = pd_load_all (cd_pers d) !! k) ->
    cd_inv okval ho m d -> cd_dirty d = ∅ -> cd_inv okval ho m (cd_preload d).
  Proof.
    intros Hla [I1 I2 I3 I4 I5] Hd.
    assert (Hv : forall k, plook k (cd_pers d) = m !! k).
    { intros k. rewrite <-I1. unfold view. destruct (cd_cache d !! k) eqn:E; [|done].
      apply I3; [done|]. rewrite Hd. apply not_elem_of_empty. }
    constructor; simpl; auto.
    - intros k. unfold view; simpl. rewrite <-Hla. destruct (plook k (cd_pers d)) eqn:E; by rewrite <-Hv, E.
    - intros k Hk. rewrite Hd in Hk. by apply elem_of_empty in Hk.
    - intros k v Hk _. by rewrite Hla.
    - intros k v Hk. rewrite <-Hla in Hk. by apply (plook_ok _ _ _ _ _ I4).
  Qed.

  Lemma cc_preload_inv ks s :
    cc_inv ks s -> cc_dirty s = ∅ -> cc_inv (ks.1, ks.1) (cc_preload s).
  Proof.
    intros [I1 I2 I3 I4 I5] Hd.
    assert (He : forall hid, ks.1 !! hid = ks.2 !! hid).
    { intros hid. destruct (decide (hid ∈ mc_hids (cc_cache s))) as [H|H].
      - apply I4; [done|]. rewrite Hd. apply not_elem_of_empty.
      - by apply I2. }
    assert (Hin : forall hid, hid ∈ map r_hid (cc_pers s) <-> rows_for hid (cc_pers s) <> []).
    { intros hid. unfold rows_for. rewrite elem_of_list_fmap. split.
      - intros (r & -> & Hr) Hnil. assert (r ∈ filter (fun r' => r_hid r' = r_hid r) (cc_pers s)) as H
          by (by apply elem_of_list_filter). rewrite Hnil in H. by apply elem_of_nil in H.
      - intros Hne. destruct (filter (fun r => r_hid r = hid) (cc_pers s)) as [|r l] eqn:E; [done|].
        assert (r ∈ filter (fun r => r_hid r = hid) (cc_pers s)) as H by (rewrite E; by left).
        apply elem_of_list_filter in H as [<- H]. eauto. }
    constructor; simpl.
    - intros hid Hh. apply elem_of_list_to_set, Hin in Hh. specialize (I5 hid). rewrite He.
      destruct (ks.2 !! hid); [split; eauto|]. done.
    - intros hid Hh. rewrite elem_of_list_to_set, Hin in Hh. split; [|done].
      destruct (rows_for hid (cc_pers s)); [done|]. by destruct Hh.
    - intros hid Hh. rewrite Hd in Hh. by apply elem_of_empty in Hh.
    - done.
    - intros hid. rewrite He. apply I5.
  Qed.

  Lemma preload_tinv lazy s m :
    tinv s m -> cd_dirty (t_atoms s) = ∅ -> cd_dirty (t_shapes s) = ∅ ->
    cd_dirty (t_ops s) = ∅ -> cc_dirty (t_calls s) = ∅ -> tinv (preload lazy s) m.
  Proof.
    intros [IA IS IO [mc IC]] HA HS HO HC.
    assert (Hla : forall V m' (d : cdict V), cd_inv anyv false m' d -> forall k, plook k (cd_pers d) = pd_load_all (cd_pers d) !! k).
    { intros V m' d Hi k. destruct (inv_pers _ _ _ _ Hi) as [Hn _]. unfold plook, pd_load_all.
      destruct (pd_over (cd_pers d)); [by discriminate Hn|]. by destruct (pd_sql (cd_pers d) !! k). }
    constructor; simpl.
    - destruct lazy; [done|]. apply cd_preload_inv; auto. intros k.
      destruct (inv_pers _ _ _ _ IA) as (_ & H1 & H2). eapply plook_load_all; eauto.
    - apply cd_preload_inv; eauto.
    - apply cd_preload_inv; eauto.
    - exists (m_calls m). by apply (cc_preload_inv (m_calls m, mc)).
  Qed.

  Lemma clear_safe m s r s' :
    reached bigA bigS bigO val sel s m -> clear_cache false s = (r, s') ->
    sees sel s' m /\ db_of s' = db_of s /\
    (r = Ok tt <-> cd_dirty (t_atoms s) = ∅ /\ cd_dirty (t_shapes s) = ∅ /\
                  cd_dirty (t_ops s) = ∅ /\ cc_dirty (t_calls s) = ∅) /\
    (r = Ok tt -> s' = open_db (db_of s)) /\
    (forall f o s2, orders_of o s' -> commit_disk bigA bigS bigO f o s' = (Ok tt, s2) -> shows (db_of s2) m).
  Proof.
    intros Hr%reached_tinv Hc. destruct (clear_tinv _ _ _ _ Hr Hc) as (Ht & Hdb & Hiff & Hok).
    split; [by apply tinv_sees|]. split; [done|]. split; [done|]. split; [done|].
    intros f o s2 Ho H2. unfold commit_disk in H2.
    destruct (commit_body bigA bigS bigO f o s') as [[[]|?] s3] eqn:E; [|done].
    injection H2 as <-. by eapply tinv_commit_ok.
  Qed.

  Lemma preload_safe m lazy s :
    reached bigA bigS bigO val sel s m ->
    cd_dirty (t_atoms s) = ∅ -> cd_dirty (t_shapes s) = ∅ -> cd_dirty (t_ops s) = ∅ -> cc_dirty (t_calls s) = ∅ ->
    sees sel (preload lazy s) m.
  Proof. intros Hr%reached_tinv H1 H2 H3 H4. apply tinv_sees. by apply preload_tinv. Qed.

  Lemma shows_sees (d : db A S O) m : shows d m -> sees sel (open_db d) m.
  Proof.
    intros (SA & SS & SO & SC). split_and!; simpl.
    - intros k. unfold cd_get; simpl. rewrite lookup_empty. pose proof (SA k) as H.
      destruct (pd_get k (db_atoms d)); simpl; congruence.
    - intros k. unfold cd_get; simpl. rewrite lookup_empty. pose proof (SS k) as H.
      destruct (pd_get k (db_shapes d)); simpl; congruence.
    - intros k. unfold cd_get; simpl. rewrite lookup_empty. pose proof (SO k) as H.
      destruct (pd_get k (db_ops d)); simpl; congruence.
    - intros hid. exact (inv_get sel sel_perm _ _ hid (inv_open _ _ SC)).
  Qed.

  Lemma commit_durable m f o s :
    reached bigA bigS bigO val sel s m -> orders_of o s -> (forall x, f x = None) ->
    (forall k v, m_atoms m !! k = Some v -> bigA v = true -> pd_over (cd_pers (t_atoms s)) <> None) ->
    (forall k v, m_shapes m !! k = Some v -> bigS v = false) ->
    (forall k v, m_ops m !! k = Some v -> bigO v = false) ->
    exists s', commit_disk bigA bigS bigO f o s = (Ok tt, s') /\ shows (db_of s') m /\
               sees sel (open_db (db_of s')) m.
  Proof.
    intros Hr%reached_tinv Ho Hf HA HS HO.
    destruct (body_succeeds m f o s Hr Ho Hf HA HS HO) as [s' E].
    exists s'. destruct (tinv_commit_ok _ _ _ _ _ Hr Ho E) as [Hs _].
    split; [unfold commit_disk; by rewrite E|]. split; [done|]. by apply shows_sees.
  Qed.
End storage.
