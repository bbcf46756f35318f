From stdpp Require Import base strings gmap list.
From Verif Require Import Base Dag Versioner Tracer Spec_Tracer.

Lemma before_ok m p : (before_ops m p).1.1 = (happens m p).1.
Proof.
  revert m. induction p as [| |p IHp q IHq|p IHp q IHq|k rt b IHb|name h r|k rt hit fin b IHb]; intros m; cbn; auto.
  - specialize (IHp m). specialize (IHq m). destruct (before_ops m p) as [[ok d] on], (happens m p) as [ok1 d1].
    cbn in IHp. subst. destruct ok1; [|done].
    destruct (before_ops m q) as [[ok' d'] on'], (happens m q) as [ok1' d1']. done.
  - specialize (IHp m). specialize (IHq m). destruct (before_ops m p) as [[ok d] on], (happens m p) as [ok1 d1].
    cbn in IHp. subst. destruct ok1; [done|].
    destruct (before_ops m q) as [[ok' d'] on'], (happens m q) as [ok1' d1']. done.
  - specialize (IHb k.1). destruct (before_ops k.1 b) as [[ok d] on], (happens k.1 b) as [ok1 d1]. done.
Qed.

Lemma before_all m p : no_ops p = true -> (before_ops m p) = (happens m p, true).
Proof.
  revert m. induction p as [| |p IHp q IHq|p IHp q IHq|k rt b IHb|name h r|k rt hit fin b IHb]; intros m N; cbn in *; auto.
  - apply andb_true_iff in N as [N1 N2]. rewrite IHp by done. destruct (happens m p) as [ok d].
    destruct ok; [|done]. rewrite IHq by done. by destruct (happens m q).
  - apply andb_true_iff in N as [N1 N2]. rewrite IHp by done. destruct (happens m p) as [ok d].
    destruct ok; [done|]. rewrite IHq by done. by destruct (happens m q).
  - rewrite IHb by done. by destruct (happens k.1 b).
  - done.
Qed.

(** Tracers other than [t] below the counter are untouched. *)
Definition others (t : option nat) (s s' : tstate) : Prop :=
  ts_next s <= ts_next s' /\
  forall t', t' < ts_next s -> Some t' <> t -> ts_tracers s' !! t' = ts_tracers s !! t'.

Lemma others_refl t s : others t s s.
Proof. split; auto. Qed.
Lemma others_trans t s1 s2 s3 : others t s1 s2 -> others t s2 s3 -> others t s1 s3.
Proof. intros [L1 O1] [L2 O2]. split; [lia|]. intros t' L N. rewrite O2, O1 by (done || lia). done. Qed.
Lemma others_weak t s1 s2 : others None s1 s2 -> others t s1 s2.
Proof. intros [L O]. split; [done|]. intros t' Lt _. by apply O. Qed.

(** The nodes after recording [d]. *)
Definition recs (ns : gmap depkey node) (d : list (depkey * node)) (ns' : gmap depkey node) : Prop :=
  (forall k n, ns' !! k = Some n -> ns !! k = Some n \/ (k, n) ∈ d) /\
  (forall k, k ∈ dom ns' <-> k ∈ dom ns \/ k ∈ d.*1).

Lemma recs_refl ns : recs ns [] ns.
Proof. split; [auto|]. intros k. cbn. rewrite elem_of_nil. tauto. Qed.
Lemma recs_app ns d ns1 d' ns2 : recs ns d ns1 -> recs ns1 d' ns2 -> recs ns (d ++ d') ns2.
Proof.
  intros [A1 B1] [A2 B2]. split.
  - intros k n E. rewrite elem_of_app. apply A2 in E as [E|E]; [|auto]. apply A1 in E as [E|E]; auto.
  - intros k. rewrite B2, B1, fmap_app, elem_of_app. tauto.
Qed.
Lemma recs_insert ns k n : recs ns [(k, n)] (<[k := n]> ns).
Proof.
  split.
  - intros k' n' E. apply lookup_insert_Some in E as [[<- <-]|[_ E]]; auto. right. by left.
  - intros k'. rewrite dom_insert, elem_of_union, elem_of_singleton. cbn. rewrite elem_of_list_singleton. tauto.
Qed.
Lemma recs_keep ns k n n0 : ns !! k = Some n0 -> recs ns [(k, n)] ns.
Proof.
  intros E. split; [auto|]. intros k'. cbn. rewrite elem_of_list_singleton.
  split; [auto|]. intros [?| ->]; [done|]. apply elem_of_dom. eauto.
Qed.

Definition on_spec (p : prog) : Prop := forall m s t tc n0 k0 st,
  calm m p -> ts_active s = Some t -> t < ts_next s -> ts_tracers s !! t = Some tc ->
  tc_stack tc = (n0, k0) :: st -> k0.1 = m ->
  let '(ok, d, on) := before_ops m p in
  exists s' ns', prun p s = (ok, s') /\ ts_active s' = (if on then Some t else None) /\ others (Some t) s s' /\
    ts_tracers s' !! t = Some (Tracer (tc_stack tc) ns' (tc_roots tc)) /\ recs (tc_nodes tc) d ns'.
Definition off_spec (p : prog) : Prop := forall m s,
  calm m p -> ts_active s = None ->
  exists s', prun p s = ((happens m p).1, s') /\ ts_active s' = None /\ others None s s'.

Lemma get_insert t tc s a n : get_tracer t (TState a (<[t := tc]> s) n) = tc.
Proof. unfold get_tracer. cbn. by rewrite lookup_insert. Qed.

(** The call of an op whose body is calm. *)
Lemma call_op_spec k rt b s : on_spec b -> calm k.1 b ->
  let '(ok, d, on) := before_ops k.1 b in
  exists s' ns' st, call_op k rt (prun b) s = (ts_next s, (ok, s')) /\ ts_active s' = None /\ others None s s' /\
    ts_tracers s' !! ts_next s = Some (Tracer st ns' {[k]}) /\ recs ∅ ((k, NCall None rt) :: d) ns'.
Proof.
  intros On C.
  set (t := ts_next s).
  unfold call_op, register_call, tracked_call. cbn [ts_next ts_active ts_tracers set_active]. fold t.
  rewrite !get_insert. cbn [tc_stack tc_nodes tc_roots new_tracer]. rewrite !insert_insert.
  cbn [ts_next ts_active ts_tracers set_active]. unfold register_call. cbn [ts_next ts_active ts_tracers].
  rewrite !get_insert. cbn [tc_stack tc_nodes tc_roots]. rewrite !insert_insert.
  match goal with |- context [prun b ?s0] => set (s3 := s0) end.
  specialize (On k.1 s3 t (Tracer [(S (S t), k); (S t, k)] (<[k:=NCall None rt]> ∅) ({[k]} ∪ ∅))
    (S (S t)) k [(S t, k)] C eq_refl).
  destruct (before_ops k.1 b) as [[ok d] on].
  destruct On as (s' & ns' & -> & Ea & [L O] & Et & Rn).
  { subst s3. cbn. lia. }
  { subst s3. cbn. by rewrite lookup_insert. }
  { done. } { done. }
  cbn in Et, Rn.
  assert (Oth : forall t', t' < t -> ts_tracers s' !! t' = ts_tracers s !! t').
  { intros t' Lt. rewrite O; [|subst s3; cbn; lia|intros [= ->]; lia].
    subst s3. cbn. rewrite lookup_insert_ne by lia. done. }
  assert (Lt : ts_next s <= ts_next s'). { etrans; [|exact L]. subst s3. cbn. fold t. lia. }
  assert (RR : recs ∅ ((k, NCall None rt) :: d) ns').
  { change ((k, NCall None rt) :: d) with ([(k, NCall None rt)] ++ d). eapply recs_app; [|exact Rn].
    apply recs_insert. }
  rewrite (right_id_L ∅ (∪)) in Et.
  destruct ok.
  - unfold register_return. unfold get_tracer at 1. rewrite Et. cbn. rewrite decide_True by done.
    unfold get_tracer, set_tracer, set_active. rewrite Et. cbn. rewrite lookup_insert. cbn. rewrite decide_True by done. cbn.
    do 3 eexists. split_and!; [done|done| |cbn; by rewrite lookup_insert|exact RR].
    split; [done|]. cbn. intros t' L' _. rewrite !lookup_insert_ne by (fold t in L'; lia). auto.
  - do 3 eexists. split_and!; [done|done| |exact Et|exact RR].
    split; [done|]. cbn. intros t' L' _. auto.
Qed.

Local Arguments call_op : simpl never.
Lemma specs p : on_spec p /\ off_spec p.
Proof.
  induction p as [| |p [ONp OFp] q [ONq OFq]|p [ONp OFp] q [ONq OFq]|k rt b [ONb OFb]|name h r|k rt hit fin b [ONb OFb]].
  - split.
    + intros m s t [stk ns rs] n0 k0 st _ Ea L Et _ _. exists s, ns. split_and!; auto using others_refl, recs_refl.
    + intros m s _ Ea. exists s. auto using others_refl.
  - split.
    + intros m s t [stk ns rs] n0 k0 st _ Ea L Et _ _. exists s, ns. split_and!; auto using others_refl, recs_refl.
    + intros m s _ Ea. exists s. auto using others_refl.
  - split.
    + intros m s t tc n0 k0 st [C1 C2] Ea L Et Es Em. cbn.
      pose proof (before_ok m p) as Bp. pose proof (before_ok m q) as Bq.
      specialize (ONp m s t tc n0 k0 st C1 Ea L Et Es Em).
      destruct (before_ops m p) as [[ok d] on]. cbn in Bp. subst ok.
      destruct ONp as (s1 & ns1 & -> & Ea1 & O1 & Et1 & R1).
      destruct (happens m p).1 eqn:Ep.
      2: { exists s1, ns1. auto. }
      specialize (C2 eq_refl). destruct on.
      * specialize (ONq m s1 t (Tracer (tc_stack tc) ns1 (tc_roots tc)) n0 k0 st C2 Ea1).
        destruct (before_ops m q) as [[ok' d'] on'].
        destruct ONq as (s2 & ns2 & -> & Ea2 & O2 & Et2 & R2); auto.
        { destruct O1. lia. }
        exists s2, ns2. split_and!; eauto using others_trans, recs_app.
      * destruct (OFq m s1 C2 Ea1) as (s2 & -> & Ea2 & O2).
        destruct (before_ops m q) as [[ok' d'] on']. cbn in Bq. subst ok'.
        exists s2, ns1. split_and!; eauto using others_trans, others_weak.
        destruct O2 as [_ O2]. rewrite O2; auto. destruct O1. lia.
    + intros m s [C1 C2] Ea. cbn. destruct (OFp m s C1 Ea) as (s1 & -> & Ea1 & O1).
      destruct (happens m p) as [[] d]; cbn in *.
      * destruct (OFq m s1 (C2 eq_refl) Ea1) as (s2 & -> & Ea2 & O2). destruct (happens m q) as [ok' d'].
        exists s2. split_and!; eauto using others_trans.
      * exists s1. auto.
  - split.
    + intros m s t tc n0 k0 st [C1 C2] Ea L Et Es Em. cbn.
      pose proof (before_ok m p) as Bp. pose proof (before_ok m q) as Bq.
      specialize (ONp m s t tc n0 k0 st C1 Ea L Et Es Em).
      destruct (before_ops m p) as [[ok d] on]. cbn in Bp. subst ok.
      destruct ONp as (s1 & ns1 & -> & Ea1 & O1 & Et1 & R1).
      destruct (happens m p).1 eqn:Ep.
      { exists s1, ns1. auto. }
      specialize (C2 eq_refl). destruct on.
      * specialize (ONq m s1 t (Tracer (tc_stack tc) ns1 (tc_roots tc)) n0 k0 st C2 Ea1).
        destruct (before_ops m q) as [[ok' d'] on'].
        destruct ONq as (s2 & ns2 & -> & Ea2 & O2 & Et2 & R2); auto.
        { destruct O1. lia. }
        exists s2, ns2. split_and!; eauto using others_trans, recs_app.
      * destruct (OFq m s1 C2 Ea1) as (s2 & -> & Ea2 & O2).
        destruct (before_ops m q) as [[ok' d'] on']. cbn in Bq. subst ok'.
        exists s2, ns1. split_and!; eauto using others_trans, others_weak.
        destruct O2 as [_ O2]. rewrite O2; auto. destruct O1. lia.
    + intros m s [C1 C2] Ea. cbn. destruct (OFp m s C1 Ea) as (s1 & -> & Ea1 & O1).
      destruct (happens m p) as [[] d]; cbn in *.
      * exists s1. auto.
      * destruct (OFq m s1 (C2 eq_refl) Ea1) as (s2 & -> & Ea2 & O2). destruct (happens m q) as [ok' d'].
        exists s2. split_and!; eauto using others_trans.
  - split.
    + intros m s t tc n0 k0 st [C1 C2] Ea L Et Es Em. cbn. unfold tracked_call. rewrite Ea. cbn.
      unfold get_tracer. rewrite Et. cbn. rewrite Es.
      pose proof (before_ok k.1 b) as Bb. rewrite C2 in Bb.
      set (s1 := TState _ _ _).
      specialize (ONb k.1 s1 t (Tracer ((ts_next s, k) :: tc_stack tc) (<[k:=NCall None rt]> (tc_nodes tc)) (tc_roots tc))
        (ts_next s) k (tc_stack tc) C1).
      destruct (before_ops k.1 b) as [[ok d] on]. cbn in Bb. subst ok.
      destruct ONb as (s2 & ns2 & -> & Ea2 & [L2 O2] & Et2 & R2); auto.
      { subst s1. cbn. lia. }
      { subst s1. cbn. rewrite lookup_insert. by rewrite Es. }
      unfold register_return, get_tracer. rewrite Et2. cbn. rewrite decide_True by done.
      do 2 eexists. split_and!; [done| | | |].
      * done.
      * split; cbn; [subst s1; cbn in L2; lia|]. intros t' L' N. rewrite lookup_insert_ne by congruence.
        rewrite O2; [|subst s1; cbn; lia|done]. subst s1. cbn. by rewrite lookup_insert_ne by congruence.
      * unfold set_tracer. cbn. rewrite lookup_insert. by rewrite Es.
      * cbn in *. change ((k, NCall None rt) :: d) with ([(k, NCall None rt)] ++ d).
        eapply recs_app; [apply recs_insert|exact R2].
    + intros m s [C1 C2] Ea. cbn. unfold tracked_call. rewrite Ea.
      destruct (OFb k.1 s C1 Ea) as (s1 & -> & ? & ?). destruct (happens k.1 b). eauto.
  - split.
    + intros m s t tc n0 k0 st _ Ea L Et Es Em. cbn. rewrite Ea. unfold register_global, get_tracer.
      rewrite Et. cbn. rewrite Es. rewrite Em.
      do 2 eexists. split_and!; [done|done| |cbn; by rewrite lookup_insert|].
      * split; [done|]. cbn. intros t' L' N. by rewrite lookup_insert_ne by congruence.
      * destruct (tc_nodes tc !! (m, name)) eqn:Eg; [by eapply recs_keep|apply recs_insert].
    + intros m s _ Ea. cbn. rewrite Ea. exists s. auto using others_refl.
  - assert (OF : forall m s, calm m (POp k rt hit fin b) ->
      exists s', prun (POp k rt hit fin b) s = ((happens m (POp k rt hit fin b)).1, s') /\ ts_active s' = None /\ others None s s').
    { intros m s C. cbn. destruct hit; cbn.
      { eexists. split; [done|]. split; [done|]. split; cbn; auto. }
      pose proof (call_op_spec k rt b s ONb (C eq_refl)) as CO.
      pose proof (before_ok k.1 b) as Bb.
      destruct (before_ops k.1 b) as [[ok d] on]. destruct CO as (s' & ns' & st & -> & Ea & O & _ & _).
      cbn in Bb. subst ok. exists s'. destruct (happens k.1 b). auto. }
    split.
    + intros m s t tc n0 k0 st C Ea L Et Es Em.
      change (before_ops m (POp k rt hit fin b)) with ((happens m (POp k rt hit fin b)).1, @nil (depkey * node), false).
      cbv beta iota. destruct (OF m s C) as (s' & E & Ea' & O).
      exists s', (tc_nodes tc). split_and!; auto using others_weak, recs_refl.
      destruct O as [_ O]. rewrite O by (done || lia). rewrite Et. by destruct tc.
    + intros m s C Ea. apply OF. done.
Qed.

(** ** The trace of an op *)
Lemma op_trace_spec k rt b : calm k.1 b ->
  let '(ok, d, on) := before_ops k.1 b in
  exists ns, op_trace k rt b = (ok, Trace {[k]} ns) /\ recs ∅ ((k, NCall None rt) :: d) ns.
Proof.
  intros C. pose proof (call_op_spec k rt b tinit (proj1 (specs b)) C) as CO.
  destruct (before_ops k.1 b) as [[ok d] on]. destruct CO as (s' & ns' & st & E & _ & _ & Et & R).
  exists ns'. split; [|done]. unfold op_trace. rewrite E. unfold get_tracer. rewrite Et. done.
Qed.
