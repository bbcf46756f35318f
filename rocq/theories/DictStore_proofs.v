(** Proofs about the cached key-value tables. *)
From stdpp Require Import base strings gmap list.
From Verif Require Import Base DictStore Spec_DictStore.

Section proofs.
  Context {V : Type} (big : V -> bool).
  Implicit Types (p : pdict V) (d : cdict V) (m : gmap string V).

  (** what the persistent side holds for a key *)
  Definition plook k p : option V :=
    match pd_sql p !! k with
    | Some v => Some v
    | None => pd_over p ≫= fun o => o !! k
    end.
  (** what a reader sees for a key *)
  Definition view d k : option V :=
    match cd_cache d !! k with
    | Some v => Some v
    | None => plook k (cd_pers d)
    end.

  (** the values that may ever be stored under a key *)
  Variable okval : string -> V -> Prop.
  Variable has_over : bool.
  Hypothesis okval_fun : has_over = true -> forall k v w, okval k v -> okval k w -> v = w.

  Definition pd_ok p : Prop :=
    (pd_over p <> None -> has_over = true) /\
    (forall k v, pd_sql p !! k = Some v -> okval k v) /\
    (forall o k v, pd_over p = Some o -> o !! k = Some v -> okval k v).

  Record cd_inv m d : Prop := {
    inv_view : forall k, view d k = m !! k;
    inv_dirty : forall k, k ∈ cd_dirty d -> is_Some (cd_cache d !! k);
    inv_clean : forall k v, cd_cache d !! k = Some v -> k ∉ cd_dirty d ->
                            plook k (cd_pers d) = Some v;
    inv_pers : pd_ok (cd_pers d);
    inv_cache : forall k v, cd_cache d !! k = Some v -> okval k v;
  }.

  Lemma pd_get_plook k p : pd_get k p = of_option EKeyError (plook k p).
  Proof. unfold pd_get, plook. destruct (_ !! k); [done|]. by destruct (pd_over p). Qed.

  Lemma pd_exists_plook k p : pd_exists k p = bool_decide (is_Some (plook k p)).
  Proof.
    unfold pd_exists, plook. destruct (pd_sql p !! k) as [v|]; simpl.
    - reflexivity.
    - by destruct (pd_over p) as [o|].
  Qed.

  Lemma plook_ok k v p : pd_ok p -> plook k p = Some v -> okval k v.
  Proof.
    intros (_ & H1 & H2). unfold plook. destruct (pd_sql p !! k) eqn:E.
    - intros; simplify_eq; eauto.
    - destruct (pd_over p) eqn:Eo; simpl; [eauto|done].
  Qed.

  (** writing the value [v] under [k] makes it the stored one and leaves
      other keys alone, provided [v] is a legitimate value for [k] *)
  Lemma pd_set_ok k v p p' :
    pd_ok p -> okval k v -> pd_set big k v p = (Ok tt, p') ->
    pd_ok p' /\ plook k p' = Some v /\ (forall k', k' <> k -> plook k' p' = plook k' p).
  Proof.
    intros (Hov & H1 & H2) Hv. unfold pd_set. destruct (big v).
    - destruct (pd_over p) as [o|] eqn:Eo; [|done]. intros; simplify_eq.
      assert (Hfun := okval_fun (Hov ltac:(done))).
      assert (Hok : forall k' w, over_set k v o !! k' = Some w -> okval k' w).
      { intros k' w. unfold over_set. destruct (o !! k) eqn:Ek; [eauto|].
        rewrite lookup_insert_Some. intros [[<- <-]|[_ ?]]; eauto. }
      split_and!.
      + split_and!; simpl; [naive_solver|done|].
        intros o' k' w [= <-]; eauto.
      + unfold plook; simpl. destruct (pd_sql p !! k) as [w|] eqn:Es.
        * f_equal. eapply Hfun; eauto.
        * unfold over_set. destruct (o !! k) as [w|] eqn:Ek.
          -- rewrite Ek. f_equal. eapply Hfun; eauto.
          -- by rewrite lookup_insert.
      + intros k' Hne. unfold plook; simpl. rewrite Eo. destruct (pd_sql p !! k'); [done|].
        simpl. unfold over_set. destruct (o !! k); [done|]. by rewrite lookup_insert_ne.
    - intros; simplify_eq. split_and!.
      + split_and!; simpl; [done| |done].
        intros k' w. rewrite lookup_insert_Some. intros [[<- <-]|[_ ?]]; eauto.
      + unfold plook; simpl. by rewrite lookup_insert.
      + intros k' Hne. unfold plook; simpl. by rewrite lookup_insert_ne.
  Qed.

  Lemma pd_set_err k v p e p' : pd_set big k v p = (Err e, p') -> p' = p.
  Proof. unfold pd_set. destruct (big v); [destruct (pd_over p)|]; naive_solver. Qed.

  Lemma pd_drop_ok k p :
    pd_ok p -> pd_ok (pd_drop k p) /\ plook k (pd_drop k p) = None /\
    (forall k', k' <> k -> plook k' (pd_drop k p) = plook k' p).
  Proof.
    intros (Hov & H1 & H2). unfold pd_drop. split_and!.
    - split_and!; simpl.
      + destruct (pd_over p); simpl; [intros _; by apply Hov|done].
      + intros k' v [_ ?]%lookup_delete_Some; eauto.
      + intros o k' v. destruct (pd_over p) as [o'|]; simpl; intros; simplify_eq.
        match goal with H : delete _ _ !! _ = _ |- _ => apply lookup_delete_Some in H as [_ ?] end. eauto.
    - unfold plook; simpl. rewrite lookup_delete. destruct (pd_over p); simpl; [|done].
      by rewrite lookup_delete.
    - intros k' Hne. unfold plook; simpl. rewrite lookup_delete_ne by done.
      destruct (pd_sql p !! k'); [done|]. destruct (pd_over p); simpl; [|done].
      by rewrite lookup_delete_ne.
  Qed.

  (** the commit loop: cache, dirty marks and views are kept, the keys
      handled so far are persisted *)
  Lemma commit_loop m order d r d' :
    cd_inv m d -> Forall (fun k => k ∈ cd_dirty d) order ->
    iterM (cd_commit_key big) order d = (r, d') ->
    cd_inv m d' /\ cd_cache d' = cd_cache d /\ cd_dirty d' = cd_dirty d /\
    (forall k, plook k (cd_pers d') = plook k (cd_pers d) \/ plook k (cd_pers d') = cd_cache d !! k) /\
    (r = Ok tt -> forall k, k ∈ order -> plook k (cd_pers d') = cd_cache d !! k).
  Proof.
    revert d. induction order as [|k order IH]; intros d Hinv Hall; simpl.
    - intros [= <- <-]. split_and!; auto. by intros _ k ?%elem_of_nil.
    - apply Forall_cons in Hall as [Hk Hall]. unfold bindM.
      destruct (cd_commit_key big k d) as [r1 d1] eqn:E1.
      assert (cd_inv m d1 /\ cd_cache d1 = cd_cache d /\ cd_dirty d1 = cd_dirty d /\
        (r1 = Ok tt -> plook k (cd_pers d1) = cd_cache d !! k) /\
        (forall k', k' <> k -> plook k' (cd_pers d1) = plook k' (cd_pers d)) /\
        (plook k (cd_pers d1) = plook k (cd_pers d) \/ plook k (cd_pers d1) = cd_cache d !! k))
        as (Hinv1 & Hc1 & Hd1 & Hk1 & Hne1 & Hor1).
      { unfold cd_commit_key in E1. destruct Hinv as [Iv Id Ic Ip Ik].
        destruct (Id k Hk) as [v Hv]. rewrite Hv in E1.
        destruct (pd_set big k v (cd_pers d)) as [r0 p0] eqn:Es. simplify_eq/=.
        destruct r1 as [[]|e].
        - destruct (pd_set_ok k v (cd_pers d) p0) as (Hok & Hl & Hne); auto.
          split; [|split_and!; auto; rewrite Hl; auto; congruence].
          constructor; simpl; auto.
          + intros k'. rewrite <-Iv. unfold view; simpl. destruct (cd_cache d !! k') eqn:E; [done|].
            apply Hne. congruence.
          + intros k' w Hw Hnd. destruct (decide (k' = k)) as [->|Hk'].
            * congruence.
            * rewrite Hne by done. auto.
        - apply pd_set_err in Es as ->. split; [|split_and!; auto; done].
          constructor; simpl; auto. }
      destruct r1 as [[]|e].
      + intros E2. destruct (IH d1 Hinv1) as (Hi2 & Hc2 & Hd2 & Hor2 & Hr2); auto.
        { eapply Forall_impl; [done|]. intros ?. by rewrite Hd1. }
        split; [done|]. split; [congruence|]. split; [congruence|]. rewrite Hc1 in *.
        assert (Hkk : plook k (cd_pers d') = cd_cache d !! k).
        { destruct (Hor2 k) as [->|]; auto. }
        split.
        * intros k'. destruct (decide (k' = k)) as [->|Hk']; [by right|].
          destruct (Hor2 k') as [->|]; [|by right]. left. auto.
        * intros -> k' [->|Hin]%elem_of_cons; auto.
      + intros [= <- <-]. split; [done|]. split; [done|]. split; [done|]. split.
        * intros k'. destruct (decide (k' = k)) as [->|Hk']; [done|]. left; auto.
        * done.
  Qed.

  Lemma commit_inv m order d r d' :
    cd_inv m d -> order ≡ₚ elements (cd_dirty d) -> cd_commit big order d = (r, d') ->
    cd_inv m d' /\ (r = Ok tt -> cd_dirty d' = ∅ /\ forall k, plook k (cd_pers d') = m !! k).
  Proof.
    intros Hinv Hord. unfold cd_commit.
    destruct (iterM _ order d) as [r1 d1] eqn:E.
    destruct (commit_loop m order d r1 d1) as (Hi & Hc & Hd & Hor & Hr); auto.
    { apply Forall_forall. intros k Hk. rewrite Hord in Hk. by apply elem_of_elements. }
    destruct r1 as [[]|e]; intros [= <- <-]; [|by split].
    assert (Hall : forall k v, cd_cache d1 !! k = Some v -> plook k (cd_pers d1) = Some v).
    { intros k v Hv. destruct (decide (k ∈ cd_dirty d1)) as [Hk|Hk].
      - rewrite Hr; [congruence|done|]. rewrite Hord. apply elem_of_elements. congruence.
      - eapply inv_clean; eauto. }
    split.
    - destruct Hi as [Iv Id Ic Ip Ik]. constructor; simpl; auto. set_solver.
    - intros _. split; [done|]. intros k. rewrite <-(inv_view _ _ Hi). unfold view.
      simpl. destruct (cd_cache d1 !! k) eqn:Ek; auto.
  Qed.

  (** refinement of a single step *)
  Lemma cd_step_refines m d o b d' :
    cd_inv m d -> (forall k v, o = OSet k v -> okval k v) -> cd_step big d o b d' ->
    b = (dict_step m o).1 /\ cd_inv (dict_step m o).2 d'.
  Proof.
    intros Hinv Hok Hstep. destruct Hinv as [Iv Id Ic Ip Ik] eqn:EI.
    destruct Hstep as [d k v|d k v d' E|d k e d' E|d k|d k|d order r d' Hord E|d r d' E]; simpl.
    - split; [done|]. constructor; simpl; auto.
      + intros k'. unfold view; simpl. destruct (decide (k' = k)) as [->|Hne].
        * by rewrite !lookup_insert.
        * rewrite !lookup_insert_ne by done. apply Iv.
      + intros k' [->%elem_of_singleton|Hk]%elem_of_union; [rewrite lookup_insert; eauto|].
        destruct (decide (k' = k)) as [->|Hne]; [rewrite lookup_insert; eauto|].
        rewrite lookup_insert_ne by done. auto.
      + intros k' w Hw Hnd. rewrite lookup_insert_Some in Hw.
        destruct Hw as [[<- <-]|[Hne Hw]]; [set_solver|]. apply Ic; [done|set_solver].
      + intros k' w Hw. rewrite lookup_insert_Some in Hw.
        destruct Hw as [[<- <-]|[Hne Hw]]; eauto.
    - unfold cd_get in E. pose proof (Iv k) as Hk. unfold view in Hk.
      destruct (cd_cache d !! k) as [w|] eqn:Ec.
      + simplify_eq. split; [by rewrite <-Hk|done].
      + rewrite pd_get_plook in E. destruct (plook k (cd_pers d)) as [w|] eqn:Ep; simplify_eq/=.
        split; [by rewrite <-Hk|]. constructor; simpl; auto.
        * intros k'. rewrite <-Iv. unfold view; simpl. destruct (decide (k' = k)) as [->|Hne].
          -- rewrite lookup_insert, Ec. done.
          -- by rewrite lookup_insert_ne.
        * intros k' Hk'. rewrite lookup_insert_is_Some'. right. auto.
        * intros k' w Hw Hnd. rewrite lookup_insert_Some in Hw.
          destruct Hw as [[<- <-]|[Hne Hw]]; auto.
        * intros k' w Hw. rewrite lookup_insert_Some in Hw.
          destruct Hw as [[<- <-]|[Hne Hw]]; eauto using plook_ok.
    - unfold cd_get in E. pose proof (Iv k) as Hk. unfold view in Hk.
      destruct (cd_cache d !! k) as [w|] eqn:Ec; [done|].
      rewrite pd_get_plook in E. destruct (plook k (cd_pers d)) as [w|] eqn:Ep; simplify_eq/=.
      split; [by rewrite <-Hk|done].
    - split; [|done]. unfold cd_exists. rewrite pd_exists_plook.
      pose proof (Iv k) as Hk. rewrite <-Hk. unfold view.
      destruct (cd_cache d !! k) eqn:Ec; simpl; [|done]. f_equal.
    - split; [done|]. destruct (pd_drop_ok k (cd_pers d) Ip) as (Hp & Hl & Hne).
      constructor; simpl; auto.
      + intros k'. unfold view; simpl. destruct (decide (k' = k)) as [->|Hk'].
        * by rewrite !lookup_delete.
        * rewrite !lookup_delete_ne by done. rewrite Hne by done. apply Iv.
      + intros k' Hk'. rewrite lookup_delete_ne by set_solver. apply Id. set_solver.
      + intros k' w [Hne' Hw]%lookup_delete_Some Hnd. rewrite Hne by done. apply Ic; set_solver.
      + intros k' w [Hne' Hw]%lookup_delete_Some. eauto.
    - split; [done|]. eapply commit_inv in E as [? _]; eauto.
    - split; [done|]. unfold cd_clear in E. case_bool_decide as Hd; simplify_eq/=; [|done].
      constructor; simpl; auto.
      + intros k. rewrite <-Iv. unfold view; simpl. rewrite lookup_empty.
        destruct (cd_cache d !! k) eqn:Ec; [|done]. apply Ic; [done|].
        rewrite Hd. apply not_elem_of_empty.
      + intros k Hk. exfalso. by apply not_elem_of_empty in Hk.
      + intros k v Hk. exfalso. by rewrite lookup_empty in Hk.
      + intros k v Hk. exfalso. by rewrite lookup_empty in Hk.
  Qed.

  Lemma cd_steps_refine m d os bs d' :
    cd_inv m d -> (forall k v, OSet k v ∈ os -> okval k v) -> cd_steps big d os bs d' ->
    bs = (dict_run m os).1 /\ cd_inv (dict_run m os).2 d'.
  Proof.
    intros Hinv Hok Hs. revert m Hinv Hok. induction Hs as [d|d o b d1 os bs d2 H1 H2 IH];
      intros m Hinv Hok; simpl; [done|].
    destruct (dict_step m o) as [b' m'] eqn:E1.
    destruct (cd_step_refines m d o b d1) as [Hb Hi]; auto.
    { intros k v ->. apply Hok. left. }
    rewrite E1 in *. simpl in *.
    destruct (dict_run m' os) as [bs' m''] eqn:E2. simpl.
    destruct (IH m') as [-> ?]; auto.
    { intros; apply Hok; by right. }
    rewrite E2 in *. simpl in *. split; [by f_equal|done].
  Qed.
End proofs.

Section closed.
  Context {V : Type} (big : V -> bool).

  Lemma cd_inv_open okval has_over (p : pdict V) m :
    pd_ok okval has_over p -> (forall k, plook k p = m !! k) ->
    cd_inv okval has_over m (cd_open p).
  Proof.
    intros Hok Hm. constructor; simpl; auto.
    - intros k. unfold view; simpl. by rewrite lookup_empty.
    - set_solver.
    - intros k v ?. by simplify_map_eq.
  Qed.

  Lemma plook_load_all (p : pdict V) val k :
    (forall k v, pd_sql p !! k = Some v -> v = val k) ->
    (forall o k v, pd_over p = Some o -> o !! k = Some v -> v = val k) ->
    plook k p = pd_load_all p !! k.
  Proof.
    intros H1 H2. unfold plook, pd_load_all. destruct (pd_over p) as [o|] eqn:E; simpl.
    - rewrite lookup_union. destruct (pd_sql p !! k) as [v|] eqn:Es, (o !! k) as [w|] eqn:Eo;
        simpl; try done. by rewrite (H1 _ _ Es), (H2 _ _ _ eq_refl Eo).
    - by destruct (pd_sql p !! k).
  Qed.

  (** any table without an overflow directory *)
  Lemma sql_ok (sql : gmap string V) : pd_ok (fun _ _ => True) false (PDict sql None).
  Proof. intros; split; [|split]; simpl; eauto; done. Qed.
  (** a table where a key determines its value *)
  Lemma keyed_ok val (p : pdict V) :
    (forall k v, pd_sql p !! k = Some v -> v = val k) ->
    (forall o k v, pd_over p = Some o -> o !! k = Some v -> v = val k) ->
    pd_ok (fun k v => v = val k) true p.
  Proof. intros; split; [|split]; simpl; eauto; done. Qed.

  Lemma refines_sql (sql : gmap string V) os bs d :
    cd_steps big (cd_open (PDict sql None)) os bs d -> bs = (dict_run sql os).1.
  Proof.
    intros H. eapply cd_steps_refine with (okval := fun _ _ => True) (has_over := false) in H
      as [? _]; [done|done| |done].
    apply cd_inv_open; [apply sql_ok|]. intros k. unfold plook; simpl. by destruct (sql !! k).
  Qed.

  Lemma refines_keyed val (p : pdict V) os bs d :
    (forall k v, pd_sql p !! k = Some v -> v = val k) ->
    (forall o k v, pd_over p = Some o -> o !! k = Some v -> v = val k) ->
    (forall k v, OSet k v ∈ os -> v = val k) ->
    cd_steps big (cd_open p) os bs d -> bs = (dict_run (pd_load_all p) os).1.
  Proof.
    intros H1 H2 H3 H.
    eapply cd_steps_refine with (okval := fun k v => v = val k) (has_over := true) in H
      as [? _]; [done|congruence| |done].
    apply cd_inv_open; [by apply keyed_ok|]. intros k. eapply plook_load_all; eauto.
  Qed.

  Lemma cd_step_total (d : cdict V) o : exists b d', cd_step big d o b d'.
  Proof.
    destruct o.
    - eexists _, _; constructor.
    - destruct (cd_get k d) as [[v|e] d'] eqn:E; eexists _, _; econstructor; eassumption.
    - eexists _, _; constructor.
    - eexists _, _; constructor.
    - destruct (cd_commit big (elements (cd_dirty d)) d) as [r d'] eqn:E.
      eexists _, _; econstructor; [reflexivity|eassumption].
    - destruct (cd_clear false d) as [r d'] eqn:E. eexists _, _; econstructor; eassumption.
  Qed.
  Lemma cd_steps_total (d : cdict V) os : exists bs d', cd_steps big d os bs d'.
  Proof.
    revert d. induction os as [|o os IH]; intros d; [eexists _, _; constructor|].
    destruct (cd_step_total d o) as (b & d1 & H1). destruct (IH d1) as (bs & d2 & H2).
    eexists _, _; econstructor; eassumption.
  Qed.

  (** durability *)
  Lemma durable_sql (sql : gmap string V) os bs d order d' :
    cd_steps big (cd_open (PDict sql None)) os bs d ->
    order ≡ₚ elements (cd_dirty d) -> cd_commit big order d = (Ok tt, d') ->
    exists sql', cd_pers d' = PDict sql' None /\ sql' = (dict_run sql os).2.
  Proof.
    intros H Hord Hc. eapply cd_steps_refine with (okval := fun _ _ => True) (has_over := false)
      (m := sql) in H
      as [_ Hi]; [|done| |done].
    2:{ apply cd_inv_open; [apply sql_ok|]. intros k. unfold plook; simpl. by destruct (sql !! k). }
    eapply (commit_inv big (fun _ _ => True) false ltac:(done) _ _ _ _ _ Hi Hord) in Hc as [Hi' Hp]. destruct (Hp eq_refl) as [_ Hp'].
    destruct (inv_pers _ _ _ _ Hi') as [Ho _]. destruct (cd_pers d') as [sql' [o|]]; simpl in *.
    - exfalso. discriminate Ho. done.
    - exists sql'. split; [done|]. apply map_eq. intros k. specialize (Hp' k). rewrite <-Hp'.
      unfold plook; simpl. by destruct (sql' !! k).
  Qed.

  Lemma durable_keyed (val : string -> V) (p : pdict V) os bs d order d' :
    (forall k v, pd_sql p !! k = Some v -> v = val k) ->
    (forall o k v, pd_over p = Some o -> o !! k = Some v -> v = val k) ->
    (forall k v, OSet k v ∈ os -> v = val k) ->
    cd_steps big (cd_open p) os bs d ->
    order ≡ₚ elements (cd_dirty d) -> cd_commit big order d = (Ok tt, d') ->
    pd_load_all (cd_pers d') = (dict_run (pd_load_all p) os).2 /\
    forall os2 bs2 d2, (forall k v, OSet k v ∈ os2 -> v = val k) ->
      cd_steps big (cd_open (cd_pers d')) os2 bs2 d2 ->
      bs2 = (dict_run (dict_run (pd_load_all p) os).2 os2).1.
  Proof.
    intros H1 H2 H3 H Hord Hc.
    eapply cd_steps_refine with (okval := fun k v => v = val k) (has_over := true)
      (m := pd_load_all p) in H
      as [_ Hi]; [|congruence| |done].
    2:{ apply cd_inv_open; [by apply keyed_ok|]. intros k. eapply plook_load_all; eauto. }
    eapply (commit_inv big (fun k v => v = val k) true ltac:(congruence) _ _ _ _ _ Hi Hord) in Hc as [Hi' Hp].
    destruct (Hp eq_refl) as [_ Hp'].
    destruct (inv_pers _ _ _ _ Hi') as (_ & Hs & Ho).
    assert (Heq : pd_load_all (cd_pers d') = (dict_run (pd_load_all p) os).2).
    { apply map_eq. intros k. rewrite <-Hp'. symmetry. eapply plook_load_all; eauto. }
    split; [done|]. intros os2 bs2 d2 H4 H5. rewrite <-Heq. eapply refines_keyed; eauto.
  Qed.

  (** a commit fails only because of an oversized value *)
  Lemma commit_succeeds (okval : string -> V -> Prop) has_over m order (d : cdict V) :
    (has_over = true -> forall k v w, okval k v -> okval k w -> v = w) ->
    cd_inv okval has_over m d -> order ≡ₚ elements (cd_dirty d) ->
    (forall k v, m !! k = Some v -> big v = true -> pd_over (cd_pers d) <> None) ->
    exists d', cd_commit big order d = (Ok tt, d').
  Proof.
    intros Hfun Hinv Hord Hbig.
    assert (Forall (fun k => k ∈ cd_dirty d) order) as Hall.
    { apply Forall_forall. intros k Hk. rewrite Hord in Hk. by apply elem_of_elements. }
    clear Hord. unfold cd_commit.
    assert (exists d', iterM (cd_commit_key big) order d = (Ok tt, d')) as [d' ->]; [|eauto].
    revert d Hinv Hbig Hall. induction order as [|k order IH]; intros d Hinv Hbig Hall; simpl; [eauto|].
    apply Forall_cons in Hall as [Hk Hall]. unfold bindM.
    destruct (cd_commit_key big k d) as [r1 d1] eqn:E1.
    assert (E1' := E1).
    unfold cd_commit_key in E1. destruct (inv_dirty _ _ _ _ Hinv k Hk) as [v Hv]. rewrite Hv in E1.
    assert (Hm : m !! k = Some v).
    { rewrite <-(inv_view _ _ _ _ Hinv). unfold view. by rewrite Hv. }
    assert (r1 = Ok tt) as ->.
    { destruct (pd_set big k v (cd_pers d)) as [r0 p0] eqn:Es. simplify_eq.
      unfold pd_set in Es. destruct (big v) eqn:Eb; [|by simplify_eq].
      specialize (Hbig _ _ Hm Eb). destruct (pd_over (cd_pers d)); by simplify_eq. }
    destruct (commit_loop big okval has_over Hfun m [k] d (Ok tt) d1) as (Hi & Hc & Hd & _); [done|by constructor| |].
    { simpl. unfold bindM. by rewrite E1'. }
    apply IH; auto.
    - intros k' v' Hk' Hb'. pose proof (Hbig k' v' Hk' Hb') as Hn.
      destruct (pd_set big k v (cd_pers d)) as [r0 p0] eqn:Es. simplify_eq/=.
      unfold pd_set in Es. destruct (big v), (pd_over (cd_pers d)) eqn:Eo; by simplify_eq/=.
    - by rewrite Hd.
  Qed.

  Lemma commit_succeeds_sql (sql : gmap string V) os bs d order :
    (forall k v, OSet k v ∈ os -> big v = false) -> (forall k v, sql !! k = Some v -> big v = false) ->
    cd_steps big (cd_open (PDict sql None)) os bs d -> order ≡ₚ elements (cd_dirty d) ->
    exists d', cd_commit big order d = (Ok tt, d').
  Proof.
    intros Hos Hsql H Hord.
    eapply cd_steps_refine with (okval := fun _ v => big v = false) (has_over := false)
      (m := sql) in H
      as [_ Hi]; [|done| |done].
    2:{ apply cd_inv_open; [split; [|split]; simpl; eauto; done|]. intros k. unfold plook; simpl. by destruct (sql !! k). }
    eapply commit_succeeds; [|exact Hi|done|]; [done|].
    intros k v Hk Hb. exfalso. rewrite <-(inv_view _ _ _ _ Hi) in Hk. unfold view in Hk.
    destruct (cd_cache d !! k) eqn:Ec; simplify_eq.
    - apply (inv_cache _ _ _ _ Hi) in Ec. congruence.
    - apply (plook_ok _ _ _ _ _ (inv_pers _ _ _ _ Hi)) in Hk. congruence.
  Qed.

  Lemma pd_over_step (d : cdict V) o b d' :
    cd_step big d o b d' -> pd_over (cd_pers d) <> None -> pd_over (cd_pers d') <> None.
  Proof.
    intros H Hn.
    destruct H as [d k v|d k v d' E|d k e d' E|d k|d k|d order r d' Hord E|d r d' E]; simpl; auto.
    - unfold cd_get in E. destruct (_ !! k); simplify_eq; [done|].
      destruct (pd_get k (cd_pers d)); by simplify_eq.
    - unfold cd_get in E. destruct (_ !! k); simplify_eq.
      destruct (pd_get k (cd_pers d)); by simplify_eq.
    - by destruct (pd_over (cd_pers d)).
    - unfold cd_commit in E. destruct (iterM _ order d) as [r1 d1] eqn:Ei.
      assert (pd_over (cd_pers d1) <> None) as Hd1.
      { clear Hord E. revert d Hn Ei. induction order as [|k order IH]; intros d Hn; simpl.
        - intros [= <- <-]; done.
        - unfold bindM. destruct (cd_commit_key big k d) as [r2 d2] eqn:E2.
          assert (pd_over (cd_pers d2) <> None).
          { unfold cd_commit_key in E2. destruct (_ !! k); [|by simplify_eq].
            unfold pd_set in E2. destruct (big _), (pd_over (cd_pers d)) eqn:Eo; by simplify_eq/=. }
          destruct r2; [by apply IH|]. by intros [= <- <-]. }
      destruct r1; by simplify_eq.
    - unfold cd_clear in E. case_bool_decide; by simplify_eq/=.
  Qed.

  Lemma commit_succeeds_keyed (val : string -> V) (p : pdict V) os bs d order :
    (forall k v, pd_sql p !! k = Some v -> v = val k) ->
    (forall o k v, pd_over p = Some o -> o !! k = Some v -> v = val k) ->
    (forall k v, OSet k v ∈ os -> v = val k) ->
    pd_over p <> None ->
    cd_steps big (cd_open p) os bs d -> order ≡ₚ elements (cd_dirty d) ->
    exists d', cd_commit big order d = (Ok tt, d').
  Proof.
    intros H1 H2 H3 Hn H Hord.
    assert (pd_over (cd_pers d) <> None) as Hd.
    { clear -H Hn. assert (pd_over (cd_pers (cd_open p)) <> None) as H0 by done. revert H0.
      induction H; eauto using pd_over_step. }
    eapply cd_steps_refine with (okval := fun k v => v = val k) (has_over := true)
      (m := pd_load_all p) in H
      as [_ Hi]; [|congruence| |done].
    2:{ apply cd_inv_open; [by apply keyed_ok|]. intros k. eapply plook_load_all; eauto. }
    eapply commit_succeeds; [|exact Hi|done|auto]. congruence.
  Qed.

  (** preloading replaces the cache *)
  Lemma preload_clean (val : string -> V) (p : pdict V) os bs d :
    (forall k v, pd_sql p !! k = Some v -> v = val k) ->
    (forall o k v, pd_over p = Some o -> o !! k = Some v -> v = val k) ->
    (forall k v, OSet k v ∈ os -> v = val k) ->
    cd_steps big (cd_open p) os bs d -> cd_dirty d = ∅ ->
    forall os2 bs2 d2, (forall k v, OSet k v ∈ os2 -> v = val k) ->
      cd_steps big (cd_preload d) os2 bs2 d2 ->
      bs2 = (dict_run (dict_run (pd_load_all p) os).2 os2).1.
  Proof.
    intros H1 H2 H3 H Hd os2 bs2 d2 H4 H5.
    eapply cd_steps_refine with (okval := fun k v => v = val k) (has_over := true)
      (m := pd_load_all p) in H
      as [_ Hi]; [|congruence| |done].
    2:{ apply cd_inv_open; [by apply keyed_ok|]. intros k. eapply plook_load_all; eauto. }
    destruct (inv_pers _ _ _ _ Hi) as (_ & Hs & Ho).
    assert (Hall : forall k, pd_load_all (cd_pers d) !! k = plook k (cd_pers d)).
    { intros k. symmetry. eapply plook_load_all; eauto. }
    assert (Hv : forall k, plook k (cd_pers d) = view d k).
    { intros k. unfold view. destruct (cd_cache d !! k) eqn:Ec; [|done].
      eapply inv_clean; eauto. rewrite Hd. set_solver. }
    eapply cd_steps_refine with (okval := fun k v => v = val k) (has_over := true)
       (m := (dict_run (pd_load_all p) os).2) in H5 as [? _]; [done|congruence| |done].
    constructor; simpl.
    - intros k. rewrite <-(inv_view _ _ _ _ Hi), <-Hv. unfold view; simpl. rewrite Hall.
      by destruct (plook k (cd_pers d)).
    - rewrite Hd. set_solver.
    - intros k v. rewrite Hall. auto.
    - apply (inv_pers _ _ _ _ Hi).
    - intros k v. rewrite Hall. eapply (plook_ok (fun k v => v = val k)). apply (inv_pers _ _ _ _ Hi).
  Qed.
End closed.
