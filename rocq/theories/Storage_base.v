(** Proofs about the storage, part 1: the tables seen as maps; reading and writing them. *)
From stdpp Require Import base strings gmap list.
From Verif Require Import Base PyDict PyDict_proofs Returns Returns_proofs DictStore Spec_DictStore DictStore_proofs
  CallStore Spec_CallStore CallStore_proofs Commit Spec_Commit Commit_proofs Refs Args Ident Storage Spec_Storage.

(** * Triples: from states satisfying [J], [f] ends in states satisfying [J]; what it returns satisfies
    [Q], what it raises [E] *)
Definition triple {S X} (J : S -> Prop) (f : M S X) (Q : X -> Prop) (E : exn -> Prop) : Prop :=
  forall s, J s -> J (f s).2 /\ match (f s).1 with Ok x => Q x | Err e => E e end.

Section triple.
  Context {S : Type} (J : S -> Prop).
  Lemma triple_ret {X} (x : X) (Q : X -> Prop) E : Q x -> triple J (retM x) Q E.
  Proof. by intros HQ s Hs. Qed.
  Lemma triple_raise {X} e (Q : X -> Prop) (E : exn -> Prop) : E e -> triple J (raiseM e) Q E.
  Proof. by intros HQ s Hs. Qed.
  Lemma triple_lift {X} (r : result X) (Q : X -> Prop) (E : exn -> Prop) :
    match r with Ok x => Q x | Err e => E e end -> triple J (liftR r) Q E.
  Proof. by intros HQ s Hs. Qed.
  Lemma triple_bind {X Y} (m : M S X) (f : X -> M S Y) (Q : X -> Prop) (Q' : Y -> Prop) (E : exn -> Prop) :
    triple J m Q E -> (forall x, Q x -> triple J (f x) Q' E) -> triple J (bindM m f) Q' E.
  Proof.
    intros Hm Hf s Hs. unfold bindM. specialize (Hm s Hs). destruct (m s) as [[x|e] s1]; simpl in *; [|done].
    destruct Hm as [Hs1 HQ]. by apply Hf.
  Qed.
  Lemma triple_mono {X} (m : M S X) (Q Q' : X -> Prop) (E E' : exn -> Prop) :
    triple J m Q E -> (forall x, Q x -> Q' x) -> (forall e, E e -> E' e) -> triple J m Q' E'.
  Proof. intros Hm HQ HE s Hs. specialize (Hm s Hs) as [? Hm]. split; [done|]. destruct (m s).1; auto. Qed.
  Lemma triple_mapM {X Y} (f : X -> M S Y) (l : list X) (Q : X -> Y -> Prop) (E : exn -> Prop) :
    (forall x, x ∈ l -> triple J (f x) (Q x) E) -> triple J (mapM' f l) (Forall2 Q l) E.
  Proof.
    induction l as [|x l IH]; intros Hf; cbn [mapM'].
    - apply triple_ret. constructor.
    - eapply triple_bind; [apply Hf; left|]. intros y Hy. eapply triple_bind; [apply IH|].
      + intros x' Hx'. apply Hf. by right.
      + intros ys Hys. apply triple_ret. by constructor.
  Qed.
  Lemma triple_iterM {X} (f : X -> M S unit) (l : list X) (E : exn -> Prop) :
    (forall x, x ∈ l -> triple J (f x) (fun _ => True) E) -> triple J (iterM f l) (fun _ => True) E.
  Proof.
    induction l as [|x l IH]; intros Hf; cbn [iterM]; [by apply triple_ret|].
    eapply triple_bind; [apply Hf; left|]. intros _ _. apply IH. intros; apply Hf; by right.
  Qed.
  Lemma triple_iterM_all {X} (f : X -> M S unit) (l : list X) (Q : X -> Prop) (E : exn -> Prop) :
    (forall x, x ∈ l -> triple J (f x) (fun _ => Q x) E) -> triple J (iterM f l) (fun _ => Forall Q l) E.
  Proof.
    induction l as [|x l IH]; intros Hf; cbn [iterM]; [apply triple_ret; constructor|].
    eapply triple_bind; [apply Hf; left|]. intros u Hx.
    eapply triple_mono; [apply IH; intros; apply Hf; by right| |done]. intros u' Hl. by constructor.
  Qed.
End triple.

Section base.
  Context (H : pyval -> string) (sel : list crow -> list crow).
  Hypothesis Hinj : Inj (=) (=) H.
  Hypothesis sel_perm : forall l, sel l ≡ₚ l.

  Definition okA (c : string) (v : pyval) : Prop := H v = c.
  Lemma okA_fun : true = true -> forall k v w, okA k v -> okA k w -> v = w.
  Proof using Hinj. intros _ k v w E1 E2. apply Hinj. unfold okA in *. congruence. Qed.
  Notation anyv := (@Commit_proofs.anyv _).

  Record tabs_inv (t : tabs pyval ref op) (m : contents pyval ref op) : Prop := {
    si_atoms : cd_inv okA true (m_atoms m) (t_atoms t);
    si_shapes : cd_inv anyv false (m_shapes m) (t_shapes t);
    si_ops : cd_inv anyv false (m_ops m) (t_ops t);
    si_calls : exists mc, cc_inv (m_calls m, mc) (t_calls t);
  }.
  Definition sinv (s : st) (m : contents pyval ref op) : Prop := tabs_inv (s_tabs s) m.

  (** What stays the same while nothing is saved: the contents, the call table, and the rest *)
  Record frozen (m : contents pyval ref op) (k : ccalls) (al : option mcalls) (b : bool) (lg : list (op * pydict ref)) (s : st) : Prop := {
    fz_inv : sinv s m;
    fz_calls : t_calls (s_tabs s) = k;
    fz_alias : s_alias s = al;
    fz_allow : s_allow s = b;
    fz_log : s_log s = lg;
  }.

  (** ** Primitive reads and writes *)
  Lemma cd_get_inv {V} (ok : string -> V -> Prop) ho (ok_fun : ho = true -> forall k v w, ok k v -> ok k w -> v = w)
      m (d : cdict V) k :
    cd_inv ok ho m d -> cd_inv ok ho m (cd_get k d).2 /\ (cd_get k d).1 = of_option EKeyError (m !! k).
  Proof.
    intros Hi. destruct (cd_get k d) as [[v|e] d'] eqn:E; simpl.
    - eapply (cd_step_refines (fun _ => false) ok ho ok_fun m d (OGet k)) in Hi as [Hb Hi'];
        [|done|by apply Spec_DictStore.step_get_ok].
      simpl in *. split; [done|]. by destruct (m !! k); simplify_eq/=.
    - assert (Hi2 := Hi). eapply (cd_step_refines (fun _ => false) ok ho ok_fun m d (OGet k)) in Hi as [Hb Hi'];
        [|done|by eapply Spec_DictStore.step_get_err].
      simpl in *. unfold cd_get in E. destruct (cd_cache d !! k); [done|].
      rewrite pd_get_plook in E. destruct (plook k (cd_pers d)); simplify_eq/=.
      split; [done|]. by destruct (m !! k); simplify_eq/=.
  Qed.
  Lemma cd_set_inv {V} (ok : string -> V -> Prop) ho (ok_fun : ho = true -> forall k v w, ok k v -> ok k w -> v = w)
      m (d : cdict V) k v :
    cd_inv ok ho m d -> ok k v -> cd_inv ok ho (<[k := v]> m) (cd_set k v d).
  Proof.
    intros Hi Hok. eapply (cd_step_refines (fun _ => false) ok ho ok_fun m d (OSet k v)) in Hi as [_ Hi'];
      [done| |constructor]. intros ? ? [= <- <-]. done.
  Qed.
  Lemma cd_exists_inv {V} (ok : string -> V -> Prop) ho m (d : cdict V) k :
    cd_inv ok ho m d -> cd_exists k d = bool_decide (is_Some (m !! k)).
  Proof.
    intros [Iv _ _ _ _]. unfold cd_exists. rewrite pd_exists_plook, <-(Iv k). unfold view.
    by destruct (cd_cache d !! k).
  Qed.
  Lemma any_fun {V} : false = true -> forall k (v w : V), Commit_proofs.anyv k v -> Commit_proofs.anyv k w -> v = w.
  Proof. done. Qed.

  Section frozen.
    Context (m : contents pyval ref op) (k : ccalls) (al : option mcalls) (b : bool) (lg : list (op * pydict ref)).
    Notation J := (frozen m k al b lg).

    Lemma get_shape_triple h : triple J (get_shape h) (fun r => m_shapes m !! h = Some r) (fun e => m_shapes m !! h = None).
    Proof.
      intros s [[IA IS IO IC] Ek Ea Eb El]. unfold get_shape, on_tabs, on_shapes.
      destruct (cd_get_inv _ _ any_fun _ _ h IS) as [Hi E].
      destruct (cd_get h (t_shapes (s_tabs s))) as [r d]. simpl in *. subst r. split.
      - split; [|done..]. split; done.
      - by destruct (m_shapes m !! h).
    Qed.
    Lemma get_op_triple h : triple J (get_op h) (fun r => m_ops m !! h = Some r) (fun e => m_ops m !! h = None).
    Proof.
      intros s [[IA IS IO IC] Ek Ea Eb El]. unfold get_op, on_tabs, on_ops.
      destruct (cd_get_inv _ _ any_fun _ _ h IO) as [Hi E].
      destruct (cd_get h (t_ops (s_tabs s))) as [r d]. simpl in *. subst r. split.
      - split; [|done..]. split; done.
      - by destruct (m_ops m !! h).
    Qed.
    Lemma get_atom_triple h : triple J (get_atom h) (fun r => m_atoms m !! h = Some r) (fun e => m_atoms m !! h = None).
    Proof using Hinj.
      intros s [[IA IS IO IC] Ek Ea Eb El]. unfold get_atom, on_tabs, on_atoms.
      destruct (cd_get_inv _ _ okA_fun _ _ h IA) as [Hi E].
      destruct (cd_get h (t_atoms (s_tabs s))) as [r d]. simpl in *. subst r. split.
      - split; [|done..]. split; done.
      - by destruct (m_atoms m !! h).
    Qed.
    (** writing what is there already *)
    Lemma set_atom_triple c v : m_atoms m !! c = Some v -> triple J (set_atom c v) (fun _ => True) (fun _ => False).
    Proof using Hinj.
      intros Hc s [[IA IS IO IC] Ek Ea Eb El]. split; [|done].
      split; [|done..]. split; try done. cbn.
      rewrite <-(insert_id (m_atoms m) c v) by done.
      apply (cd_set_inv _ _ okA_fun); [done|].
      pose proof (inv_view _ _ _ _ IA c) as Hv. unfold view in Hv. rewrite Hc in Hv.
      destruct (cd_cache (t_atoms (s_tabs s)) !! c) eqn:E.
      - simplify_eq. by eapply (inv_cache _ _ _ _ IA).
      - eapply plook_ok; [apply IA|done].
    Qed.
    Lemma if_allow_triple {X} (f g : M st X) Q E :
      (b = true -> triple J f Q E) -> (b = false -> triple J g Q E) -> triple J (if_st s_allow f g) Q E.
    Proof.
      intros Hf Hg s Hs. unfold if_st. rewrite (fz_allow _ _ _ _ _ _ Hs). destruct b; [by apply Hf|by apply Hg].
    Qed.
    (** a computation that starts by looking at the call table *)
    Lemma calls_triple {X} (f : ccalls -> M st X) Q E :
      triple J (f k) Q E -> triple J (fun s => f (t_calls (s_tabs s)) s) Q E.
    Proof. intros Hf s Hs. rewrite (fz_calls _ _ _ _ _ _ Hs). by apply Hf. Qed.
  End frozen.

  Lemma atoms_hash s m c v : sinv s m -> m_atoms m !! c = Some v -> H v = c.
  Proof.
    intros [IA _ _ _] Hc. pose proof (inv_view _ _ _ _ IA c) as Hv. unfold view in Hv. rewrite Hc in Hv.
    destruct (cd_cache (t_atoms (s_tabs s)) !! c) eqn:E.
    - simplify_eq. by apply (inv_cache _ _ _ _ IA).
    - by apply (plook_ok _ _ _ _ _ (inv_pers _ _ _ _ IA)).
  Qed.
  Lemma has_shape_inv s m h : sinv s m -> has_shape h s = bool_decide (is_Some (m_shapes m !! h)).
  Proof. intros [_ IS _ _]. by eapply cd_exists_inv. Qed.
  Lemma has_op_inv s m h : sinv s m -> has_op h s = bool_decide (is_Some (m_ops m !! h)).
  Proof. intros [_ _ IO _]. by eapply cd_exists_inv. Qed.
  Lemma has_call_inv s m h : sinv s m -> has_call h s = bool_decide (is_Some (m_calls m !! h)).
  Proof. intros [_ _ _ [mc IC]]. unfold has_call. by rewrite (inv_exists _ _ _ IC). Qed.

  (** ** Reading the call table *)
  Definition calls_inv (m : contents pyval ref op) (k : ccalls) : Prop := exists mc, cc_inv (m_calls m, mc) k.

  Lemma calls_exists m k h : calls_inv m k -> cc_exists h k = bool_decide (is_Some (m_calls m !! h)).
  Proof. intros [mc IC]. by rewrite (inv_exists _ _ _ IC). Qed.
  Lemma calls_get m k h i : calls_inv m k -> m_calls m !! h = Some i ->
    exists c, cc_get sel h k = Ok c /\ info c = i /\ call_ok c.
  Proof using sel_perm.
    intros [mc [I1 I2 I3 I4 I5]] Hi. unfold cc_get.
    destruct (mc_exists h (cc_cache k)) eqn:Ee.
    - unfold mc_get. rewrite Ee. unfold mc_exists in Ee. apply bool_decide_eq_true in Ee.
      destruct (I1 _ Ee) as [_ Hh]. cbn in Hh. rewrite Hi in Hh.
      destruct (holds_get _ _ _ (rows_for h (mc_rows (cc_cache k))) Hh) as (c & Hc & Hinfo & Hok & _); [done|].
      exists c. unfold mc_mget. cbn [mapR]. rewrite Hc. done.
    - unfold mc_exists in Ee. apply bool_decide_eq_false in Ee.
      destruct (I2 _ Ee) as [_ Hk]. cbn in Hk. specialize (I5 h). cbn in I5. rewrite <-Hk, Hi in I5.
      rewrite sql_get_rows.
      assert (Hp : rows_for h (sel (filter (fun r => r_hid r ∈ [h]) (cc_pers k))) ≡ₚ rows_for h (cc_pers k)).
      { apply sel_rows_for; [done|]. intros r ->. by left. }
      destruct (holds_get _ _ _ _ I5 Hp) as (c & Hc & Hinfo & Hok & _). eauto.
  Qed.
  (** a content lookup finds some recorded call with this content id *)
  Lemma calls_get_content m k cid c : calls_inv m k -> cc_get_content cid k = Ok c ->
    m_calls m !! d_hid c = Some (info c) /\ d_cid c = cid /\ call_ok c.
  Proof.
    intros [mc [I1 I2 I3 I4 I5]]. unfold cc_get_content, mc_get_content.
    destruct (mc_exists_content cid (cc_cache k)); [|done].
    destruct (filter (fun r => r_ccid r = cid) (mc_rows (cc_cache k))) as [|r l] eqn:Ef; [done|].
    assert (Hr : r ∈ filter (fun r => r_ccid r = cid) (mc_rows (cc_cache k))) by (rewrite Ef; left).
    apply elem_of_list_filter in Hr as [Hcid Hr]. clear Ef.
    unfold mc_get. destruct (mc_exists (r_hid r) (cc_cache k)) eqn:Ee; [|done].
    unfold mc_exists in Ee. apply bool_decide_eq_true in Ee.
    destruct (I1 _ Ee) as [[i Hi] Hh]. cbn in Hi, Hh. rewrite Hi in Hh.
    destruct (holds_get _ _ _ (rows_for (r_hid r) (mc_rows (cc_cache k))) Hh) as (c' & Hc & Hinfo & Hok & Hhid & Hrows); [done|].
    unfold mc_mget. cbn [mapR]. rewrite Hc. cbn. intros [= <-]. rewrite Hhid, Hi, Hinfo. split; [done|]. split; [|done].
    assert (Hrc : r ∈ rows_of c').
    { rewrite Hrows. apply elem_of_list_filter. done. }
    unfold rows_of in Hrc. apply elem_of_app in Hrc as [Hrc|Hrc]; apply elem_of_list_fmap in Hrc as (kv & -> & _); done.
  Qed.
End base.
