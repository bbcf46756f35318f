(** Proofs about the history of a component. *)
From stdpp Require Import base strings gmap list relations fin_sets.
From Verif Require Import Base Dag Spec_Dag.

Section proofs.
Context {T : Type} (hash : T -> string) (present : T -> string).
Implicit Types (d : dag T) (u : user).

(** The content kept by a commit. *)
Definition kept (c : commit T) : option T :=
  match c_content c with
  | Some t => Some t
  | None => (c_diffs c).*1 !! 0
  end.

(** The commits in order of creation. *)
Definition cwf (pre : list string) (h : string) (c : commit T) : Prop :=
  c_chash c = h /\ (c_shash c = h \/ c_shash c ∈ pre) /\
  ((exists t, c_content c = Some t /\ c_parents c = [] /\ c_diffs c = [] /\ hash t = h) \/
   (exists p a b, c_content c = None /\ c_parents c = [p] /\ c_diffs c = [(a, b)] /\
      p ∈ pre /\ hash a = h)).

Definition dwf d (ord : list string) : Prop :=
  NoDup ord /\ (forall h, h ∈ ord <-> is_Some (d_commits d !! h)) /\
  (forall i h c, ord !! i = Some h -> d_commits d !! h = Some c -> cwf (take i ord) h c) /\
  (forall h, d_head d = Some h -> h ∈ ord) /\
  (d_head d = None -> ord = []).

Lemma dwf_size d ord : dwf d ord -> size (d_commits d) = length ord.
Proof.
  intros (ND & D & _).
  rewrite <-size_dom. rewrite <-(size_list_to_set (C:=gset string) ord ND).
  f_equal. apply set_eq. intros h. rewrite elem_of_list_to_set, D. apply elem_of_dom.
Qed.

Lemma get_content_dwf d ord : dwf d ord -> forall fuel i h c,
  ord !! i = Some h -> d_commits d !! h = Some c -> i < fuel ->
  exists t, get_content_f fuel d h = Ok t /\ kept c = Some t /\ hash t = h.
Proof.
  intros W. pose proof W as (ND & D & WF & _).
  induction fuel as [|fuel IH]; intros i h c E C L; [lia|]. cbn. rewrite C.
  destruct (WF _ _ _ E C) as (_ & _ & [(t & Ec & _ & _ & Eh)|(p & a & b & Ec & Ep & Ed & P & Eh)]).
  - rewrite Ec. exists t. unfold kept. by rewrite Ec.
  - rewrite Ec, Ep, Ed.
    apply elem_of_list_lookup in P as [j P].
    assert (Lj : j < i). { apply lookup_lt_Some in P. rewrite take_length in P. lia. }
    rewrite lookup_take in P by lia.
    assert (is_Some (d_commits d !! p)) as [c' C'].
    { apply D. eapply elem_of_list_lookup_2, P. }
    destruct (IH j p c' P C') as (t & Et & _); [lia|]. rewrite Et.
    exists a. unfold kept. rewrite Ec, Ed. auto.
Qed.

Lemma get_content_ok d ord h c : dwf d ord -> d_commits d !! h = Some c ->
  exists t, get_content d h = Ok t /\ kept c = Some t /\ hash t = h.
Proof.
  intros W C. pose proof W as (ND & D & _).
  assert (h ∈ ord) as E by (apply D; eauto).
  apply elem_of_list_lookup in E as [i E].
  unfold get_content. eapply get_content_dwf; eauto.
  rewrite (dwf_size _ _ W). apply lookup_lt_Some in E. lia.
Qed.

Lemma dwf_empty : dwf empty_dag [].
Proof.
  split_and!; simpl.
  - constructor.
  - intros h. rewrite lookup_empty. split; [intros []%elem_of_nil|intros [? [=]]].
  - intros i h c [=].
  - intros h [=].
  - done.
Qed.

Lemma dwf_head d ord h : dwf d ord -> h ∈ ord -> dwf (Dag (Some h) (d_commits d) (d_initial d)) ord.
Proof.
  intros (ND & D & WF & _ & _) Hh. split_and!; simpl; auto.
  - by intros h' [= ->].
  - done.
Qed.

Lemma dwf_add d ord h c i0 : dwf d ord -> d_commits d !! h = None -> cwf ord h c ->
  dwf (Dag (Some h) (<[h := c]> (d_commits d)) i0) (ord ++ [h]).
Proof.
  intros (ND & D & WF & HD & _) N C.
  assert (Nh : h ∉ ord). { intros E%D. rewrite N in E. by destruct E. }
  split_and!; simpl.
  - apply NoDup_app. split_and!; auto.
    + intros x Hx ->%elem_of_list_singleton. done.
    + apply NoDup_singleton.
  - intros h'. rewrite elem_of_app, elem_of_list_singleton, D.
    destruct (decide (h' = h)) as [->|Ne].
    + rewrite lookup_insert. split; eauto.
    + rewrite lookup_insert_ne by done. naive_solver.
  - intros i h' c' E C'. destruct (decide (i < length ord)) as [L|L].
    + rewrite lookup_app_l in E by done.
      rewrite take_app_le by lia.
      apply (WF i h' c'); auto. rewrite lookup_insert_ne in C'; auto.
      intros <-. apply Nh. eapply elem_of_list_lookup_2, E.
    + rewrite lookup_app_r in E by lia.
      destruct (i - length ord) as [|n] eqn:Ei; [|by destruct n].
      simpl in E. injection E as <-. rewrite lookup_insert in C'. injection C' as <-.
      replace i with (length ord) by lia. rewrite take_app. done.
  - intros h' [= <-]. set_solver.
  - done.
Qed.

(** ** One operation *)
Lemma decide_semantic_inv hd t sem d u r d' u' :
  decide_semantic present hd t sem (d, u) = (r, (d', u')) -> d' = d /\
  (forall b, r = Ok b -> decision sem u = Some b).
Proof.
  unfold decide_semantic. destruct sem as [b|].
  { intros [= <- <- <-]. split; auto. by intros b' [= ->]. }
  destruct (get_content d hd) as [cur|e]; [|intros [= <- <- <-]; done].
  destruct (ask_user _ u) as [ra u1] eqn:A. intros [= <- <- <-]. split; auto.
  unfold ask_user in A. cbn. destruct (u_answers u) as [|a l]; injection A as <- <-; [done|].
  destruct a; naive_solver.
Qed.

Lemma commit_inv t sem d u r d' u' ord : dwf d ord ->
  commit_content hash present t sem (d, u) = (r, (d', u')) ->
  (d' = d /\ exists e, r = Err e) \/
  exists hd hc b cur, d_head d = Some hd /\ d_commits d !! hd = Some hc /\
    d_commits d !! hash t = None /\ decision sem u = Some b /\
    r = Ok (hash t) /\
    d' = Dag (Some (hash t))
           (<[hash t := Commit [hd] [(t, cur)] (hash t) (if b then hash t else c_shash hc) None]>
             (d_commits d)) (d_initial d).
Proof.
  intros W. unfold commit_content.
  destruct (d_head d) as [hd|] eqn:Eh; [|intros [= <- <- <-]; eauto].
  destruct (d_commits d !! hash t) as [?|] eqn:Et; [intros [= <- <- <-]; eauto|].
  destruct (d_commits d !! hd) as [hc|] eqn:Ec; [|intros [= <- <- <-]; eauto].
  destruct (decide_semantic _ _ _ _ _) as [rb [d1 u1]] eqn:Ed.
  apply decide_semantic_inv in Ed as [-> Eb].
  destruct rb as [b|e]; [|intros [= <- <- <-]; eauto].
  destruct (get_content_ok _ _ _ _ W Ec) as (cur & Eg & _). rewrite Eg.
  intros [= <- <- <-]. right. exists hd, hc, b, cur. split_and!; auto.
Qed.

Lemma cwf_new d ord t hd hc (b : bool) cur : dwf d ord -> d_head d = Some hd ->
  d_commits d !! hd = Some hc ->
  cwf ord (hash t) (Commit [hd] [(t, cur)] (hash t) (if b then hash t else c_shash hc) None).
Proof.
  intros (ND & D & WF & HD & _) Eh Ec. pose proof (HD _ Eh) as P.
  split_and!; simpl; auto.
  - destruct b; auto. right. apply elem_of_list_lookup in P as [i P].
    destruct (WF _ _ _ P Ec) as (_ & [->|S] & _).
    + eapply elem_of_list_lookup_2, P.
    + eapply elem_of_take in S as (j & S & _). eapply elem_of_list_lookup_2, S.
  - right. exists hd, t, cur. auto.
Qed.

Lemma sync_inv t sem d u r d' u' ord : dwf d ord ->
  sync hash present t sem (d, u) = (r, (d', u')) ->
  (d' = d /\ exists e, r = Err e) \/
  (is_Some (d_commits d !! hash t) /\ is_Some (d_head d) /\ u' = u /\ r = Ok (hash t) /\
   d' = Dag (Some (hash t)) (d_commits d) (d_initial d)) \/
  (commit_content hash present t sem (d, u) = (Ok (hash t), (d', u')) /\ r = Ok (hash t) /\
   d_commits d !! hash t = None).
Proof.
  intros W. unfold sync.
  destruct (d_head d) as [hd|] eqn:Eh; [|intros [= <- <- <-]; eauto].
  destruct (decide (hd = hash t)) as [->|Ne].
  { rewrite decide_True by congruence. intros [= <- <- <-]. right; left.
    split_and!; eauto.
    - destruct W as (_ & D & _ & HD & _). apply D, HD, Eh.
    - destruct d; simpl in *; congruence. }
  destruct (d_commits d !! hash t) as [c|] eqn:Ec.
  { cbv [bindM retM checkout]. rewrite Ec. cbn. rewrite decide_True by done.
    intros [= <- <- <-]. right; left. split_and!; eauto. }
  destruct (commit_content _ _ _ _ _) as [rc [d1 u1]] eqn:E.
  pose proof E as E0. apply (commit_inv _ _ _ _ _ _ _ _ W) in E as [[-> [e ->]]|(hd' & hc & b & cur & _ & _ & _ & _ & -> & ->)].
  { intros [= <- <- <-]. eauto. }
  cbn. rewrite decide_True by done. intros [= <- <- <-]. right; right. eauto.
Qed.

(** Every operation keeps the commits, and keeps the history well formed. *)
Local Notation extends d d' := (d_commits d ⊆ d_commits d').

Lemma run_dop_wf o d u r d' u' ord : dwf d ord ->
  run_dop hash present o (d, u) = (r, (d', u')) ->
  extends d d' /\ exists ord', dwf d' ord'.
Proof.
  intros W. destruct o as [t|t sem|h|t sem]; cbn.
  - unfold bindM, init, retM. destruct (d_head d) as [hd|] eqn:Eh.
    { intros [= <- <- <-]. split; [done|eauto]. }
    intros [= <- <- <-].
    assert (ord = []) as -> by (apply W, Eh).
    assert (N : d_commits d !! hash t = None).
    { destruct (d_commits d !! hash t) eqn:E; auto.
      destruct W as (_ & D & _). assert (hash t ∈ []) as []%elem_of_nil by (apply D; eauto). }
    split.
    + by apply insert_subseteq.
    + eexists. apply (dwf_add d []); auto. split_and!; simpl; auto. left. eauto.
  - unfold bindM. destruct (commit_content _ _ _ _ _) as [rc [d1 u1]] eqn:E.
    apply (commit_inv _ _ _ _ _ _ _ _ W) in E as [[-> [e ->]]|(hd & hc & b & cur & Eh & Ec & N & _ & -> & ->)].
    { intros [= <- <- <-]. split; [done|eauto]. }
    unfold retM. intros [= <- <- <-]. split.
    + by apply insert_subseteq.
    + eexists. apply dwf_add; eauto using cwf_new.
  - destruct (d_commits d !! h) as [c|] eqn:E; intros [= <- <- <-]; [|split; [done|eauto]].
    split; [done|]. exists ord. apply dwf_head; auto. destruct W as (_ & D & _). apply D. eauto.
  - unfold bindM. destruct (sync _ _ _ _ _) as [rc [d1 u1]] eqn:E.
    apply (sync_inv _ _ _ _ _ _ _ _ W) in E as [[-> [e ->]]|[(S & _ & -> & -> & ->)|(E & -> & N)]].
    + intros [= <- <- <-]. split; [done|eauto].
    + unfold retM. intros [= <- <- <-]. split; [done|]. exists ord. apply dwf_head; auto.
      destruct W as (_ & D & _). by apply D.
    + unfold retM. intros [= <- <- <-].
      apply (commit_inv _ _ _ _ _ _ _ _ W) in E as [[-> [e [=]]]|(hd & hc & b & cur & Eh & Ec & _ & _ & _ & ->)].
      split; [by apply insert_subseteq|].
      eexists. apply dwf_add; eauto using cwf_new.
Qed.

Lemma later_wf d d' ord : dwf d ord -> later hash present d d' ->
  extends d d' /\ exists ord', dwf d' ord'.
Proof.
  intros W L. revert ord W. induction L as [d|d o u r d1 u1 d2 R L IH]; intros ord W.
  { split; [done|eauto]. }
  apply (run_dop_wf _ _ _ _ _ _ _ W) in R as [E1 [ord1 W1]].
  destruct (IH _ W1) as [E2 W2]. split; auto. by etrans.
Qed.

Lemma history_wf d : history hash present d -> exists ord, dwf d ord.
Proof. intros L. apply (later_wf _ _ [] dwf_empty L). Qed.

Lemma get_content_later d d' h : history hash present d -> later hash present d d' ->
  is_Some (d_commits d !! h) ->
  exists t, get_content d h = Ok t /\ get_content d' h = Ok t /\ hash t = h.
Proof.
  intros Hd L [c C]. destruct (history_wf _ Hd) as [ord W].
  destruct (later_wf _ _ _ W L) as [E [ord' W']].
  destruct (get_content_ok _ _ _ _ W C) as (t & Et & K & Eh).
  assert (C' : d_commits d' !! h = Some c) by (eapply lookup_weaken; eauto).
  destruct (get_content_ok _ _ _ _ W' C') as (t' & Et' & K' & _).
  exists t. split_and!; auto. congruence.
Qed.

(** The library's own consistency check holds. *)
Lemma dag_check_ok d : history hash present d -> dag_check d = true.
Proof.
  intros [ord (ND & D & WF & HD & HN)]%history_wf. unfold dag_check.
  apply andb_true_intro. split.
  { destruct (d_head d) as [h|] eqn:E; auto. apply bool_decide_eq_true, elem_of_dom, D, HD. done. }
  apply forallb_forall. intros [h c] I.
  apply elem_of_list_In, elem_of_map_to_list in I. cbn.
  assert (h ∈ ord) as P by (apply D; eauto). apply elem_of_list_lookup in P as [i P].
  assert (TK : forall x, x ∈ take i ord -> x ∈ ord).
  { intros x (j & S & _)%elem_of_take. eapply elem_of_list_lookup_2, S. }
  assert (OD : forall x, x ∈ ord -> bool_decide (x ∈ dom (d_commits d)) = true).
  { intros x Hx. apply bool_decide_eq_true, elem_of_dom, D, Hx. }
  destruct (WF _ _ _ P I) as (E1 & E2 & E3).
  rewrite !andb_true_iff. split_and!.
  - unfold commit_check. destruct E3 as [(t & -> & -> & -> & _)|(p & a & b & -> & -> & -> & _)]; done.
  - destruct E3 as [(t & _ & -> & _)|(p & a & b & _ & -> & _ & Pp & _)]; [done|].
    cbn. rewrite OD; auto.
  - by apply bool_decide_eq_true.
  - apply OD. destruct E2 as [->|S]; auto. eapply elem_of_list_lookup_2, P.
Qed.

(** ** Semantic versions *)
Lemma semantic_later d d' h s : history hash present d -> later hash present d d' ->
  semantic d h = Some s -> semantic d' h = Some s.
Proof.
  intros Hd L. unfold semantic. intros (c & C & E)%fmap_Some. subst s.
  destruct (history_wf _ Hd) as [ord W]. destruct (later_wf _ _ _ W L) as [Ex _].
  by rewrite (lookup_weaken _ _ _ _ C Ex).
Qed.

Lemma semantic_known d h s : history hash present d -> semantic d h = Some s ->
  is_Some (d_commits d !! s).
Proof.
  intros [ord (ND & D & WF & _)]%history_wf. unfold semantic.
  intros (c & C & E)%fmap_Some. subst s.
  assert (h ∈ ord) as P by (apply D; eauto). apply elem_of_list_lookup in P as [i P].
  destruct (WF _ _ _ P C) as (_ & [->|S] & _); [eauto|].
  apply D. apply elem_of_take in S as (j & S & _). eapply elem_of_list_lookup_2, S.
Qed.

Lemma declared_later eqs d : declared_history hash present eqs d -> history hash present d.
Proof.
  assert (app : forall d o u r d' u', history hash present d ->
    run_dop hash present o (d, u) = (r, (d', u')) -> history hash present d').
  { unfold history. intros d0 o u r d' u' L E. revert E.
    generalize (@empty_dag T) L. clear. intros d1 L E. induction L as [d|d o1 u1 r1 d2 u2 d3 R L IH].
    - eapply later_step; [exact E|]. constructor.
    - eapply later_step; [exact R|]. auto. }
  induction 1 as [|eqs d u t h d' u' _ IH E|eqs d u h d' u' _ IH E|eqs d u t sem hd h b d' u' _ IH E _ _
    |eqs d u t sem h d' u' _ IH E _|eqs d u t sem hd h b d' u' _ IH E _ _ _].
  - constructor.
  - eapply (app _ (OInit t)); [done|]. cbn. unfold bindM. by rewrite E.
  - eapply (app _ (OCheckout h)); [done|]. cbn in *. by rewrite E.
  - eapply (app _ (OCommit t sem)); [done|]. cbn. unfold bindM. by rewrite E.
  - eapply (app _ (OSync t sem)); [done|]. cbn. unfold bindM. by rewrite E.
  - eapply (app _ (OSync t sem)); [done|]. cbn. unfold bindM. by rewrite E.
Qed.

Lemma rtsc_incl {A} (R R' : relation A) x y : (forall a b, R a b -> R' a b) -> rtsc R x y -> rtsc R' x y.
Proof.
  intros I. apply rtc_subrel. intros a b [E|E]; [left|right]; auto.
Qed.

Definition declared_inv (eqs : list (string * string)) d : Prop :=
  (forall a b, (a, b) ∈ eqs -> exists s, semantic d a = Some s /\ semantic d b = Some s) /\
  (forall a s, semantic d a = Some s -> semantic d s = Some s /\ declared_equal eqs a s).

Lemma declared_inv_add eqs d (hd h : string) (hc : commit T) (b : bool) (c : commit T) i0 :
  declared_inv eqs d ->
  d_commits d !! hd = Some hc -> d_commits d !! h = None ->
  c_shash c = (if b then h else c_shash hc) ->
  declared_inv (if b then eqs else (hd, h) :: eqs) (Dag (Some h) (<[h := c]> (d_commits d)) i0).
Proof.
  intros [I1 I2] Ehd Eh Es.
  assert (SN : semantic d h = None) by (unfold semantic; by rewrite Eh).
  assert (S' : forall x, x <> h ->
    semantic (Dag (Some h) (<[h := c]> (d_commits d)) i0) x = semantic d x).
  { intros x Ne. unfold semantic. cbn. by rewrite lookup_insert_ne. }
  assert (Sh : semantic (Dag (Some h) (<[h := c]> (d_commits d)) i0) h = Some (c_shash c)).
  { unfold semantic. cbn. by rewrite lookup_insert. }
  assert (Shd : semantic d hd = Some (c_shash hc)) by (unfold semantic; by rewrite Ehd).
  assert (KS : forall x s, semantic d x = Some s ->
    semantic (Dag (Some h) (<[h := c]> (d_commits d)) i0) x = Some s).
  { intros x s Ex. rewrite S'; auto. intros ->. congruence. }
  assert (Sub : forall x y, (x, y) ∈ eqs -> (x, y) ∈ (if b then eqs else (hd, h) :: eqs)).
  { intros x y P. destruct b; auto. by right. }
  split.
  - intros x y P.
    destruct b; [|apply elem_of_cons in P as [[= -> ->]|P]].
    + destruct (I1 _ _ P) as (s & E1 & E2). exists s. auto.
    + exists (c_shash hc). rewrite Sh, Es. auto.
    + destruct (I1 _ _ P) as (s & E1 & E2). exists s. auto.
  - intros x s Ex. destruct (decide (x = h)) as [->|Ne].
    + rewrite Sh in Ex. injection Ex as <-. rewrite Es. destruct b.
      * split; [rewrite Sh; by rewrite Es|]. unfold declared_equal. done.
      * destruct (I2 _ _ Shd) as [E1 E2]. split; [auto|].
        unfold declared_equal. eapply rtc_l.
        { right. by left. }
        apply (rtsc_incl (λ a b : string, (a, b) ∈ eqs)); auto.
    + rewrite S' in Ex by done. destruct (I2 _ _ Ex) as [E1 E2]. split; [auto|].
      apply (rtsc_incl (λ a b : string, (a, b) ∈ eqs)); auto.
Qed.

Lemma declared_history_inv eqs d : declared_history hash present eqs d -> declared_inv eqs d.
Proof.
  assert (HEAD : forall eqs d hd i0, declared_inv eqs d ->
    declared_inv eqs (Dag hd (d_commits d) i0)).
  { intros ???? I. exact I. }
  assert (COMMIT : forall eqs d u t sem hd h b d' u',
    history hash present d -> declared_inv eqs d ->
    commit_content hash present t sem (d, u) = (Ok h, (d', u')) ->
    d_head d = Some hd -> decision sem u = Some b ->
    declared_inv (if b then eqs else (hd, h) :: eqs) d').
  { intros eqs' d0 u t sem hd h b d' u' Hh I E Eh Eb.
    destruct (history_wf _ Hh) as [ord W].
    apply (commit_inv _ _ _ _ _ _ _ _ W) in E as [[_ [e [=]]]|(hd' & hc & b' & cur & Eh' & Ec & N & Eb' & [= ->] & ->)].
    assert (hd' = hd) as -> by congruence. assert (b' = b) as -> by congruence.
    by apply (declared_inv_add eqs' d0 hd (hash t) hc b). }
  induction 1 as [|eqs d u t h d' u' HD IH E|eqs d u h d' u' HD IH E|eqs d u t sem hd h b d' u' HD IH E E1 E2
    |eqs d u t sem h d' u' HD IH E K|eqs d u t sem hd h b d' u' HD IH E K E1 E2].
  - split.
    + intros a b []%elem_of_nil.
    + intros a s. unfold semantic. cbn. by rewrite lookup_empty.
  - apply declared_later, history_wf in HD as [ord (_ & D & _ & _ & HN)].
    unfold init in E. destruct (d_head d) eqn:Eh; [done|]. injection E as <- <- <-.
    specialize (HN eq_refl) as ->.
    assert (EM : forall x, d_commits d !! x = None).
    { intros x. destruct (d_commits d !! x) eqn:Ex; auto.
      assert (x ∈ []) as []%elem_of_nil. apply D. eauto. }
    destruct IH as [I1 I2]. split.
    + intros a b P. destruct (I1 _ _ P) as (s & E1 & _). unfold semantic in E1.
      by rewrite EM in E1.
    + intros a s. unfold semantic. cbn. destruct (decide (a = hash t)) as [->|Ne].
      * rewrite lookup_insert. intros [= <-]. split; [by rewrite lookup_insert|].
        cbn. unfold declared_equal. done.
      * rewrite lookup_insert_ne by done. by rewrite EM.
  - unfold checkout in E. destruct (d_commits d !! h); [|done]. injection E as <- <-. auto.
  - eauto using declared_later.
  - pose proof HD as HD'. apply declared_later, history_wf in HD' as [ord W].
    apply (sync_inv _ _ _ _ _ _ _ _ W) in E as [[_ [e [=]]]|[(_ & _ & _ & _ & ->)|(_ & _ & N)]]; auto.
    apply elem_of_dom in K as [? K]. congruence.
  - pose proof HD as HD'. apply declared_later in HD'. pose proof HD' as [ord W]%history_wf.
    apply not_elem_of_dom in K.
    apply (sync_inv _ _ _ _ _ _ _ _ W) in E as [[_ [e [=]]]|[(S & _)|(E & [= ->] & N)]].
    { rewrite K in S. by destruct S. }
    eauto.
Qed.

(** Same semantic version, exactly when declared equal. *)
Lemma semantic_declared eqs d a b : declared_history hash present eqs d ->
  is_Some (d_commits d !! a) -> is_Some (d_commits d !! b) ->
  (semantic d a = semantic d b <-> declared_equal eqs a b).
Proof.
  intros HD [ca Ca] [cb Cb]. destruct (declared_history_inv _ _ HD) as [I1 I2].
  split.
  - intros E. assert (exists s, semantic d a = Some s) as [s Ea].
    { unfold semantic. rewrite Ca. eauto. }
    rewrite Ea in E. symmetry in E.
    destruct (I2 _ _ Ea) as [_ Ra]. destruct (I2 _ _ E) as [_ Rb].
    unfold declared_equal. etrans; [exact Ra|]. by symmetry.
  - intros R. clear Ca Cb. induction R as [|x y z [E|E] R IH]; auto.
    + destruct (I1 _ _ E) as (s & E1 & E2). congruence.
    + destruct (I1 _ _ E) as (s & E1 & E2). congruence.
Qed.
End proofs.
