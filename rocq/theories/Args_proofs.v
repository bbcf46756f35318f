(** Proofs about argument binding. *)
From stdpp Require Import base strings gmap list.
From Verif Require Import Base PyDict PyDict_proofs Returns Refs Args Spec_Args.

Section bind.
  Context {X : Type}.
  Implicit Types (ps sig : list (param X)) (args : list X) (kw : pydict X).

  Lemma elem_of_kwnames k sig :
    k ∈ kwnames sig <-> exists p, p ∈ sig /\ p_name p = k /\ by_keyword (p_kind p).
  Proof.
    unfold kwnames. rewrite elem_of_list_fmap. split.
    - intros (p & -> & [? ?]%elem_of_list_filter). eauto.
    - intros (p & ? & <- & ?). exists p. split; [done|]. by apply elem_of_list_filter.
  Qed.

  Fixpoint kwp_of ps (kwp : option string) : option string :=
    match ps with
    | [] => kwp
    | p :: ps => if decide (p_kind p = KVarKw) then kwp_of ps (Some (p_name p)) else kwp_of ps kwp
    end.

  Definition left_of ps (kw : list (string * X)) := filter (fun kx => kx.1 ∉ kwnames ps) kw.

  Lemma dget_ddel_ne k k' (d : pydict X) : k <> k' -> dget k (ddel k' d) = dget k d.
  Proof.
    intros Hne. induction d as [|[k2 v] d IH]; simpl; [done|].
    destruct (decide (k' = k2)) as [->|].
    - by rewrite decide_False by done.
    - simpl. by rewrite IH.
  Qed.
  Lemma ddel_sublist {Y} k (d : pydict Y) : sublist (ddel k d) d.
  Proof.
    induction d as [|[k2 v] d IH]; simpl; [done|]. destruct (decide (k = k2)).
    - by apply sublist_cons.
    - by apply sublist_skip.
  Qed.
  Lemma ddel_keys_sub {Y} k k' (d : pydict Y) : k' ∈ map fst (ddel k d) -> k' ∈ map fst d.
  Proof.
    induction d as [|[k2 v] d IH]; simpl; [done|]. destruct (decide (k = k2)); simpl.
    - intros. by right.
    - rewrite !elem_of_cons. intros [?|?]; auto.
  Qed.
  Lemma ddel_NoDup {Y} k (d : pydict Y) : NoDup (map fst d) -> NoDup (map fst (ddel k d)).
  Proof.
    induction d as [|[k2 v] d IH]; simpl; [done|]. intros [Hn Hd]%NoDup_cons.
    destruct (decide (k = k2)); simpl; [done|]. constructor; [|auto].
    intros ?%ddel_keys_sub. done.
  Qed.
  Lemma ddel_filter {Y} k (d : list (string * Y)) : NoDup (map fst d) -> ddel k d = filter (fun kx => kx.1 <> k) d.
  Proof.
    induction d as [|[k2 v] d IH]; cbn [ddel map fst]; [done|]. intros [Hn Hd]%NoDup_cons.
    destruct (decide (k = k2)) as [->|Hne].
    - rewrite filter_cons_False by (simpl; auto). clear IH.
      induction d as [|[k3 v3] d IH]; [done|].
      cbn [map fst] in Hn. apply not_elem_of_cons in Hn as [Hne Hn].
      cbn [map fst] in Hd. apply NoDup_cons in Hd as [_ Hd].
      rewrite filter_cons_True by (simpl; auto). f_equal. auto.
    - rewrite filter_cons_True by (simpl; auto). f_equal. auto.
  Qed.

  (** [bind_kw] succeeds exactly when ... *)
  Definition kw_fine ps kw kwp : Prop :=
    (forall p, p ∈ ps -> p_kind p = KPosOnly -> dget (p_name p) kw = None /\ p_default p <> None) /\
    (forall p, p ∈ ps -> by_keyword (p_kind p) -> dget (p_name p) kw <> None \/ p_default p <> None) /\
    (left_of ps kw = [] \/ kwp_of ps kwp <> None).

  (** ... and binds *)
  Definition kw_get ps kw kwp (acc : pydict (bval X)) (k : string) : option (bval X) :=
    if decide (left_of ps kw <> [] /\ kwp_of ps kwp = Some k) then Some (BDict (left_of ps kw))
    else if decide (k ∈ kwnames ps /\ dget k kw <> None) then BOne <$> dget k kw
    else dget k acc.

  Lemma left_cons_kw p ps kw :
    by_keyword (p_kind p) -> NoDup (map fst kw) -> left_of (p :: ps) kw = left_of ps (ddel (p_name p) kw).
  Proof.
    intros Hk Hnd. unfold left_of. rewrite ddel_filter, list_filter_filter by done.
    apply list_filter_iff. intros [k x]; simpl. rewrite !elem_of_kwnames. split.
    - intros Hn. split.
      + intros (q & ? & ? & ?). apply Hn. exists q. split; [by right|done].
      + intros ->. apply Hn. exists p. split; [by left|done].
    - intros [Hn Hne] (q & [->|?]%elem_of_cons & Hq & ?); [by apply Hne|].
      apply Hn. eauto.
  Qed.
  Lemma left_cons_nokw p ps kw :
    ~ by_keyword (p_kind p) -> left_of (p :: ps) kw = left_of ps kw.
  Proof.
    intros Hk. unfold left_of. apply list_filter_iff. intros [k x]; simpl. rewrite !elem_of_kwnames.
    split; intros Hn; contradict Hn.
    - destruct Hn as (q & ? & ? & ?). exists q. split; [by right|done].
    - destruct Hn as (q & [->|?]%elem_of_cons & ? & ?); [done|]. eauto.
  Qed.
  Lemma left_cons_none p ps kw :
    NoDup (map fst kw) -> dget (p_name p) kw = None -> left_of (p :: ps) kw = left_of ps kw.
  Proof.
    intros Hnd Hk. destruct (decide (by_keyword (p_kind p))).
    - rewrite left_cons_kw by done. f_equal. clear Hnd. induction kw as [|[k v] kw IH]; simpl in *; [done|].
      destruct (decide (p_name p = k)); [done|]. by rewrite IH.
    - by apply left_cons_nokw.
  Qed.

  Lemma bind_kw_spec ps kw acc kwp :
    NoDup (map p_name ps) -> NoDup (map fst kw) ->
    (kwp <> None -> forall p, p ∈ ps -> p_kind p <> KVarKw) ->
    (forall n, kwp = Some n -> n ∉ map p_name ps) ->
    (forall i j p q, ps !! i = Some p -> ps !! j = Some q -> p_kind p = KVarKw -> p_kind q = KVarKw -> i = j) ->
    (kw_fine ps kw kwp -> exists acc', bind_kw ps kw acc kwp = Ok acc' /\ forall k, dget k acc' = kw_get ps kw kwp acc k) /\
    (~ kw_fine ps kw kwp -> bind_kw ps kw acc kwp = Err ETypeError).
  Proof.
    revert kw acc kwp. induction ps as [|p ps IH]; intros kw acc kwp Hnd Hkw Hone Hn Hstar.
    - unfold kw_fine, kw_get, left_of. cbn [bind_kw kwp_of].
      assert (filter (fun kx : string * X => kx.1 ∉ kwnames []) kw = kw) as ->.
      { clear. induction kw as [|kx kw IH]; [done|]. rewrite filter_cons_True; [by f_equal|].
        intros (p & Hp & _)%elem_of_kwnames. by apply elem_of_nil in Hp. }
      split.
      + intros (_ & _ & Hl). destruct kw as [|kx kw].
        * exists acc. split; [done|]. intros k. rewrite decide_False by naive_solver.
          rewrite decide_False; [done|]. by intros [_ ?].
        * destruct Hl as [?|Hl]; [done|]. destruct kwp as [n|]; [|done].
          eexists. split; [done|]. intros k. destruct (decide (k = n)) as [->|Hne].
          -- rewrite dget_dset_eq. by rewrite decide_True.
          -- rewrite dget_dset_ne by done. rewrite decide_False by naive_solver.
             rewrite decide_False; [done|]. intros [(p & Hp & _)%elem_of_kwnames _]. by apply elem_of_nil in Hp.
      + intros Hf. destruct kw as [|kx kw].
        * destruct Hf. split_and!; [..|by left]; intros p Hp; by apply elem_of_nil in Hp.
        * destruct kwp; [|done]. destruct Hf.
          split_and!; [..|by right]; intros p Hp; by apply elem_of_nil in Hp.
    - apply NoDup_cons in Hnd as [Hp Hnd].
      assert (Hstar' : forall i j p q, ps !! i = Some p -> ps !! j = Some q ->
        p_kind p = KVarKw -> p_kind q = KVarKw -> i = j).
      { intros i j p1 q1 H1 H2 ? ?. assert (S i = S j); [by eapply Hstar|lia]. }
      assert (Hone' : kwp <> None -> forall p, p ∈ ps -> p_kind p <> KVarKw).
      { intros Hk q Hq. apply Hone; [done|]. by right. }
      assert (Hn' : forall n, kwp = Some n -> n ∉ map p_name ps).
      { intros n ->. specialize (Hn n eq_refl). simpl in Hn. by apply not_elem_of_cons in Hn as [_ ?]. }
      assert (Hnp : forall n, kwp = Some n -> n <> p_name p).
      { intros n ->. specialize (Hn n eq_refl). simpl in Hn. by apply not_elem_of_cons in Hn as [? _]. }
      assert (Hpk : p_name p ∉ kwnames ps).
      { intros (q & Hq & He & _)%elem_of_kwnames. apply Hp. rewrite <-He. apply elem_of_list_fmap. eauto. }
      (* a parameter that is skipped *)
      assert (Hskip : p_kind p <> KVarKw ->
        (dget (p_name p) kw = None /\ p_default p <> None \/ p_kind p = KVarPos) ->
        (kw_fine (p :: ps) kw kwp <-> kw_fine ps kw kwp) /\
        (forall k, kw_get (p :: ps) kw kwp acc k = kw_get ps kw kwp acc k)).
      { intros Hk Hor.
        assert (Hl : left_of (p :: ps) kw = left_of ps kw).
        { destruct Hor as [[? _]|Hv]; [by apply left_cons_none|].
          apply left_cons_nokw. rewrite Hv. by intros [?|?]. }
        split.
        - unfold kw_fine. rewrite Hl. simpl. rewrite decide_False by done.
          split; intros (H1 & H2 & H3); split_and!; auto.
          + intros q Hq. apply H1. by right.
          + intros q Hq. apply H2. by right.
          + intros q [->|Hq]%elem_of_cons Hq'; [|by apply H1].
            destruct Hor as [?|?]; [done|congruence].
          + intros q [->|Hq]%elem_of_cons Hq'; [|by apply H2].
            destruct Hor as [[? ?]|Hv]; [by right|]. rewrite Hv in Hq'. by destruct Hq'.
        - intros k. unfold kw_get. rewrite Hl. simpl. rewrite (decide_False (P := p_kind p = KVarKw)) by done.
          destruct (decide (_ /\ kwp_of ps kwp = Some k)); [done|].
          assert (k ∈ kwnames (p :: ps) /\ dget k kw <> None <-> k ∈ kwnames ps /\ dget k kw <> None) as Hi.
          { rewrite !elem_of_kwnames. split.
            - intros [(q & [->|?]%elem_of_cons & <- & Hb) Hd]; [|eauto].
              destruct Hor as [[? _]|Hv]; [done|]. rewrite Hv in Hb. by destruct Hb.
            - intros [(q & ? & ? & ?) ?]. split; [|done]. exists q. split; [by right|done]. }
          destruct (decide (k ∈ kwnames ps /\ _)) as [Hd|Hd].
          + by rewrite decide_True by (by apply Hi).
          + by rewrite decide_False by (by rewrite Hi). }
      assert (Hgoskip : p_kind p <> KVarKw ->
        (dget (p_name p) kw = None /\ p_default p <> None \/ p_kind p = KVarPos) ->
        (kw_fine (p :: ps) kw kwp -> exists acc', bind_kw ps kw acc kwp = Ok acc' /\
           forall k, dget k acc' = kw_get (p :: ps) kw kwp acc k) /\
        (~ kw_fine (p :: ps) kw kwp -> bind_kw ps kw acc kwp = Err ETypeError)).
      { intros H1 H2. destruct (Hskip H1 H2) as [Hf Hg]. destruct (IH kw acc kwp) as [IH1 IH2]; auto.
        split.
        - intros Hff. destruct (IH1 (proj1 Hf Hff)) as (acc' & ? & Hk). exists acc'. split; [done|].
          intros k. by rewrite Hg.
        - intros Hff. apply IH2. by rewrite <-Hf. }
      (* a parameter passed by keyword *)
      assert (Htake : forall x, dget (p_name p) kw = Some x -> by_keyword (p_kind p) ->
        (kw_fine (p :: ps) kw kwp -> exists acc',
           bind_kw ps (ddel (p_name p) kw) (dset (p_name p) (BOne x) acc) kwp = Ok acc' /\
           forall k, dget k acc' = kw_get (p :: ps) kw kwp acc k) /\
        (~ kw_fine (p :: ps) kw kwp ->
           bind_kw ps (ddel (p_name p) kw) (dset (p_name p) (BOne x) acc) kwp = Err ETypeError)).
      { intros x Hx Hb.
        destruct (IH (ddel (p_name p) kw) (dset (p_name p) (BOne x) acc) kwp) as [IH1 IH2]; auto.
        { by apply ddel_NoDup. }
        assert (Hkk : p_kind p <> KVarKw) by (intros E; rewrite E in Hb; by destruct Hb).
        assert (Hdel : forall q, q ∈ ps -> dget (p_name q) (ddel (p_name p) kw) = dget (p_name q) kw).
        { intros q Hq. apply dget_ddel_ne. intros He. apply Hp. rewrite <-He. apply elem_of_list_fmap. eauto. }
        assert (Hf : kw_fine (p :: ps) kw kwp <-> kw_fine ps (ddel (p_name p) kw) kwp).
        { unfold kw_fine. rewrite left_cons_kw by done. simpl. rewrite decide_False by done.
          split; intros (H1 & H2 & H3); split_and!; auto.
          - intros q Hq. rewrite Hdel by done. apply H1. by right.
          - intros q Hq. rewrite Hdel by done. apply H2. by right.
          - intros q [->|Hq]%elem_of_cons Hq'; [rewrite Hq' in Hb; by destruct Hb|].
            rewrite <-Hdel by done. by apply H1.
          - intros q [->|Hq]%elem_of_cons Hq'; [left; congruence|].
            rewrite <-Hdel by done. by apply H2. }
        assert (Hkwpne : kwp_of ps kwp <> Some (p_name p)).
        { clear -Hp Hnp. revert kwp Hnp. induction ps as [|q qs IHq]; intros kwp Hnp; simpl.
          - intros ->. by destruct (Hnp (p_name p)).
          - simpl in Hp. apply not_elem_of_cons in Hp as [Hq Hp]. case_decide; apply IHq; auto.
            intros n [= <-]. auto. }
        assert (Hg : forall k, kw_get (p :: ps) kw kwp acc k =
          kw_get ps (ddel (p_name p) kw) kwp (dset (p_name p) (BOne x) acc) k).
        { intros k. unfold kw_get. rewrite left_cons_kw by done. simpl.
          rewrite (decide_False (P := p_kind p = KVarKw)) by done.
          destruct (decide (_ /\ kwp_of ps kwp = Some k)) as [[_ Hkp]|]; [done|].
          destruct (decide (k = p_name p)) as [->|Hne].
          - rewrite decide_True; [|split; [|congruence]].
            2:{ apply elem_of_kwnames. exists p. split; [by left|done]. }
            rewrite decide_False by (by intros [? _]). by rewrite dget_dset_eq, Hx.
          - rewrite dget_ddel_ne, dget_dset_ne by done.
            assert (k ∈ kwnames (p :: ps) <-> k ∈ kwnames ps) as Hi.
            { rewrite !elem_of_kwnames. split.
              - intros (q & [->|?]%elem_of_cons & <- & ?); [done|eauto].
              - intros (q & ? & ? & ?). exists q. split; [by right|done]. }
            destruct (decide (k ∈ kwnames ps /\ _)) as [Hd|Hd].
            + by rewrite decide_True by (by rewrite Hi).
            + by rewrite decide_False by (by rewrite Hi). }
        split.
        - intros Hff. destruct (IH1 (proj1 Hf Hff)) as (acc' & ? & Hk). exists acc'. split; [done|].
          intros k. by rewrite Hg.
        - intros Hff. apply IH2. by rewrite <-Hf. }
      simpl. destruct (p_kind p) eqn:Ek.
      + destruct (dget (p_name p) kw) as [x|] eqn:Ex.
        { split; [|done]. intros (H1 & _).
          destruct (H1 p ltac:(by left) Ek). congruence. }
        destruct (p_default p) as [d|] eqn:Ed.
        * apply Hgoskip; [done|]. by left.
        * split; [|done]. intros (H1 & _). destruct (H1 p ltac:(by left) Ek). congruence.
      + destruct (dget (p_name p) kw) as [x|] eqn:Ex.
        { apply Htake; [done|by left]. }
        destruct (p_default p) as [d|] eqn:Ed.
        * apply Hgoskip; [done|]. by left.
        * split; [|done]. intros (_ & H1 & _). destruct (H1 p ltac:(by left)); [rewrite Ek; by left|congruence|congruence].
      + apply Hgoskip; [done|by right].
      + destruct (dget (p_name p) kw) as [x|] eqn:Ex.
        { apply Htake; [done|by right]. }
        destruct (p_default p) as [d|] eqn:Ed.
        * apply Hgoskip; [done|]. by left.
        * split; [|done]. intros (_ & H1 & _). destruct (H1 p ltac:(by left)); [rewrite Ek; by right|congruence|congruence].
      + assert (kwp = None) as ->.
        { destruct kwp; [|done]. destruct (Hone ltac:(done) p ltac:(by left) Ek). }
        assert (Hnov : forall q, q ∈ ps -> p_kind q <> KVarKw).
        { intros q [i Hi]%elem_of_list_lookup Hq.
          assert (0 = S i); [by eapply Hstar|lia]. }
        destruct (IH kw acc (Some (p_name p))) as [IH1 IH2]; auto.
        { intros n [= <-]. done. }
        assert (Hl : left_of (p :: ps) kw = left_of ps kw).
        { apply left_cons_nokw. rewrite Ek. by intros [?|?]. }
        assert (Hf : kw_fine (p :: ps) kw None <-> kw_fine ps kw (Some (p_name p))).
        { unfold kw_fine. rewrite Hl. simpl. rewrite decide_True by done.
          split; intros (H1 & H2 & H3); split_and!; auto.
          - intros q Hq. apply H1. by right.
          - intros q Hq. apply H2. by right.
          - intros q [->|Hq]%elem_of_cons Hq'; [congruence|by apply H1].
          - intros q [->|Hq]%elem_of_cons Hq'; [|by apply H2]. rewrite Ek in Hq'. by destruct Hq'. }
        assert (Hg : forall k, kw_get (p :: ps) kw None acc k = kw_get ps kw (Some (p_name p)) acc k).
        { intros k. unfold kw_get. rewrite Hl. simpl. rewrite (decide_True (P := p_kind p = KVarKw)) by done.
          destruct (decide (_ /\ kwp_of ps _ = Some k)); [done|].
          assert (k ∈ kwnames (p :: ps) <-> k ∈ kwnames ps) as Hi.
          { rewrite !elem_of_kwnames. split.
            - intros (q & [->|?]%elem_of_cons & ? & Hb); [rewrite Ek in Hb; by destruct Hb|eauto].
            - intros (q & ? & ? & ?). exists q. split; [by right|done]. }
          destruct (decide (k ∈ kwnames ps /\ _)) as [Hd|Hd].
          - by rewrite decide_True by (by rewrite Hi).
          - by rewrite decide_False by (by rewrite Hi). }
        split.
        * intros Hff. destruct (IH1 (proj1 Hf Hff)) as (acc' & ? & Hk). exists acc'. split; [done|].
          intros k. by rewrite Hg.
        * intros Hff. apply IH2. by rewrite <-Hf.
  Qed.

  Lemma sig_ok_tail p ps : sig_ok (p :: ps) -> sig_ok ps.
  Proof.
    intros [H1 H2 H3 H4]. constructor.
    - by apply NoDup_cons in H1 as [_ ?].
    - intros i j q q' ? ? ?. eapply (H2 (S i) (S j)); [done..|lia].
    - intros i j q q' ? ? ? ?. assert (S i = S j); [by eapply (H3 (S i) (S j))|lia].
    - intros q Hq. apply H4. by right.
  Qed.
  Lemma sig_ok_head p ps q : sig_ok (p :: ps) -> q ∈ ps -> rank (p_kind p) <= rank (p_kind q).
  Proof.
    intros Hs [i Hi]%elem_of_list_lookup. eapply (so_order _ Hs 0 (S i)); [done..|lia].
  Qed.
  Lemma sig_ok_star p ps q : sig_ok (p :: ps) -> q ∈ ps ->
    p_kind p = KVarPos \/ p_kind p = KVarKw -> p_kind q <> p_kind p.
  Proof.
    intros Hs [i Hi]%elem_of_list_lookup Hk E.
    assert (0 = S i); [|lia]. eapply (so_star _ Hs); [done..| |done]. done.
  Qed.
  Lemma npos_cons p ps : npos (p :: ps) = (if decide (positional (p_kind p)) then 1 else 0) + npos ps.
  Proof.
    unfold npos. rewrite filter_cons. by destruct (decide (positional (p_kind p))).
  Qed.
  Lemma npos_zero ps : (forall q, q ∈ ps -> 2 <= rank (p_kind q)) -> npos ps = 0.
  Proof.
    induction ps as [|p ps IH]; intros Hr; [done|]. rewrite npos_cons, IH by (intros; apply Hr; by right).
    rewrite decide_False; [done|]. intros [E|E]; specialize (Hr p ltac:(left)); rewrite E in Hr; simpl in Hr; lia.
  Qed.
  Lemma has_kind_cons k p ps : has_kind k (p :: ps) <-> p_kind p = k \/ has_kind k ps.
  Proof.
    unfold has_kind. split.
    - intros (q & [->|?]%elem_of_cons & ?); eauto.
    - intros [?|(q & ? & ?)]; [exists p; split; [by left|done]|exists q; split; [by right|done]].
  Qed.

  (** [bind_pos] and [bind_kw] together succeed exactly when ... *)
  Record fine ps args kw : Prop := {
    f1 : has_kind KVarPos ps \/ length args <= npos ps;
    f2 : forall i p, ps !! i = Some p -> p_kind p = KPosOrKw -> i < length args -> dget (p_name p) kw = None;
    f3 : forall i p, ps !! i = Some p -> p_kind p = KPosOnly -> length args <= i ->
           dget (p_name p) kw = None /\ p_default p <> None;
    f4 : forall i p, ps !! i = Some p -> by_keyword (p_kind p) -> (p_kind p = KPosOrKw -> length args <= i) ->
           dget (p_name p) kw <> None \/ p_default p <> None;
    f5 : left_of ps kw = [] \/ has_kind KVarKw ps;
  }.
  (** ... and bind *)
  Definition bnd ps args kw (i : nat) (p : param X) : option (bval X) :=
    match p_kind p with
    | KPosOnly => BOne <$> args !! i
    | KPosOrKw => match args !! i with Some x => Some (BOne x) | None => BOne <$> dget (p_name p) kw end
    | KVarPos => match drop (npos ps) args with [] => None | l => Some (BTuple l) end
    | KKwOnly => BOne <$> dget (p_name p) kw
    | KVarKw => match left_of ps kw with [] => None | l => Some (BDict l) end
    end.
  Definition bound_as ps args kw (acc acc' : pydict (bval X)) : Prop :=
    (forall i p, ps !! i = Some p -> dget (p_name p) acc' = bnd ps args kw i p) /\
    (forall k, k ∉ map p_name ps -> dget k acc' = dget k acc).

  Lemma kwp_of_Some ps kwp : (exists n, kwp_of ps kwp = Some n) <-> has_kind KVarKw ps \/ is_Some kwp.
  Proof.
    revert kwp. induction ps as [|p ps IH]; intros kwp; cbn [kwp_of].
    - split; [intros [n ->]; right; by eexists|]. intros [(p & Hp & _)|[n ->]]; [by apply elem_of_nil in Hp|eauto].
    - rewrite has_kind_cons. destruct (decide (p_kind p = KVarKw)) as [E|E]; rewrite IH.
      + split; [by left; left|]. intros _. right. by eexists.
      + tauto.
  Qed.
  Lemma kwp_of_in ps kwp n : kwp_of ps kwp = Some n ->
    kwp = Some n \/ exists p, p ∈ ps /\ p_kind p = KVarKw /\ p_name p = n.
  Proof.
    revert kwp. induction ps as [|p ps IH]; intros kwp; cbn [kwp_of]; [auto|].
    destruct (decide (p_kind p = KVarKw)) as [E|E]; intros [Hn|(q & ? & ? & ?)]%IH.
    - simplify_eq. right. exists p. split; [by left|done].
    - right. exists q. split; [by right|done].
    - by left.
    - right. exists q. split; [by right|done].
  Qed.
  Lemma kwp_of_unique ps p kwp : sig_ok ps -> p ∈ ps -> p_kind p = KVarKw -> kwp_of ps kwp = Some (p_name p).
  Proof.
    revert kwp. induction ps as [|q ps IH]; intros kwp Hs Hp Hk; [by apply elem_of_nil in Hp|]. cbn [kwp_of].
    apply elem_of_cons in Hp as [->|Hp].
    - rewrite decide_True by done. destruct (kwp_of ps (Some (p_name q))) as [n|] eqn:E.
      + apply kwp_of_in in E as [?|(r & Hr & Hrk & <-)]; [done|].
        destruct (sig_ok_star q ps r Hs Hr); [by right|congruence].
      + assert (exists n, kwp_of ps (Some (p_name q)) = Some n) as [n Hn]; [|congruence].
        apply kwp_of_Some. right. by eexists.
    - pose proof (sig_ok_tail _ _ Hs). destruct (decide (p_kind q = KVarKw)); auto.
  Qed.

  Lemma dget_not_left ps kw k : k ∈ kwnames ps -> dget k (left_of ps kw) = None.
  Proof.
    intros Hk. apply dget_None. intros ([k' x] & -> & Hin)%elem_of_list_fmap.
    apply elem_of_list_filter in Hin as [? _]. done.
  Qed.

  (** the case without positional arguments *)
  Lemma fine_nil ps kw : sig_ok ps -> fine ps [] kw <-> kw_fine ps kw None.
  Proof.
    intros Hs. split.
    - intros [_ _ F3 F4 F5]. split; [|split].
      + intros p [i Hi]%elem_of_list_lookup Hk. by eapply F3; [| |simpl; lia].
      + intros p [i Hi]%elem_of_list_lookup Hk. eapply F4; [done..|]. simpl; lia.
      + destruct F5 as [?|F5]; [by left|]. right.
        destruct (proj2 (kwp_of_Some ps None)) as [n ->]; [by left|done].
    - intros (H1 & H2 & H3). constructor.
      + right. simpl. lia.
      + simpl. lia.
      + intros i p Hi ? _. apply H1; [|done]. by eapply elem_of_list_lookup_2.
      + intros i p Hi ? _. apply H2; [|done]. by eapply elem_of_list_lookup_2.
      + destruct H3 as [?|H3]; [by left|]. right. destruct (kwp_of ps None) as [n|] eqn:E; [|done].
        apply kwp_of_in in E as [?|(p & ? & ? & ?)]; [done|]. by exists p.
  Qed.
  Lemma bind_nil ps kw acc : sig_ok ps -> NoDup (map fst kw) ->
    (forall k, k ∈ map p_name ps -> dget k acc = None) ->
    (fine ps [] kw -> exists acc', bind_kw ps kw acc None = Ok acc' /\ bound_as ps [] kw acc acc') /\
    (~ fine ps [] kw -> bind_kw ps kw acc None = Err ETypeError).
  Proof.
    intros Hs Hkw Hacc. rewrite fine_nil by done.
    destruct (bind_kw_spec ps kw acc None) as [H1 H2]; [apply Hs|done|done|done| |].
    { intros i j p q Hi Hj Hp Hq. eapply (so_star _ Hs); [done..|congruence|by right]. }
    split; [|done]. intros Hf. destruct (H1 Hf) as (acc' & -> & Hk). exists acc'. split; [done|]. split.
    - intros i p Hi. rewrite Hk. unfold kw_get, bnd. rewrite lookup_nil, drop_nil.
      assert (Hin : p ∈ ps) by (by eapply elem_of_list_lookup_2).
      rewrite (Hacc (p_name p)) by (apply elem_of_list_fmap; eauto).
      assert (Hpos : p_kind p <> KVarKw -> kwp_of ps None <> Some (p_name p)).
      { intros Hn [?|(q & Hq & Hqk & Hqn)]%kwp_of_in; [done|].
        apply Hn. rewrite <-Hqk. f_equal.
        apply elem_of_list_lookup in Hq as [j Hj].
        assert (i = j) as ->; [|congruence].
        eapply NoDup_lookup; [apply Hs| |]; rewrite list_lookup_fmap; [by rewrite Hi|rewrite Hj; simpl; congruence]. }
      assert (Hkn : p_name p ∈ kwnames ps <-> by_keyword (p_kind p)).
      { rewrite elem_of_kwnames. split; [|eauto]. intros (q & Hq & Hqn & Hqk).
        apply elem_of_list_lookup in Hq as [j Hj].
        assert (i = j) as ->; [|congruence].
        eapply NoDup_lookup; [apply Hs| |]; rewrite list_lookup_fmap; [by rewrite Hi|rewrite Hj; simpl; congruence]. }
      assert (Hby : forall a b, a = (BOne <$> b) ->
         (if decide (p_name p ∈ kwnames ps /\ b <> None) then a else None) =
         (if decide (by_keyword (p_kind p)) then BOne <$> b else None : option (bval X))).
      { intros a b ->. destruct (decide (p_name p ∈ kwnames ps /\ b <> None)) as [[? ?]|Hn].
        - by rewrite decide_True by (by apply Hkn).
        - destruct (decide (by_keyword _)); [|done]. destruct b; [|done]. destruct Hn. split; [by apply Hkn|done]. }
      destruct (p_kind p) eqn:Ek.
      + rewrite decide_False by (intros [_ ?]; by apply Hpos). rewrite (Hby _ _ eq_refl).
        rewrite decide_False; [done|]. by intros [?|?].
      + rewrite decide_False by (intros [_ ?]; by apply Hpos). rewrite (Hby _ _ eq_refl).
        rewrite decide_True; [done|by left].
      + rewrite decide_False by (intros [_ ?]; by apply Hpos). rewrite (Hby _ _ eq_refl).
        rewrite decide_False; [done|]. by intros [?|?].
      + rewrite decide_False by (intros [_ ?]; by apply Hpos). rewrite (Hby _ _ eq_refl).
        rewrite decide_True; [done|by right].
      + destruct (left_of ps kw) as [|x l] eqn:El.
        * rewrite decide_False by (by intros [? _]). rewrite (Hby _ _ eq_refl).
          rewrite decide_False; [done|]. by intros [?|?].
        * rewrite decide_True; [done|]. split; [done|]. by apply kwp_of_unique.
    - intros k Hn. rewrite Hk. unfold kw_get.
      rewrite decide_False.
      2:{ intros [_ [?|(q & Hq & Hqk & Hqn)]%kwp_of_in]; [done|]. apply Hn. apply elem_of_list_fmap. eauto. }
      rewrite decide_False; [done|].
      intros [(q & Hq & Hqn & Hqk)%elem_of_kwnames _]. apply Hn. apply elem_of_list_fmap. eauto.
  Qed.

  Lemma left_tail_pos p ps kw :
    NoDup (map fst kw) -> (p_kind p = KPosOnly \/ p_kind p = KVarPos \/ dget (p_name p) kw = None) ->
    left_of (p :: ps) kw = left_of ps kw.
  Proof.
    intros Hkw [E|[E|?]]; [..|by apply left_cons_none]; apply left_cons_nokw; rewrite E; by intros [?|?].
  Qed.

  Lemma bind_spec ps args kw acc : sig_ok ps -> NoDup (map fst kw) ->
    (forall k, k ∈ map p_name ps -> dget k acc = None) ->
    (fine ps args kw -> exists acc',
       (r ← bind_pos ps args kw acc; bind_kw r.2 kw r.1 None) = Ok acc' /\ bound_as ps args kw acc acc') /\
    (~ fine ps args kw -> (r ← bind_pos ps args kw acc; bind_kw r.2 kw r.1 None) = Err ETypeError).
  Proof.
    revert args acc. induction ps as [|p ps IH]; intros args acc Hs Hkw Hacc.
    - destruct args as [|a args]; [by apply bind_nil|]. simpl. split; [|done].
      intros [[(p & Hp & _)|F1] _ _ _ _]; [by apply elem_of_nil in Hp|]. simpl in F1. unfold npos in F1. simpl in F1. lia.
    - assert (Hs' := sig_ok_tail _ _ Hs).
      destruct args as [|a args].
      + destruct (bind_nil (p :: ps) kw acc) as [B1 B2]; [done..|].
        cbn [bind_pos]. destruct (decide (p_kind p = KVarPos)) as [Ek|Ek].
        { cbn [mbind result_bind fst snd]. cbn [bind_kw] in B1, B2. rewrite Ek in B1, B2. done. }
        destruct (dmem (p_name p) kw) eqn:Em.
        * destruct (decide (p_kind p = KPosOnly)) as [Ek'|Ek']; [|done].
          split; [|done]. intros [_ _ F3 _ _]. destruct (F3 0 p) as [F _]; [done..|simpl; lia|]. exfalso.
          apply dmem_spec in Em. apply dget_None in F. done.
        * destruct (decide (p_kind p = KVarKw \/ p_default p <> None)) as [Ed|Ed]; [done|].
          split; [|done]. intros [_ _ F3 F4 _].
          assert (Hno : dget (p_name p) kw = None).
          { apply dget_None. intros ?%dmem_spec. congruence. }
          destruct (p_kind p) eqn:Ek2; try (by destruct Ed; left).
          -- destruct (F3 0 p) as [_ F]; [done..|simpl; lia|]. destruct Ed. by right.
          -- destruct (F4 0 p) as [F|F]; [done|by left; rewrite Ek2|simpl; lia|done|]. destruct Ed. by right.
          -- destruct (F4 0 p) as [F|F]; [done|by rewrite Ek2; right|simpl; lia|done|]. destruct Ed. by right.
      + assert (Hrec : positional (p_kind p) -> (p_kind p = KPosOrKw -> dget (p_name p) kw = None) ->
          (fine (p :: ps) (a :: args) kw -> exists acc',
             (r ← bind_pos ps args kw (dset (p_name p) (BOne a) acc); bind_kw r.2 kw r.1 None) = Ok acc' /\
             bound_as (p :: ps) (a :: args) kw acc acc') /\
          (~ fine (p :: ps) (a :: args) kw ->
             (r ← bind_pos ps args kw (dset (p_name p) (BOne a) acc); bind_kw r.2 kw r.1 None) = Err ETypeError)).
        { intros Hpos Hno.
          assert (Hl : left_of (p :: ps) kw = left_of ps kw).
          { apply left_tail_pos; [done|]. destruct Hpos; [by left|]. right; right; auto. }
          assert (Hnp : npos (p :: ps) = S (npos ps)) by (by rewrite npos_cons, decide_True).
          assert (Hp : p_name p ∉ map p_name ps).
          { pose proof (so_names _ Hs) as Hnd. by apply NoDup_cons in Hnd as [? _]. }
          assert (Hf : fine (p :: ps) (a :: args) kw <-> fine ps args kw).
          { split; intros [F1 F2 F3 F4 F5].
            - constructor.
              + rewrite has_kind_cons, Hnp in F1. simpl in F1.
                destruct F1 as [[F|F]|F]; [|by left|right; lia]. destruct Hpos; congruence.
              + intros i q Hi ? ?. eapply (F2 (S i)); [done..|simpl; lia].
              + intros i q Hi ? ?. eapply (F3 (S i)); [done..|simpl; lia].
              + intros i q Hi ? Hle. eapply (F4 (S i)); [done..|]. intros E. specialize (Hle E). simpl; lia.
              + rewrite Hl, has_kind_cons in F5. destruct F5 as [?|[E|?]]; [by left| |by right].
                rewrite E in Hpos. by destruct Hpos.
            - constructor.
              + rewrite has_kind_cons, Hnp. simpl. destruct F1; [by left; right|right; lia].
              + intros [|i] q Hi ? ?; simpl in Hi; simplify_eq; [auto|]. eapply F2; [done..|simpl in *; lia].
              + intros [|i] q Hi ? ?; simpl in *; simplify_eq; [lia|]. eapply F3; [done..|lia].
              + intros [|i] q Hi Hb Hle; simpl in *; simplify_eq.
                * destruct Hpos as [E|E]; [rewrite E in Hb; by destruct Hb|]. specialize (Hle E). lia.
                * eapply F4; [done..|]. intros E. specialize (Hle E). lia.
              + rewrite Hl, has_kind_cons. destruct F5; [by left|by right; right]. }
          destruct (IH args (dset (p_name p) (BOne a) acc)) as [I1 I2]; [done..| |].
          { intros k Hk. rewrite dget_dset_ne; [apply Hacc; by right|]. intros E. by rewrite E in Hp. }
          split; [|by rewrite Hf].
          intros (acc' & -> & Hb1 & Hb2)%Hf%I1. exists acc'. split; [done|]. split.
          - intros [|i] q Hi; simpl in Hi; simplify_eq.
            + rewrite Hb2 by done. rewrite dget_dset_eq. unfold bnd.
              destruct Hpos as [E|E]; by rewrite E.
            + rewrite (Hb1 _ _ Hi). unfold bnd. rewrite Hl, Hnp. done.
          - intros k [? ?]%not_elem_of_cons. rewrite Hb2 by done. by apply dget_dset_ne. }
        cbn [bind_pos]. destruct (p_kind p) eqn:Ek.
        * cbn [andb]. rewrite bool_decide_eq_false_2 by (intros E; by apply E). rewrite andb_false_r.
          apply Hrec; [by left|done].
        * rewrite bool_decide_eq_true_2, andb_true_r by done.
          destruct (dmem (p_name p) kw) eqn:Em.
          -- split; [|done]. intros [_ F2 _ _ _]. exfalso. assert (F := F2 0 p eq_refl Ek ltac:(simpl; lia)).
             apply dmem_spec in Em. apply dget_None in F. done.
          -- apply Hrec; [by right|]. intros _. apply dget_None. intros ?%dmem_spec. congruence.
        * (* *args *)
          assert (Hn0 : npos (p :: ps) = 0).
          { apply npos_zero. intros q [->|Hq]%elem_of_cons; [by rewrite Ek|].
            pose proof (sig_ok_head _ _ _ Hs Hq) as Hr. by rewrite Ek in Hr. }
          assert (Hk : forall q, q ∈ ps -> p_kind q = KKwOnly \/ p_kind q = KVarKw).
          { intros q Hq. pose proof (sig_ok_head _ _ _ Hs Hq) as Hr. rewrite Ek in Hr.
            pose proof (sig_ok_star _ _ _ Hs Hq ltac:(by left)) as Hne. rewrite Ek in Hne.
            destruct (p_kind q); simpl in Hr; try lia; auto; done. }
          assert (Hp : p_name p ∉ map p_name ps).
          { pose proof (so_names _ Hs) as Hnd. by apply NoDup_cons in Hnd as [? _]. }
          assert (Hl : left_of (p :: ps) kw = left_of ps kw).
          { apply left_tail_pos; [done|]. auto. }
          assert (Hf : fine (p :: ps) (a :: args) kw <-> fine ps [] kw).
          { split; intros [F1 F2 F3 F4 F5].
            - constructor.
              + right. simpl. lia.
              + intros i q Hi ? ?. simpl in *. lia.
              + intros i q Hi E ?. destruct (Hk q); [by eapply elem_of_list_lookup_2|congruence..].
              + intros i q Hi Hb Hle. eapply (F4 (S i)); [done..|].
                intros E. destruct (Hk q); [by eapply elem_of_list_lookup_2|congruence..].
              + rewrite Hl, has_kind_cons in F5. destruct F5 as [?|[E|?]]; [by left| congruence|by right].
            - constructor.
              + left. apply has_kind_cons. by left.
              + intros [|i] q Hi E ?; simpl in Hi; simplify_eq; [congruence|].
                destruct (Hk q); [by eapply elem_of_list_lookup_2|congruence..].
              + intros [|i] q Hi E ?; simpl in Hi; simplify_eq; [congruence|].
                destruct (Hk q); [by eapply elem_of_list_lookup_2|congruence..].
              + intros [|i] q Hi Hb Hle; simpl in Hi; simplify_eq.
                * rewrite Ek in Hb. by destruct Hb.
                * eapply F4; [done..|]. simpl. lia.
              + rewrite Hl, has_kind_cons. destruct F5; [by left|by right; right]. }
          cbn [mbind result_bind fst snd].
          destruct (bind_nil ps kw (dset (p_name p) (BTuple (a :: args)) acc)) as [I1 I2]; [done..| |].
          { intros k Hk2. rewrite dget_dset_ne; [apply Hacc; by right|]. intros E. by rewrite E in Hp. }
          split; [|by rewrite Hf].
          intros (acc' & -> & Hb1 & Hb2)%Hf%I1. exists acc'. split; [done|]. split.
          -- intros [|i] q Hi; simpl in Hi; simplify_eq.
             ++ rewrite Hb2 by done. rewrite dget_dset_eq. unfold bnd. by rewrite Ek, Hn0.
             ++ rewrite (Hb1 _ _ Hi). unfold bnd. rewrite Hl.
                destruct (Hk q) as [E|E]; [by eapply elem_of_list_lookup_2|by rewrite E..].
          -- intros k [? ?]%not_elem_of_cons. rewrite Hb2 by done. by apply dget_dset_ne.
        * split; [|done]. intros [[(q & Hq & Hqk)|F1] _ _ _ _].
          -- apply elem_of_cons in Hq as [->|Hq]; [congruence|].
             pose proof (sig_ok_head _ _ _ Hs Hq) as Hr. rewrite Ek, Hqk in Hr. simpl in Hr. lia.
          -- rewrite npos_zero in F1; [simpl in F1; lia|]. intros q [->|Hq]%elem_of_cons; [rewrite Ek; simpl; lia|].
             pose proof (sig_ok_head _ _ _ Hs Hq) as Hr. rewrite Ek in Hr. simpl in Hr. lia.
        * split; [|done]. intros [[(q & Hq & Hqk)|F1] _ _ _ _].
          -- apply elem_of_cons in Hq as [->|Hq]; [congruence|].
             pose proof (sig_ok_head _ _ _ Hs Hq) as Hr. rewrite Ek, Hqk in Hr. simpl in Hr. lia.
          -- rewrite npos_zero in F1; [simpl in F1; lia|]. intros q [->|Hq]%elem_of_cons; [rewrite Ek; simpl; lia|].
             pose proof (sig_ok_head _ _ _ Hs Hq) as Hr. rewrite Ek in Hr. simpl in Hr. lia.
  Qed.

  Lemma omap_total {Y Z} (f : Y -> option Z) (l : list Y) :
    (forall y, y ∈ l -> f y <> None) ->
    length (omap f l) = length l /\ forall i y, l !! i = Some y -> omap f l !! i = f y.
  Proof.
    induction l as [|y l IH]; intros Hf; simpl; [done|].
    destruct IH as [IH1 IH2]; [intros; apply Hf; by right|].
    destruct (f y) as [z|] eqn:E; [|by destruct (Hf y ltac:(left))]. simpl. split; [by f_equal|].
    intros [|i] y' Hi; simpl in *; [simplify_eq; done|auto].
  Qed.

  Lemma gets_fun sig args kw i p v v' : gets sig args kw i p v -> gets sig args kw i p v' -> v = v'.
  Proof.
    unfold gets. destruct (p_kind p).
    - intros (x & -> & H1) (y & -> & H2). destruct H1 as [?|[? ?]], H2 as [?|[? ?]]; congruence.
    - intros (x & -> & H1) (y & -> & H2).
      destruct H1 as [?|[[? ?]|(? & ? & ?)]], H2 as [?|[[? ?]|(? & ? & ?)]]; congruence.
    - congruence.
    - intros (x & -> & H1) (y & -> & H2). destruct H1 as [?|[? ?]], H2 as [?|[? ?]]; congruence.
    - congruence.
  Qed.
  Lemma py_binds_fun sig args kw e e' : py_binds sig args kw e -> py_binds sig args kw e' -> e = e'.
  Proof.
    intros [L V _ _ _] [L' V' _ _ _]. apply list_eq. intros i.
    destruct (sig !! i) as [p|] eqn:Hi.
    - destruct (V i p Hi) as (v & E1 & G). destruct (V' i p Hi) as (v' & E2 & G').
      rewrite (gets_fun _ _ _ _ _ _ _ G G') in E1. etrans; [exact E1|]. by symmetry.
    - apply lookup_ge_None in Hi. rewrite !lookup_ge_None_2 by lia. done.
  Qed.

  Lemma fine_binds sig args kw b : sig_ok sig -> NoDup (map fst kw) -> fine sig args kw ->
    bound_as sig args kw [] b -> py_binds sig args kw (apply_defaults sig b).
  Proof.
    intros Hs Hkw [F1 F2 F3 F4 F5] [Hb _].
    assert (Hval : forall i p, sig !! i = Some p ->
      exists v, (match dget (p_name p) b with
      | Some v => Some (p_name p, v)
      | None => match p_default p with
                | Some d => Some (p_name p, BOne d)
                | None => match p_kind p with
                          | KVarPos => Some (p_name p, BTuple [])
                          | KVarKw => Some (p_name p, BDict [])
                          | _ => None
                          end
                end
      end) = Some (p_name p, v) /\ gets sig args kw i p v).
    { intros i p Hi. rewrite (Hb i p Hi). unfold bnd, gets. destruct (p_kind p) eqn:Ek.
      - destruct (args !! i) as [x|] eqn:Ea; simpl.
        + eexists; split; [done|]. eauto 12.
        + apply lookup_ge_None in Ea. destruct (F3 i p Hi Ek Ea) as [_ Hd].
          destruct (p_default p) as [d|]; [|done]. eexists; split; [done|]. eauto 12.
      - destruct (args !! i) as [x|] eqn:Ea; simpl.
        + eexists; split; [done|]. eauto 12.
        + apply lookup_ge_None in Ea. destruct (dget (p_name p) kw) as [x|] eqn:Ex; simpl.
          * eexists; split; [done|]. eauto 12.
          * destruct (F4 i p Hi) as [?|Hd]; [by left|done|done|].
            destruct (p_default p) as [d|]; [|done]. eexists; split; [done|]. eauto 12.
      - destruct (drop (npos sig) args) as [|x l] eqn:Ed; simpl.
        + rewrite (so_nodef _ Hs p) by (try (by eapply elem_of_list_lookup_2); by left). eauto 12.
        + eauto 12.
      - destruct (dget (p_name p) kw) as [x|] eqn:Ex; simpl.
        + eexists; split; [done|]. eauto 12.
        + destruct (F4 i p Hi) as [?|Hd]; [by right|congruence|done|].
          destruct (p_default p) as [d|]; [|done]. eexists; split; [done|]. eauto 12.
      - fold (left_of sig kw). destruct (left_of sig kw) as [|x l] eqn:Ed; simpl.
        + rewrite (so_nodef _ Hs p) by (try (by eapply elem_of_list_lookup_2); by right). eauto 12.
        + eauto 12. }
    unfold apply_defaults.
    destruct (omap_total (fun p => match dget (p_name p) b with
      | Some v => Some (p_name p, v)
      | None => match p_default p with
                | Some d => Some (p_name p, BOne d)
                | None => match p_kind p with
                          | KVarPos => Some (p_name p, BTuple [])
                          | KVarKw => Some (p_name p, BDict [])
                          | _ => None
                          end
                end
      end) sig) as [HL HI].
    { intros p [i Hi]%elem_of_list_lookup. destruct (Hval i p Hi) as (v & -> & _). done. }
    constructor.
    - done.
    - intros i p Hi. destruct (Hval i p Hi) as (v & Hv & G). exists v. split; [|done].
      etrans; [exact (HI i p Hi)|done].
    - done.
    - eauto 12.
    - destruct F5 as [F5|F5]; [|by left]. right. intros k x Hin.
      destruct (decide (k ∈ kwnames sig)) as [Hk|Hk].
      + by apply elem_of_kwnames in Hk.
      + assert ((k, x) ∈ left_of sig kw) as Hx.
        { apply elem_of_list_filter. done. }
        rewrite F5 in Hx. by apply elem_of_nil in Hx.
  Qed.

  Lemma binds_fine sig args kw env : sig_ok sig -> NoDup (map fst kw) ->
    no_posonly_kw sig kw -> py_binds sig args kw env -> fine sig args kw.
  Proof.
    intros Hs Hkw Hq [L V M T E]. constructor.
    - done.
    - done.
    - intros i p Hi Hk Hle. split; [apply Hq; [by eapply elem_of_list_lookup_2|done]|].
      destruct (V i p Hi) as (v & _ & G). unfold gets in G. rewrite Hk in G.
      destruct G as (x & -> & [G|[_ G]]); [|congruence].
      apply lookup_lt_Some in G. lia.
    - intros i p Hi Hk Hle. destruct (V i p Hi) as (v & _ & G). unfold gets in G.
      destruct Hk as [Hk|Hk]; rewrite Hk in G.
      + destruct G as (x & -> & [G|[[_ G]|(_ & _ & G)]]); [|left; congruence|right; congruence].
        apply lookup_lt_Some in G. specialize (Hle Hk). lia.
      + destruct G as (x & -> & [G|[_ G]]); [left; congruence|right; congruence].
    - destruct E as [?|E]; [by right|]. left.
      destruct (left_of sig kw) as [|[k x] l] eqn:El; [done|].
      assert ((k, x) ∈ left_of sig kw) as Hx by (rewrite El; left).
      apply elem_of_list_filter in Hx as [Hn Hx]. simpl in Hn. destruct Hn.
      apply elem_of_kwnames. eauto.
  Qed.

  Lemma has_kind_dec k sig : Decision (has_kind k sig).
  Proof.
    destruct (decide (Exists (fun p => p_kind p = k) sig)) as [Hy|Hn].
    - left. apply Exists_exists in Hy as (p & ? & ?). by exists p.
    - right. intros (p & ? & ?). apply Hn. apply Exists_exists. eauto.
  Qed.
  Lemma fine_stable sig args kw : ~ ~ fine sig args kw -> fine sig args kw.
  Proof.
    intros Hnn.
    assert (HN : forall Y (o : option Y), Decision (o = None)) by (intros Y [|]; [by right|by left]).
    constructor.
    - destruct (has_kind_dec KVarPos sig); [by left|]. right.
      apply dec_stable. intros Hn. apply Hnn. intros [[?|?] _ _ _ _]; done.
    - intros i p H1 H2 H3. apply dec_stable. intros Hn. apply Hnn. intros [_ F _ _ _]. by eapply Hn, F.
    - intros i p H1 H2 H3. apply dec_stable. intros Hn. apply Hnn. intros [_ _ F _ _]. by eapply Hn, F.
    - intros i p H1 H2 H3. apply dec_stable. intros Hn. apply Hnn. intros [_ _ _ F _]. by eapply Hn, F.
    - destruct (has_kind_dec KVarKw sig); [by right|]. left.
      destruct (left_of sig kw) eqn:E; [done|]. exfalso. apply Hnn. intros [_ _ _ _ [?|?]]; congruence.
  Qed.

  (** [Signature.bind] followed by [apply_defaults] is Python's binding *)
  Theorem bind_full_sound sig args kw env : sig_ok sig -> NoDup (map fst kw) ->
    bind_full sig args kw = Ok env -> py_binds sig args kw env.
  Proof.
    intros Hs Hkw. unfold bind_full, sig_bind.
    destruct (bind_spec sig args kw []) as [B1 B2]; [done..|].
    intros E. assert (Hf : fine sig args kw).
    { apply fine_stable. intros Hn. by rewrite (B2 Hn) in E. }
    destruct (B1 Hf) as (b & Hb & Hbs). rewrite Hb in E. simpl in E. simplify_eq.
    by apply fine_binds.
  Qed.
  Theorem bind_full_complete sig args kw env : sig_ok sig -> NoDup (map fst kw) -> no_posonly_kw sig kw ->
    py_binds sig args kw env -> bind_full sig args kw = Ok env.
  Proof.
    intros Hs Hkw Hq Hpb. assert (Hf := binds_fine _ _ _ _ Hs Hkw Hq Hpb).
    destruct (bind_spec sig args kw []) as [B1 _]; [done..|].
    destruct (B1 Hf) as (b & Hb & Hbs). unfold bind_full, sig_bind. rewrite Hb. simpl. f_equal.
    eapply py_binds_fun; [by apply fine_binds|done].
  Qed.

  (** the plain call *)
  Lemma kw_names_eq sig : kw_names sig = kwnames sig.
  Proof. done. Qed.
  Lemma pos_names_len sig : length (pos_names sig) = npos sig.
  Proof. unfold pos_names. by rewrite map_length. Qed.
  Lemma imap_pair_lookup {Y} (l : list Y) i : imap pair l !! i = pair i <$> l !! i.
  Proof. rewrite list_lookup_imap. done. Qed.

  Lemma existsb_kind k sig : existsb (fun p => bool_decide (p_kind p = k)) sig = true <-> has_kind k sig.
  Proof.
    rewrite existsb_exists. unfold has_kind. split; intros (p & Hp & Hk).
    - apply bool_decide_eq_true in Hk. exists p. split; [by apply elem_of_list_In|done].
    - exists p. split; [by apply elem_of_list_In|by apply bool_decide_eq_true].
  Qed.

  Theorem py_call_iff sig args kw env : py_call sig args kw = Ok env <-> py_binds sig args kw env.
  Proof.
    unfold py_call. rewrite pos_names_len, kw_names_eq.
    destruct (negb (existsb (fun p => bool_decide (p_kind p = KVarPos)) sig) &&
       bool_decide (npos sig < length args)) eqn:E1.
    { split; [done|]. apply andb_true_iff in E1 as [E1 E1']. apply bool_decide_eq_true in E1'.
      apply negb_true_iff in E1. intros [_ _ M _ _]. destruct M as [M|M]; [|lia].
      apply existsb_kind in M. congruence. }
    destruct (negb (existsb (fun p => bool_decide (p_kind p = KVarKw)) sig) && _) eqn:E2.
    { split; [done|]. apply andb_true_iff in E2 as [E2 E2']. apply existsb_exists in E2' as ([k x] & Hin & Hk).
      apply bool_decide_eq_true in Hk. apply elem_of_list_In in Hin.
      apply negb_true_iff in E2. intros [_ _ _ _ M]. destruct M as [M|M].
      - apply existsb_kind in M. congruence.
      - destruct Hk. by apply elem_of_kwnames, (M k x). }
    assert (M1 : has_kind KVarPos sig \/ length args <= npos sig).
    { apply andb_false_iff in E1 as [E1|E1].
      - left. apply negb_false_iff in E1. by apply existsb_kind.
      - right. apply bool_decide_eq_false in E1. lia. }
    assert (M2 : has_kind KVarKw sig \/
               forall k x, (k, x) ∈ kw -> exists p, p ∈ sig /\ p_name p = k /\ by_keyword (p_kind p)).
    { apply andb_false_iff in E2 as [E2|E2].
      - left. apply negb_false_iff in E2. by apply existsb_kind.
      - right. intros k x Hin. apply elem_of_kwnames. apply dec_stable. intros Hn.
        apply not_true_iff_false in E2. apply E2. apply existsb_exists. exists (k, x).
        split; [by apply elem_of_list_In|by apply bool_decide_eq_true]. }
    assert (Hpar : forall i p r, py_param sig args kw i p = Ok r <->
      (p_kind p = KPosOrKw -> i < length args -> dget (p_name p) kw = None) /\
      exists v, r = (p_name p, v) /\ gets sig args kw i p v).
    { intros i p r. unfold py_param, gets. rewrite pos_names_len, kw_names_eq. destruct (p_kind p).
      - destruct (args !! i) as [x|] eqn:Ea.
        + split; [intros; simplify_eq; split; [done|eauto 12]|]. intros (_ & v & -> & x' & -> & [?|[? ?]]); simplify_eq; done.
        + destruct (p_default p) as [d|] eqn:Ed.
          * split; [intros; simplify_eq; split; [done|eauto 12]|]. intros (_ & v & -> & x' & -> & [?|[? ?]]); simplify_eq; done.
          * split; [done|]. intros (_ & v & -> & x' & -> & [?|[? ?]]); done.
      - destruct (args !! i) as [x|] eqn:Ea.
        + destruct (dmem (p_name p) kw) eqn:Em.
          * split; [done|]. intros (Hn & _). apply dmem_spec in Em. destruct (dget_None (p_name p) kw) as [Hd _].
            destruct Hd; [|done]. apply Hn; [done|]. by eapply lookup_lt_Some.
          * assert (dget (p_name p) kw = None) as Hn.
            { apply dget_None. intros ?%dmem_spec. congruence. }
            split; [intros; simplify_eq; split; [done|eauto 12]|].
            intros (_ & v & -> & x' & -> & [?|[[? ?]|(? & ? & ?)]]); simplify_eq; done.
        + assert (i < length args -> False) as Hlt by (apply lookup_ge_None in Ea; lia).
          destruct (dget (p_name p) kw) as [x|] eqn:Ex.
          * split; [intros; simplify_eq; split; [by intros _ ?%Hlt|eauto 10]|].
            intros (_ & v & -> & x' & -> & [?|[[? ?]|(? & ? & ?)]]); simplify_eq; done.
          * destruct (p_default p) as [d|] eqn:Ed.
            -- split; [intros; simplify_eq; split; [done|eauto 12]|].
               intros (_ & v & -> & x' & -> & [?|[[? ?]|(? & ? & ?)]]); simplify_eq; done.
            -- split; [done|]. intros (_ & v & -> & x' & -> & [?|[[? ?]|(? & ? & ?)]]); simplify_eq.
      - split; [intros; simplify_eq; split; [done|eauto 12]|]. intros (_ & v & -> & ->). done.
      - destruct (dget (p_name p) kw) as [x|] eqn:Ex.
        + split; [intros; simplify_eq; split; [done|eauto 12]|]. intros (_ & v & -> & x' & -> & [?|[? ?]]); simplify_eq; done.
        + destruct (p_default p) as [d|] eqn:Ed.
          * split; [intros; simplify_eq; split; [done|eauto 12]|]. intros (_ & v & -> & x' & -> & [?|[? ?]]); simplify_eq; done.
          * split; [done|]. intros (_ & v & -> & x' & -> & [?|[? ?]]); done.
      - split; [intros; simplify_eq; split; [done|eauto 12]|]. intros (_ & v & -> & ->). done. }
    split.
    - intros Hm%mapR_Ok_inv. assert (HL := Forall2_length _ _ _ Hm). rewrite imap_length in HL.
      assert (Hi : forall i p, sig !! i = Some p -> exists r, env !! i = Some r /\ py_param sig args kw i p = Ok r).
      { intros i p Hi. eapply Forall2_lookup_l in Hm as (r & Hr & Hp).
        2:{ rewrite imap_pair_lookup, Hi. done. }
        exists r. split; [exact Hr|exact Hp]. }
      constructor; [done| |done| |done].
      + intros i p Hp. destruct (Hi i p Hp) as (r & -> & (_ & v & -> & G)%Hpar). eauto.
      + intros i p Hp Hk Hlt. destruct (Hi i p Hp) as (r & _ & (Hd & _)%Hpar). auto.
    - intros [L V _ T _]. apply mapR_Ok. apply Forall2_same_length_lookup. split; [by rewrite imap_length|].
      intros i [j p] r Hi Hr. rewrite imap_pair_lookup in Hi. destruct (sig !! i) as [p'|] eqn:Hp; simplify_eq/=.
      apply Hpar. split; [by apply T|]. destruct (V j p Hp) as (v & Hv & G). exists v. split; [|done].
      assert (Some r = Some (p_name p, v)) as [= ->]; [|done]. etrans; [symmetry; exact Hr|exact Hv].
  Qed.

  (** ** Re-binding *)
  Lemma sig_index sig i j p q : sig_ok sig -> sig !! i = Some p -> sig !! j = Some q ->
    p_name p = p_name q -> i = j /\ p = q.
  Proof.
    intros Hs Hi Hj E. assert (i = j) as ->; [|split; [done|congruence]].
    eapply NoDup_lookup; [apply Hs| |]; rewrite list_lookup_fmap; [by rewrite Hi|rewrite Hj; simpl; congruence].
  Qed.
  Lemma binds_names sig args kw env : py_binds sig args kw env -> map fst env = map p_name sig.
  Proof.
    intros [L V _ _ _]. apply list_eq. intros i. rewrite !list_lookup_fmap.
    destruct (sig !! i) as [p|] eqn:Hi; simpl.
    - destruct (V i p Hi) as (v & E & _). rewrite E. done.
    - apply lookup_ge_None in Hi. rewrite lookup_ge_None_2 by lia. done.
  Qed.
  Lemma binds_dget sig args kw env i p : sig_ok sig -> py_binds sig args kw env -> sig !! i = Some p ->
    exists v, env !! i = Some (p_name p, v) /\ dget (p_name p) env = Some v /\ gets sig args kw i p v.
  Proof.
    intros Hs Hpb Hi. destruct (pb_val _ _ _ _ Hpb i p Hi) as (v & E & G). exists v. split; [done|].
    split; [|done]. apply dget_elem.
    - erewrite binds_names by done. apply Hs.
    - by eapply elem_of_list_lookup_2.
  Qed.
  Lemma npos_index sig i p : sig_ok sig -> sig !! i = Some p -> positional (p_kind p) <-> i < npos sig.
  Proof.
    revert i. induction sig as [|q sig IH]; intros i Hs Hi; [done|].
    rewrite npos_cons. destruct i as [|i]; simpl in Hi; simplify_eq.
    - destruct (decide (positional (p_kind p))) as [Hp|Hp]; [split; [lia|done]|].
      split; [done|]. rewrite npos_zero; [lia|].
      intros r Hr. pose proof (sig_ok_head _ _ _ Hs Hr) as Hle.
      destruct (p_kind p); simpl in *; try lia; destruct Hp; [by left|by right].
    - rewrite (IH i (sig_ok_tail _ _ Hs) Hi). destruct (decide (positional (p_kind q))) as [Hp|Hp]; [lia|].
      rewrite npos_zero; [lia|].
      intros r Hr. pose proof (sig_ok_head _ _ _ Hs Hr) as Hle.
      destruct (p_kind q); simpl in *; try lia; destruct Hp; [by left|by right].
  Qed.
  Lemma npos_le sig : npos sig <= length sig.
  Proof.
    unfold npos. induction sig as [|p sig IH]; [simpl; lia|]. rewrite filter_cons.
    destruct (decide _); simpl; lia.
  Qed.

  Lemma rebind_gen sig n args' kw' env2 :
    (forall i p, sig !! i = Some p -> positional (p_kind p) <-> i < npos sig) ->
    n <= npos sig -> n <= length args' ->
    length env2 = length sig ->
    (forall i p, sig !! i = Some p -> i < n ->
       (exists x, env2 !! i = Some (p_name p, BOne x) /\ args' !! i = Some x) /\
       (p_kind p = KPosOrKw -> dget (p_name p) kw' = None)) ->
    (n < npos sig -> length args' = n) ->
    (forall i p, sig !! i = Some p -> p_kind p = KVarPos ->
       env2 !! i = Some (p_name p, BTuple (drop n args'))) ->
    (~ has_kind KVarPos sig -> length args' = n) ->
    (forall i p, sig !! i = Some p -> n <= i -> by_keyword (p_kind p) ->
       exists x, env2 !! i = Some (p_name p, BOne x) /\ dget (p_name p) kw' = Some x) ->
    (forall i p, sig !! i = Some p -> n <= i -> p_kind p <> KPosOnly) ->
    (forall i p, sig !! i = Some p -> p_kind p = KVarKw ->
       env2 !! i = Some (p_name p, BDict (left_of sig kw'))) ->
    (~ has_kind KVarKw sig -> left_of sig kw' = []) ->
    py_binds sig args' kw' env2.
  Proof.
    intros Hnpos Hn Hna HL Hpos Hlt Hvp Hnvp Hbk Hpo Hvk Hnvk.
    assert (Hge : forall i p, sig !! i = Some p -> positional (p_kind p) -> n <= i -> args' !! i = None).
    { intros i p Hi Hp Hle. apply lookup_ge_None. apply (Hnpos i p Hi) in Hp.
      rewrite Hlt by lia. done. }
    constructor.
    - done.
    - intros i p Hi. destruct (p_kind p) eqn:Ek.
      + destruct (decide (i < n)) as [Hin|Hin]; [|by destruct (Hpo i p Hi ltac:(lia))].
        destruct (Hpos i p Hi Hin) as [(x & E & Ex) _]. exists (BOne x). split; [done|].
        unfold gets. rewrite Ek. eauto.
      + destruct (decide (i < n)) as [Hin|Hin].
        * destruct (Hpos i p Hi Hin) as [(x & E & Ex) _]. exists (BOne x). split; [done|].
          unfold gets. rewrite Ek. eauto.
        * destruct (Hbk i p Hi) as (x & E & Ex); [lia|by rewrite Ek; left|]. exists (BOne x). split; [done|].
          unfold gets. rewrite Ek. exists x. split; [done|]. right; left. split; [|done].
          eapply Hge; [done| |lia]. by rewrite Ek; right.
      + exists (BTuple (drop n args')). split; [by apply Hvp|]. unfold gets. rewrite Ek. f_equal.
        destruct (decide (n < npos sig)) as [Hl|Hl].
        * rewrite !drop_ge; [done| |]; rewrite Hlt by done; lia.
        * by replace (npos sig) with n by lia.
      + destruct (Hbk i p Hi) as (x & E & Ex).
        { destruct (decide (i < npos sig)) as [Hl|Hl]; [|lia].
          apply (Hnpos i p Hi) in Hl. rewrite Ek in Hl. by destruct Hl. }
        { by rewrite Ek; right. }
        exists (BOne x). split; [done|]. unfold gets. rewrite Ek. eauto.
      + exists (BDict (left_of sig kw')). split; [by apply Hvk|]. unfold gets. by rewrite Ek.
    - destruct (has_kind_dec KVarPos sig) as [?|Hv]; [by left|]. right. rewrite Hnvp by done. done.
    - intros i p Hi Hk Hl. destruct (decide (i < n)) as [Hin|Hin]; [by apply (Hpos i p Hi Hin)|].
      assert (args' !! i = None) as He%lookup_ge_None; [|lia].
      eapply Hge; [done| |lia]. by rewrite Hk; right.
    - destruct (has_kind_dec KVarKw sig) as [?|Hv]; [by left|]. right. intros k x Hin.
      apply elem_of_kwnames. apply dec_stable. intros Hk.
      assert ((k, x) ∈ left_of sig kw') as Hx by (by apply elem_of_list_filter).
      rewrite Hnvk in Hx by done. by apply elem_of_nil in Hx.
  Qed.

End bind.

(** *** Mapping *)
Section mapping.
  Context {X Y : Type} (f : X -> Y).
  Implicit Types (sig : list (param X)).

  Lemma dget_map_kw k (kw : pydict X) : dget k (map_kw f kw) = f <$> dget k kw.
  Proof. induction kw as [|[k' x] kw IH]; simpl; [done|]. destruct (decide (k = k')); done. Qed.
  Lemma same_lookup sig (sig2 : list (param Y)) i q : same_params sig sig2 -> sig2 !! i = Some q ->
    exists p, sig !! i = Some p /\ p_name p = p_name q /\ p_kind p = p_kind q.
  Proof.
    intros E Hq. apply (f_equal (fun l => l !! i)) in E. rewrite !list_lookup_fmap, Hq in E.
    destruct (sig !! i) as [p|]; [|done]. simpl in E. injection E as E1 E2. by exists p.
  Qed.
  Lemma same_lookup' sig (sig2 : list (param Y)) i p : same_params sig sig2 -> sig !! i = Some p ->
    exists q, sig2 !! i = Some q /\ p_name p = p_name q /\ p_kind p = p_kind q.
  Proof.
    intros E Hq. apply (f_equal (fun l => l !! i)) in E. rewrite !list_lookup_fmap, Hq in E.
    destruct (sig2 !! i) as [q|]; [|done]. simpl in E. injection E as E1 E2. by exists q.
  Qed.
  Lemma same_names sig (sig2 : list (param Y)) : same_params sig sig2 -> map p_name sig = map p_name sig2.
  Proof.
    intros E. apply (f_equal (map fst)) in E. by rewrite !map_map in E.
  Qed.
  Lemma same_npos sig (sig2 : list (param Y)) : same_params sig sig2 -> npos sig = npos sig2.
  Proof.
    unfold same_params. revert sig2. induction sig as [|p sig IH]; intros [|q sig2] E; try done.
    cbn [map] in E. injection E as E1 E2 E3. rewrite !npos_cons, E2. f_equal. auto.
  Qed.
  Lemma same_has_kind sig (sig2 : list (param Y)) k : same_params sig sig2 -> has_kind k sig2 -> has_kind k sig.
  Proof.
    intros E (q & [i Hi]%elem_of_list_lookup & Hk). destruct (same_lookup _ _ _ _ E Hi) as (p & Hp & _ & Hpk).
    exists p. split; [by eapply elem_of_list_lookup_2|congruence].
  Qed.
  Lemma same_kwnames sig (sig2 : list (param Y)) : same_params sig sig2 -> kwnames sig = kwnames sig2.
  Proof.
    unfold same_params, kwnames. revert sig2. induction sig as [|p sig IH]; intros [|q sig2] E; try done.
    cbn [map] in E. injection E as E1 E2 E3. rewrite !filter_cons, E2.
    destruct (decide _); cbn [map]; [rewrite E1; f_equal|]; auto.
  Qed.
  Lemma left_map sig (sig2 : list (param Y)) kw : same_params sig sig2 -> left_of sig2 (map_kw f kw) = map_kw f (left_of sig kw).
  Proof.
    intros E. unfold left_of. rewrite (same_kwnames _ _ E). clear E.
    induction kw as [|[k x] kw IH]; [done|]. cbn [map_kw map]. rewrite !filter_cons. cbn [fst].
    destruct (decide _); cbn [map_kw map]; [f_equal|]; apply IH.
  Qed.
  Lemma same_elem sig (sig2 : list (param Y)) q : same_params sig sig2 -> q ∈ sig2 ->
    exists p, p ∈ sig /\ p_name p = p_name q /\ p_kind p = p_kind q.
  Proof.
    intros E [i Hi]%elem_of_list_lookup. destruct (same_lookup _ _ _ _ E Hi) as (p & Hp & ? & ?).
    exists p. split; [by eapply elem_of_list_lookup_2|done].
  Qed.
End mapping.

Section rebind_map.
  Context {X Y : Type} (f : X -> Y).
  Implicit Types (sig : list (param X)).
  Lemma rebind_map sig n args' (kw' : pydict X) env2 (sig2 : list (param Y)) : same_params sig sig2 ->
    sig_ok sig -> n <= npos sig -> n <= length args' ->
    length env2 = length sig ->
    (forall i p, sig !! i = Some p -> i < n ->
       (exists x, env2 !! i = Some (p_name p, BOne x) /\ args' !! i = Some x) /\
       (p_kind p = KPosOrKw -> dget (p_name p) kw' = None)) ->
    (n < npos sig -> length args' = n) ->
    (forall i p, sig !! i = Some p -> p_kind p = KVarPos ->
       env2 !! i = Some (p_name p, BTuple (drop n args'))) ->
    (~ has_kind KVarPos sig -> length args' = n) ->
    (forall i p, sig !! i = Some p -> n <= i -> by_keyword (p_kind p) ->
       exists x, env2 !! i = Some (p_name p, BOne x) /\ dget (p_name p) kw' = Some x) ->
    (forall i p, sig !! i = Some p -> n <= i -> p_kind p <> KPosOnly) ->
    (forall i p, sig !! i = Some p -> p_kind p = KVarKw ->
       env2 !! i = Some (p_name p, BDict (left_of sig kw'))) ->
    (~ has_kind KVarKw sig -> left_of sig kw' = []) ->
    py_binds sig2 (map f args') (map_kw f kw') (map_env f env2).
  Proof.
    intros Hsame Hs Hn Hna HL Hpos Hlt Hvp Hnvp Hbk Hpo Hvk Hnvk.
    assert (Henv : forall i k v, env2 !! i = Some (k, v) -> map_env f env2 !! i = Some (k, map_bval f v)).
    { intros i k v Hi. unfold map_env. by rewrite list_lookup_fmap, Hi. }
    apply (rebind_gen sig2 n).
    - intros i q Hi. destruct (same_lookup _ _ _ _ Hsame Hi) as (p & Hp & E1 & E2).
      rewrite <-E2, <-(same_npos _ _ Hsame). by apply npos_index.
    - by rewrite <-(same_npos _ _ Hsame).
    - by rewrite map_length.
    - unfold map_env. rewrite map_length, HL. apply (f_equal length) in Hsame. by rewrite !map_length in Hsame.
    - intros i q Hi Hlt'. destruct (same_lookup _ _ _ _ Hsame Hi) as (p & Hp & E1 & E2).
      destruct (Hpos i p Hp Hlt') as [(x & Hx & Ha) Hk]. rewrite <-E1, <-E2. split.
      + exists (f x). split; [by apply Henv in Hx|]. by rewrite list_lookup_fmap, Ha.
      + intros Hkk. rewrite dget_map_kw, Hk by done. done.
    - intros H1. rewrite map_length. apply Hlt. by rewrite (same_npos _ _ Hsame).
    - intros i q Hi Hk. destruct (same_lookup _ _ _ _ Hsame Hi) as (p & Hp & E1 & E2).
      rewrite <-E1. rewrite (Henv _ _ _ (Hvp i p Hp ltac:(congruence))). simpl. by rewrite skipn_map.
    - intros Hno. rewrite map_length. apply Hnvp. intros (p & [i Hi]%elem_of_list_lookup & Hk).
      destruct (same_lookup' _ _ _ _ Hsame Hi) as (q & Hq & _ & Hqk). apply Hno. exists q.
      split; [by eapply elem_of_list_lookup_2|congruence].
    - intros i q Hi Hle Hb. destruct (same_lookup _ _ _ _ Hsame Hi) as (p & Hp & E1 & E2).
      destruct (Hbk i p Hp Hle) as (x & Hx & Hd); [by rewrite E2|]. exists (f x). rewrite <-E1. split.
      + by apply Henv in Hx.
      + by rewrite dget_map_kw, Hd.
    - intros i q Hi Hle. destruct (same_lookup _ _ _ _ Hsame Hi) as (p & Hp & E1 & E2). rewrite <-E2. by eapply Hpo.
    - intros i q Hi Hk. destruct (same_lookup _ _ _ _ Hsame Hi) as (p & Hp & E1 & E2).
      rewrite <-E1. rewrite (Henv _ _ _ (Hvk i p Hp ltac:(congruence))). simpl. by rewrite (left_map f sig).
    - intros Hno. rewrite (left_map f sig) by done. rewrite Hnvk; [done|].
      intros (p & [i Hi]%elem_of_list_lookup & Hk).
      destruct (same_lookup' _ _ _ _ Hsame Hi) as (q & Hq & _ & Hqk). apply Hno. exists q.
      split; [by eapply elem_of_list_lookup_2|congruence].
  Qed.
End rebind_map.

Section bind2.
  Context {X : Type}.
  Implicit Types (ps sig : list (param X)) (args : list X) (kw : pydict X).

  (** *** take_kwargs *)
  Context (tup : list X -> X) (dct : pydict X -> X).


  (** What matters of an environment for passing it on *)
  Record shaped sig kw (env : pydict (bval X)) : Prop := {
    sh_names : map fst env = map p_name sig;
    sh_one : forall p, p ∈ sig -> positional (p_kind p) \/ p_kind p = KKwOnly ->
               exists x, dget (p_name p) env = Some (BOne x);
    sh_tup : forall p, p ∈ sig -> p_kind p = KVarPos -> exists l, dget (p_name p) env = Some (BTuple l);
    sh_kw : forall p, p ∈ sig -> p_kind p = KVarKw -> dget (p_name p) env = Some (BDict (left_of sig kw));
    sh_arg : forall p x, p ∈ sig -> by_keyword (p_kind p) -> dget (p_name p) kw = Some x ->
               dget (p_name p) env = Some (BOne x);
    sh_extra : has_kind KVarKw sig \/
               forall k x, (k, x) ∈ kw -> exists p, p ∈ sig /\ p_name p = k /\ by_keyword (p_kind p);
  }.

  Lemma binds_kwarg sig args kw env i p x : sig_ok sig -> py_binds sig args kw env -> sig !! i = Some p ->
    by_keyword (p_kind p) -> dget (p_name p) kw = Some x ->
    dget (p_name p) env = Some (BOne x).
  Proof.
    intros Hs Hpb Hi Hk Hx. destruct (binds_dget _ _ _ _ _ _ Hs Hpb Hi) as (v & _ & -> & G).
    unfold gets in G. destruct Hk as [Hk|Hk]; rewrite Hk in G.
    - destruct G as (y & -> & [G|[[_ G]|(_ & G & _)]]); [|congruence..].
      rewrite (pb_twice _ _ _ _ Hpb i p Hi Hk) in Hx; [done|]. by eapply lookup_lt_Some.
    - destruct G as (y & -> & [G|[G _]]); congruence.
  Qed.

  Lemma binds_shaped sig args kw env : sig_ok sig -> py_binds sig args kw env -> shaped sig kw env.
  Proof.
    intros Hs Hpb.
    assert (Hpart : forall p, p ∈ sig -> exists i v, sig !! i = Some p /\
              dget (p_name p) env = Some v /\ gets sig args kw i p v).
    { intros p [i Hi]%elem_of_list_lookup. destruct (binds_dget _ _ _ _ _ _ Hs Hpb Hi) as (v & ? & ? & ?). eauto 10. }
    constructor.
    - by eapply binds_names.
    - intros p Hp Hk. destruct (Hpart p Hp) as (i & v & _ & -> & G). unfold gets in G.
      destruct Hk as [[Hk|Hk]|Hk]; rewrite Hk in G; destruct G as (x & -> & _); eauto.
    - intros p Hp Hk. destruct (Hpart p Hp) as (i & v & _ & -> & G). unfold gets in G. rewrite Hk in G. subst v. eauto.
    - intros p Hp Hk. destruct (Hpart p Hp) as (i & v & _ & -> & G). unfold gets in G. rewrite Hk in G. by subst v.
    - intros p x [i Hi]%elem_of_list_lookup Hk Hx. by eapply binds_kwarg.
    - apply Hpb.
  Qed.

  Lemma shaped_lookup sig kw env i k v : sig_ok sig -> shaped sig kw env -> env !! i = Some (k, v) ->
    exists p, sig !! i = Some p /\ k = p_name p /\ dget k env = Some v.
  Proof.
    intros Hs Hsh Hv. assert (map fst env !! i = Some k) as Hk by (rewrite list_lookup_fmap, Hv; done).
    rewrite (sh_names _ _ _ Hsh), list_lookup_fmap in Hk.
    destruct (sig !! i) as [p|] eqn:Hi; simplify_eq/=. exists p. split; [done|]. split; [done|].
    apply dget_elem; [rewrite (sh_names _ _ _ Hsh); apply Hs|]. by eapply elem_of_list_lookup_2.
  Qed.

  Lemma find_varkw sig : sig_ok sig -> has_kind KVarKw sig ->
    exists p, p ∈ sig /\ p_kind p = KVarKw /\ find (fun p => bool_decide (p_kind p = KVarKw)) sig = Some p.
  Proof.
    intros Hs (p & Hp & Hk). destruct (find _ sig) as [q|] eqn:E.
    - apply find_some in E as [Hq Hqk]. apply bool_decide_eq_true in Hqk. apply elem_of_list_In in Hq. eauto.
    - apply elem_of_list_In in Hp. eapply find_none in E; [|done]. apply bool_decide_eq_false in E. done.
  Qed.

  Lemma dget_ddel_eq {Y} k (d : pydict Y) : NoDup (map fst d) -> dget k (ddel k d) = None.
  Proof.
    intros Hd. apply dget_None. rewrite ddel_filter by done.
    intros ([k' x] & -> & Hin)%elem_of_list_fmap. by apply elem_of_list_filter in Hin as [? _].
  Qed.
  Lemma dget_ddel_ne' {Y} k k' (d : pydict Y) : k <> k' -> dget k (ddel k' d) = dget k d.
  Proof.
    intros Hne. induction d as [|[k2 v] d IH]; simpl; [done|].
    destruct (decide (k' = k2)) as [->|].
    - by rewrite decide_False by done.
    - simpl. by rewrite IH.
  Qed.
  Lemma dget_filter_True {Y} k (Q : string * Y -> Prop) `{!forall kx, Decision (Q kx)} (d : list (string * Y)) :
    (forall x, Q (k, x)) -> dget k (filter Q d) = dget k d.
  Proof.
    intros HQ. induction d as [|[k2 v] d IH]; [done|]. rewrite filter_cons. cbn [dget].
    destruct (decide (k = k2)) as [->|Hne].
    - rewrite decide_True by done. cbn [dget]. by rewrite decide_True.
    - destruct (decide _); cbn [dget]; [by rewrite decide_False|done].
  Qed.
  Lemma dget_filter_False {Y} k (Q : string * Y -> Prop) `{!forall kx, Decision (Q kx)} (d : list (string * Y)) :
    (forall x, ~ Q (k, x)) -> dget k (filter Q d) = None.
  Proof.
    intros HQ. apply dget_None. intros ([k' x] & -> & Hin)%elem_of_list_fmap.
    apply elem_of_list_filter in Hin as [Hin _]. by eapply HQ.
  Qed.
  Lemma filter_keys_NoDup {Y} (P : string * Y -> Prop) `{!forall k, Decision (P k)} (d : list (string * Y)) :
    NoDup (map fst d) -> NoDup (map fst (filter P d)).
  Proof.
    induction d as [|[k2 v] d IH]; [done|]. cbn [map fst]. intros [Hn Hd]%NoDup_cons. rewrite filter_cons.
    destruct (decide _); [|auto]. cbn [map fst]. apply NoDup_cons. split; [|auto].
    intros ([k' x] & -> & Hin)%elem_of_list_fmap. apply elem_of_list_filter in Hin as [_ Hin].
    apply Hn. apply elem_of_list_fmap. eauto.
  Qed.

  Lemma take_kwargs_spec sig kw env : sig_ok sig -> NoDup (map fst kw) -> shaped sig kw env ->
    kw_plain sig kw -> forall keys b acc,
    NoDup keys -> keys ⊆ map fst kw ->
    NoDup (map fst b) -> map fst b ⊆ map p_name sig ->
    acc ≡ₚ filter (fun kx => kx.1 ∉ keys) (kw : list (string * X)) ->
    (forall p, p ∈ sig -> p_kind p <> KVarKw ->
       dget (p_name p) b = if decide (p_name p ∈ map fst kw /\ p_name p ∉ keys) then None else dget (p_name p) env) ->
    (forall p, p ∈ sig -> p_kind p = KVarKw ->
       dget (p_name p) b = Some (BDict (filter (fun kx => kx.1 ∈ keys) (left_of sig kw)))) ->
    exists b' kw0, take_kwargs tup dct keys sig b acc = Ok (b', kw0) /\ kw0 ≡ₚ kw /\
      NoDup (map fst b') /\
      (forall p, p ∈ sig -> p_kind p <> KVarKw ->
         dget (p_name p) b' = if decide (p_name p ∈ map fst kw) then None else dget (p_name p) env) /\
      (forall p, p ∈ sig -> p_kind p = KVarKw -> dget (p_name p) b' = Some (BDict [])).
  Proof.
    intros Hs Hkw Hpb Hplain. induction keys as [|k keys IH]; intros b acc Hnd Hsub Hb Hbs Hacc Hpar Hvk.
    - exists b, acc. split; [done|]. split.
      + rewrite Hacc. assert (filter (fun kx : string * X => kx.1 ∉ []) (kw : list (string * X)) = kw) as ->; [|done].
        clear. induction kw as [|kx kw IH]; [done|]. rewrite filter_cons_True; [by f_equal|].
        apply not_elem_of_nil.
      + split; [done|]. split.
        * intros p Hp Hk. rewrite Hpar by done. destruct (decide (p_name p ∈ map fst kw)) as [Hin|Hin].
          -- rewrite decide_True; [done|]. split; [done|apply not_elem_of_nil].
          -- rewrite decide_False; [done|]. naive_solver.
        * intros p Hp Hk. rewrite Hvk by done. do 2 f_equal. clear.
          induction (left_of sig kw) as [|kx l IH]; [done|]. rewrite filter_cons_False; [done|]. apply not_elem_of_nil.
    - apply NoDup_cons in Hnd as [Hk Hnd].
      assert (Hkin : k ∈ map fst kw) by (apply Hsub; left).
      destruct (dget k kw) as [x|] eqn:Hx; [|by apply dget_None in Hx].
      assert (Haccf : k ∉ map fst acc).
      { rewrite Hacc. intros ([k' y] & -> & Hin)%elem_of_list_fmap.
        apply elem_of_list_filter in Hin as [Hn _]. simpl in Hn. apply Hn. left. }
      assert (Hacc' : dset k x acc ≡ₚ filter (fun kx => kx.1 ∉ keys) (kw : list (string * X))).
      { rewrite dset_fresh by done. apply dget_Some_elem in Hx. clear -Hacc Hx Hk Hkw.
        assert (filter (fun kx : string * X => kx.1 ∉ keys) (kw : list (string * X)) ≡ₚ
                (k, x) :: filter (fun kx : string * X => kx.1 ∉ k :: keys) (kw : list (string * X))) as ->.
        - clear Hacc. induction kw as [|[k2 y] kw IH]; [by apply elem_of_nil in Hx|].
          cbn [map fst] in Hkw. apply NoDup_cons in Hkw as [Hn2 Hkw].
          apply elem_of_cons in Hx as [Hx|Hx].
          + simplify_eq. rewrite filter_cons_True by done.
            rewrite (filter_cons_False (fun kx : string * X => kx.1 ∉ k2 :: keys)) by (simpl; rewrite not_elem_of_cons; naive_solver).
            apply Permutation_skip, reflexive_eq. clear -Hn2.
            induction kw as [|[k3 z] kw IH]; [done|]. simpl in Hn2. apply not_elem_of_cons in Hn2 as [Hne Hn2].
            rewrite !filter_cons. cbn [fst].
            destruct (decide (k3 ∉ keys)) as [Hi|Hi].
            * rewrite decide_True; [by f_equal; apply IH|]. apply not_elem_of_cons. auto.
            * rewrite decide_False; [by apply IH|]. rewrite not_elem_of_cons. naive_solver.
          + assert (k2 <> k) as Hne.
            { intros ->. apply Hn2. apply elem_of_list_fmap. by exists (k, x). }
            specialize (IH Hkw Hx). rewrite !filter_cons. cbn [fst].
            destruct (decide (k2 ∉ keys)) as [Hi|Hi].
            * rewrite decide_True by (apply not_elem_of_cons; auto). rewrite IH. apply Permutation_swap.
            * rewrite (decide_False (P := k2 ∉ k :: keys)) by (rewrite not_elem_of_cons; naive_solver). done.
        - rewrite Hacc. by rewrite (Permutation_app_comm _ [(k, x)]). }
      assert (Hsub' : keys ⊆ map fst kw) by (intros k' ?; apply Hsub; by right).
      destruct (decide (k ∈ map p_name sig)) as [Hks|Hks].
      + apply elem_of_list_fmap in Hks as (p & -> & Hp). apply elem_of_list_lookup in Hp as Hp'. destruct Hp' as [i Hi].
        assert (Hbk : by_keyword (p_kind p)) by (apply Hplain; [done|congruence]).
        assert (Hnk : p_kind p <> KVarKw) by (intros E; rewrite E in Hbk; by destruct Hbk).
        assert (Henv := sh_arg _ _ _ Hpb _ _ Hp Hbk Hx).
        cbn [take_kwargs]. rewrite Hpar by done. rewrite decide_False by (intros [_ Hn]; apply Hn; left).
        rewrite Henv. apply IH; [done..|by apply ddel_NoDup| |done| |].
        * intros k' ?%ddel_keys_sub. by apply Hbs.
        * intros q Hq Hqk. destruct (decide (p_name q = p_name p)) as [E|E].
          -- rewrite E, dget_ddel_eq by done. by rewrite decide_True.
          -- rewrite dget_ddel_ne', Hpar by done.
             destruct (decide (p_name q ∈ map fst kw /\ p_name q ∉ keys)) as [[? ?]|Hn].
             ++ rewrite decide_True; [done|]. split; [done|]. apply not_elem_of_cons. auto.
             ++ rewrite decide_False; [done|]. rewrite not_elem_of_cons. naive_solver.
        * intros q Hq Hqk.
          assert (p_name q <> p_name p) as E.
          { intros E. apply elem_of_list_lookup in Hq as [j Hj].
            destruct (sig_index _ _ _ _ _ Hs Hj Hi E) as [_ ->]. done. }
          rewrite dget_ddel_ne', Hvk by done. do 2 f_equal. unfold left_of.
          rewrite !list_filter_filter. apply list_filter_iff. intros [k' y]; simpl.
          rewrite elem_of_cons, elem_of_kwnames. split; [|naive_solver].
          intros [[->|?] Hn]; [|done]. destruct Hn. exists p. done.
      + assert (Hkw' : has_kind KVarKw sig).
        { destruct (sh_extra _ _ _ Hpb) as [?|He]; [done|].
          destruct (He k x) as (p & Hp & <- & _); [by apply dget_Some_elem|].
          destruct Hks. apply elem_of_list_fmap. eauto. }
        destruct (find_varkw sig Hs Hkw') as (p & Hp & Hpk & Hfind).
        assert (Hleft : NoDup (map fst (left_of sig kw))) by (by apply filter_keys_NoDup).
        assert (Hnb : dget k b = None).
        { apply dget_None. intros ?%Hbs. done. }
        cbn [take_kwargs]. rewrite Hnb, Hfind. unfold dindex. rewrite (Hvk p) by done. cbn [of_option mbind result_bind].
        assert (Hd : dget k (filter (fun kx : string * X => kx.1 ∈ k :: keys) (left_of sig kw)) = Some x).
        { rewrite dget_filter_True by (intros; left).
          unfold left_of. rewrite dget_filter_True; [done|]. intros y. simpl. intros (q & Hq & <- & _)%elem_of_kwnames.
          apply Hks. apply elem_of_list_fmap. eauto. }
        rewrite Hd. cbn [of_option mbind result_bind].
        assert (Hf : ddel k (filter (fun kx : string * X => kx.1 ∈ k :: keys) (left_of sig kw)) =
                     filter (fun kx : string * X => kx.1 ∈ keys) (left_of sig kw)).
        { rewrite ddel_filter by (by apply filter_keys_NoDup). rewrite list_filter_filter.
          apply list_filter_iff. intros [k' y]; simpl. rewrite elem_of_cons. naive_solver. }
        rewrite Hf. apply IH; [done..|by apply dset_NoDup| |done| |].
        * intros k'. rewrite dset_keys. case_decide as Hc; [apply Hbs|].
          intros [?|Hc2%elem_of_list_singleton]%elem_of_app; [by apply Hbs|]. subst k'. apply elem_of_list_fmap. eauto.
        * intros q Hq Hqk. rewrite dget_dset_ne.
          2:{ intros E. apply elem_of_list_lookup in Hq as [j Hj]. apply elem_of_list_lookup in Hp as [i Hi].
              destruct (sig_index _ _ _ _ _ Hs Hj Hi) as [_ ->]; [by symmetry|done]. }
          rewrite Hpar by done.
          assert (p_name q <> k) as E by (intros <-; apply Hks; apply elem_of_list_fmap; eauto).
          destruct (decide (p_name q ∈ map fst kw /\ p_name q ∉ keys)) as [[? ?]|Hn].
          -- rewrite decide_True; [done|]. split; [done|]. apply not_elem_of_cons. auto.
          -- rewrite decide_False; [done|]. rewrite not_elem_of_cons. naive_solver.
        * intros q Hq Hqk.
          assert (q = p) as ->.
          { apply elem_of_list_lookup in Hq as [j Hj]. apply elem_of_list_lookup in Hp as [i Hi].
            assert (j = i) as ->; [|congruence]. eapply (so_star _ Hs); [done..|congruence|by right]. }
          by rewrite dget_dset_eq.
  Qed.

  Lemma npos_head_zero p ps : sig_ok (p :: ps) -> npos (p :: ps) = 0 -> ~ positional (p_kind p) /\ npos ps = 0.
  Proof.
    intros Hs. rewrite npos_cons. destruct (decide (positional (p_kind p))); [lia|]. intros ?. split; [done|lia].
  Qed.
  Lemma bound_args_kw ps b : (forall p, p ∈ ps -> p_kind p = KKwOnly \/ p_kind p = KVarKw) -> bound_args ps b = [].
  Proof.
    destruct ps as [|p ps]; [done|]. intros Hk. simpl. by destruct (Hk p ltac:(left)) as [-> | ->].
  Qed.
  Lemma after_varpos p ps q : sig_ok (p :: ps) -> p_kind p = KVarPos -> q ∈ ps -> p_kind q = KKwOnly \/ p_kind q = KVarKw.
  Proof.
    intros Hs Ek Hq. pose proof (sig_ok_head _ _ _ Hs Hq) as Hr. rewrite Ek in Hr.
    pose proof (sig_ok_star _ _ _ Hs Hq ltac:(by left)) as Hne. rewrite Ek in Hne.
    destruct (p_kind q); simpl in Hr; try lia; auto; done.
  Qed.

  Lemma bound_args_spec ps (b : pydict (bval X)) n : sig_ok ps -> n <= npos ps ->
    (forall i p, ps !! i = Some p -> i < n -> exists x, dget (p_name p) b = Some (BOne x)) ->
    (n < npos ps -> exists p, ps !! n = Some p /\ dget (p_name p) b = None) ->
    (forall p, p ∈ ps -> p_kind p = KVarPos -> exists l, dget (p_name p) b = Some (BTuple l)) ->
    n <= length (bound_args ps b) /\
    (forall i p x, ps !! i = Some p -> i < n -> dget (p_name p) b = Some (BOne x) -> bound_args ps b !! i = Some x) /\
    (n < npos ps -> length (bound_args ps b) = n) /\
    (n = npos ps -> forall p l, p ∈ ps -> p_kind p = KVarPos -> dget (p_name p) b = Some (BTuple l) ->
       drop n (bound_args ps b) = l) /\
    (~ has_kind KVarPos ps -> length (bound_args ps b) = n).
  Proof.
    revert n. induction ps as [|p ps IH]; intros n Hs Hn Hp Hmiss Hvp.
    { unfold npos in Hn. simpl in *. assert (n = 0) as -> by lia.
      split_and!; try done. intros _ p l Hin. by apply elem_of_nil in Hin. }
    destruct n as [|n].
    - destruct (decide (npos (p :: ps) = 0)) as [E0|E0].
      + destruct (npos_head_zero _ _ Hs E0) as [Hnp E1]. cbn [bound_args].
        destruct (p_kind p) eqn:Ek; try (destruct Hnp; by (left + right)).
        * destruct (Hvp p ltac:(left) Ek) as [l Hl]. rewrite Hl.
          rewrite bound_args_kw by (intros; by eapply after_varpos). rewrite app_nil_r.
          split_and!; [lia|intros; lia|lia| |].
          -- intros _ q l' [->|Hq]%elem_of_cons Hqk Hql; [rewrite drop_0; congruence|].
             destruct (after_varpos _ _ _ Hs Ek Hq); congruence.
          -- intros Hno. destruct Hno. apply has_kind_cons. by left.
        * split_and!; [simpl; lia|intros; lia|done| |done].
          intros _ q l' [->|Hq]%elem_of_cons Hqk Hql; [congruence|].
          pose proof (sig_ok_head _ _ _ Hs Hq) as Hr. rewrite Ek, Hqk in Hr. simpl in Hr. lia.
        * split_and!; [simpl; lia|intros; lia|done| |done].
          intros _ q l' [->|Hq]%elem_of_cons Hqk Hql; [congruence|].
          pose proof (sig_ok_head _ _ _ Hs Hq) as Hr. rewrite Ek, Hqk in Hr. simpl in Hr. lia.
      + destruct (Hmiss ltac:(lia)) as (q & Hq & Hqn). simpl in Hq. simplify_eq.
        assert (bound_args (q :: ps) b = []) as ->.
        { cbn [bound_args]. rewrite Hqn. by destruct (p_kind q). }
        split_and!; [simpl; lia|intros; lia|done|lia|done].
    - destruct (Hp 0 p eq_refl ltac:(lia)) as [x Hx].
      assert (Hpos : positional (p_kind p)).
      { apply (npos_index (p :: ps) 0 p Hs eq_refl). lia. }
      assert (bound_args (p :: ps) b = x :: bound_args ps b) as ->.
      { cbn [bound_args]. rewrite Hx. by destruct Hpos as [-> | ->]. }
      rewrite npos_cons, decide_True in * by done. simpl in Hn, Hmiss.
      destruct (IH n) as (I1 & I2 & I3 & I4 & I5).
      { by eapply sig_ok_tail. }
      { lia. }
      { intros i q Hi Hlt. eapply (Hp (S i)); [done|lia]. }
      { intros Hlt. apply Hmiss. lia. }
      { intros q Hq. apply Hvp. by right. }
      split_and!.
      + simpl. lia.
      + intros [|i] q y Hi Hlt Hy; simpl in *; [simplify_eq; congruence|]. eapply I2; [done|lia|done].
      + intros Hlt. simpl. f_equal. apply I3. simpl in Hlt. lia.
      + intros E q l [->|Hq]%elem_of_cons Hqk Hql; [rewrite Hqk in Hpos; by destruct Hpos|].
        simpl. eapply I4; [simpl in E; lia|done..].
      + intros Hno. simpl. f_equal. apply I5. intros Hh. apply Hno. apply has_kind_cons. by right.
  Qed.

  (** the keyword part *)
  Definition extras ps (b : pydict (bval X)) : list (string * X) :=
    omap (fun p => match dget (p_name p) b with Some (BOne x) => Some (p_name p, x) | _ => None end) ps.
  Lemma bound_kwargs_started ps (b : pydict (bval X)) kw :
    (forall p, p ∈ ps -> p_kind p <> KVarPos) ->
    (forall p, p ∈ ps -> p_kind p = KVarKw -> dget (p_name p) b = Some (BDict [])) ->
    (forall p, p ∈ ps -> p_kind p <> KVarKw -> dget (p_name p) b = None \/ exists x, dget (p_name p) b = Some (BOne x)) ->
    bound_kwargs tup dct ps b true kw = dupdate kw (extras ps b).
  Proof.
    revert kw. induction ps as [|p ps IH]; intros kw H1 H2 H3; [done|].
    cbn [bound_kwargs]. unfold extras. cbn [omap list_omap]. fold (extras ps b). rewrite orb_true_l.
    assert (IH' : forall kw, bound_kwargs tup dct ps b true kw = dupdate kw (extras ps b)).
    { intros kw'. apply IH; intros; [apply H1|apply H2|apply H3]; try done; by right. }
    destruct (decide (p_kind p = KVarKw)) as [E|E].
    - rewrite (H2 p) by (done || left). rewrite IH'. unfold kw_entry. rewrite decide_True by done. done.
    - destruct (H3 p) as [Hn|[x Hx]]; [left|done|rewrite Hn; by rewrite IH'|]. rewrite Hx, IH'. done.
  Qed.
  Lemma bound_kwargs_spec ps (b : pydict (bval X)) n kw : sig_ok ps -> n <= npos ps ->
    (forall i p, ps !! i = Some p -> i < n -> exists x, dget (p_name p) b = Some (BOne x)) ->
    (n < npos ps -> ~ has_kind KVarPos ps /\ exists p, ps !! n = Some p /\ dget (p_name p) b = None) ->
    (forall p, p ∈ ps -> p_kind p = KVarPos -> exists l, dget (p_name p) b = Some (BTuple l)) ->
    (forall p, p ∈ ps -> p_kind p = KVarKw -> dget (p_name p) b = Some (BDict [])) ->
    (forall p, p ∈ ps -> by_keyword (p_kind p) \/ p_kind p = KPosOnly ->
       dget (p_name p) b = None \/ exists x, dget (p_name p) b = Some (BOne x)) ->
    bound_kwargs tup dct ps b false kw = dupdate kw (extras (drop n ps) b).
  Proof.
    revert n. induction ps as [|p ps IH]; intros n Hs Hn Hp Hmiss Hvp Hvk Hone.
    { by rewrite drop_nil. }
    destruct n as [|n].
    - rewrite drop_0.
      assert (Hstart : ~ has_kind KVarPos (p :: ps) -> bound_kwargs tup dct (p :: ps) b true kw = dupdate kw (extras (p :: ps) b)).
      { intros Hno. apply bound_kwargs_started; [|done|].
        - intros q Hq Hk. apply Hno. by exists q.
        - intros q Hq Hk. apply Hone; [done|]. destruct (p_kind q) eqn:E; [by right|by left; left| |by left; right|done].
          destruct Hno. by exists q. }
      destruct (decide (npos (p :: ps) = 0)) as [E0|E0].
      + destruct (npos_head_zero _ _ Hs E0) as [Hnp E1].
        destruct (p_kind p) eqn:Ek; try (destruct Hnp; by (left + right)).
        * destruct (Hvp p ltac:(left) Ek) as [l Hl]. cbn [bound_kwargs]. rewrite Ek.
          rewrite bool_decide_eq_false_2 by (by intros [?|?]). rewrite Hl. simpl orb. cbv iota.
          unfold extras. cbn [omap list_omap]. rewrite Hl. fold (extras ps b).
          destruct ps as [|q ps']; [done|].
          assert (Hkq := after_varpos _ _ q Hs Ek ltac:(left)).
          assert (bound_kwargs tup dct (q :: ps') b false kw = bound_kwargs tup dct (q :: ps') b true kw) as ->.
          { cbn [bound_kwargs]. rewrite bool_decide_eq_true_2 by tauto. done. }
          apply bound_kwargs_started.
          -- intros r Hr E. destruct (after_varpos _ _ r Hs Ek Hr); congruence.
          -- intros r Hr. apply Hvk. by right.
          -- intros r Hr Hk. apply Hone; [by right|]. destruct (after_varpos _ _ r Hs Ek Hr); [by left; right|done].
        * transitivity (bound_kwargs tup dct (p :: ps) b true kw).
          { cbn [bound_kwargs]. rewrite Ek. rewrite bool_decide_eq_true_2 by auto. done. }
          apply Hstart. intros (q & [->|Hq]%elem_of_cons & Hqk); [congruence|].
          pose proof (sig_ok_head _ _ _ Hs Hq) as Hr. rewrite Ek, Hqk in Hr. simpl in Hr. lia.
        * transitivity (bound_kwargs tup dct (p :: ps) b true kw).
          { cbn [bound_kwargs]. rewrite Ek. rewrite bool_decide_eq_true_2 by auto. done. }
          apply Hstart. intros (q & [->|Hq]%elem_of_cons & Hqk); [congruence|].
          pose proof (sig_ok_head _ _ _ Hs Hq) as Hr. rewrite Ek, Hqk in Hr. simpl in Hr. lia.
      + destruct (Hmiss ltac:(lia)) as (Hno & q & Hq & Hqn). simpl in Hq. simplify_eq.
        transitivity (bound_kwargs tup dct (q :: ps) b true kw); [|by apply Hstart].
        cbn [bound_kwargs]. rewrite Hqn. by destruct (false || _).
    - destruct (Hp 0 p eq_refl ltac:(lia)) as [x Hx].
      assert (Hpos : positional (p_kind p)).
      { apply (npos_index (p :: ps) 0 p Hs eq_refl). lia. }
      assert (bound_kwargs tup dct (p :: ps) b false kw = bound_kwargs tup dct ps b false kw) as ->.
      { cbn [bound_kwargs]. rewrite Hx. rewrite bool_decide_eq_false_2; [done|].
        destruct Hpos as [-> | ->]; by intros [?|?]. }
      rewrite npos_cons, decide_True in * by done. simpl in Hn, Hmiss. cbn [drop].
      apply IH.
      + by eapply sig_ok_tail.
      + lia.
      + intros i q Hi Hlt. eapply (Hp (S i)); [done|lia].
      + intros Hlt. destruct Hmiss as [Hno Hex]; [lia|]. split; [|done].
        intros Hh. apply Hno. apply has_kind_cons. by right.
      + intros q Hq. apply Hvp. by right.
      + intros q Hq. apply Hvk. by right.
      + intros q Hq. apply Hone. by right.
  Qed.

  Lemma extras_elem ps (b : pydict (bval X)) k x :
    (k, x) ∈ extras ps b <-> exists p, p ∈ ps /\ p_name p = k /\ dget k b = Some (BOne x).
  Proof.
    unfold extras. rewrite elem_of_list_omap. split.
    - intros (p & Hp & E). exists p. split; [done|]. destruct (dget (p_name p) b) as [[]|] eqn:Ed; simplify_eq. done.
    - intros (p & Hp & <- & E). exists p. split; [done|]. by rewrite E.
  Qed.
  Lemma extras_NoDup ps (b : pydict (bval X)) : NoDup (map p_name ps) -> NoDup (map fst (extras ps b)).
  Proof.
    induction ps as [|p ps IH]; [by intros _; constructor|]. cbn [map]. intros [Hn Hd]%NoDup_cons.
    unfold extras. cbn [omap list_omap]. fold (extras ps b).
    destruct (dget (p_name p) b) as [[]|]; [|auto..]. cbn [map fst]. apply NoDup_cons. split; [|auto].
    intros ([k y] & Hk & (q & Hq & Hqn & _)%extras_elem)%elem_of_list_fmap. simpl in Hk. apply Hn.
    apply elem_of_list_fmap. exists q. split; [congruence|done].
  Qed.

  Lemma first_missing (sig : list (param X)) (b : pydict (bval X)) m :
    m <= length sig ->
    exists n, n <= m /\ (forall i p, sig !! i = Some p -> i < n -> dget (p_name p) b <> None) /\
      (n < m -> exists p, sig !! n = Some p /\ dget (p_name p) b = None).
  Proof.
    induction m as [|m IH]; intros Hm.
    - exists 0. split; [done|]. split; intros; lia.
    - destruct IH as (n & Hn & H1 & H2); [lia|]. destruct (decide (n < m)) as [Hlt|Hge].
      + exists n. split; [lia|]. split; [done|]. intros _. auto.
      + assert (n = m) as -> by lia. destruct (lookup_lt_is_Some_2 sig m) as [p Hp]; [lia|].
        destruct (dget (p_name p) b) as [v|] eqn:Ev.
        * exists (S m). split; [lia|]. split; [|lia]. intros i q Hi Hlt.
          destruct (decide (i = m)) as [->|]; [congruence|]. apply (H1 i); [done|lia].
        * exists m. split; [lia|]. split; [done|]. eauto.
  Qed.

  Lemma NoDup_drop' {Y} n (l : list Y) : NoDup l -> NoDup (drop n l).
  Proof. rewrite <-(take_drop n l) at 1. by intros (_ & _ & ?)%NoDup_app. Qed.

  (** storage.py:834-858 then calling the function: every parameter gets its value. *)
  Theorem function_args_rebind sig kw env keys : sig_ok sig -> NoDup (map fst kw) -> keys ≡ₚ map fst kw ->
    shaped sig kw env -> kw_plain sig kw ->
    (has_kind KVarPos sig -> forall p, p ∈ sig -> p_kind p = KPosOrKw -> dget (p_name p) kw = None) ->
    exists args' kw' env', function_args tup dct sig env keys = Ok (args', kw') /\
      NoDup (map fst kw') /\ env_eqv env env' /\
      forall (Y : Type) (f : X -> Y) (sig2 : list (param Y)), same_params sig sig2 ->
        py_binds sig2 (map f args') (map_kw f kw') (map_env f env').
  Proof.
    intros Hs Hkw Hkeys Hpb Hplain Hstar.
    assert (Hnames := sh_names _ _ _ Hpb).
    assert (Hpart : forall p, p ∈ sig -> exists v, dget (p_name p) env = Some v).
    { intros p Hp. destruct (dget (p_name p) env) as [v|] eqn:E; [eauto|].
      apply dget_None in E. destruct E. rewrite Hnames. apply elem_of_list_fmap. eauto. }
    destruct (take_kwargs_spec sig kw env Hs Hkw Hpb Hplain keys env []) as (b & kw0 & Ht & Hperm & Hb & Hbp & Hbv).
    { by rewrite Hkeys. }
    { intros k. by rewrite Hkeys. }
    { rewrite Hnames. apply Hs. }
    { by rewrite Hnames. }
    { apply reflexive_eq. symmetry. clear -Hkeys.
      assert (forall kx, kx ∈ kw -> kx.1 ∈ keys) as Hin.
      { intros kx Hx. rewrite Hkeys. apply elem_of_list_fmap. eauto. }
      clear Hkeys. induction kw as [|kx kw IH]; [done|]. rewrite filter_cons_False.
      - apply IH. intros; apply Hin. by right.
      - intros Hn. apply Hn, Hin. left. }
    { intros p Hp Hk. rewrite decide_False; [done|]. rewrite Hkeys. naive_solver. }
    { intros p Hp Hk. rewrite (sh_kw _ _ _ Hpb p Hp Hk).
      do 2 f_equal. symmetry.
      assert (forall kx, kx ∈ left_of sig kw -> kx.1 ∈ keys) as Hin.
      { intros kx [_ Hx]%elem_of_list_filter. rewrite Hkeys. apply elem_of_list_fmap. eauto. }
      clear -Hin. induction (left_of sig kw) as [|kx l IH]; [done|]. rewrite filter_cons_True by (apply Hin; left).
      f_equal. apply IH. intros; apply Hin. by right. }
    unfold function_args. rewrite Ht. cbn [mbind result_bind].
    destruct (first_missing sig b (npos sig) (npos_le sig)) as (n & Hn & Hpres & Hmiss).
    assert (Hone : forall p, p ∈ sig -> by_keyword (p_kind p) \/ p_kind p = KPosOnly ->
       dget (p_name p) b = None \/ exists x, dget (p_name p) b = Some (BOne x) /\ dget (p_name p) env = Some (BOne x) /\
         p_name p ∉ map fst kw).
    { intros p Hp Hk. rewrite Hbp.
      2:{ done. }
      2:{ intros E. rewrite E in Hk. by destruct Hk as [[?|?]|?]. }
      destruct (decide (p_name p ∈ map fst kw)); [by left|]. right.
      destruct (sh_one _ _ _ Hpb p Hp) as [x ->]; [|eauto].
      destruct Hk as [[Hk|Hk]|Hk]; rewrite Hk; [by left; right|by right|by left; left]. }
    assert (Hposx : forall i p, sig !! i = Some p -> i < n -> exists x, dget (p_name p) b = Some (BOne x) /\
         dget (p_name p) env = Some (BOne x) /\ p_name p ∉ map fst kw).
    { intros i p Hi Hlt. destruct (Hone p) as [E|?]; [by eapply elem_of_list_lookup_2| |by destruct (Hpres i p)|done].
      assert (positional (p_kind p)) as [E|E]; [eapply npos_index; [done..|lia]|by right|by left; left]. }
    assert (Hvp : forall p, p ∈ sig -> p_kind p = KVarPos -> exists l, dget (p_name p) b = Some (BTuple l) /\
         dget (p_name p) env = Some (BTuple l)).
    { intros p Hp Hk. rewrite Hbp by (congruence || done).
      rewrite decide_False.
      2:{ intros Hin. assert (by_keyword (p_kind p)) as Hbk.
          { apply Hplain; [done|]. intros E. by apply dget_None in E. }
          rewrite Hk in Hbk. by destruct Hbk. }
      destruct (sh_tup _ _ _ Hpb p Hp Hk) as [l ->]. eauto. }
    assert (Hmiss' : n < npos sig -> ~ has_kind KVarPos sig /\ exists p, sig !! n = Some p /\ dget (p_name p) b = None).
    { intros Hlt. destruct (Hmiss Hlt) as (p & Hp & Hd). split; [|eauto]. intros Hh.
      assert (Hpin : p ∈ sig) by (by eapply elem_of_list_lookup_2).
      assert (positional (p_kind p)) as Hpos by (by eapply npos_index).
      rewrite Hbp in Hd; [|done|by destruct Hpos as [-> | ->]].
      destruct (decide (p_name p ∈ map fst kw)) as [Hin|Hin].
      - assert (dget (p_name p) kw <> None) as Hne by (intros E; by apply dget_None in E).
        assert (by_keyword (p_kind p)) as Hbk by (by apply Hplain).
        destruct Hpos as [E|E]; [rewrite E in Hbk; by destruct Hbk|]. apply Hne. by apply Hstar.
      - destruct (Hpart p Hpin) as (v & E). congruence. }
    assert (Hkwarg : bound_kwargs tup dct sig b false [] = extras (drop n sig) b).
    { rewrite (bound_kwargs_spec sig b n []); try done.
      - apply dict_of_NoDup. apply extras_NoDup. rewrite <-skipn_map. apply NoDup_drop', Hs.
      - intros i p Hi Hlt. destruct (Hposx i p Hi Hlt) as (x & ? & _). eauto.
      - intros p Hp Hk. destruct (Hvp p Hp Hk) as (l & ? & _). eauto.
      - intros p Hp Hk. destruct (Hone p Hp Hk) as [?|(x & ? & _)]; eauto. }
    rewrite Hkwarg.
    set (ex := extras (drop n sig) b).
    assert (Hex : forall k x, (k, x) ∈ ex <-> exists i p, n <= i /\ sig !! i = Some p /\ p_name p = k /\ dget k b = Some (BOne x)).
    { intros k x. unfold ex. rewrite extras_elem. split.
      - intros (p & [i Hi]%elem_of_list_lookup & ? & ?). rewrite lookup_drop in Hi. exists (n + i), p. split; [lia|done].
      - intros (i & p & Hle & Hi & ? & ?). exists p. split; [|done]. apply elem_of_list_lookup. exists (i - n).
        rewrite lookup_drop. by replace (n + (i - n)) with i by lia. }
    assert (Hexkw : forall k x, (k, x) ∈ ex -> k ∈ kwnames sig /\ k ∉ map fst kw).
    { intros k x (i & p & Hle & Hi & <- & Hd)%Hex. assert (Hpin : p ∈ sig) by (by eapply elem_of_list_lookup_2).
      assert (Hbk : by_keyword (p_kind p)).
      { destruct (p_kind p) eqn:Ek; [|by left| |by right|].
        - (* positional only: before n *)
          exfalso. assert (positional (p_kind p)) as Hpos by (by rewrite Ek; left).
          assert (i < npos sig) as Hlt by (by eapply npos_index).
          destruct (Hmiss' ltac:(lia)) as (_ & q & Hq & Hqd).
          assert (p_kind q = KPosOnly) as Eq.
          { destruct (decide (n = i)) as [->|]; [congruence|].
            pose proof (so_order _ Hs n i q p Hq Hi ltac:(lia)) as Hr. rewrite Ek in Hr. simpl in Hr.
            destruct (p_kind q); simpl in Hr; try lia; done. }
          assert (Hqin : q ∈ sig) by (by eapply elem_of_list_lookup_2).
          rewrite Hbp in Hqd by (congruence || done).
          rewrite decide_False in Hqd.
          + destruct (Hpart q Hqin) as (? & E). congruence.
          + intros Hin. assert (by_keyword (p_kind q)) as Hbk.
            { apply Hplain; [done|]. intros E. by apply dget_None in E. }
            rewrite Eq in Hbk. by destruct Hbk.
        - destruct (Hvp p Hpin Ek) as (l & ? & _). congruence.
        - rewrite Hbv in Hd by done. done. }
      split; [apply elem_of_kwnames; eauto|].
      destruct (Hone p Hpin (or_introl Hbk)) as [?|(y & _ & _ & ?)]; [congruence|done]. }
    assert (Hnd : NoDup (map fst (kw0 ++ ex))).
    { rewrite map_app. apply NoDup_app. split; [by rewrite Hperm|]. split.
      - intros k Hk ([k' x] & -> & Hin)%elem_of_list_fmap. apply Hexkw in Hin as [_ Hn']. rewrite Hperm in Hk. done.
      - apply extras_NoDup. rewrite <-skipn_map. apply NoDup_drop', Hs. }
    rewrite dupdate_fresh by done.
    assert (Hleft : left_of sig (kw0 ++ ex) ≡ₚ left_of sig kw).
    { unfold left_of. rewrite filter_app. 
      assert (filter (fun kx : string * X => kx.1 ∉ kwnames sig) ex = []) as ->.
      { assert (forall kx, kx ∈ ex -> kx.1 ∈ kwnames sig) as Hin.
        { intros [k x] Hx. by apply Hexkw in Hx as [? _]. }
        clear -Hin. induction ex as [|kx l IH]; [done|]. rewrite filter_cons_False.
        - apply IH. intros; apply Hin. by right.
        - intros Hn. apply Hn, Hin. left. }
      rewrite app_nil_r. by rewrite Hperm. }
    assert (Hdg : forall k, dget k (kw0 ++ ex) = match dget k kw with Some x => Some x | None => dget k ex end).
    { intros k. destruct (dget k kw) as [x|] eqn:Ex.
      - apply dget_elem; [done|]. apply elem_of_app. left. rewrite Hperm. by apply dget_Some_elem.
      - destruct (dget k ex) as [x|] eqn:Ex2.
        + apply dget_elem; [done|]. apply elem_of_app. right. by apply dget_Some_elem.
        + apply dget_None. rewrite map_app, elem_of_app, Hperm. apply dget_None in Ex, Ex2. tauto. }
    set (env2 := map (fun p => (p_name p, if decide (p_kind p = KVarKw) then BDict (left_of sig (kw0 ++ ex))
                                          else default (BTuple []) (dget (p_name p) env))) sig).
    assert (Henv2 : forall i p, sig !! i = Some p -> env2 !! i = Some (p_name p,
              if decide (p_kind p = KVarKw) then BDict (left_of sig (kw0 ++ ex)) else default (BTuple []) (dget (p_name p) env))).
    { intros i p Hi. unfold env2. rewrite list_lookup_fmap, Hi. done. }
    destruct (bound_args_spec sig b n) as (A1 & A2 & A3 & A4 & A5); [done..| | | |].
    { intros i p Hi Hlt. destruct (Hposx i p Hi Hlt) as (x & ? & _). eauto. }
    { intros Hlt. by apply Hmiss'. }
    { intros p Hp Hk. destruct (Hvp p Hp Hk) as (l & ? & _). eauto. }
    exists (bound_args sig b), (kw0 ++ ex), env2. split; [done|]. split; [done|]. apply and_comm. split.
    - intros Y f sig2 Hsame. eapply (rebind_map f sig n); try done.
      + unfold env2. by rewrite map_length.
      + intros i p Hi Hlt. destruct (Hposx i p Hi Hlt) as (x & Hx & Hxe & Hxk).
        assert (positional (p_kind p)) as Hpos by (eapply npos_index; [done..|lia]).
        split.
        * exists x. split; [|by eapply A2]. rewrite (Henv2 i p Hi), Hxe.
          rewrite decide_False; [done|]. destruct Hpos as [-> | ->]; done.
        * intros _. rewrite Hdg. assert (dget (p_name p) kw = None) as -> by (by apply dget_None).
          destruct (dget (p_name p) ex) as [y|] eqn:Ey; [|done].
          apply dget_Some_elem in Ey. apply Hex in Ey as (j & q & Hle & Hj & Hqn & _).
          destruct (sig_index _ _ _ _ _ Hs Hj Hi Hqn). lia.
      + intros i p Hi Hk. rewrite (Henv2 i p Hi). rewrite decide_False by congruence.
        assert (Hpin : p ∈ sig) by (by eapply elem_of_list_lookup_2).
        destruct (Hvp p Hpin Hk) as (l & Hl & ->). simpl. do 3 f_equal. symmetry.
        eapply A4; [|done..]. destruct (decide (n < npos sig)) as [Hlt|]; [|lia].
        destruct (Hmiss' Hlt) as [Hno _]. destruct Hno. by exists p.
      + intros i p Hi Hle Hbk. assert (Hpin : p ∈ sig) by (by eapply elem_of_list_lookup_2).
        assert (p_kind p <> KVarKw) as Hnk by (intros E; rewrite E in Hbk; by destruct Hbk).
        rewrite (Henv2 i p Hi). rewrite decide_False by done. rewrite Hdg.
        destruct (dget (p_name p) kw) as [x|] eqn:Ex.
        * exists x. by rewrite (sh_arg _ _ _ Hpb _ _ Hpin Hbk Ex).
        * destruct (Hone p Hpin (or_introl Hbk)) as [Hnone|(x & Hx & Hxe & _)].
          -- rewrite Hbp in Hnone by done. rewrite decide_False in Hnone by (by apply dget_None).
             destruct (Hpart p Hpin) as (? & E). congruence.
          -- exists x. rewrite Hxe. split; [done|]. apply dget_elem.
             ++ apply extras_NoDup. rewrite <-skipn_map. apply NoDup_drop', Hs.
             ++ apply Hex. eauto 10.
      + intros i p Hi Hle Ek. assert (Hpin : p ∈ sig) by (by eapply elem_of_list_lookup_2).
        assert (i < npos sig) as Hlt.
        { eapply npos_index; [done..|]. rewrite Ek. by left. }
        destruct (Hmiss' ltac:(lia)) as (_ & q & Hq & Hqd).
        assert (p_kind q = KPosOnly) as Eq.
        { destruct (decide (n = i)) as [->|]; [congruence|].
          pose proof (so_order _ Hs n i q p Hq Hi ltac:(lia)) as Hr. rewrite Ek in Hr. simpl in Hr.
          destruct (p_kind q); simpl in Hr; try lia; done. }
        assert (Hqin : q ∈ sig) by (by eapply elem_of_list_lookup_2).
        rewrite Hbp in Hqd by (congruence || done).
        rewrite decide_False in Hqd.
        * destruct (Hpart q Hqin) as (? & E). congruence.
        * intros Hin. assert (by_keyword (p_kind q)) as Hbk.
          { apply Hplain; [done|]. intros E. by apply dget_None in E. }
          rewrite Eq in Hbk. by destruct Hbk.
      + intros i p Hi Hk. rewrite (Henv2 i p Hi). by rewrite decide_True.
      + intros Hno. apply Permutation_nil. rewrite Hleft.
        destruct (left_of sig kw) as [|[k x] l] eqn:El; [done|].
        assert ((k, x) ∈ left_of sig kw) as Hx by (rewrite El; left).
        apply elem_of_list_filter in Hx as [Hnk Hx]. destruct Hnk. simpl. apply elem_of_kwnames.
        destruct (sh_extra _ _ _ Hpb) as [?|He]; [done|]. eauto.
    - unfold env_eqv. apply Forall2_same_length_lookup. split.
      { unfold env2. rewrite map_length. by apply (f_equal length) in Hnames; rewrite !map_length in Hnames. }
      intros i [k v] [k' v'] Hv Hv'. cbn [fst snd].
      destruct (shaped_lookup _ _ _ _ _ _ Hs Hpb Hv) as (p & Hi & -> & Hwd).
      assert (Hpin : p ∈ sig) by (by eapply elem_of_list_lookup_2).
      rewrite (Henv2 i p Hi) in Hv'. rewrite Hwd in Hv'. simplify_eq. split; [done|].
      destruct (decide (p_kind p = KVarKw)) as [Hk|Hk].
      + rewrite (sh_kw _ _ _ Hpb p Hpin Hk) in Hwd. simplify_eq. constructor. by rewrite Hleft.
      + simpl. destruct v; constructor. done.
  Qed.

  (** *** boundargs_to_args_kwargs *)
  Definition kwo ps (b : pydict (bval X)) : list (string * X) :=
    extras (filter (fun p => p_kind p = KKwOnly) ps) b.
  Lemma bta_spec ps (b : pydict (bval X)) d : sig_ok ps ->
    (forall p, p ∈ ps -> positional (p_kind p) \/ p_kind p = KKwOnly -> exists x, dget (p_name p) b = Some (BOne x)) ->
    (forall p, p ∈ ps -> p_kind p = KVarPos -> exists l, dget (p_name p) b = Some (BTuple l)) ->
    (forall p, p ∈ ps -> p_kind p = KVarKw -> dget (p_name p) b = Some (BDict d)) ->
    (~ has_kind KVarKw ps -> d = []) ->
    NoDup (map fst (kwo ps b ++ d)) ->
    boundargs_to_args_kwargs ps b = Ok (bound_args ps b, kwo ps b ++ d).
  Proof.
    clear dct tup. revert d. induction ps as [|p ps IH]; intros d Hs H1 H2 H3 H4 Hnd.
    { simpl. rewrite H4; [done|]. intros (p & Hp & _). by apply elem_of_nil in Hp. }
    assert (IH' : forall d', (forall p, p ∈ ps -> p_kind p = KVarKw -> dget (p_name p) b = Some (BDict d')) ->
      (~ has_kind KVarKw ps -> d' = []) -> NoDup (map fst (kwo ps b ++ d')) ->
      boundargs_to_args_kwargs ps b = Ok (bound_args ps b, kwo ps b ++ d')).
    { intros d' G1 G2 G3. apply IH; [by eapply sig_ok_tail| | |done..].
      - intros q Hq. apply H1. by right.
      - intros q Hq. apply H2. by right. }
    assert (Hsame : p_kind p <> KVarKw -> p_kind p <> KKwOnly -> boundargs_to_args_kwargs ps b = Ok (bound_args ps b, kwo ps b ++ d)).
    { intros Hk1 Hk2. apply IH'.
      - intros q Hq. apply H3. by right.
      - intros Hno. apply H4. rewrite has_kind_cons. tauto.
      - unfold kwo in Hnd. by rewrite filter_cons_False in Hnd. }
    assert (Hkwo : p_kind p <> KKwOnly -> kwo (p :: ps) b = kwo ps b).
    { intros Hk. unfold kwo. by rewrite filter_cons_False. }
    cbn [boundargs_to_args_kwargs bound_args]. unfold dindex.
    destruct (p_kind p) eqn:Ek.
    - destruct (H1 p) as [x Hx]; [left|by left; rewrite Ek; left|]. rewrite Hx. cbn [of_option mbind result_bind].
      rewrite Hsame by done. simpl. by rewrite Hkwo.
    - destruct (H1 p) as [x Hx]; [left|by left; rewrite Ek; right|]. rewrite Hx. cbn [of_option mbind result_bind].
      rewrite Hsame by done. simpl. by rewrite Hkwo.
    - destruct (H2 p) as [l Hl]; [left|done|]. rewrite Hl. cbn [of_option mbind result_bind].
      rewrite Hsame by done. simpl. by rewrite Hkwo.
    - destruct (H1 p) as [x Hx]; [left|by right|]. rewrite Hx. cbn [of_option mbind result_bind].
      assert (Hk : kwo (p :: ps) b = (p_name p, x) :: kwo ps b).
      { unfold kwo. rewrite filter_cons_True by done. unfold extras. cbn [omap list_omap]. by rewrite Hx. }
      rewrite Hk in Hnd. cbn [app map fst] in Hnd.
      assert (Hnokw : forall q, q ∈ ps -> p_kind q = KKwOnly \/ p_kind q = KVarKw).
      { intros q Hq. pose proof (sig_ok_head _ _ _ Hs Hq) as Hr. rewrite Ek in Hr.
        destruct (p_kind q); simpl in Hr; try lia; auto. }
      rewrite (IH' d).
      2:{ intros q Hq. apply H3. by right. }
      2:{ intros Hno. apply H4. rewrite has_kind_cons. intros [?|?]; [congruence|done]. }
      2:{ by apply NoDup_cons in Hnd as [_ ?]. }
      cbn [mbind result_bind]. rewrite (bound_args_kw ps) by done.
      rewrite dupdate_fresh by done. by rewrite Hk.
    - rewrite (H3 p) by (done || left). cbn [of_option mbind result_bind].
      assert (ps = []) as ->.
      { destruct ps as [|q ps]; [done|]. pose proof (sig_ok_head _ _ q Hs ltac:(left)) as Hr. rewrite Ek in Hr. simpl in Hr.
        pose proof (sig_ok_star _ _ q Hs ltac:(left) ltac:(by right)) as Hne. rewrite Ek in Hne.
        destruct (p_kind q); simpl in Hr; try lia. done. }
      simpl. unfold kwo. rewrite filter_cons_False by congruence. done.
  Qed.

  (** utils.py:176-215 then calling the function: exactly the same binding. *)
  Theorem boundargs_rebind sig kw env : sig_ok sig -> NoDup (map fst kw) ->
    shaped sig kw env ->
    exists args' kw', boundargs_to_args_kwargs sig env = Ok (args', kw') /\
      NoDup (map fst kw') /\
      forall (Y : Type) (f : X -> Y) (sig2 : list (param Y)), same_params sig sig2 ->
        py_binds sig2 (map f args') (map_kw f kw') (map_env f env).
  Proof.
    clear dct tup. intros Hs Hkw Hpb.
    assert (Hbd : forall i p, sig !! i = Some p -> exists v, env !! i = Some (p_name p, v) /\ dget (p_name p) env = Some v).
    { intros i p Hi. destruct (lookup_lt_is_Some_2 env i) as [[k v] Hv].
      { rewrite <-(map_length fst env), (sh_names _ _ _ Hpb), map_length. by eapply lookup_lt_Some. }
      destruct (shaped_lookup _ _ _ _ _ _ Hs Hpb Hv) as (q & Hq & -> & ?). simplify_eq. eauto. }
    set (d := if has_kind_dec KVarKw sig then left_of sig kw else []).
    assert (Hd : forall k x, (k, x) ∈ d -> k ∉ kwnames sig).
    { intros k x. unfold d. destruct (has_kind_dec _ _); [|by intros ?%elem_of_nil].
      by intros [? _]%elem_of_list_filter. }
    assert (Hone : forall p, p ∈ sig -> positional (p_kind p) \/ p_kind p = KKwOnly -> exists x, dget (p_name p) env = Some (BOne x)).
    { apply Hpb. }
    assert (Hvp : forall p, p ∈ sig -> p_kind p = KVarPos -> exists l, dget (p_name p) env = Some (BTuple l)).
    { apply Hpb. }
    assert (Hvk : forall p, p ∈ sig -> p_kind p = KVarKw -> dget (p_name p) env = Some (BDict d)).
    { intros p Hp Hk. rewrite (sh_kw _ _ _ Hpb p Hp Hk).
      unfold d. destruct (has_kind_dec _ _) as [?|Hn]; [done|]. destruct Hn. by exists p. }
    assert (Hkwoin : forall k x, (k, x) ∈ kwo sig env <-> exists p, p ∈ sig /\ p_kind p = KKwOnly /\ p_name p = k /\ dget k env = Some (BOne x)).
    { intros k x. unfold kwo. rewrite extras_elem. split.
      - intros (p & [? ?]%elem_of_list_filter & ? & ?). eauto.
      - intros (p & ? & ? & ? & ?). exists p. split; [by apply elem_of_list_filter|done]. }
    assert (Hnd : NoDup (map fst (kwo sig env ++ d))).
    { rewrite map_app. apply NoDup_app. split; [|split].
      - apply extras_NoDup. clear -Hs. pose proof (so_names _ Hs) as Hn. clear Hs.
        induction sig as [|p sig IH]; [done|]. cbn [map] in Hn. apply NoDup_cons in Hn as [Hn Hd].
        rewrite filter_cons. destruct (decide _); [|auto]. cbn [map]. apply NoDup_cons. split; [|auto].
        intros (q & Hqe & [_ Hq]%elem_of_list_filter)%elem_of_list_fmap. apply Hn. apply elem_of_list_fmap. eauto.
      - intros k ([k1 x] & -> & (p & Hp & Hk & <- & _)%Hkwoin)%elem_of_list_fmap ([k2 y] & E & Hin)%elem_of_list_fmap.
        simpl in E. subst k2. apply Hd in Hin. apply Hin. apply elem_of_kwnames. exists p. split_and!; [done..|by right].
      - unfold d. destruct (has_kind_dec _ _); [|constructor]. by apply filter_keys_NoDup. }
    exists (bound_args sig env), (kwo sig env ++ d). split; [|split; [done|]].
    { apply bta_spec; try done. unfold d. by destruct (has_kind_dec _ _). }
    assert (Hleft : left_of sig (kwo sig env ++ d) = d).
    { unfold left_of. rewrite filter_app.
      assert (filter (fun kx : string * X => kx.1 ∉ kwnames sig) (kwo sig env) = []) as ->.
      { assert (forall kx, kx ∈ kwo sig env -> kx.1 ∈ kwnames sig) as Hin.
        { intros [k x] (p & ? & ? & <- & _)%Hkwoin. apply elem_of_kwnames. exists p. split_and!; [done..|by right]. }
        clear -Hin. induction (kwo sig env) as [|kx l IH]; [done|]. rewrite filter_cons_False.
        - apply IH. intros; apply Hin. by right.
        - intros Hn. apply Hn, Hin. left. }
      simpl. clear -Hd. induction d as [|[k x] l IH]; [done|]. rewrite filter_cons_True.
      - f_equal. apply IH. intros; eapply Hd. by right.
      - eapply Hd. left. }
    destruct (bound_args_spec sig env (npos sig)) as (A1 & A2 & A3 & A4 & A5); [done..| |lia|done|].
    { intros i p Hi Hlt. apply Hone; [by eapply elem_of_list_lookup_2|]. left. by eapply npos_index. }
    intros Y f sig2 Hsame. eapply (rebind_map f sig (npos sig)); try done.
    - by rewrite <-(map_length fst env), (sh_names _ _ _ Hpb), map_length.
    - intros i p Hi Hlt. destruct (Hbd _ _ Hi) as (v & Hv & Hvd).
      assert (Hpos : positional (p_kind p)) by (by eapply npos_index).
      destruct (Hone p) as [x Hx]; [by eapply elem_of_list_lookup_2|by left|].
      split.
      + exists x. split; [congruence|]. by eapply A2.
      + intros Hk. apply dget_None. rewrite map_app, elem_of_app.
        intros [([k y] & E & (q & Hq & Hqk & Hqn & _)%Hkwoin)%elem_of_list_fmap|([k y] & E & Hin)%elem_of_list_fmap]; simpl in E.
        * apply elem_of_list_lookup in Hq as [j Hj]. destruct (sig_index _ _ _ _ _ Hs Hj Hi ltac:(congruence)) as [_ ->]. congruence.
        * apply Hd in Hin. apply Hin. apply elem_of_kwnames. exists p.
          split_and!; [by eapply elem_of_list_lookup_2|done|by left].
    - intros i p Hi Hk. destruct (Hbd _ _ Hi) as (v & Hv & Hvd).
      assert (Hpin : p ∈ sig) by (by eapply elem_of_list_lookup_2).
      destruct (Hvp p Hpin Hk) as [l Hl]. erewrite A4; [|done..]. congruence.
    - intros i p Hi Hle Hbk. destruct (Hbd _ _ Hi) as (v & Hv & Hvd).
      assert (Hpin : p ∈ sig) by (by eapply elem_of_list_lookup_2).
      assert (Hk : p_kind p = KKwOnly).
      { destruct Hbk as [E|E]; [|done]. assert (i < npos sig) as Hlt; [|lia]. eapply npos_index; [done..|]. rewrite E. by right. }
      destruct (Hone p Hpin) as [x Hx]; [by right|]. exists x. split; [congruence|].
      apply dget_elem; [done|]. apply elem_of_app. left. apply Hkwoin. eauto.
    - intros i p Hi Hle Ek. assert (i < npos sig) as Hlt; [|lia]. eapply npos_index; [done..|]. rewrite Ek. by left.
    - intros i p Hi Hk. destruct (Hbd _ _ Hi) as (v & Hv & Hvd). rewrite Hleft.
      rewrite (Hvk p) in Hvd by (done || by eapply elem_of_list_lookup_2). congruence.
    - intros Hno. rewrite Hleft. unfold d. by destruct (has_kind_dec _ _).
  Qed.
End bind2.
