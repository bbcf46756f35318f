(** Proofs about the parsing of arguments and the identifiers of calls. *)
From stdpp Require Import base strings gmap list sorting.
From Verif Require Import Base PyDict PyDict_proofs Returns Returns_proofs Refs Args Spec_Args Args_proofs Ident Spec_Ident.

(** *** Dictionaries as maps *)
Section maps.
  Context {A : Type}.
  Implicit Types (d l : pydict A).

  Definition same_map d d' : Prop := forall k, dget k d = dget k d'.

  Lemma same_map_dset k v d d' : same_map d d' -> same_map (dset k v d) (dset k v d').
  Proof.
    intros Hs k'. destruct (decide (k = k')) as [->|Hne].
    - by rewrite !dget_dset_eq.
    - rewrite !dget_dset_ne by done. apply Hs.
  Qed.
  Lemma same_map_dupdate l d d' : same_map d d' -> same_map (dupdate d l) (dupdate d' l).
  Proof.
    revert d d'. induction l as [|[k v] l IH]; intros d d' Hs; [done|]. cbn. apply IH. by apply same_map_dset.
  Qed.
  Lemma dget_dupdate k l d : NoDup (map fst l) ->
    dget k (dupdate d l) = match dget k l with Some v => Some v | None => dget k d end.
  Proof.
    revert d. induction l as [|[k' v] l IH]; intros d Hnd; [done|]. cbn in Hnd. apply NoDup_cons in Hnd as [Hk Hnd].
    change (dupdate d ((k', v) :: l)) with (dupdate (dset k' v d) l). rewrite IH by done.
    cbn [dget]. destruct (decide (k = k')) as [->|Hne].
    - assert (dget k' l = None) as -> by (by apply dget_None). by rewrite dget_dset_eq.
    - by rewrite dget_dset_ne.
  Qed.
  Lemma same_map_dupdate_perm l l' d d' : NoDup (map fst l) -> l ≡ₚ l' -> same_map d d' ->
    same_map (dupdate d l) (dupdate d' l').
  Proof.
    intros Hnd Hp Hs k. rewrite !dget_dupdate; [|by rewrite <-Hp|done].
    rewrite (dget_Permutation k l l') by done. by destruct (dget k l').
  Qed.
  Lemma same_map_perm d d' : NoDup (map fst d) -> NoDup (map fst d') -> same_map d d' -> d ≡ₚ d'.
  Proof.
    intros H1 H2 Hs. apply NoDup_Permutation.
    - by eapply NoDup_fmap_1.
    - by eapply NoDup_fmap_1.
    - intros [k v]. split; intros E.
      + apply dget_Some_elem. rewrite <-Hs. by apply dget_elem.
      + apply dget_Some_elem. rewrite Hs. by apply dget_elem.
  Qed.
  Lemma dget_to_map k d : NoDup (map fst d) -> (list_to_map d : gmap string A) !! k = dget k d.
  Proof.
    intros _. induction d as [|[k' v] d IH]; cbn; [by rewrite lookup_empty|].
    destruct (decide (k = k')) as [->|Hne]; [by rewrite lookup_insert|by rewrite lookup_insert_ne].
  Qed.
  Lemma canon_same d d' : canon d = canon d' <-> same_map d d'.
  Proof.
    assert (Hl : forall k (d : pydict A), (list_to_map d : gmap string A) !! k = dget k d).
    { clear. intros k d. induction d as [|[k' v] d IH]; cbn; [by rewrite lookup_empty|].
      destruct (decide (k = k')) as [->|Hne]; [by rewrite lookup_insert|by rewrite lookup_insert_ne]. }
    unfold canon. split.
    - intros E k. rewrite <-!Hl. by rewrite (map_to_list_inj _ _ (eq_ind _ (fun x => x ≡ₚ _) (reflexivity _) _ (eq_sym E))).
    - intros Hs. f_equal. apply map_eq. intros k. by rewrite !Hl.
  Qed.
  Lemma canon_perm d d' : NoDup (map fst d) -> d ≡ₚ d' -> canon d = canon d'.
  Proof. intros Hnd Hp. apply canon_same. intros k. by apply dget_Permutation. Qed.
End maps.

Lemma dget_map_val {A B} (f : A -> B) k (d : pydict A) : dget k (map (fun kx => (kx.1, f kx.2)) d) = f <$> dget k d.
Proof. apply (dget_map_kw f). Qed.
Lemma keys_map_val {A B} (f : A -> B) (d : pydict A) : map fst (map (fun kx => (kx.1, f kx.2)) d) = map fst d.
Proof. rewrite map_map. done. Qed.

(** *** Outcomes of stateful computations *)
Section outcome.
  Context {St : Type} (RS : St -> St -> Prop).
  Notation outcome_rel := (outcome_rel RS).
  Lemma outcome_bind {A B A' B'} (R : A -> B -> Prop) (Q : A' -> B' -> Prop) (m : M St A) (m' : M St B)
      (f : A -> M St A') (g : B -> M St B') s s' :
    outcome_rel R (m s) (m' s') ->
    (forall a b s s', RS s s' -> R a b -> outcome_rel Q (f a s) (g b s')) ->
    outcome_rel Q (bindM m f s) (bindM m' g s').
  Proof.
    intros [Hs Ho] Hf. unfold bindM. destruct (m s) as [[a|e] s1], (m' s') as [[b|e'] s1']; simpl in *; try done.
    by apply Hf.
  Qed.
  Lemma outcome_ret {A B} (R : A -> B -> Prop) a b s s' : RS s s' -> R a b -> outcome_rel R (retM a s) (retM b s').
  Proof. done. Qed.
  Lemma outcome_mono {A B} (R Q : A -> B -> Prop) x y : (forall a b, R a b -> Q a b) -> outcome_rel R x y -> outcome_rel Q x y.
  Proof. intros Hi [Hs Ho]. split; [done|]. destruct x.1, y.1; auto. Qed.
End outcome.

Section parse.
  Context {St : Type} (un : arg -> M St arg) (RS : St -> St -> Prop).

  Lemma loop_rel (Q Q' : param arg -> bval arg -> bval arg -> Prop)
      (P : pydict (arg * ty) -> pydict (arg * ty) -> Prop) ignore sig b b' acc acc' s s' :
    (forall p, p ∈ sig -> exists v v', dget (p_name p) b = Some v /\ dget (p_name p) b' = Some v' /\ Q p v v') ->
    (forall p v v' s s', p ∈ sig -> Q p v v' -> RS s s' ->
       outcome_rel RS (fun r r' => Q' p r.1 r'.1 /\
           forall acc acc', P acc acc' -> P (dupdate acc r.2) (dupdate acc' r'.2))
         (parse_one un ignore p v s) (parse_one un ignore p v' s')) ->
    RS s s' -> P acc acc' ->
    outcome_rel RS (fun r r' => Forall2 (fun p x => x.1.1 = p_name p /\ x.2.1 = p_name p /\ Q' p x.1.2 x.2.2)
                                  sig (zip r.1 r'.1) /\ length r.1 = length sig /\ length r'.1 = length sig /\ P r.2 r'.2)
      (parse_loop un ignore sig b acc s) (parse_loop un ignore sig b' acc' s').
  Proof.
    revert acc acc' s s'. induction sig as [|p sig IH]; intros acc acc' s s' Hb Hone Hs HP.
    - split; [done|]. cbn. by repeat split.
    - destruct (Hb p) as (v & v' & Ev & Ev' & HQ); [left|]. cbn [parse_loop]. rewrite Ev, Ev'.
      eapply outcome_bind.
      + apply Hone; [left|done..].
      + intros r r' s1 s1' Hs1 [HQ' HP']. eapply outcome_bind.
        * apply IH.
          -- intros q Hq. apply Hb. by right.
          -- intros. apply Hone; [by right|done..].
          -- done.
          -- by apply HP'.
        * intros rest rest' s2 s2' Hs2 (HF & HL & HL' & HP2). apply outcome_ret; [done|]. cbn. split.
          -- constructor; [done|]. apply HF.
          -- cbn in *. lia || (split; [lia|split; [lia|done]]).
  Qed.

  Lemma parse_args_rel (Q Q' : param arg -> bval arg -> bval arg -> Prop)
      (P : pydict (arg * ty) -> pydict (arg * ty) -> Prop) ignore sig sig2 args args2 kw kw2 b b' s s' :
    bind_full sig args kw = Ok b -> bind_full sig2 args2 kw2 = Ok b' ->
    sig = sig2 ->
    (forall p, p ∈ sig -> exists v v', dget (p_name p) b = Some v /\ dget (p_name p) b' = Some v' /\ Q p v v') ->
    (forall p v v' s s', p ∈ sig -> Q p v v' -> RS s s' ->
       outcome_rel RS (fun r r' => Q' p r.1 r'.1 /\
           forall acc acc', P acc acc' -> P (dupdate acc r.2) (dupdate acc' r'.2))
         (parse_one un ignore p v s) (parse_one un ignore p v' s')) ->
    RS s s' -> P [] [] ->
    outcome_rel RS (fun r r' => Forall2 (fun p x => x.1.1 = p_name p /\ x.2.1 = p_name p /\ Q' p x.1.2 x.2.2)
                                  sig (zip r.1 r'.1) /\ length r.1 = length sig /\ length r'.1 = length sig /\ P r.2 r'.2)
      (parse_args un sig ignore args kw s) (parse_args un sig2 ignore args2 kw2 s').
  Proof.
    intros E1 E2 <- Hb Hone Hs HP. unfold parse_args, bindM, liftR. rewrite E1, E2. by eapply loop_rel.
  Qed.

  (** keys of the inputs are distinct *)
  Lemma parse_loop_NoDup ignore sig b acc s r s' : parse_loop un ignore sig b acc s = (Ok r, s') ->
    NoDup (map fst acc) -> NoDup (map fst r.2).
  Proof.
    revert acc s r s'. induction sig as [|p sig IH]; intros acc s r s'; cbn.
    - intros [= <- _]. done.
    - destruct (dget (p_name p) b) as [v|]; [|by apply IH]. unfold bindM.
      destruct (parse_one un ignore p v s) as [[x|e] s1]; [|done].
      destruct (parse_loop un ignore sig b (dupdate acc x.2) s1) as [[y|e] s2] eqn:E; [|done].
      intros [= <- _] Hnd. cbn. eapply IH in E; [done|]. by apply dupdate_NoDup.
  Qed.
  Lemma parse_args_NoDup sig ignore args kw s r s' : parse_args un sig ignore args kw s = (Ok r, s') ->
    NoDup (map fst r.2).
  Proof.
    unfold parse_args, bindM, liftR. destruct (bind_full sig args kw); [|done].
    intros E. eapply parse_loop_NoDup; [done|constructor].
  Qed.

  Lemma omap_perm {A B} (f : A -> option B) l l' : l ≡ₚ l' -> omap f l ≡ₚ omap f l'.
  Proof.
    induction 1 as [|x l l' Hp IH|x y l|l1 l2 l3 H1 IH1 H2 IH2]; csimpl; [done| | |by rewrite IH1].
    - destruct (f x); [by rewrite IH|done].
    - destruct (f x), (f y); try done. apply perm_swap.
  Qed.
  Lemma omap_keys_sub {A} (f : arg -> option A) (d : pydict arg) : NoDup (map fst d) ->
    NoDup (map fst (omap (fun ka => (fun x => (ka.1, x)) <$> f ka.2) d)).
  Proof.
    assert (forall k, k ∈ map fst (omap (fun ka : string * arg => (fun x => (ka.1, x)) <$> f ka.2) d) -> k ∈ map fst d) as Hsub.
    { intros k. rewrite !elem_of_list_fmap. intros ([k' x] & -> & Hin). apply elem_of_list_omap in Hin as ([k1 a] & Hin & E).
      cbn in E. destruct (f a); simplify_eq/=. by eexists (_, a). }
    intros Hnd. induction d as [|[k a] d IH]; csimpl; [constructor|]. cbn in Hnd. apply NoDup_cons in Hnd as [Hk Hnd].
    assert (IH' : NoDup (map fst (omap (fun ka : string * arg => (fun x => (ka.1, x)) <$> f ka.2) d))).
    { apply IH; [|done]. intros k'. rewrite !elem_of_list_fmap. intros ([k2 x] & -> & Hin).
      apply elem_of_list_omap in Hin as ([k1 a'] & Hin & E).
      cbn in E. destruct (f a'); simplify_eq/=. by eexists (_, a'). }
    destruct (f a) as [x|]; cbn; [|done]. constructor; [|done].
    intros Hin. apply Hk. apply elem_of_list_fmap in Hin as ([k2 y] & E0 & Hin). cbn in E0. subst k2.
    apply elem_of_list_omap in Hin as ([k1 a'] & Hin & E). cbn in E. destruct (f a'); simplify_eq/=.
    apply elem_of_list_fmap. by eexists (_, a').
  Qed.
End parse.

Section parse2.
  Context {St : Type} (un : arg -> M St arg).

  Definition okP (acc acc' : pydict (arg * ty)) : Prop :=
    same_map acc acc' /\ NoDup (map fst acc) /\ NoDup (map fst acc').
  Lemma okP_same acc acc' l : okP acc acc' -> okP (dupdate acc l) (dupdate acc' l).
  Proof.
    intros (Hs & H1 & H2). split; [by apply same_map_dupdate|]. split; by apply dupdate_NoDup.
  Qed.

  Lemma parse_one_eqv ignore p v v' s : bval_eqv v v' -> (forall d, v = BDict d -> NoDup (map fst d)) ->
    outcome_rel eq (fun r r' => bval_eqv r.1 r'.1 /\
           forall acc acc', okP acc acc' -> okP (dupdate acc r.2) (dupdate acc' r'.2))
      (parse_one un ignore p v s) (parse_one un ignore p v' s).
  Proof.
    intros Hv Hnd.
    assert (Hrefl : forall r : bval arg * list (string * (arg * ty)), bval_eqv r.1 r.1 /\
           forall acc acc', okP acc acc' -> okP (dupdate acc r.2) (dupdate acc' r.2)).
    { intros [w l]. split; [destruct w; by constructor|]. intros. by apply okP_same. }
    assert (Hsame : forall x : result (bval arg * list (string * (arg * ty))) * St,
      outcome_rel eq (fun r r' => bval_eqv r.1 r'.1 /\
           forall acc acc', okP acc acc' -> okP (dupdate acc r.2) (dupdate acc' r'.2)) x x).
    { intros [[a|e] s1]; (split; [done|]); cbn; [apply Hrefl|done]. }
    destruct Hv as [x|l|d d' Hd]; try apply Hsame.
    specialize (Hnd d eq_refl). split; [done|]. cbn. split.
    - constructor. by rewrite Hd.
    - intros acc acc' (Hs & H1 & H2). split; [|split; by apply dupdate_NoDup].
      set (g := fun a : arg => if is_ign a then None else Some (a, p_ann p)).
      assert (forall d : pydict arg, omap (fun ka : string * arg => if is_ign ka.2 then None else Some (ka.1, (ka.2, p_ann p))) d
                = omap (fun ka => (fun x => (ka.1, x)) <$> g ka.2) d) as Eq.
      { intros d0. induction d0 as [|[k a] d0 IH]; csimpl; [done|]. unfold g. destruct (is_ign a); csimpl; by rewrite IH. }
      rewrite !Eq. apply same_map_dupdate_perm; [by apply omap_keys_sub| |done].
      by apply omap_perm.
  Qed.

  Lemma binds_dict_NoDup (sig : list (param arg)) args kw env p d : sig_ok sig -> NoDup (map fst kw) -> py_binds sig args kw env ->
    p ∈ sig -> dget (p_name p) env = Some (BDict d) -> NoDup (map fst d).
  Proof.
    intros Hs Hkw Hpb [i Hi]%elem_of_list_lookup Hd.
    destruct (binds_dget _ _ _ _ _ _ Hs Hpb Hi) as (v & _ & Hv & G). rewrite Hd in Hv. simplify_eq.
    unfold gets in G. destruct (p_kind p); try (destruct G as (? & ? & _); done); simplify_eq.
    by apply filter_keys_NoDup.
  Qed.

  Lemma env_eqv_dget {X} (e e' : pydict (bval X)) k v : env_eqv e e' -> dget k e = Some v ->
    exists v', dget k e' = Some v' /\ bval_eqv v v'.
  Proof.
    induction 1 as [|[k1 a] [k2 b] e e' [E Hab] He IH]; [done|]. cbn in E. subst k2. cbn.
    destruct (decide (k = k1)); [|done]. intros [= ->]. eauto.
  Qed.

  Lemma zip_rel {A B} (sig : list (param A)) (e e' : pydict (bval B)) (Q' : param A -> bval B -> bval B -> Prop) :
    Forall2 (fun p x => x.1.1 = p_name p /\ x.2.1 = p_name p /\ Q' p x.1.2 x.2.2) sig (zip e e') ->
    length e = length sig -> length e' = length sig ->
    (forall p v v', Q' p v v' -> bval_eqv v v') -> env_eqv e e'.
  Proof.
    intros HF HL HL' Hi. revert e' HL' HF. revert e HL.
    induction sig as [|p sig IH]; intros [|[k v] e] HL [|[k' v'] e'] HL' HF; try done; [constructor|].
    cbn in HF. inversion HF as [|? ? ? ? (E1 & E2 & HQ) HF']; simplify_eq/=. constructor.
    - cbn. split; [done|]. by eapply Hi.
    - apply IH; [lia|lia|done].
  Qed.

  Theorem parse_same sig ignore args kw args2 kw2 env env2 s :
    sig_ok sig -> NoDup (map fst kw) -> NoDup (map fst kw2) ->
    no_posonly_kw sig kw -> no_posonly_kw sig kw2 ->
    py_binds sig args kw env -> py_binds sig args2 kw2 env2 -> env_eqv env env2 ->
    outcome_rel eq (fun r r2 => env_eqv r.1 r2.1 /\ r.2 ≡ₚ r2.2)
      (parse_args un sig ignore args kw s) (parse_args un sig ignore args2 kw2 s).
  Proof.
    intros Hs H1 H2 Hq1 Hq2 B1 B2 Heq.
    eapply outcome_mono; [|eapply (parse_args_rel un eq (fun p v v' => bval_eqv v v' /\ (forall d, v = BDict d -> NoDup (map fst d)))
       (fun _ v v' => bval_eqv v v') okP)].
    - intros r r2 (HF & HL & HL' & Hm & N1 & N2). split.
      + eapply (zip_rel sig _ _ (fun _ v v' => bval_eqv v v')); [exact HF|done..].
      + by apply same_map_perm.
    - by apply bind_full_complete.
    - by apply bind_full_complete.
    - done.
    - intros p Hp. pose proof Hp as [i Hi]%elem_of_list_lookup.
      destruct (binds_dget _ _ _ _ _ _ Hs B1 Hi) as (v & _ & Hv & _).
      destruct (env_eqv_dget _ _ _ _ Heq Hv) as (v' & Hv' & Hvv). exists v, v'.
      split; [done|]. split; [done|]. split; [done|]. intros d ->. by apply (binds_dict_NoDup sig args kw env p d).
    - intros p v v' s0 s0' Hp [Hvv Hd] <-. by apply parse_one_eqv.
    - done.
    - split; [done|]. split; constructor.
  Qed.

  (** *** Ignored values *)
  Lemma omap_imap_ign (name : nat -> string) (t : ty) (l l' : list arg) (i : nat) :
    Forall2 (fun a a' => a = a' \/ (marked a /\ marked a')) l l' ->
    omap (fun ia : nat * arg => if is_ign ia.2 then None else Some (name ia.1, (ia.2, t))) (imap (fun j a => (i + j, a)) l) =
    omap (fun ia : nat * arg => if is_ign ia.2 then None else Some (name ia.1, (ia.2, t))) (imap (fun j a => (i + j, a)) l').
  Proof.
    intros HF. revert i. induction HF as [|a a' l l' Ha HF IH]; intros i; [done|].
    assert (forall m : list arg, imap ((fun j b => (i + j, b)) ∘ S) m = imap (fun j b => (S i + j, b)) m) as Ei.
    { intros m. apply imap_ext. intros j b _. cbn. f_equal. lia. }
    csimpl. rewrite !Ei. specialize (IH (S i)).
    destruct Ha as [->|[(b & x & ->) (b' & x' & ->)]]; csimpl.
    - destruct (is_ign a'); csimpl; [exact IH|f_equal; exact IH].
    - exact IH.
  Qed.
  Lemma parse_one_ign ignore p v v' s : differ_ignored ignore p v v' ->
    outcome_rel eq (fun r r' => True /\ r.2 = r'.2) (parse_one un ignore p v s) (parse_one un ignore p v' s).
  Proof.
    assert (Hsame : forall x : result (bval arg * list (string * (arg * ty))) * St,
      outcome_rel eq (fun r r' => True /\ r.2 = r'.2) x x).
    { intros [[a|e] s1]; (split; [done|]); done. }
    intros [a|a a' Hp|a a' (b & x & ->) (b' & x' & ->)|l l' HF|d d' HF].
    - apply Hsame.
    - cbn. rewrite !bool_decide_true by done. split; done.
    - cbn. destruct (bool_decide (p_name p ∈ ignore)); split; done.
    - split; [done|]. cbn. split; [done|].
      assert (forall m : list arg, imap pair m = imap (fun j a => (0 + j, a)) m) as E by done.
      rewrite !E. by apply (omap_imap_ign (fun i => p_name p +:+ "_" +:+ dec i)).
    - split; [done|]. cbn. split; [done|].
      induction HF as [|[k a] [k' a'] d d' [E Ha] HF IH]; [done|]. cbn in E, Ha. subst k'. csimpl.
      destruct Ha as [->|[(b & x & ->) (b' & x' & ->)]]; csimpl.
      + destruct (is_ign a'); csimpl; by rewrite IH.
      + done.
  Qed.

  Theorem parse_ignored sig ignore args kw args2 kw2 env env2 s :
    sig_ok sig -> NoDup (map fst kw) -> NoDup (map fst kw2) ->
    no_posonly_kw sig kw -> no_posonly_kw sig kw2 ->
    py_binds sig args kw env -> py_binds sig args2 kw2 env2 -> calls_differ_ignored ignore sig env env2 ->
    outcome_rel eq (fun r r2 => r.2 = r2.2)
      (parse_args un sig ignore args kw s) (parse_args un sig ignore args2 kw2 s).
  Proof.
    intros Hs H1 H2 Hq1 Hq2 B1 B2 (HL1 & HL2 & Hd).
    eapply outcome_mono; [|eapply (parse_args_rel un eq (differ_ignored ignore) (fun _ _ _ => True) eq)].
    - by intros r r2 (_ & _ & _ & ->).
    - by apply bind_full_complete.
    - by apply bind_full_complete.
    - done.
    - intros p Hp. pose proof Hp as [i Hi]%elem_of_list_lookup.
      destruct (binds_dget _ _ _ _ _ _ Hs B1 Hi) as (v & Hv & Hvd & _).
      destruct (binds_dget _ _ _ _ _ _ Hs B2 Hi) as (v' & Hv' & Hvd' & _).
      exists v, v'. split; [done|]. split; [done|]. by apply (Hd i p _ _ Hi Hv Hv').
    - intros p v v' s0 s0' Hp Hvv <-. eapply outcome_mono; [|by apply parse_one_ign].
      intros r r' [_ ->]. split; [done|]. by intros ? ? ->.
    - done.
    - done.
  Qed.

  (** *** The bound values after parsing *)
  Lemma parse_loop_bound ignore sig b acc s r s' : NoDup (map p_name sig) ->
    (forall p, p ∈ sig -> exists v, dget (p_name p) b = Some v) ->
    parse_loop un ignore sig b acc s = (Ok r, s') ->
    map fst r.1 = map p_name sig /\
    forall p v, p ∈ sig -> dget (p_name p) b = Some v -> exists s1 s2 x, parse_one un ignore p v s1 = (Ok x, s2) /\
      dget (p_name p) r.1 = Some x.1.
  Proof.
    revert acc s r s'. induction sig as [|p sig IH]; intros acc s r s' Hnd Hb; cbn [parse_loop].
    - intros [= <- _]. split; [done|]. intros q v Hq. by apply elem_of_nil in Hq.
    - cbn in Hnd. apply NoDup_cons in Hnd as [Hp Hnd].
      destruct (Hb p) as [v Hv]; [left|]. rewrite Hv. unfold bindM.
      destruct (parse_one un ignore p v s) as [[x|e] s1] eqn:Ex; [|done].
      destruct (parse_loop un ignore sig b (dupdate acc x.2) s1) as [[y|e] s2] eqn:E; [|done].
      intros [= <- _]. apply IH in E as [E1 E2]; [|done|intros; apply Hb; by right].
      split; [cbn; by rewrite E1|]. intros q w Hq Hw. cbn [dget fst].
      destruct (decide (p_name q = p_name p)) as [Eq|Hne].
      + rewrite Eq in Hw. simplify_eq. apply elem_of_cons in Hq as [->|Hq].
        * eauto 10.
        * destruct Hp. rewrite <-Eq. apply elem_of_list_fmap. eauto.
      + apply elem_of_cons in Hq as [->|Hq]; [done|]. by apply E2.
  Qed.

  (** What the parameter is bound to, given what the user passed *)
  Context {Y : Type} (val : arg -> Y).
  Hypothesis Hval : forall r s w s', un (ARef r) s = (Ok w, s') -> val w = val (ARef r).

  Lemma parse_one_value ignore p v s x s' : parse_one un ignore p v s = (Ok x, s') ->
    (p_name p ∈ ignore -> forall a, v = BOne a -> ~ marked a) ->
    map_bval val x.1 = map_bval (val ∘ unmarked) v /\
    match v, x.1 with
    | BOne _, BOne _ => True | BTuple l, BTuple l' => length l = length l'
    | BDict d, BDict d' => map fst d = map fst d' | _, _ => False end.
  Proof.
    intros E Hm. destruct v as [a|l|d]; cbn in E.
    - assert (Hnew : forall a, (forall b y, a <> AIgn b y) -> forall d0 s x s',
        bindM (match a with ARef _ => un a | _ => retM a end)
          (fun w => bindM (liftR (ceq d0 w)) (fun e : bool => if e then retM (BOne d0, [])
             else retM (BOne a, [(p_name p, (a, p_ann p))]))) s = (Ok x, s') -> exists y, x.1 = BOne y /\ val y = val a).
      { clear -Hval. intros a Hnm d0 s x s' E. unfold bindM, liftR in E.
        destruct (match a with ARef _ => un a | _ => retM a end s) as [[w|e] s1] eqn:Ew; [|done].
        assert (val w = val a) as Hw.
        { destruct a; try (by unfold retM in Ew; simplify_eq). by eapply Hval. }
        destruct (ceq d0 w) as [[]|e] eqn:Ec; unfold retM in E; simplify_eq; cbn; eauto.
        exists d0. split; [done|]. rewrite <-Hw. unfold ceq in Ec.
        destruct d0 as [v| | | |]; [|done..]. destruct w as [v'| | | |]; try (by destruct v).
        assert (v = v') as ->; [|done].
        destruct v, v'; try done; injection Ec as Ec; by apply bool_decide_eq_true in Ec. }
      assert (Hreg : forall a, (forall b y, a <> AIgn b y) -> forall s x s',
        match p_default p with
             | Some (AIgn true d) =>
                 bindM (match a with ARef _ => un a | _ => retM a end)
                   (fun w => bindM (liftR (ceq d w)) (fun e : bool => if e then retM (BOne d, [])
                      else retM (BOne a, [(p_name p, (a, p_ann p))])))
             | _ => retM (BOne a, [(p_name p, (a, p_ann p))])
        end s = (Ok x, s') -> exists y, x.1 = BOne y /\ val y = val a).
      { intros a0 Hnm s0 x0 s0' E0.
        destruct (p_default p) as [[| |[] d0| |]|]; try (unfold retM in E0; simplify_eq; cbn; eauto). }
      destruct (bool_decide (p_name p ∈ ignore)) eqn:Ep.
      + apply bool_decide_eq_true in Ep. unfold retM in E. simplify_eq. cbn. split; [|done].
        do 2 f_equal. destruct a; try done. destruct (Hm Ep _ eq_refl). eexists _, _. done.
      + destruct a as [v|r|nw a|l|l]; cbn [unmarked].
        * destruct (Hreg (AVal v) ltac:(done) _ _ _ E) as (y & -> & Ey). cbn. by rewrite Ey.
        * destruct (Hreg (ARef r) ltac:(done) _ _ _ E) as (y & -> & Ey). cbn. by rewrite Ey.
        * unfold retM in E. simplify_eq. done.
        * destruct (Hreg (AList l) ltac:(done) _ _ _ E) as (y & -> & Ey). cbn. by rewrite Ey.
        * destruct (Hreg (ADict l) ltac:(done) _ _ _ E) as (y & -> & Ey). cbn. by rewrite Ey.
    - unfold retM in E. simplify_eq. cbn. rewrite map_map, map_length. split; [|done]. f_equal.
    - unfold retM in E. simplify_eq. cbn. unfold map_kw. rewrite !map_map. done.
  Qed.

  Lemma redict {A} (l : pydict A) (d : pydict A) : NoDup (map fst l) -> map fst d = map fst l ->
    map (fun kx => (kx.1, default kx.2 (dget kx.1 d))) l = d.
  Proof.
    intros Hnd E. apply list_eq. intros i. rewrite list_lookup_fmap.
    assert (Ei : map fst d !! i = map fst l !! i) by (by rewrite E). rewrite !list_lookup_fmap in Ei.
    destruct (l !! i) as [[k x]|] eqn:El, (d !! i) as [[k' y]|] eqn:Ed; cbn in *; simplify_eq; [|done].
    f_equal. f_equal. rewrite (dget_elem k y d); [done|by rewrite E|by eapply elem_of_list_lookup_2].
  Qed.

  Definition same_shape {A B} (v : bval A) (w : bval B) : Prop :=
    match v, w with
    | BOne _, BOne _ => True | BTuple l, BTuple l' => length l = length l'
    | BDict d, BDict d' => map fst d = map fst d' | _, _ => False end.

  Definition rekw (sig : list (param arg)) (b : pydict (bval arg)) (vk : pydict arg) (kw : pydict arg) : pydict arg :=
    map (fun kx => (kx.1, if decide (kx.1 ∈ kwnames sig)
                          then match dget kx.1 b with Some (BOne y) => y | _ => kx.2 end
                          else default kx.2 (dget kx.1 vk))) kw.

  Lemma reshape sig kw env (b : pydict (bval arg)) : sig_ok sig -> NoDup (map fst kw) -> shaped sig kw env ->
    map fst b = map p_name sig ->
    (forall p, p ∈ sig -> exists v w, dget (p_name p) env = Some v /\ dget (p_name p) b = Some w /\ same_shape v w) ->
    exists kw2, map fst kw2 = map fst kw /\ shaped sig kw2 b.
  Proof.
    intros Hs Hkw Hsh Hn Hb.
    assert (Hvk : exists vk, forall p, p ∈ sig -> p_kind p = KVarKw -> dget (p_name p) b = Some (BDict vk) /\
                    map fst vk = map fst (left_of sig kw)).
    { destruct (has_kind_dec KVarKw sig) as [(p & Hp & Hk)|Hno].
      - destruct (Hb p Hp) as (v & w & Hv & Hw & Hshape).
        rewrite (sh_kw _ _ _ Hsh p Hp Hk) in Hv. simplify_eq. destruct w as [|?|vk]; try done.
        exists vk. intros q Hq Hqk. assert (q = p) as ->; [|done].
        apply elem_of_list_lookup in Hp as [i Hi]. apply elem_of_list_lookup in Hq as [j Hj].
        assert (j = i) as -> by (eapply (so_star _ Hs); eauto; congruence). congruence.
      - exists []. intros p Hp Hk. destruct Hno. by exists p. }
    destruct Hvk as [vk Hvk].
    exists (rekw sig b vk kw). split; [unfold rekw; rewrite map_map; done|].
    assert (Hleft : left_of sig (rekw sig b vk kw) = map (fun kx => (kx.1, default kx.2 (dget kx.1 vk))) (left_of sig kw)).
    { unfold left_of, rekw. generalize (kwnames sig). intros ks. clear.
      induction kw as [|[k x] kw IH]; [done|]. cbn [map]. rewrite !filter_cons. cbn [fst].
      destruct (decide (k ∉ ks)) as [Hk|Hk]; cbn [map fst snd].
      - rewrite decide_False by done. rewrite IH. done.
      - apply IH. }
    constructor.
    - done.
    - intros p Hp Hk. destruct (Hb p Hp) as (v & w & Hv & Hw & Hshape).
      destruct (sh_one _ _ _ Hsh p Hp Hk) as [x Hx]. rewrite Hv in Hx. simplify_eq. destruct w; try done. eauto.
    - intros p Hp Hk. destruct (Hb p Hp) as (v & w & Hv & Hw & Hshape).
      destruct (sh_tup _ _ _ Hsh p Hp Hk) as [x Hx]. rewrite Hv in Hx. simplify_eq. destruct w; try done. eauto.
    - intros p Hp Hk. destruct (Hvk p Hp Hk) as [-> Hk2]. rewrite Hleft. rewrite redict; [done| |done].
      by apply filter_keys_NoDup.
    - intros p x Hp Hk Hx.
      assert (p_name p ∈ kwnames sig) as Hin.
      { apply elem_of_kwnames. eauto. }
      assert (exists x0, dget (p_name p) kw = Some x0) as [x0 Hx0].
      { destruct (dget (p_name p) kw) as [x0|] eqn:E; [eauto|]. apply dget_None in E.
        apply dget_Some_elem in Hx. destruct E. 
        assert (map fst (rekw sig b vk kw) = map fst kw) as <- by (unfold rekw; rewrite map_map; done).
        apply elem_of_list_fmap. by exists (p_name p, x). }
      assert (Henv := sh_arg _ _ _ Hsh p x0 Hp Hk Hx0).
      destruct (Hb p Hp) as (v & w & Hv & Hw & Hshape). rewrite Henv in Hv. simplify_eq. destruct w as [y| |]; try done.
      rewrite Hw. do 2 f_equal. apply dget_Some_elem in Hx. unfold rekw in Hx.
      apply elem_of_list_fmap in Hx as ([k z] & E & Hz). cbn [fst snd] in E.
      injection E as E1 E2. rewrite <-E1, decide_True, Hw in E2 by done. done.
    - destruct (sh_extra _ _ _ Hsh) as [?|He]; [by left|]. right.
      intros k x Hx. unfold rekw in Hx. apply elem_of_list_fmap in Hx as ([k' z] & E & Hz). cbn [fst snd] in E.
      injection E as E1 E2. subst k'. by eapply He.
  Qed.

  Lemma env_eqv_map {A B} (f : A -> B) e e' : env_eqv e e' -> env_eqv (map_env f e) (map_env f e').
  Proof.
    induction 1 as [|[k v] [k' v'] e e' [E Hv] He IH]; [constructor|]. constructor; [|done].
    cbn in *. split; [done|]. destruct Hv; constructor. unfold map_kw. by rewrite H.
  Qed.

  Lemma parse_bound sig ignore args kw env s b ins s' :
    sig_ok sig -> NoDup (map fst kw) -> no_posonly_kw sig kw -> py_binds sig args kw env ->
    (forall p a, p ∈ sig -> p_name p ∈ ignore -> dget (p_name p) env = Some (BOne a) -> ~ marked a) ->
    parse_args un sig ignore args kw s = (Ok (b, ins), s') ->
    map fst b = map p_name sig /\
    (forall p, p ∈ sig -> exists v w, dget (p_name p) env = Some v /\ dget (p_name p) b = Some w /\ same_shape v w) /\
    map_env val b = map_env (val ∘ unmarked) env.
  Proof.
    intros Hs Hkw Hq Hpb Hm. unfold parse_args, bindM, liftR.
    rewrite (bind_full_complete sig args kw env) by done. intros E.
    assert (Hall : forall p, p ∈ sig -> exists v, dget (p_name p) env = Some v).
    { intros p [i Hi]%elem_of_list_lookup. destruct (binds_dget _ _ _ _ _ _ Hs Hpb Hi) as (v & _ & ? & _). eauto. }
    apply parse_loop_bound in E as [E1 E2]; [|apply Hs|done]. cbn [fst] in E1, E2.
    assert (Hv : forall p v, p ∈ sig -> dget (p_name p) env = Some v -> exists w, dget (p_name p) b = Some w /\
              same_shape v w /\ map_bval val w = map_bval (val ∘ unmarked) v).
    { intros p v Hp Hv. destruct (E2 p v Hp Hv) as (s1 & s2 & x & Hx & Hd). exists x.1. split; [done|].
      apply parse_one_value in Hx as [Hx1 Hx2]; [split; done|].
      intros Hign a ->. by eapply Hm. }
    split; [done|]. split.
    - intros p Hp. destruct (Hall p Hp) as [v Ev]. destruct (Hv p v Hp Ev) as (w & ? & ? & ?). eauto 10.
    - assert (Hne := binds_names _ _ _ _ Hpb).
      apply list_eq. intros i. unfold map_env. rewrite !list_lookup_fmap.
      assert (Ei : map fst env !! i = map fst b !! i) by (by rewrite Hne, E1). rewrite !list_lookup_fmap in Ei.
      destruct (env !! i) as [[k v]|] eqn:Eenv, (b !! i) as [[k' w]|] eqn:Eb; cbn in Ei; simplify_eq; [|done].
      assert (exists p, p ∈ sig /\ p_name p = k') as (p & Hp & Ek).
      { assert (k' ∈ map p_name sig) as Hin.
        { rewrite <-E1. apply elem_of_list_fmap. eexists (k', w). split; [done|]. by eapply elem_of_list_lookup_2. }
        apply elem_of_list_fmap in Hin as (p & -> & ?). eauto. }
      subst k'.
      assert (dget (p_name p) env = Some v) as Ev.
      { apply dget_elem; [rewrite Hne; apply Hs|by eapply elem_of_list_lookup_2]. }
      assert (dget (p_name p) b = Some w) as Ew.
      { apply dget_elem; [rewrite E1; apply Hs|by eapply elem_of_list_lookup_2]. }
      destruct (Hv p v Hp Ev) as (w' & Hw' & _ & Hm'). simplify_eq. cbn. by rewrite Hm'.
  Qed.

  Theorem run_binds sig ignore args kw env keys tup dct s b ins s' :
    sig_ok sig -> NoDup (map fst kw) -> kw_plain sig kw ->
    (has_kind KVarPos sig -> forall p, p ∈ sig -> p_kind p = KPosOrKw -> dget (p_name p) kw = None) ->
    py_binds sig args kw env ->
    (forall p a, p ∈ sig -> p_name p ∈ ignore -> dget (p_name p) env = Some (BOne a) -> ~ marked a) ->
    keys ≡ₚ map fst kw ->
    parse_args un sig ignore args kw s = (Ok (b, ins), s') ->
    exists args' kw', function_args tup dct sig b keys = Ok (args', kw') /\
      forall sigY, same_params sig sigY -> exists envY,
        py_call sigY (map val args') (map_kw val kw') = Ok envY /\
        env_eqv (map_env (val ∘ unmarked) env) envY.
  Proof.
    intros Hs Hkw Hpl Hstar Hpb Hm Hkeys Hparse.
    assert (Hq : no_posonly_kw sig kw).
    { intros p Hp Hk. destruct (dget (p_name p) kw) eqn:E; [|done].
      destruct (Hpl p Hp) as [Hb|Hb]; [by rewrite E|congruence..]. }
    destruct (parse_bound _ _ _ _ _ _ _ _ _ Hs Hkw Hq Hpb Hm Hparse) as (B1 & B2 & B3).
    destruct (reshape sig kw env b Hs Hkw) as (kw2 & Hk2 & Hsh); [by eapply binds_shaped|done..|].
    assert (Hdk : forall k, dget k kw2 = None <-> dget k kw = None) by (intros k; by rewrite !dget_None, Hk2).
    destruct (function_args_rebind tup dct sig kw2 b keys) as (args' & kw' & env' & F1 & F2 & F3 & F4); try done.
    - by rewrite Hk2.
    - by rewrite Hk2.
    - intros p Hp Hne. apply Hpl; [done|]. intros E. by apply Hne, Hdk.
    - intros Hv p Hp Hk. apply Hdk. by apply Hstar.
    - exists args', kw'. split; [done|]. intros sigY Hsame. exists (map_env val env'). split.
      + apply py_call_iff. by apply F4.
      + rewrite <-B3. by apply env_eqv_map.
  Qed.

  (** In mode noop markers are removed once more *)
  Lemma parse_one_value_noop ignore p v s x s' :
    map_bval (val ∘ unmarked) v = map_bval val v -> parse_one un ignore p v s = (Ok x, s') ->
    map_bval val x.1 = map_bval val v /\ same_shape v x.1.
  Proof.
    intros Hum E.
    destruct (decide (p_name p ∈ ignore)) as [Hin|Hin].
    - destruct v as [a|l|d].
      + cbn in E. rewrite bool_decide_true in E by done. unfold retM in E. by simplify_eq.
      + rewrite <-Hum. apply (parse_one_value ignore p _ s x s' E). done.
      + rewrite <-Hum. apply (parse_one_value ignore p _ s x s' E). done.
    - rewrite <-Hum. apply (parse_one_value ignore p v s x s' E). done.
  Qed.

  Theorem noop_binds sig ignore args kw env s b ins s' :
    sig_ok sig -> NoDup (map fst kw) -> no_posonly_kw sig kw -> py_binds sig args kw env ->
    (forall k v, (k, v) ∈ env -> map_bval (val ∘ unmarked) v = map_bval val v) ->
    parse_args un sig ignore args kw s = (Ok (b, ins), s') ->
    exists args' kw', boundargs_to_args_kwargs sig b = Ok (args', kw') /\
      forall sigY, same_params sig sigY ->
        py_call sigY (map val args') (map_kw val kw') = Ok (map_env val env).
  Proof.
    intros Hs Hkw Hq Hpb Hum. unfold parse_args, bindM, liftR.
    rewrite (bind_full_complete sig args kw env) by done. intros E.
    assert (Hall : forall p, p ∈ sig -> exists v, dget (p_name p) env = Some v).
    { intros p [i Hi]%elem_of_list_lookup. destruct (binds_dget _ _ _ _ _ _ Hs Hpb Hi) as (v & _ & ? & _). eauto. }
    apply parse_loop_bound in E as [E1 E2]; [|apply Hs|done]. cbn [fst] in E1, E2.
    assert (Hv : forall p v, p ∈ sig -> dget (p_name p) env = Some v -> exists w, dget (p_name p) b = Some w /\
              same_shape v w /\ map_bval val w = map_bval val v).
    { intros p v Hp Hv. destruct (E2 p v Hp Hv) as (s1 & s2 & x & Hx & Hd). exists x.1. split; [done|].
      apply parse_one_value_noop in Hx as [Hx1 Hx2]; [split; done|]. eapply Hum. by apply dget_Some_elem. }
    destruct (reshape sig kw env b Hs Hkw) as (kw2 & Hk2 & Hsh); [by eapply binds_shaped|done| |].
    { intros p Hp. destruct (Hall p Hp) as [v Ev]. destruct (Hv p v Hp Ev) as (w & ? & ? & ?). eauto 10. }
    destruct (boundargs_rebind sig kw2 b) as (args' & kw' & F1 & F2 & F3); [done|by rewrite Hk2|done|].
    exists args', kw'. split; [done|]. intros sigY Hsame. apply py_call_iff.
    assert (map_env val env = map_env val b) as ->; [|by apply F3].
    assert (Hne := binds_names _ _ _ _ Hpb).
    apply list_eq. intros i. unfold map_env. rewrite !list_lookup_fmap.
    assert (Ei : map fst env !! i = map fst b !! i) by (by rewrite Hne, E1). rewrite !list_lookup_fmap in Ei.
    destruct (env !! i) as [[k v]|] eqn:Eenv, (b !! i) as [[k' w]|] eqn:Eb; cbn in Ei; simplify_eq; [|done].
    assert (exists p, p ∈ sig /\ p_name p = k') as (p & Hp & Ek).
    { assert (k' ∈ map p_name sig) as Hin.
      { rewrite <-E1. apply elem_of_list_fmap. eexists (k', w). split; [done|]. by eapply elem_of_list_lookup_2. }
      apply elem_of_list_fmap in Hin as (p & -> & ?). eauto. }
    subst k'.
    assert (dget (p_name p) env = Some v) as Ev.
    { apply dget_elem; [rewrite Hne; apply Hs|by eapply elem_of_list_lookup_2]. }
    assert (dget (p_name p) b = Some w) as Ew.
    { apply dget_elem; [rewrite E1; apply Hs|by eapply elem_of_list_lookup_2]. }
    destruct (Hv p v Hp Ev) as (w' & Hw' & _ & Hm'). simplify_eq. cbn. by rewrite Hm'.
  Qed.
End parse2.

(** *** New parameters with defaults *)
Section newarg.
  Context {St : Type} (un : arg -> M St arg).
  Context (G0 : St -> Prop).
  Hypothesis Hun : stable un G0.
  Notation any := (both G0).

  Lemma parse_one_stateless ignore p v s s' : G0 s -> G0 s' ->
    outcome_rel any eq (parse_one un ignore p v s) (parse_one un ignore p v s').
  Proof using Hun.
    intros Hs1 Hs2.
    assert (Hr : forall (r : bval arg * list (string * (arg * ty))), outcome_rel any eq (retM r s) (retM r s')) by done.
    destruct v as [a|l|d]; cbn; try apply Hr.
    destruct (if bool_decide (p_name p ∈ ignore) then AIgn false a else a) as [v|r|nw a'|l|l]; try apply Hr;
      (destruct (p_default p) as [[| |[] d0| |]|]; try apply Hr);
      (eapply (outcome_bind any eq);
       [first [done|destruct (Hun (ARef r) s Hs1) as [G1 G2]; destruct (Hun (ARef r) s' Hs2) as [G3 _];
        split; [done|]; rewrite (G2 s') by done; destruct (un (ARef r) s').1; done]
       |intros w ? s1 s1' ? <-; eapply (outcome_bind any eq);
        [split; [done|]; cbn; by destruct (ceq d0 w)|intros e ? s2 s2' ? <-; by destruct e]]).
  Qed.

  Lemma loop_insert (P : pydict (arg * ty) -> pydict (arg * ty) -> Prop) ignore p v l0 s1 s2 b b' acc s s' :
    (forall l acc acc', P acc' acc -> P (dupdate acc' l) (dupdate acc l)) ->
    (forall acc, P (dupdate acc l0) acc) ->
    (forall s, G0 s -> exists w s'', parse_one un ignore p v s = (Ok (w, l0), s'') /\ G0 s'') ->
    dget (p_name p) b' = Some v -> G0 s -> G0 s' ->
    (forall q, q ∈ s1 ++ s2 -> exists v, dget (p_name q) b = Some v /\ dget (p_name q) b' = Some v) ->
    outcome_rel any (fun r' r => P r'.2 r.2)
      (parse_loop un ignore (s1 ++ p :: s2) b' acc s') (parse_loop un ignore (s1 ++ s2) b acc s).
  Proof using Hun.
    intros HP HP0 Hone Hv. revert acc s s'. induction s1 as [|q s1 IH]; intros acc s s' Hs1 Hs2 Hb.
    - cbn [app parse_loop]. rewrite Hv. destruct (Hone s') as (w & s'' & E & Hs3); [done|].
      unfold bindM at 1. rewrite E. cbn [snd].
      assert (G := loop_rel un any (fun _ v v' => v = v') (fun _ _ _ => True) P ignore s2 b' b
                (dupdate acc l0) acc s'' s).
      destruct G as [Gs G].
      + intros q Hq. destruct (Hb q Hq) as (u & ? & ?). eauto.
      + intros q u u' t t' Hq -> [? ?]. eapply outcome_mono; [|by apply parse_one_stateless].
        intros r ? <-. split; [done|]. intros. by apply HP.
      + done.
      + by apply HP0.
      + unfold bindM. destruct (parse_loop un ignore s2 b' (dupdate acc l0) s'') as [[r|e] t],
          (parse_loop un ignore s2 b acc s) as [[r'|e'] t']; cbn in G; try done.
        split; [done|]. cbn. by destruct G as (_ & _ & _ & ?).
    - cbn [app parse_loop]. destruct (Hb q) as (u & E1 & E2); [left|]. rewrite E1, E2.
      eapply (outcome_bind any eq); [by apply parse_one_stateless|].
      intros r ? t t' [? ?] <-. eapply (outcome_bind any (fun r' r => P r'.2 r.2)).
      + apply IH; [done..|]. intros q' Hq'. apply Hb. by right.
      + intros x y t2 t2' ? Hxy. split; [done|]. done.
  Qed.

  Lemma binds_insert (s1 s2 : list (param arg)) p (e1 e2 : pydict (bval arg)) a args args' kw kw' q :
    sig_ok (s1 ++ p :: s2) -> py_binds (s1 ++ s2) args kw (e1 ++ e2) ->
    py_binds (s1 ++ p :: s2) args' kw' (e1 ++ (p_name p, BOne a) :: e2) ->
    q ∈ s1 ++ s2 -> exists v, dget (p_name q) (e1 ++ e2) = Some v /\
      dget (p_name q) (e1 ++ (p_name p, BOne a) :: e2) = Some v.
  Proof.
    intros Hs B B' Hq.
    assert (Hne : p_name q <> p_name p).
    { pose proof (so_names _ Hs) as Hn. rewrite map_app in Hn. cbn in Hn.
      apply NoDup_app in Hn as (_ & Hd & Hn). apply NoDup_cons in Hn as [Hp _].
      intros E. apply elem_of_app in Hq as [Hq|Hq].
      - eapply (Hd (p_name q)); [apply elem_of_list_fmap; eauto|rewrite E; left].
      - apply Hp. rewrite <-E. apply elem_of_list_fmap; eauto. }
    assert (dget (p_name q) (e1 ++ e2) = dget (p_name q) (e1 ++ (p_name p, BOne a) :: e2)) as <-.
    { clear -Hne. induction e1 as [|[k w] e1 IH]; cbn; [by rewrite decide_False|]. by rewrite IH. }
    destruct (dget (p_name q) (e1 ++ e2)) as [v|] eqn:E; [eauto|]. apply dget_None in E.
    rewrite (binds_names _ _ _ _ B) in E. destruct E. apply elem_of_list_fmap. eauto.
  Qed.

  Theorem new_default s1 s2 p d a ignore (e1 e2 : pydict (bval arg)) args args' kw kw' s s' :
    sig_ok (s1 ++ p :: s2) -> sig_ok (s1 ++ s2) -> by_keyword (p_kind p) ->
    p_default p = Some (AIgn true d) -> p_name p ∉ ignore ->
    NoDup (map fst kw) -> NoDup (map fst kw') ->
    no_posonly_kw (s1 ++ s2) kw -> no_posonly_kw (s1 ++ p :: s2) kw' ->
    py_binds (s1 ++ s2) args kw (e1 ++ e2) -> length e1 = length s1 ->
    py_binds (s1 ++ p :: s2) args' kw' (e1 ++ (p_name p, BOne a) :: e2) -> G0 s -> G0 s' ->
    (is_default un G0 d a ->
     outcome_rel any (fun r' r => r'.2 = r.2)
       (parse_args un (s1 ++ p :: s2) ignore args' kw' s') (parse_args un (s1 ++ s2) ignore args kw s)) /\
    (not_default un G0 d a ->
     outcome_rel any (fun r' r => (forall k, k <> p_name p -> dget k r'.2 = dget k r.2) /\
         (p_name p ∉ map fst r.2 -> dget (p_name p) r'.2 = Some (a, p_ann p)))
       (parse_args un (s1 ++ p :: s2) ignore args' kw' s') (parse_args un (s1 ++ s2) ignore args kw s)).
  Proof using Hun.
    intros Hs' Hs Hk Hd Hig Hkw Hkw' Hq Hq' B Hlen B' Gs Gs'.
    assert (Hv : dget (p_name p) (e1 ++ (p_name p, BOne a) :: e2) = Some (BOne a)).
    { apply dget_elem; [|apply elem_of_app; right; left]. rewrite (binds_names _ _ _ _ B'). apply Hs'. }
    unfold parse_args, bindM, liftR.
    rewrite (bind_full_complete _ _ _ _ Hs Hkw Hq B), (bind_full_complete _ _ _ _ Hs' Hkw' Hq' B').
    assert (Hbb : forall q, q ∈ s1 ++ s2 -> exists v, dget (p_name q) (e1 ++ e2) = Some v /\
      dget (p_name q) (e1 ++ (p_name p, BOne a) :: e2) = Some v).
    { intros q Hq2. by eapply binds_insert. }
    split.
    - intros Hdef. apply (loop_insert eq ignore p (BOne a) []); try done.
      + by intros l acc acc' ->.
      + intros t Ht. cbn. rewrite bool_decide_false by done. destruct Hdef as [(nb & x & ->)|(v & -> & Hnp & Hcase)].
        { eexists _, _. done. }
        destruct Hcase as [->|(r & -> & Hr)]; rewrite Hd.
        * unfold bindM, liftR, retM. cbn. assert (ceq (AVal v) (AVal v) = Ok true) as Ec.
          { cbn. destruct v; try (by rewrite bool_decide_true). by destruct (Hnp id v). }
          cbn in Ec. rewrite Ec. by eexists _, _.
        * unfold bindM, liftR, retM. specialize (Hr t Ht). destruct (Hun (ARef r) t Ht) as [Ht2 _].
          destruct (un (ARef r) t) as [o t']. cbn in Hr, Ht2. subst o.
          assert (ceq (AVal v) (AVal v) = Ok true) as ->.
          { cbn. destruct v; try (by rewrite bool_decide_true). by destruct (Hnp id v). }
          by eexists _, _.
    - intros (Hnm & w & Hw & Hne & Hnp).
      apply (outcome_mono any (fun r' r => (forall k, k <> p_name p -> dget k r'.2 = dget k r.2) /\
         (p_name p ∈ map fst r.2 \/ dget (p_name p) r'.2 = Some (a, p_ann p)))).
      { intros r' r [G1 G2]. split; [done|]. intros Hn. by destruct G2. }
      assert (Hdg : forall (k : string) (l acc acc' : pydict (arg * ty)), dget k acc' = dget k acc -> dget k (dupdate acc' l) = dget k (dupdate acc l)).
      { clear. intros k l. induction l as [|[k1 v1] l IH]; intros acc acc' E; [done|]. cbn. apply IH.
        destruct (decide (k1 = k)) as [->|Hn]; [by rewrite !dget_dset_eq|by rewrite !dget_dset_ne]. }
      assert (Hkeys : forall (k : string) (l acc : pydict (arg * ty)), k ∈ map fst (dupdate acc l) <-> k ∈ map fst acc \/ k ∈ map fst l).
      { clear. intros k l. induction l as [|[k1 v1] l IH]; intros acc.
        - cbn. rewrite elem_of_nil. tauto.
        - change (dupdate acc ((k1, v1) :: l)) with (dupdate (dset k1 v1 acc) l).
          rewrite IH, dset_keys. cbn [map fst]. rewrite elem_of_cons. destruct (decide (k1 ∈ map fst acc)) as [Hin|Hin].
          + split; [tauto|]. intros [?|[->|?]]; tauto.
          + rewrite elem_of_app, elem_of_list_singleton. tauto. }
      apply (loop_insert (fun a' b0 => (forall k, k <> p_name p -> dget k a' = dget k b0) /\
         (p_name p ∈ map fst b0 \/ dget (p_name p) a' = Some (a, p_ann p))) ignore p (BOne a) [(p_name p, (a, p_ann p))]); try done.
      + intros l acc acc' [G1 G2]. split; [intros; apply Hdg; auto|].
        destruct (decide (p_name p ∈ map fst (dupdate acc l))) as [|Hn]; [by left|]. right.
        rewrite Hkeys in Hn. destruct G2 as [?|G2]; [tauto|]. rewrite <-G2.
        clear -Hn. revert acc'. assert (Hnl : p_name p ∉ map fst l) by tauto. clear Hn.
        induction l as [|[k1 v1] l IH]; intros acc'; [done|].
        change (dupdate acc' ((k1, v1) :: l)) with (dupdate (dset k1 v1 acc') l).
        cbn [map fst] in Hnl. apply not_elem_of_cons in Hnl as [Hn1 Hn2]. rewrite IH by done.
        by apply dget_dset_ne.
      + intros acc. cbn. split; [intros k Hk1; rewrite dget_dset_ne by done; auto|].
        right. by rewrite dget_dset_eq.
      + intros t Ht. cbn. rewrite bool_decide_false by done.
        assert (Hce : ceq d w = Ok false).
        { unfold ceq. destruct d as [v| | | |]; try done. destruct v; destruct w as [v'| | | |]; try done;
            try (f_equal; apply bool_decide_false; congruence).
          by destruct (Hnp id v). }
        destruct a as [v|r|nw a'|l|l]; rewrite ?Hd.
        * subst w. unfold bindM, liftR, retM. rewrite Hce. by eexists _, _.
        * unfold bindM, liftR, retM. specialize (Hw t Ht). destruct (Hun (ARef r) t Ht) as [Ht2 _].
          destruct (un (ARef r) t) as [o t']. cbn in Hw, Ht2. subst o.
          rewrite Hce. by eexists _, _.
        * destruct Hnm. by eexists _, _.
        * subst w. unfold bindM, liftR, retM. rewrite Hce. by eexists _, _.
        * subst w. unfold bindM, liftR, retM. rewrite Hce. by eexists _, _.
  Qed.
End newarg.

(** *** Identifiers of calls *)
Section ids.
  Context (H : pyval -> string).

  Lemma id_dict_iff (f : ref -> string) (ins ins' : pydict ref) :
    canon (map (fun kr => (kr.1, VStr (f kr.2))) ins) = canon (map (fun kr => (kr.1, VStr (f kr.2))) ins') <->
    forall k, f <$> dget k ins = f <$> dget k ins'.
  Proof.
    rewrite canon_same. unfold same_map. split; intros E k; specialize (E k).
    - rewrite !(dget_map_val (fun r => VStr (f r))) in E.
      destruct (dget k ins), (dget k ins'); cbn in *; congruence.
    - rewrite !(dget_map_val (fun r => VStr (f r))).
      destruct (dget k ins), (dget k ins'); cbn in *; congruence.
  Qed.
  Lemma hid_dict_perm ins ins' : NoDup (map fst ins) -> ins ≡ₚ ins' -> hid_dict ins = hid_dict ins'.
  Proof.
    intros Hnd Hp. unfold hid_dict. f_equal. apply (id_dict_iff rhid). intros k. f_equal. by apply dget_Permutation.
  Qed.
  Lemma cid_dict_perm ins ins' : NoDup (map fst ins) -> ins ≡ₚ ins' -> cid_dict ins = cid_dict ins'.
  Proof.
    intros Hnd Hp. unfold cid_dict. f_equal. apply (id_dict_iff rcid). intros k. f_equal. by apply dget_Permutation.
  Qed.
  Lemma ids_of_perm o sem ins ins' : NoDup (map fst ins) -> ins ≡ₚ ins' -> ids_of H o sem ins = ids_of H o sem ins'.
  Proof.
    intros Hnd Hp. unfold ids_of, call_cid, call_hid.
    by rewrite (hid_dict_perm _ _ Hnd Hp), (cid_dict_perm _ _ Hnd Hp).
  Qed.

  Lemma call_hid_iff `{!Inj (=) (=) H} o o' ins ins' sem sem' :
    call_hid H o ins sem = call_hid H o' ins' sem' <->
    op_name o = op_name o' /\ op_version o = op_version o' /\ sem = sem' /\
    forall k, rhid <$> dget k ins = rhid <$> dget k ins'.
  Proof.
    unfold call_hid, hid_dict. split.
    - intros E%(inj H). rewrite <-(id_dict_iff rhid). destruct sem, sem'; by simplify_eq/=.
    - intros (-> & -> & -> & E). by rewrite <-(id_dict_iff rhid) in E; rewrite E.
  Qed.
  Lemma call_cid_iff `{!Inj (=) (=) H} o o' ins ins' sem sem' :
    call_cid H o ins sem = call_cid H o' ins' sem' <->
    op_name o = op_name o' /\ op_version o = op_version o' /\ sem = sem' /\
    forall k, rcid <$> dget k ins = rcid <$> dget k ins'.
  Proof.
    unfold call_cid, cid_dict. split.
    - intros E%(inj H). rewrite <-(id_dict_iff rcid). destruct sem, sem'; by simplify_eq/=.
    - intros (-> & -> & -> & E). by rewrite <-(id_dict_iff rcid) in E; rewrite E.
  Qed.

  Lemma input_ids_keys i ids : input_ids H i = Ok ids -> map fst ids = map fst i.
  Proof.
    unfold input_ids. revert ids. induction i as [|[k [a t]] i IH]; intros ids; cbn.
    - by intros [= <-].
    - destruct (ident H t a) as [x|e]; [|done]. cbn.
      destruct (mapR _ i) as [l|e] eqn:E; [|done]. cbn. intros [= <-]. cbn. f_equal. by apply IH.
  Qed.
  Lemma input_ids_dget i ids k : input_ids H i = Ok ids ->
    match dget k i with
    | Some (a, t) => exists x, ident H t a = Ok x /\ dget k ids = Some (idref x)
    | None => dget k ids = None
    end.
  Proof.
    unfold input_ids. revert ids. induction i as [|[k' [a t]] i IH]; intros ids; cbn.
    - by intros [= <-].
    - destruct (ident H t a) as [x|e] eqn:Ex; [|done]. cbn.
      destruct (mapR _ i) as [l|e] eqn:E; [|done]. cbn. intros [= <-]. cbn.
      destruct (decide (k = k')); [eauto|]. by apply IH.
  Qed.
  Lemma input_ids_perm i i' ids : i ≡ₚ i' -> input_ids H i = Ok ids ->
    exists ids', input_ids H i' = Ok ids' /\ ids ≡ₚ ids'.
  Proof.
    intros Hp. revert ids. unfold input_ids.
    set (f := fun kat : string * (arg * ty) => _).
    induction Hp as [|x l l' Hp IH|x y l|l1 l2 l3 H1 IH1 H2 IH2]; intros ids E.
    - eauto.
    - cbn in *. destruct (f x) as [z|]; [|done]. cbn in *. destruct (mapR f l) as [zs|]; [|done]. cbn in *. simplify_eq.
      destruct (IH _ eq_refl) as (zs' & -> & Hp'). cbn. eexists. split; [done|]. by rewrite Hp'.
    - cbn in *. destruct (f y) as [z|]; [|done]. cbn in *. destruct (f x) as [z'|]; [|done]. cbn in *.
      destruct (mapR f l) as [zs|]; [|done]. cbn in *. simplify_eq. eexists. split; [done|]. apply perm_swap.
    - destruct (IH1 _ E) as (z & E2 & P1). destruct (IH2 _ E2) as (z' & E3 & P2). exists z'. split; [done|]. by rewrite P1.
  Qed.

  Lemma ident_atom v : (forall i o, v <> VPtr i o) -> ident H TAtom (AVal v) = Ok (H v, H (VStr (H v))).
  Proof. intros Hn. destruct v; try done. by destruct (Hn id v). Qed.
End ids.

(** *** Different bindings give different inputs *)
Section entries.
  Context {St : Type} (un : arg -> M St arg).

  Definition argeqb (d a : arg) : bool :=
    match d, a with AVal v, AVal w => bool_decide (v = w) | _, _ => false end.
  Definition entries (p : param arg) (v : bval arg) : list (string * (arg * ty)) :=
    match v with
    | BOne a => match p_default p with
                | Some (AIgn true d) => if argeqb d a then [] else [(p_name p, (a, p_ann p))]
                | _ => [(p_name p, (a, p_ann p))]
                end
    | BTuple l => imap (fun i a => (p_name p +:+ "_" +:+ dec i, (a, p_ann p))) l
    | BDict d => map (fun ka => (ka.1, (ka.2, p_ann p))) d
    end.

  Lemma parse_one_entries p v s : plain_bval v -> exists w, parse_one un [] p v s = (Ok (w, entries p v), s).
  Proof.
    destruct v as [a|l|d]; cbn [plain_bval].
    - intros (v & -> & Hv). unfold parse_one. rewrite bool_decide_false by (by intros ?%elem_of_nil).
      cbn [entries]. destruct (p_default p) as [[| |[] d| |]|]; try (eexists; done).
      unfold bindM, liftR, retM.
      assert (ceq d (AVal v) = Ok (argeqb d (AVal v))) as ->.
      { destruct d as [v'| | | |]; try done. cbn. destruct v'; try done. destruct v; try done. by destruct (Hv id0 v). }
      by destruct (argeqb d (AVal v)); eexists.
    - intros Hl. eexists. unfold parse_one, retM. cbn [entries]. do 3 f_equal.
      assert (forall i, omap (fun ia : nat * arg => if is_ign ia.2 then None else Some (p_name p +:+ "_" +:+ dec ia.1, (ia.2, p_ann p)))
                 (imap (fun j a => (i + j, a)) l) = imap (fun j a => (p_name p +:+ "_" +:+ dec (i + j), (a, p_ann p))) l) as E.
      { induction Hl as [|a l (v & -> & Hv) Hl IH]; intros i; [done|]. csimpl. f_equal.
        - rewrite (imap_ext _ (fun j a => (S i + j, a)) l) by (intros; cbn; f_equal; lia).
          rewrite IH. apply imap_ext. intros j a _. cbn. do 3 f_equal. f_equal. lia. }
      apply (E 0).
    - intros Hd. eexists. unfold parse_one, retM. cbn [entries]. do 3 f_equal.
      induction Hd as [|[k a] d (v & Ev & Hv) Hd IH]; [done|]. cbn in Ev. subst a. csimpl. by f_equal.
  Qed.

  Definition ent (sig : list (param arg)) (env : pydict (bval arg)) : list (string * (arg * ty)) :=
    concat (map (fun p => match dget (p_name p) env with Some v => entries p v | None => [] end) sig).

  Lemma parse_loop_ent sig env acc s : (forall p v, p ∈ sig -> dget (p_name p) env = Some v -> plain_bval v) ->
    exists b, parse_loop un [] sig env acc s = (Ok (b, dupdate acc (ent sig env)), s).
  Proof.
    revert acc. induction sig as [|p sig IH]; intros acc Hp; [by exists []|].
    cbn [parse_loop ent map concat].
    assert (IH' := fun acc => IH acc (fun q v Hq => Hp q v ltac:(by right))).
    destruct (dget (p_name p) env) as [v|] eqn:E; [|apply IH'].
    destruct (parse_one_entries p v s (Hp p v ltac:(left) E)) as [w Ew]. unfold bindM at 1. rewrite Ew. cbn [fst snd].
    destruct (IH' (dupdate acc (entries p v))) as [b Eb]. unfold bindM, retM. rewrite Eb. cbn [fst snd].
    eexists. unfold dupdate. by rewrite fold_left_app.
  Qed.

  Lemma string_app_inj (a b c : string) : a +:+ b = a +:+ c -> b = c.
  Proof. induction a as [|x a IH]; cbn; [done|]. intros [= E]. auto. Qed.
  Lemma dec_inj i j : dec i = dec j -> i = j.
  Proof. intros E. assert (parse_int (dec i) = parse_int (dec j)) as E2 by (by rewrite E). rewrite !parse_int_dec in E2. congruence. Qed.
  Lemma argname_inj n i j : n +:+ "_" +:+ dec i = n +:+ "_" +:+ dec j -> i = j.
  Proof. intros E%string_app_inj%string_app_inj. by apply dec_inj. Qed.

  Lemma entries_key p v k x : (k, x) ∈ entries p v ->
    (exists a, v = BOne a /\ k = p_name p) \/
    (exists l i a, v = BTuple l /\ l !! i = Some a /\ k = p_name p +:+ "_" +:+ dec i) \/
    (exists d, v = BDict d /\ k ∈ map fst d).
  Proof.
    destruct v as [a|l|d]; cbn.
    - intros Hin. left. exists a. split; [done|].
      destruct (p_default p) as [[| |[] d| |]|]; try (by apply elem_of_list_singleton in Hin; simplify_eq).
      destruct (argeqb d a); [by apply elem_of_nil in Hin|by apply elem_of_list_singleton in Hin; simplify_eq].
    - intros Hin. right; left. apply elem_of_lookup_imap in Hin as (i & a & E & Hi). simplify_eq. eauto 10.
    - intros Hin. right; right. exists d. split; [done|]. apply elem_of_list_fmap in Hin as ([k' a] & E & Hin).
      simplify_eq/=. apply elem_of_list_fmap. by exists (k', a).
  Qed.
  Lemma entries_NoDup p v : (forall d, v = BDict d -> NoDup (map fst d)) -> NoDup (map fst (entries p v)).
  Proof.
    destruct v as [a|l|d]; cbn; intros Hd.
    - destruct (p_default p) as [[| |[] d| |]|]; try apply NoDup_singleton.
      destruct (argeqb d a); [constructor|apply NoDup_singleton].
    - apply NoDup_alt. intros i j k Hi Hj. rewrite !list_lookup_fmap, !list_lookup_imap in Hi, Hj.
      destruct (l !! i), (l !! j); cbn in *; try done.
      injection Hi as Hi. injection Hj as Hj. rewrite <-Hj in Hi. by apply argname_inj in Hi.
    - rewrite map_map. cbn. by apply Hd.
  Qed.

  Lemma elem_ent sig env k x : (k, x) ∈ ent sig env <->
    exists p v, p ∈ sig /\ dget (p_name p) env = Some v /\ (k, x) ∈ entries p v.
  Proof.
    unfold ent. induction sig as [|p sig IH]; cbn.
    - rewrite elem_of_nil. split; [done|]. intros (p & v & Hp & _). by apply elem_of_nil in Hp.
    - rewrite elem_of_app, IH. split.
      + intros [Hin|(q & v & ? & ? & ?)].
        * destruct (dget (p_name p) env) as [v|] eqn:E; [|by apply elem_of_nil in Hin].
          exists p, v. split; [left|done].
        * exists q, v. split; [by right|done].
      + intros (q & v & Hq & Hv & Hin). apply elem_of_cons in Hq as [->|Hq].
        * left. by rewrite Hv.
        * right. eauto.
  Qed.

  (** bindings of a call *)
  Definition bindings_ok (sig : list (param arg)) (kw : pydict arg) (env : pydict (bval arg)) : Prop :=
    shaped sig kw env /\ NoDup (map fst kw) /\ ~ names_clash sig env /\
    forall p v, p ∈ sig -> dget (p_name p) env = Some v -> plain_bval v.

  Lemma shape_kind (sig : list (param arg)) (kw : pydict arg) (env : pydict (bval arg)) p v : shaped sig kw env -> p ∈ sig -> dget (p_name p) env = Some v ->
    match p_kind p with
    | KVarPos => exists l, v = BTuple l
    | KVarKw => v = BDict (left_of sig kw)
    | _ => exists a, v = BOne a
    end.
  Proof.
    intros Hsh Hp Hv. destruct (p_kind p) eqn:Ek.
    - destruct (sh_one _ _ _ Hsh p Hp) as [x Hx]; [left; left; done|]. rewrite Hv in Hx. simplify_eq. eauto.
    - destruct (sh_one _ _ _ Hsh p Hp) as [x Hx]; [left; right; done|]. rewrite Hv in Hx. simplify_eq. eauto.
    - destruct (sh_tup _ _ _ Hsh p Hp Ek) as [x Hx]. rewrite Hv in Hx. simplify_eq. eauto.
    - destruct (sh_one _ _ _ Hsh p Hp) as [x Hx]; [right; done|]. rewrite Hv in Hx. simplify_eq. eauto.
    - pose proof (sh_kw _ _ _ Hsh p Hp Ek) as Hx. rewrite Hv in Hx. by simplify_eq.
  Qed.

  (** which parameter owns a key *)
  Lemma owner sig kw env p q v w k x y : sig_ok sig -> bindings_ok sig kw env ->
    p ∈ sig -> q ∈ sig -> dget (p_name p) env = Some v -> dget (p_name q) env = Some w ->
    (k, x) ∈ entries p v -> (k, y) ∈ entries q w -> p = q.
  Proof.
    intros Hs (Hsh & Hkw & Hnc & _) Hp Hq Hv Hw Hx Hy.
    pose proof (shape_kind _ _ _ _ _ Hsh Hp Hv) as Sv. pose proof (shape_kind _ _ _ _ _ Hsh Hq Hw) as Sw.
    assert (Hname : p_name p = p_name q -> p = q).
    { intros E. apply elem_of_list_lookup in Hp as [i Hi], Hq as [j Hj].
      destruct (sig_index _ _ _ _ _ Hs Hi Hj E). congruence. }
    assert (Hstar : p_kind p = p_kind q -> p_kind p = KVarPos \/ p_kind p = KVarKw -> p = q).
    { intros E Hk. apply elem_of_list_lookup in Hp as [i Hi], Hq as [j Hj].
      assert (i = j) as -> by (by eapply (so_star _ Hs)). congruence. }
    apply entries_key in Hx as [(a & -> & ->)|[(l & i & a & -> & Hi & ->)|(d & -> & Hd)]];
      apply entries_key in Hy as [(a' & -> & E)|[(l' & i' & a' & -> & Hi' & E)|(d' & -> & Hd')]].
    - auto.
    - destruct Hnc. left. exists q, i', p. split; [done|]. split; [|done].
      destruct (p_kind q); try (by destruct Sw); done.
    - destruct (p_kind q) eqn:Ekq; try (by destruct Sw). simplify_eq.
      assert (p_name p ∉ kwnames sig) as Hnk.
      { apply elem_of_list_fmap in Hd' as ([k1 z] & -> & Hin). by apply elem_of_list_filter in Hin as [? _]. }
      assert (p_kind p = KPosOnly) as Ekp.
      { destruct (p_kind p) eqn:Ekp; try (by destruct Sv); try done; destruct Hnk; apply elem_of_kwnames;
          exists p; (split; [done|]); (split; [done|]); rewrite Ekp; unfold by_keyword; auto. }
      destruct Hnc. right; right. exists p, q, (left_of sig kw), (p_name p). done.
    - destruct Hnc. left. exists p, i, q. split; [done|]. split; [|done].
      destruct (p_kind p); try (by destruct Sv); done.
    - apply Hstar.
      + destruct (p_kind p); try (by destruct Sv); destruct (p_kind q); try (by destruct Sw); done.
      + left. destruct (p_kind p); try (by destruct Sv); done.
    - destruct Hnc. right; left. exists p, i, q, d', (p_name p +:+ "_" +:+ dec i).
      split; [done|]. split; [destruct (p_kind p); try (by destruct Sv); done|]. split; [done|].
      split; [destruct (p_kind q); try (by destruct Sw); done|]. done.
    - destruct (p_kind p) eqn:Ekp; try (by destruct Sv). simplify_eq.
      assert (p_name q ∉ kwnames sig) as Hnk.
      { apply elem_of_list_fmap in Hd as ([k1 z] & E & Hin). cbn in E. subst k1. by apply elem_of_list_filter in Hin as [? _]. }
      assert (p_kind q = KPosOnly) as Ekq.
      { destruct (p_kind q) eqn:Ekq; try (by destruct Sw); try done; destruct Hnk; apply elem_of_kwnames;
          exists q; (split; [done|]); (split; [done|]); rewrite Ekq; unfold by_keyword; auto. }
      destruct Hnc. right; right. exists q, p, (left_of sig kw), (p_name q). done.
    - subst k. destruct Hnc. right; left. exists q, i', p, d, (p_name q +:+ "_" +:+ dec i').
      split; [done|]. split; [destruct (p_kind q); try (by destruct Sw); done|]. split; [done|].
      split; [destruct (p_kind p); try (by destruct Sv); done|]. done.
    - apply Hstar.
      + destruct (p_kind p); try (by destruct Sv); destruct (p_kind q); try (by destruct Sw); done.
      + right. destruct (p_kind p); try (by destruct Sv); done.
  Qed.

  Lemma ent_NoDup sig kw env : sig_ok sig -> bindings_ok sig kw env -> NoDup (map fst (ent sig env)).
  Proof.
    intros Hs Hb.
    assert (Hsub : forall sig', (forall p, p ∈ sig' -> p ∈ sig) -> NoDup sig' -> NoDup (map fst (ent sig' env))).
    { intros sig'. induction sig' as [|p sig' IH]; intros Hin Hnd; [constructor|].
      apply NoDup_cons in Hnd as [Hp Hnd].
      change (ent (p :: sig') env) with ((match dget (p_name p) env with Some v => entries p v | None => [] end) ++ ent sig' env).
      rewrite map_app. apply NoDup_app. split; [|split].
      - destruct (dget (p_name p) env) as [v|] eqn:E; [|constructor]. apply entries_NoDup. intros d ->.
        destruct Hb as (Hsh & Hkw & _). pose proof (shape_kind _ _ _ _ _ Hsh (Hin p ltac:(left)) E) as S.
        destruct (p_kind p); try (by destruct S). simplify_eq. by apply filter_keys_NoDup.
      - intros k Hk Hk2. destruct (dget (p_name p) env) as [v|] eqn:E; [|by apply elem_of_nil in Hk].
        apply elem_of_list_fmap in Hk as ([k' x] & -> & Hx). apply elem_of_list_fmap in Hk2 as ([k2 y] & Ek & Hy).
        cbn in Ek. subst k2. apply elem_ent in Hy as (q & w & Hq & Hw & Hy).
        assert (p = q) as ->; [|done]. eapply owner; eauto; [apply Hin; left|apply Hin; by right].
      - apply IH; [|done]. intros q Hq. apply Hin. by right. }
    apply Hsub; [done|]. eapply NoDup_fmap_1, Hs.
  Qed.

  Lemma ent_lookup sig kw env p v k x : sig_ok sig -> bindings_ok sig kw env -> p ∈ sig ->
    dget (p_name p) env = Some v -> (k, x) ∈ entries p v <-> (dget k (ent sig env) = Some x /\ exists y, (k, y) ∈ entries p v).
  Proof.
    intros Hs Hb Hp Hv. split.
    - intros Hx. split; [|eauto]. apply dget_elem; [by eapply ent_NoDup|]. apply elem_ent. eauto.
    - intros [Hd [y Hy]]. apply dget_Some_elem, elem_ent in Hd as (q & w & Hq & Hw & Hx).
      assert (p = q) as <- by (eapply owner; eauto). congruence.
  Qed.

  Lemma plain_val a : plain_atom a -> exists v, a = AVal v.
  Proof. intros (v & -> & _). eauto. Qed.

  (** equal inputs come from equal bindings *)
  Theorem ent_inj sig kw kw2 env env2 : sig_ok sig -> bindings_ok sig kw env -> bindings_ok sig kw2 env2 ->
    same_map (ent sig env) (ent sig env2) -> env_eqv env env2.
  Proof.
    intros Hs Hb Hb2 Hm.
    pose proof Hb as (Hsh & Hkw & Hnc & Hpl). pose proof Hb2 as (Hsh2 & Hkw2 & Hnc2 & Hpl2).
    assert (Hone : forall p v w, p ∈ sig -> dget (p_name p) env = Some v -> dget (p_name p) env2 = Some w -> bval_eqv v w).
    { intros p v w Hp Hv Hw.
      pose proof (shape_kind _ _ _ _ _ Hsh Hp Hv) as Sv. pose proof (shape_kind _ _ _ _ _ Hsh2 Hp Hw) as Sw.
      (* a key of the parameter, seen from the other side *)
      assert (Htrans : forall k x, (k, x) ∈ entries p v -> (exists y, (k, y) ∈ entries p w) -> (k, x) ∈ entries p w).
      { intros k x Hx Hy. apply (ent_lookup sig kw2 env2 p w k x Hs Hb2 Hp Hw). split; [|done].
        rewrite <-Hm. by apply (ent_lookup sig kw env p v k x Hs Hb Hp Hv). }
      assert (Hback : forall k x, (k, x) ∈ entries p v -> exists q u, q ∈ sig /\ dget (p_name q) env2 = Some u /\ (k, x) ∈ entries q u).
      { intros k x Hx. apply elem_ent. apply dget_Some_elem. rewrite <-Hm. by apply (ent_lookup sig kw env p v k x Hs Hb Hp Hv). }
      assert (Hback2 : forall k x, (k, x) ∈ entries p w -> exists q u, q ∈ sig /\ dget (p_name q) env = Some u /\ (k, x) ∈ entries q u).
      { intros k x Hx. apply elem_ent. apply dget_Some_elem. rewrite Hm. by apply (ent_lookup sig kw2 env2 p w k x Hs Hb2 Hp Hw). }
      assert (Hnmp : forall q, q ∈ sig -> p_name q = p_name p -> q = p).
      { intros q Hq E. apply elem_of_list_lookup in Hp as [i Hi], Hq as [j Hj].
        destruct (sig_index _ _ _ _ _ Hs Hj Hi E). congruence. }
      (* the owner in the other call is the same parameter *)
      assert (Hown : forall kwx e (Hbx : bindings_ok sig kwx e) u u' q k y, dget (p_name p) e = Some u ->
                q ∈ sig -> dget (p_name q) e = Some u' -> (k, y) ∈ entries q u' ->
                (p_kind p = KVarPos /\ (exists i, k = p_name p +:+ "_" +:+ dec i) \/
                 (p_kind p <> KVarPos /\ p_kind p <> KVarKw /\ k = p_name p) \/
                 (p_kind p = KVarKw /\ k ∉ kwnames sig /\ (forall q, q ∈ sig -> p_kind q = KPosOnly -> k <> p_name q) /\
                    (forall q i, q ∈ sig -> p_kind q = KVarPos -> k <> p_name q +:+ "_" +:+ dec i))) -> q = p).
      { clear -Hs Hp Hnmp. intros kwx e (Hshx & Hkwx & Hncx & _) u u' q k y Hu Hq Hu' Hy Hk.
        pose proof (shape_kind _ _ _ _ _ Hshx Hq Hu') as Sq.
        apply entries_key in Hy as [(a & -> & ->)|[(l & i & a & -> & Hi & ->)|(d & -> & Hd)]].
        - destruct Hk as [[Hk [i E]]|[(? & ? & E)|(Hk & Hnk & Hpo & Hvp)]].
          + destruct Hncx. left. by exists p, i, q.
          + auto.
          + destruct (p_kind q) eqn:Ek; try (by destruct Sq); try done.
            * by destruct (Hpo q Hq Ek).
            * destruct Hnk. apply elem_of_kwnames. exists q. rewrite Ek. unfold by_keyword. auto.
            * destruct Hnk. apply elem_of_kwnames. exists q. rewrite Ek. unfold by_keyword. auto.
        - assert (p_kind q = KVarPos) as Ekq by (destruct (p_kind q); try (by destruct Sq); done).
          destruct Hk as [[Hk [j E]]|[(? & ? & E)|(Hk & Hnk & Hpo & Hvp)]].
          + apply elem_of_list_lookup in Hp as [i1 Hi1], Hq as [j1 Hj1].
            assert (j1 = i1) as -> by (eapply (so_star _ Hs); eauto; congruence). congruence.
          + destruct Hncx. left. by exists q, i, p.
          + by destruct (Hvp q i Hq Ekq).
        - assert (p_kind q = KVarKw) as Ekq by (destruct (p_kind q); try (by destruct Sq); done). rewrite Ekq in Sq. simplify_eq.
          destruct Hk as [[Hk [j ->]]|[(Hk1 & Hk2 & ->)|(Hk & Hnk & Hpo & Hvp)]].
          + destruct Hncx. right; left. by exists p, j, q, (left_of sig kwx), (p_name p +:+ "_" +:+ dec j).
          + assert (p_name p ∉ kwnames sig) as Hnk.
            { apply elem_of_list_fmap in Hd as ([k1 z] & E & Hin). cbn in E. subst k1. by apply elem_of_list_filter in Hin as [? _]. }
            assert (p_kind p = KPosOnly) as Ekp.
            { destruct (p_kind p) eqn:Ekp; try done; destruct Hnk; apply elem_of_kwnames;
              exists p; (split; [done|]); (split; [done|]); rewrite Ekp; unfold by_keyword; auto. }
            destruct Hncx. right; right. by exists p, q, (left_of sig kwx), (p_name p).
          + apply elem_of_list_lookup in Hp as [i1 Hi1], Hq as [j1 Hj1].
            assert (j1 = i1) as -> by (eapply (so_star _ Hs); eauto; congruence). congruence. }
      assert (Hinc : forall k x, (k, x) ∈ entries p v -> 
                (p_kind p = KVarPos /\ (exists i, k = p_name p +:+ "_" +:+ dec i) \/
                 (p_kind p <> KVarPos /\ p_kind p <> KVarKw /\ k = p_name p) \/
                 (p_kind p = KVarKw /\ k ∉ kwnames sig /\ (forall q, q ∈ sig -> p_kind q = KPosOnly -> k <> p_name q) /\
                    (forall q i, q ∈ sig -> p_kind q = KVarPos -> k <> p_name q +:+ "_" +:+ dec i)))).
      { clear -Hs Hp Sv Hv Hnc. intros k x Hx.
        apply entries_key in Hx as [(a & -> & ->)|[(l & i & a & -> & Hi & ->)|(d & -> & Hd)]].
        - right; left. destruct (p_kind p); try (by destruct Sv); done.
        - left. destruct (p_kind p); try (by destruct Sv); try done. eauto.
        - right; right. assert (p_kind p = KVarKw) as Ek by (destruct (p_kind p); try (by destruct Sv); done).
          rewrite Ek in Sv. simplify_eq. split; [done|]. split; [|split].
          + apply elem_of_list_fmap in Hd as ([k1 z] & E & Hin). cbn in E. subst k1. by apply elem_of_list_filter in Hin as [? _].
          + intros q Hq Hkq ->. apply Hnc. right; right. by exists q, p, (left_of sig kw), (p_name q).
          + intros q i Hq Hkq ->. apply Hnc. right; left. by eexists q, i, p, (left_of sig kw), _. }
      assert (Hinc2 : forall k x, (k, x) ∈ entries p w -> 
                (p_kind p = KVarPos /\ (exists i, k = p_name p +:+ "_" +:+ dec i) \/
                 (p_kind p <> KVarPos /\ p_kind p <> KVarKw /\ k = p_name p) \/
                 (p_kind p = KVarKw /\ k ∉ kwnames sig /\ (forall q, q ∈ sig -> p_kind q = KPosOnly -> k <> p_name q) /\
                    (forall q i, q ∈ sig -> p_kind q = KVarPos -> k <> p_name q +:+ "_" +:+ dec i)))).
      { clear -Hs Hp Sw Hw Hnc2. intros k x Hx.
        apply entries_key in Hx as [(a & -> & ->)|[(l & i & a & -> & Hi & ->)|(d & -> & Hd)]].
        - right; left. destruct (p_kind p); try (by destruct Sw); done.
        - left. destruct (p_kind p); try (by destruct Sw); try done. eauto.
        - right; right. assert (p_kind p = KVarKw) as Ek by (destruct (p_kind p); try (by destruct Sw); done).
          rewrite Ek in Sw. simplify_eq. split; [done|]. split; [|split].
          + apply elem_of_list_fmap in Hd as ([k1 z] & E & Hin). cbn in E. subst k1. by apply elem_of_list_filter in Hin as [? _].
          + intros q Hq Hkq ->. apply Hnc2. right; right. by exists q, p, (left_of sig kw2), (p_name q).
          + intros q i Hq Hkq ->. apply Hnc2. right; left. by eexists q, i, p, (left_of sig kw2), _. }
      assert (Hequiv : forall k x, (k, x) ∈ entries p v <-> (k, x) ∈ entries p w).
      { intros k x. split; intros Hx.
        - destruct (Hback k x Hx) as (q & u & Hq & Hu & Hxq).
          assert (q = p) as -> by (by eapply (Hown kw2 env2); eauto). congruence.
        - destruct (Hback2 k x Hx) as (q & u & Hq & Hu & Hxq).
          assert (q = p) as -> by (by eapply (Hown kw env); eauto). congruence. }
      clear Hown Hinc Hinc2 Hback Hback2 Htrans.
      destruct (p_kind p) eqn:Ek.
      1,2,4: destruct Sv as [a ->], Sw as [a' ->]; 
        pose proof (Hpl p _ Hp Hv) as (u & -> & _); pose proof (Hpl2 p _ Hp Hw) as (u' & -> & _);
        (assert (u = u') as ->; [|constructor]);
        cbn in Hequiv; destruct (p_default p) as [[d| |[] d| |]|];
        try (assert ((p_name p, (AVal u, p_ann p)) ∈ [(p_name p, (AVal u', p_ann p))]) as Hin by (apply Hequiv; left);
             apply elem_of_list_singleton in Hin; by simplify_eq);
        destruct (argeqb d (AVal u)) eqn:E1, (argeqb d (AVal u')) eqn:E2.
      1,5,9: destruct d; try done; cbn in E1, E2; apply bool_decide_eq_true in E1, E2; congruence.
      1,4,7: exfalso; assert ((p_name p, (AVal u', p_ann p)) ∈ ([] : list (string * (arg * ty)))) as Hin by (apply Hequiv; left);
             by apply elem_of_nil in Hin.
      1,3,5: exfalso; assert ((p_name p, (AVal u, p_ann p)) ∈ ([] : list (string * (arg * ty)))) as Hin by (apply Hequiv; left);
             by apply elem_of_nil in Hin.
      1,2,3: assert ((p_name p, (AVal u, p_ann p)) ∈ [(p_name p, (AVal u', p_ann p))]) as Hin by (apply Hequiv; left);
             apply elem_of_list_singleton in Hin; by simplify_eq.
      - destruct Sv as [l ->], Sw as [l' ->]. assert (l = l') as ->; [|constructor].
        assert (Hlk : forall i a, l !! i = Some a <-> l' !! i = Some a).
        { intros i a.
          assert (Hin : forall m : list arg, m !! i = Some a <-> (p_name p +:+ "_" +:+ dec i, (a, p_ann p)) ∈ entries p (BTuple m)).
          { intros m. cbn. rewrite elem_of_lookup_imap. split; [eauto|]. intros (j & y & E & Hj). injection E as E ->.
            apply argname_inj in E. congruence. }
          rewrite !Hin. apply Hequiv. }
        apply list_eq. intros i. destruct (l !! i) as [a|] eqn:E; [symmetry; by apply Hlk|].
        destruct (l' !! i) as [a'|] eqn:E'; [|done]. apply Hlk in E'. congruence.
      - simplify_eq. constructor. apply same_map_perm.
        + by apply filter_keys_NoDup.
        + by apply filter_keys_NoDup.
        + assert (Hin : forall (m : pydict arg) k a, (k, a) ∈ m <-> (k, (a, p_ann p)) ∈ entries p (BDict m)).
          { intros m k a. cbn. rewrite elem_of_list_fmap. split.
            - intros ?. by exists (k, a).
            - intros ([k' a'] & E & ?). by simplify_eq/=. }
          assert (Hmem : forall k a, (k, a) ∈ left_of sig kw <-> (k, a) ∈ left_of sig kw2).
          { intros k a. rewrite !Hin. apply Hequiv. }
          intros k. destruct (dget k (left_of sig kw)) as [a|] eqn:E.
          * symmetry. apply dget_elem; [by apply filter_keys_NoDup|]. apply Hmem. by apply dget_Some_elem.
          * destruct (dget k (left_of sig kw2)) as [a|] eqn:E2; [|done].
            apply dget_Some_elem, Hmem in E2. apply dget_elem in E2; [|by apply filter_keys_NoDup]. congruence. }
    unfold env_eqv. apply Forall2_same_length_lookup. split.
    { rewrite <-(map_length fst env), <-(map_length fst env2). by rewrite (sh_names _ _ _ Hsh), (sh_names _ _ _ Hsh2). }
    intros i [k v] [k' w] Hv Hw.
    destruct (shaped_lookup _ _ _ _ _ _ Hs Hsh Hv) as (p & Hi & -> & Hd).
    destruct (shaped_lookup _ _ _ _ _ _ Hs Hsh2 Hw) as (p' & Hi' & -> & Hd'). simplify_eq. cbn. split; [done|].
    eapply Hone; eauto. by eapply elem_of_list_lookup_2.
  Qed.
End entries.

Section different.
  Context (H : pyval -> string) `{!Inj (=) (=) H} {St : Type} (un : arg -> M St arg).

  Lemma ent_plain sig kw env k a t : (forall p, p ∈ sig -> p_ann p = TAtom) -> bindings_ok sig kw env ->
    dget k (ent sig env) = Some (a, t) -> t = TAtom /\ plain_atom a.
  Proof.
    intros Hann (_ & _ & _ & Hpl) Hd. apply dget_Some_elem, elem_ent in Hd as (p & v & Hp & Hv & Hin).
    pose proof (Hpl p v Hp Hv) as Hv2. destruct v as [a'|l|d]; cbn in *.
    - assert ((k, (a, t)) = (p_name p, (a', p_ann p))) as E.
      { destruct (p_default p) as [[| |[] d| |]|]; try (by apply elem_of_list_singleton in Hin).
        destruct (argeqb d a'); [by apply elem_of_nil in Hin|by apply elem_of_list_singleton in Hin]. }
      simplify_eq. rewrite Hann by done. done.
    - apply elem_of_lookup_imap in Hin as (i & a' & E & Hi). simplify_eq. rewrite Hann by done. split; [done|].
      rewrite Forall_forall in Hv2. apply Hv2. by eapply elem_of_list_lookup_2.
    - apply elem_of_list_fmap in Hin as ([k' a'] & E & Hi). simplify_eq/=. rewrite Hann by done. split; [done|].
      rewrite Forall_forall in Hv2. by apply Hv2 in Hi.
  Qed.

  Lemma input_ids_ok i : (forall k a t, dget k i = Some (a, t) -> t = TAtom /\ plain_atom a) -> NoDup (map fst i) ->
    exists ids, input_ids H i = Ok ids.
  Proof.
    intros Hi Hnd.
    assert (Hall : forall k a t, (k, (a, t)) ∈ i -> t = TAtom /\ plain_atom a).
    { intros k a t Hin. apply (Hi k). by apply dget_elem. }
    clear Hi Hnd. induction i as [|[k [a t]] i IH]; [by exists []|].
    destruct (Hall k a t) as [-> (v & -> & Hv)]; [left|].
    destruct IH as [ids IH]. { intros. eapply Hall. by right. }
    unfold input_ids in *. cbn [mapR fst snd]. rewrite ident_atom by done. cbn. rewrite IH. cbn. eauto.
  Qed.

  Theorem bindings_ids sig args kw args2 kw2 env env2 o sem s :
    sig_ok sig -> (forall p, p ∈ sig -> p_ann p = TAtom) ->
    NoDup (map fst kw) -> NoDup (map fst kw2) -> no_posonly_kw sig kw -> no_posonly_kw sig kw2 ->
    py_binds sig args kw env -> py_binds sig args2 kw2 env2 ->
    (forall kv, kv ∈ env -> plain_bval kv.2) -> (forall kv, kv ∈ env2 -> plain_bval kv.2) ->
    ~ names_clash sig env -> ~ names_clash sig env2 ->
    exists b i ids b2 i2 ids2,
      parse_args un sig [] args kw s = (Ok (b, i), s) /\ input_ids H i = Ok ids /\
      parse_args un sig [] args2 kw2 s = (Ok (b2, i2), s) /\ input_ids H i2 = Ok ids2 /\
      (call_hid H o ids sem = call_hid H o ids2 sem <-> env_eqv env env2) /\
      (call_cid H o ids sem = call_cid H o ids2 sem <-> env_eqv env env2).
  Proof using Inj0.
    intros Hs Hann Hkw Hkw2 Hq Hq2 B B2 Hp Hp2 Hc Hc2.
    assert (Hb : bindings_ok sig kw env).
    { split; [by eapply binds_shaped|]. split; [done|]. split; [done|]. intros p v _ Hv%dget_Some_elem. by apply Hp in Hv. }
    assert (Hb2 : bindings_ok sig kw2 env2).
    { split; [by eapply binds_shaped|]. split; [done|]. split; [done|]. intros p v _ Hv%dget_Some_elem. by apply Hp2 in Hv. }
    destruct (parse_loop_ent un sig env [] s) as [b Eb]; [apply Hb|].
    destruct (parse_loop_ent un sig env2 [] s) as [b2 Eb2]; [apply Hb2|].
    rewrite (dupdate_fresh [] (ent sig env)) in Eb by (by eapply ent_NoDup).
    rewrite (dupdate_fresh [] (ent sig env2)) in Eb2 by (by eapply ent_NoDup). cbn in Eb, Eb2.
    destruct (input_ids_ok (ent sig env)) as [ids Eids]; [intros k a t; by apply (ent_plain sig kw)|by eapply ent_NoDup|].
    destruct (input_ids_ok (ent sig env2)) as [ids2 Eids2]; [intros k a t; by apply (ent_plain sig kw2)|by eapply ent_NoDup|].
    assert (P1 : parse_args un sig [] args kw s = (Ok (b, ent sig env), s)).
    { unfold parse_args, bindM, liftR. by rewrite (bind_full_complete _ _ _ _ Hs Hkw Hq B). }
    assert (P2 : parse_args un sig [] args2 kw2 s = (Ok (b2, ent sig env2), s)).
    { unfold parse_args, bindM, liftR. by rewrite (bind_full_complete _ _ _ _ Hs Hkw2 Hq2 B2). }
    exists b, (ent sig env), ids, b2, (ent sig env2), ids2.
    split; [done|]. split; [done|]. split; [done|]. split; [done|].
    assert (Hback : env_eqv env env2 -> ids_of H o sem ids = ids_of H o sem ids2).
    { intros Heq. destruct (parse_same un sig [] args kw args2 kw2 env env2 s) as [_ G]; try done.
      rewrite P1, P2 in G. cbn in G. destruct G as [_ Hperm].
      destruct (input_ids_perm H _ _ _ Hperm Eids) as (ids2' & E & Hpi). rewrite Eids2 in E. simplify_eq.
      apply ids_of_perm; [|done]. rewrite (input_ids_keys _ _ _ Eids). by eapply ent_NoDup. }
    assert (Hfwd : forall f : ref -> string, (f = rhid \/ f = rcid) ->
      (forall k, f <$> dget k ids = f <$> dget k ids2) -> env_eqv env env2).
    { intros f Hf Hk. eapply (ent_inj sig kw kw2); try done. intros k. specialize (Hk k).
      pose proof (input_ids_dget _ _ _ k Eids) as D1. pose proof (input_ids_dget _ _ _ k Eids2) as D2.
      destruct (dget k (ent sig env)) as [[a t]|] eqn:Ea, (dget k (ent sig env2)) as [[a2 t2]|] eqn:Ea2.
      - destruct (ent_plain _ _ _ _ _ _ Hann Hb Ea) as [-> (v & -> & Hv)].
        destruct (ent_plain _ _ _ _ _ _ Hann Hb2 Ea2) as [-> (v2 & -> & Hv2)].
        rewrite ident_atom in D1, D2 by done. destruct D1 as (x & [= <-] & E1), D2 as (x2 & [= <-] & E2).
        rewrite E1, E2 in Hk. cbn in Hk. destruct Hf as [-> | ->]; cbn in Hk; injection Hk as Hk.
        + apply (inj H) in Hk. injection Hk as Hk. apply (inj H) in Hk. by subst.
        + apply (inj H) in Hk. by subst.
      - destruct D1 as (x & _ & E1). by rewrite E1, D2 in Hk.
      - destruct D2 as (x & _ & E2). by rewrite D1, E2 in Hk.
      - done. }
    split; split.
    - intros (_ & _ & _ & E)%(call_hid_iff H). by eapply (Hfwd rhid); [left|].
    - intros E%Hback. by injection E.
    - intros (_ & _ & _ & E)%(call_cid_iff H). by eapply (Hfwd rcid); [right|].
    - intros E%Hback. by injection E.
  Qed.
End different.

Theorem parse_same_ids (H : pyval -> string) {St} (un : arg -> M St arg) sig ignore args kw args2 kw2 env env2 s :
  sig_ok sig -> NoDup (map fst kw) -> NoDup (map fst kw2) ->
  no_posonly_kw sig kw -> no_posonly_kw sig kw2 ->
  py_binds sig args kw env -> py_binds sig args2 kw2 env2 -> env_eqv env env2 ->
  outcome_rel eq (fun r r2 => env_eqv r.1 r2.1 /\ r.2 ≡ₚ r2.2 /\
      forall o sem ids, input_ids H r.2 = Ok ids ->
        exists ids2, input_ids H r2.2 = Ok ids2 /\ ids_of H o sem ids = ids_of H o sem ids2)
    (parse_args un sig ignore args kw s) (parse_args un sig ignore args2 kw2 s).
Proof.
  intros Hs H1 H2 Hq1 Hq2 B1 B2 Heq.
  destruct (parse_same un sig ignore args kw args2 kw2 env env2 s) as [G1 G2]; try done. split; [done|].
  destruct (parse_args un sig ignore args kw s) as [[r|e] s1] eqn:E1,
    (parse_args un sig ignore args2 kw2 s) as [[r2|e2] s2] eqn:E2; cbn in *; try done.
  destruct G2 as [G2 Hp]. split; [done|]. split; [done|]. intros o sem ids Hids.
  destruct (input_ids_perm H _ _ _ Hp Hids) as (ids2 & ? & Hp2). exists ids2. split; [done|].
  apply ids_of_perm; [|done]. rewrite (input_ids_keys _ _ _ Hids). by apply (parse_args_NoDup un _ _ _ _ _ _ _ E1).
Qed.

Theorem new_default_ids (H : pyval -> string) `{!Inj (=) (=) H} {St} (un : arg -> M St arg)
    (G : St -> Prop) (Hun : stable un G) s1 s2 p d a ignore (e1 e2 : pydict (bval arg)) args args' kw kw' s s' :
  sig_ok (s1 ++ p :: s2) -> sig_ok (s1 ++ s2) -> by_keyword (p_kind p) ->
  p_default p = Some (AIgn true d) -> p_name p ∉ ignore ->
  NoDup (map fst kw) -> NoDup (map fst kw') ->
  no_posonly_kw (s1 ++ s2) kw -> no_posonly_kw (s1 ++ p :: s2) kw' ->
  py_binds (s1 ++ s2) args kw (e1 ++ e2) -> length e1 = length s1 ->
  py_binds (s1 ++ p :: s2) args' kw' (e1 ++ (p_name p, BOne a) :: e2) ->
  G s -> G s' -> not_default un G d a ->
  outcome_rel (both G) (fun r' r => p_name p ∉ map fst r.2 ->
      forall o sem ids ids', input_ids H r.2 = Ok ids -> input_ids H r'.2 = Ok ids' ->
        call_hid H o ids sem <> call_hid H o ids' sem /\ call_cid H o ids sem <> call_cid H o ids' sem)
    (parse_args un (s1 ++ p :: s2) ignore args' kw' s') (parse_args un (s1 ++ s2) ignore args kw s).
Proof.
  intros Hs' Hs Hk Hd Hig Hkw Hkw' Hq Hq' B Hlen B' Gs Gs' Hnd.
  eapply outcome_mono; [|apply (new_default un G Hun s1 s2 p d a ignore e1 e2); done].
  intros r' r [_ G2] Hn o sem ids ids' E E'. specialize (G2 Hn).
  pose proof (input_ids_dget H _ _ (p_name p) E) as D. pose proof (input_ids_dget H _ _ (p_name p) E') as D'.
  apply dget_None in Hn. rewrite Hn in D. rewrite G2 in D'. destruct D' as (x & _ & D').
  split.
  - intros (_ & _ & _ & Hk2)%(call_hid_iff H). specialize (Hk2 (p_name p)). by rewrite D, D' in Hk2.
  - intros (_ & _ & _ & Hk2)%(call_cid_iff H). specialize (Hk2 (p_name p)). by rewrite D, D' in Hk2.
Qed.
