(** Proofs for C01-C03, C08, C18 over histories of programs with atoms, part 1: the invariant; reading. *)
From stdpp Require Import base strings gmap list.
From Verif Require Import Base PyDict PyDict_proofs Returns Spec_Returns Returns_proofs DictStore Spec_DictStore DictStore_proofs
  CallStore Spec_CallStore CallStore_proofs Commit Spec_Commit Commit_proofs Refs Args Ident Storage Spec_Storage Storage_base
  Storage_laws Storage_tabs Spec_Atoms Atoms_rel.

(** what [unwrap] returns when the atoms are [A] *)
Fixpoint pun (A : gmap string pyval) (a : arg) : arg :=
  match a with
  | AVal v => AVal v
  | ARef r => AVal (default VNone (A !! rcid r))
  | AIgn b x => AIgn b x
  | AList l => mk_list (map (pun A) l)
  | ADict d => mk_dict (map (fun ka => (ka.1, pun A ka.2)) d)
  end.
(** a computation [f] in a state behaves like [g] *)
Definition sim {S X} (J : S -> Prop) (f : M S X) (g : M unit X) : Prop :=
  triple J f (fun x => (g tt).1 = Ok x) (fun e => (g tt).1 = Err e).
Lemma sim_ret {S X} (J : S -> Prop) (x : X) : sim J (retM x) (retM x).
Proof. by apply triple_ret. Qed.
Lemma sim_lift {S X} (J : S -> Prop) (x : result X) : sim J (liftR x) (liftR x).
Proof. apply triple_lift. by destruct x. Qed.
Lemma sim_bind {S X Y} (J : S -> Prop) (f : M S X) (g : M unit X) (f' : X -> M S Y) (g' : X -> M unit Y) :
  sim J f g -> (forall x, (g tt).1 = Ok x -> sim J (f' x) (g' x)) -> sim J (bindM f f') (bindM g g').
Proof.
  intros Hf Hf' s Hs. unfold bindM. destruct (Hf s Hs) as [HJ Hr].
  destruct (f s) as [[x|e] s1], (g tt) as [r' []]; cbn in *; subst; [|done]. apply (Hf' x eq_refl s1 HJ).
Qed.
Definition pu (A : gmap string pyval) : arg -> M unit arg := fun a => retM (pun A a).

(** the ref for an argument stored as an atom *)
Definition conref (H : pyval -> string) (a : arg) (r : ref) : Prop :=
  match a with ARef r' => r = r' | AVal v => r = wrap_atom H v None | _ => False end.
Definition refmap (d : pydict ids) : pydict ref := map (fun kv => (kv.1, RAtom kv.2.1 kv.2.2 None)) d.
Definition idmap (d : pydict ref) : pydict ids := map (fun kr => (kr.1, (rcid kr.2, rhid kr.2))) d.
Definition idm (d : pydict ref) : gmap string ids := list_to_map (idmap d).

Lemma elem_of_concat {X} (x : X) ll : x ∈ concat ll <-> exists l, x ∈ l /\ l ∈ ll.
Proof.
  rewrite elem_of_list_In, in_concat. split; intros (l & H1 & H2); exists l; rewrite !elem_of_list_In in *; done.
Qed.
Lemma idmap_refmap d : idmap (refmap d) = d.
Proof. unfold idmap, refmap. rewrite map_map. cbn. rewrite <-(map_id d) at 2. apply map_ext. by intros [k [c h]]. Qed.
Lemma idmap_keys d : map fst (idmap d) = map fst d.
Proof. unfold idmap. rewrite map_map. done. Qed.
Lemma refmap_keys d : map fst (refmap d) = map fst d.
Proof. unfold refmap. rewrite map_map. done. Qed.
Lemma idm_Some d k r : NoDup (map fst d) -> (k, r) ∈ d -> idm d !! k = Some (rcid r, rhid r).
Proof.
  intros Hn Hr. unfold idm. apply elem_of_list_to_map; [rewrite <-idmap_keys in Hn; exact Hn|].
  by apply (elem_of_list_fmap_1 (fun kr : string * ref => (kr.1, (rcid kr.2, rhid kr.2)))) in Hr.
Qed.
Lemma idm_inv d k i : idm d !! k = Some i -> exists r, (k, r) ∈ d /\ i = (rcid r, rhid r).
Proof.
  intros Hi%elem_of_list_to_map_2. unfold idmap in Hi. apply elem_of_list_fmap in Hi as ([k' r] & [= -> ->] & Hr). eauto.
Qed.

Section atoms.
  Context (H : pyval -> string) (sel : list crow -> list crow).
  Hypothesis Hinj : Inj (=) (=) H.
  Hypothesis sel_perm : forall l, sel l ≡ₚ l.

  Definition chash (ver : Z) (name : string) (g : gmap string string) : string :=
    H (VTuple [VDict (map_to_list (VStr <$> g)); VStr name; VInt ver]).
  Lemma chash_inj v n g v' n' g' : chash v n g = chash v' n' g' -> v = v' /\ n = n' /\ g = g'.
  Proof using Hinj.
    intros E%Hinj. injection E as E -> ->. split_and!; try done.
    assert ((VStr <$> g : gmap string pyval) = VStr <$> g') as E2.
    { apply map_to_list_inj. by rewrite E. }
    apply map_eq. intros k. apply (f_equal (lookup k)) in E2. rewrite !lookup_fmap in E2.
    destruct (g !! k), (g' !! k); cbn in *; congruence.
  Qed.
  Lemma canon_idm (f : ref -> string) (g : ids -> string) (d : pydict ref) : (forall r, f r = g (rcid r, rhid r)) ->
    canon (map (fun kr => (kr.1, VStr (f kr.2))) d) = map_to_list (VStr <$> (g <$> idm d)).
  Proof.
    intros Hg. unfold canon, idm, idmap. f_equal. rewrite <-!list_to_map_fmap. f_equal.
    rewrite <-!list_fmap_compose. apply list_fmap_ext. intros _ [k r] _. cbn. by rewrite Hg.
  Qed.
  Lemma call_hid_chash o ins : call_hid H o ins None = chash (op_version o) (op_name o) (snd <$> idm ins).
  Proof. unfold call_hid, chash, hid_dict. by rewrite (canon_idm rhid snd) by done. Qed.
  Lemma call_cid_chash o ins : call_cid H o ins None = chash (op_version o) (op_name o) (fst <$> idm ins).
  Proof. unfold call_cid, chash, cid_dict. by rewrite (canon_idm rcid fst) by done. Qed.

  (** ** The invariant *)
  Definition shape_in (m : contents pyval ref op) (i : ids) : Prop := m_shapes m !! i.2 = Some (RAtom i.1 i.2 None).
  Record call_good (m : contents pyval ref op) (h : string) (i : cinfo) : Prop := {
    cg_hid : i_hid i = h;
    cg_op : is_Some (m_ops m !! i_op i);
    cg_ver : exists ver, h = chash ver (i_op i) (snd <$> i_ins i) /\ i_cid i = chash ver (i_op i) (fst <$> i_ins i);
    cg_ins : forall k x, i_ins i !! k = Some x -> shape_in m x;
    cg_outs : forall k x, i_outs i !! k = Some x -> shape_in m x /\ x.2 = output_hid H h k;
  }.
  Record good (m : contents pyval ref op) : Prop := {
    g_shape : forall h r, m_shapes m !! h = Some r -> exists c, r = RAtom c h None /\ is_Some (m_atoms m !! c) /\
      (h = H (VStr c) \/ exists ch k i, h = output_hid H ch k /\ m_calls m !! ch = Some i /\ i_outs i !! k = Some (c, h));
    g_ops : forall n o, m_ops m !! n = Some o -> op_name o = n;
    g_calls : forall h i, m_calls m !! h = Some i -> call_good m h i;
  }.
  Record grow (m m' : contents pyval ref op) : Prop := {
    gr_atoms : m_atoms m ⊆ m_atoms m';
    gr_shapes : m_shapes m ⊆ m_shapes m';
    gr_ops : m_ops m ⊆ m_ops m';
    gr_calls : m_calls m ⊆ m_calls m';
  }.
  Global Instance grow_pre : PreOrder grow.
  Proof.
    split; [by intros m; split|]. intros m1 m2 m3 [A1 A2 A3 A4] [B1 B2 B3 B4]. split; by etrans.
  Qed.

  (** refs held by the program *)
  Definition rok (m : contents pyval ref op) (r : ref) : Prop :=
    exists c h o, r = RAtom c h o /\ shape_in m (c, h) /\ forall v, o = Some v -> H v = c.
  Lemma rok_grow m m' r : grow m m' -> rok m r -> rok m' r.
  Proof.
    intros [_ G _ _] (c & h & o & -> & Hs & Hv). exists c, h, o. split_and!; [done| |done].
    unfold shape_in in *. by eapply lookup_weaken.
  Qed.
  Definition refs_ok (m : contents pyval ref op) (a : arg) : Prop := forall r, r ∈ arg_refs a -> rok m r.

  Lemma good_empty : good (Contents ∅ ∅ ∅ ∅).
  Proof. split; cbn; intros ? ?; by rewrite lookup_empty. Qed.
  Lemma good_shape m h c : good m -> m_shapes m !! h = Some (RAtom c h None) -> is_Some (m_atoms m !! c).
  Proof. intros Hg (c' & [= <-] & Ha & _)%(g_shape _ Hg). done. Qed.

  (** ** Reading *)
  Section frozen.
    Context (m : contents pyval ref op) (k : ccalls) (al : option mcalls) (b : bool) (lg : list (op * pydict ref)).
    Context (Hg : good m).
    Notation J := (frozen H m k al b lg).
    Notation A := (m_atoms m).
    (** in a frozen state the atoms have their hashes as keys *)
    Definition hashed : Prop := forall c v, A !! c = Some v -> H v = c.
    Lemma frozen_hashed s : J s -> hashed.
    Proof. intros Hs c v Hc. eapply (atoms_hash H); [apply Hs|done]. Qed.
    Lemma triple_J {X} (f : M st X) Q E : (hashed -> triple J f Q E) -> triple J f Q E.
    Proof. intros Hf s Hs. apply Hf; [by eapply frozen_hashed|done]. Qed.

    Lemma load_ref_triple c h im : shape_in m (c, h) ->
      triple J (load_ref im h) (fun r => exists v, A !! c = Some v /\ r = RAtom c h (if im then None else Some v)) (fun _ => False).
    Proof using Hinj Hg.
      intros Hs s HJ. unfold load_ref, ref_fuel. generalize (size (cd_cache (t_shapes (s_tabs s))) + length (pd_keys (cd_pers (t_shapes (s_tabs s))))).
      intros n. revert s HJ.
      change (triple J (load_ref_ (S n) im h) (fun r => exists v, A !! c = Some v /\ r = RAtom c h (if im then None else Some v)) (fun _ => False)).
      cbn [load_ref_].
      unfold shape_in in Hs. cbn in Hs. destruct (good_shape _ _ _ Hg Hs) as [v Hv].
      apply triple_bind with (Q := fun r => m_shapes m !! h = Some r).
      { eapply triple_mono; [apply get_shape_triple|done|]. intros e He. by rewrite Hs in He. }
      intros r Hr. rewrite Hs in Hr. injection Hr as <-. destruct im.
      - apply triple_ret. eauto.
      - apply triple_bind with (Q := fun r => A !! c = Some r).
        { eapply triple_mono; [by apply get_atom_triple|done|]. intros e He. by rewrite Hv in He. }
        intros v' Hv'. apply triple_ret. eauto.
    Qed.
    Lemma load_any_triple im h :
      triple J (load_ref im h) (rok m) (fun _ => True).
    Proof using Hinj Hg.
      intros s HJ. destruct (m_shapes m !! h) as [r|] eqn:Hs.
      - destruct (g_shape _ Hg _ _ Hs) as (c & -> & [v Hv] & _).
        destruct (load_ref_triple c h im Hs s HJ) as [HJ' Hr]. split; [done|].
        destruct (load_ref im h s) as [[r|e] s']; cbn in *; [|done].
        destruct Hr as (v' & Hv' & ->). eexists c, h, _. split_and!; [done|done|].
        intros w Hw. destruct im; [done|]. simplify_eq. by eapply frozen_hashed.
      - unfold load_ref, ref_fuel. cbn [load_ref_]. unfold bindM.
        destruct (get_shape_triple H m k al b lg h s HJ) as [HJ' Hr].
        destruct (get_shape h s) as [[r|e] s']; cbn in *; [by rewrite Hs in Hr|done].
    Qed.
    Lemma unwrap_ref_triple r : rok m r ->
      triple J (unwrap_ref r) (fun v => A !! rcid r = Some v /\ H v = rcid r) (fun _ => False).
    Proof using Hinj Hg.
      intros (c & h & o & -> & Hs & Hv). apply triple_J. intros Hh. cbn [unwrap_ref]. unfold unwrap_atom.
      pose proof Hs as Hs'. unfold shape_in in Hs'. destruct (good_shape _ _ _ Hg Hs') as [v Ha]. cbn in Ha.
      destruct o as [w|].
      - apply triple_ret. cbn. rewrite Ha. split; [|by apply Hv]. f_equal. apply Hinj. rewrite (Hv w eq_refl). by apply Hh.
      - eapply triple_bind; [by apply load_ref_triple|]. intros r (v' & Hv' & ->).
        eapply triple_bind; [by apply set_atom_triple|]. intros _ _. apply triple_ret. cbn. split; [done|]. by apply Hh.
    Qed.
    Lemma unwrap_triple a : refs_ok m a -> triple J (unwrap a) (fun x => x = pun A a) (fun _ => False).
    Proof using Hinj Hg.
      induction a as [v|r|bb a IH|l IH|d IH] using arg_ind'; intros Hr; cbn [unwrap pun].
      - by apply triple_ret.
      - eapply triple_bind; [apply unwrap_ref_triple; apply Hr; left|]. intros v [Hv _]. apply triple_ret. by rewrite Hv.
      - by apply triple_ret.
      - eapply triple_bind.
        + apply triple_mapM with (Q := fun x y => y = pun A x). intros x Hx. rewrite Forall_forall in IH. apply IH; [done|].
          intros r Hrr. apply Hr. cbn. apply elem_of_concat. exists (arg_refs x). split; [done|]. by apply elem_of_list_fmap_1.
        + intros l' Hl'. apply triple_ret. f_equal. induction Hl'; cbn; [done|]. inversion IH; subst.
          f_equal. apply IHHl'; [done|]. intros r Hrr. apply Hr. cbn. apply elem_of_app. by right.
      - eapply triple_bind.
        + apply triple_mapM with (Q := fun x y => y = (x.1, pun A x.2)). intros x Hx. rewrite Forall_forall in IH.
          eapply triple_bind; [apply IH; [done|]|].
          * intros r Hrr. apply Hr. cbn. apply elem_of_concat. exists (arg_refs x.2). split; [done|].
            by apply (elem_of_list_fmap_1 (fun ka : string * arg => arg_refs ka.2)).
          * intros y ->. by apply triple_ret.
        + intros l' Hl'. apply triple_ret. f_equal. clear -Hl'. induction Hl'; cbn; [done|]. by f_equal.
    Qed.

    (** ** Parsing arguments *)
    Definition bref_ok (v : bval arg) : Prop :=
      match v with
      | BOne a => refs_ok m a
      | BTuple l => forall a, a ∈ l -> refs_ok m a
      | BDict d => forall ka, ka ∈ d -> refs_ok m ka.2
      end.
    Lemma parse_one_sim ig p v : bref_ok v -> sim J (parse_one unwrap ig p v) (parse_one (pu A) ig p v).
    Proof using Hinj Hg.
      intros Hv. unfold parse_one. destruct v as [a|l|d]; try by apply sim_ret.
      cbn zeta. set (a' := if bool_decide (p_name p ∈ ig) then AIgn false a else a).
      assert (refs_ok m a') as Ha' by (subst a'; by case_bool_decide).
      clearbody a'. clear a Hv.
      destruct a' as [v|r|bb a|l|d]; try (by apply sim_ret);
        destruct (p_default p) as [[ | |[] d0| | ]|]; try (by apply sim_ret);
        (apply sim_bind; [|intros w _; apply sim_bind; [apply sim_lift|]; intros [] _; apply sim_ret]); try apply sim_ret.
      eapply triple_mono; [by apply unwrap_triple|by intros x ->|done].
    Qed.
    Lemma parse_loop_sim ig sig bd acc : (forall kv, kv ∈ bd -> bref_ok kv.2) ->
      sim J (parse_loop unwrap ig sig bd acc) (parse_loop (pu A) ig sig bd acc).
    Proof using Hinj Hg.
      intros Hb. revert acc. induction sig as [|p sig IH]; intros acc; cbn [parse_loop]; [apply sim_ret|].
      destruct (dget (p_name p) bd) as [v|] eqn:E; [|apply IH].
      apply sim_bind; [apply parse_one_sim, (Hb (p_name p, v)); by apply dget_Some_elem|].
      intros x _. apply sim_bind; [apply IH|]. intros y _. apply sim_ret.
    Qed.
    Lemma bound_refs sig args kw bd :
      (forall a, a ∈ args \/ a ∈ map snd kw \/ (exists p, p ∈ sig /\ p_default p = Some a) -> refs_ok m a) ->
      bind_full sig args kw = Ok bd -> forall kv, kv ∈ bd -> bref_ok kv.2.
    Proof.
      intros Hr E kv Hkv.
      pose proof (rel_bind_full (fun a a' => a = a' /\ refs_ok m a) sig args args kw kw) as Hb.
      rewrite E in Hb. cbn in Hb. assert (Forall (fun kv => bref_ok kv.2) bd) as Hf; [|by rewrite Forall_forall in Hf; apply Hf].
      assert (forall d : list (string * arg), Forall (fun kv => refs_ok m kv.2) d -> rel_dict (fun a a' => a = a' /\ refs_ok m a) d d) as Hd.
      { intros d Hd. apply Forall_Forall2_diag. eapply Forall_impl; [done|]. by intros x Hx. }
      assert (Forall2 (rel_kv (rel_bval (fun a a' => a = a' /\ refs_ok m a))) bd bd) as Hbb.
      { apply Hb.
        - intros p d Hp Hdd. split; [done|]. apply Hr. eauto.
        - apply Forall_Forall2_diag, Forall_forall. intros a Ha. split; [done|]. apply Hr. auto.
        - apply Hd, Forall_forall. intros x Hx. apply Hr. right. left. by apply elem_of_list_fmap_1. }
      clear -Hbb. assert (forall bd2, Forall2 (rel_kv (rel_bval (fun a a' => a = a' /\ refs_ok m a))) bd bd2 -> Forall (fun kv => bref_ok kv.2) bd) as Hgen; [|by eapply Hgen].
      clear Hbb. induction 1 as [|[k1 v] [k2 w] l l' [_ Hv] _ IH]; constructor; [|done]. clear IH. cbn in *.
      destruct v as [a|t|d], w as [a'|t'|d']; try done; cbn in *.
      - apply Hv.
      - intros a Ha. apply elem_of_list_lookup in Ha as [i Hi]. eapply Forall2_lookup_l in Hv as (y & _ & _ & Hy); [|done]. done.
      - intros a Ha. apply elem_of_list_lookup in Ha as [i Hi]. eapply Forall2_lookup_l in Hv as (y & _ & _ & _ & Hy); [|done]. done.
    Qed.
    Lemma dupdate_elem {X} (l d : pydict X) kv : kv ∈ dupdate d l -> kv ∈ d \/ kv ∈ l.
    Proof.
      unfold dupdate. revert d. induction l as [|[k' v] l IH]; intros d; cbn; [auto|]. intros [Hd|Hl]%IH; [|right; by right].
      assert (kv ∈ d \/ kv = (k', v)) as [|]; [|auto|right; subst; left].
      clear IH. induction d as [|[k2 w] d IH]; cbn in Hd; [right; by apply elem_of_list_singleton in Hd|].
      case_decide; [subst|]; apply elem_of_cons in Hd as [->|Hd]; auto.
      - left; by right.
      - left; by left.
      - destruct (IH Hd); [left; by right|auto].
    Qed.

    Definition in_ok (x : string * (arg * ty)) : Prop := x.2.2 = TAtom /\ refs_ok m x.2.1.
    Lemma parse_one_props ig p v x : bref_ok v -> p_ann p = TAtom -> (forall d, p_default p = Some d -> refs_ok m d) ->
      (parse_one (pu A) ig p v tt).1 = Ok x -> Forall in_ok x.2 /\ bref_ok x.1.
    Proof.
      intros Hv Hp Hd. unfold parse_one. destruct v as [a|l|d].
      - cbn zeta. set (a' := if bool_decide (p_name p ∈ ig) then AIgn false a else a).
        assert (refs_ok m a') as Ha' by (subst a'; by case_bool_decide).
        clearbody a'. clear a Hv. unfold pu.
        destruct a' as [v|r|bb a|l|d]; [| |intros [= <-]; split; [constructor|exact Ha']|..];
          (destruct (p_default p) as [[ | |[] d0| | ]|] eqn:Ed;
            try (intros [= <-]; split; [constructor; [by rewrite Hp|constructor]|done]);
            unfold bindM, retM, liftR;
            destruct (ceq _ _) as [[]|]; intros [= <-];
            try (split; [constructor; [by rewrite Hp|constructor]|done]);
            (split; [constructor|]); exact (Hd _ eq_refl)).
      - intros [= <-]. cbn [fst snd]. split.
        + apply Forall_forall. intros y Hy. apply elem_of_list_omap in Hy as ([i a] & Hi & Hy). cbn in Hy.
          destruct (is_ign a); [done|]. injection Hy as <-. split; [done|]. apply Hv. apply elem_of_lookup_imap in Hi as (j & z & [= -> ->] & Hj).
          by eapply elem_of_list_lookup_2.
        + intros y Hy. apply elem_of_list_fmap in Hy as (z & -> & Hz). cbn in Hv. apply Hv in Hz. by destruct z.
      - intros [= <-]. cbn [fst snd]. split.
        + apply Forall_forall. intros y Hy. apply elem_of_list_omap in Hy as ([i a] & Hi & Hy). cbn in Hy.
          destruct (is_ign a); [done|]. injection Hy as <-. split; [done|]. apply (Hv _ Hi).
        + intros y Hy. apply elem_of_list_fmap in Hy as (z & -> & Hz). cbn in Hv. apply Hv in Hz. by destruct (z.2).
    Qed.
    Lemma parse_one_bound ig p v x : bref_ok v -> (forall d, p_default p = Some d -> refs_ok m d) ->
      (parse_one (pu A) ig p v tt).1 = Ok x -> bref_ok x.1.
    Proof.
      intros Hv Hd E. pose proof (parse_one_props ig (Param (p_name p) (p_kind p) (p_default p) TAtom) v) as Hp.
      assert (exists y, (parse_one (pu A) ig (Param (p_name p) (p_kind p) (p_default p) TAtom) v tt).1 = Ok y /\ y.1 = x.1) as (y & Ey & Exy).
      { revert E. unfold parse_one. cbn [p_name p_default p_ann]. destruct v as [a|l|d]; [|intros [= <-]; eexists; split; reflexivity..].
        cbn zeta. destruct (if bool_decide (p_name p ∈ ig) then AIgn false a else a) as [?|?|? ?|?|?]; try (intros [= <-]; eexists; split; reflexivity);
        (destruct (p_default p) as [[ | |[] d0| | ]|]; try (intros [= <-]; eexists; split; reflexivity));
        unfold bindM, retM, liftR, pu; unfold retM; cbn [pun]; match goal with |- context [ceq ?x ?y] => destruct (ceq x y) as [[]|] end; cbn; intros [= <-]; eexists; split; reflexivity. }
      rewrite <-Exy. apply (Hp y Hv eq_refl Hd Ey).
    Qed.
    Lemma parse_loop_props ig sig bd acc x : (forall kv, kv ∈ bd -> bref_ok kv.2) ->
      (forall p, p ∈ sig -> p_ann p = TAtom /\ forall d, p_default p = Some d -> refs_ok m d) ->
      NoDup (map fst acc) -> Forall in_ok acc ->
      (parse_loop (pu A) ig sig bd acc tt).1 = Ok x -> NoDup (map fst x.2) /\ Forall in_ok x.2 /\ forall kv, kv ∈ x.1 -> bref_ok kv.2.
    Proof.
      intros Hb. revert acc x. induction sig as [|p sig IH]; intros acc x Hs Hn Hacc; cbn [parse_loop].
      - intros [= <-]. split_and!; try done. intros ? ?%elem_of_nil. done.
      - assert (forall p, p ∈ sig -> p_ann p = TAtom /\ forall d, p_default p = Some d -> refs_ok m d) as Hs' by (intros; apply Hs; by right).
        destruct (dget (p_name p) bd) as [v|] eqn:E; [|by apply IH].
        unfold bindM. destruct (parse_one (pu A) ig p v tt) as [[y|e] []] eqn:Ey; [|done].
        destruct (Hs p ltac:(left)) as [Hp Hd].
        destruct (parse_one_props ig p v y) as [Hy1 Hy2]; [apply (Hb (p_name p, v)); by apply dget_Some_elem|done|done|by rewrite Ey|].
        destruct (parse_loop (pu A) ig sig bd (dupdate acc y.2) tt) as [[z|e] []] eqn:Ez; [|done]. intros [= <-]. cbn [fst snd].
        destruct (IH (dupdate acc y.2) z) as (I1 & I2 & I3); [done|by apply dupdate_NoDup| |by rewrite Ez|].
        + apply Forall_forall. intros w [Hw|Hw]%dupdate_elem; [by rewrite Forall_forall in Hacc; apply Hacc|by rewrite Forall_forall in Hy1; apply Hy1].
        + split_and!; try done. intros kv [->|Hkv]%elem_of_cons; [done|by apply I3].
    Qed.

    (** the arguments of a call *)
    Definition call_refs_ok (sig : list (param arg)) (args : list arg) (kw : pydict arg) : Prop :=
      forall a, a ∈ args \/ a ∈ map snd kw \/ (exists p, p ∈ sig /\ p_default p = Some a) -> refs_ok m a.
    Lemma parse_args_sim ig sig args kw : call_refs_ok sig args kw ->
      sim J (parse_args unwrap sig ig args kw) (parse_args (pu A) sig ig args kw).
    Proof using Hinj Hg.
      intros Hr. unfold parse_args. apply sim_bind; [apply sim_lift|]. intros bd E. apply parse_loop_sim.
      cbn in E. by eapply bound_refs.
    Qed.
    Lemma parse_args_props ig sig args kw x : call_refs_ok sig args kw -> (forall p, p ∈ sig -> p_ann p = TAtom) ->
      (parse_args (pu A) sig ig args kw tt).1 = Ok x -> NoDup (map fst x.2) /\ Forall in_ok x.2 /\ forall kv, kv ∈ x.1 -> bref_ok kv.2.
    Proof.
      intros Hr Hp. unfold parse_args, bindM, liftR. destruct (bind_full sig args kw) as [bd|] eqn:E; [|done]. cbn [fst].
      apply parse_loop_props; [by eapply bound_refs| |constructor|constructor].
      intros p Hps. split; [by apply Hp|]. intros d Hd. apply Hr. eauto.
    Qed.

    (** ** Wrapping the inputs *)
    Lemma construct_triple a : triple J (construct H sel TAtom a) (fun rc => conref H a rc.1 /\ rc.2 = []) (fun _ => True).
    Proof.
      destruct a; cbn [construct]; try (by apply triple_raise); by apply triple_ret.
    Qed.
    Definition inputs_are (inputs : pydict (arg * ty)) (ins : pydict ref) : Prop :=
      Forall2 (fun x y => x.1 = y.1 /\ conref H x.2.1 y.2) inputs ins.
    Lemma inputs_triple inputs : Forall in_ok inputs ->
      triple J (mapM' (fun kat => rc <- construct H sel kat.2.2 kat.2.1 ;; retM (kat.1, rc))%pym inputs)
        (fun rs => inputs_are inputs (map (fun krc => (krc.1, krc.2.1)) rs) /\ concat (map (fun krc => krc.2.2) rs) = [])
        (fun _ => True).
    Proof.
      intros Hi. eapply triple_mono.
      - apply triple_mapM with (Q := fun x y => x.1 = y.1 /\ conref H x.2.1 y.2.1 /\ y.2.2 = []).
        intros x Hx. rewrite Forall_forall in Hi. destruct (Hi _ Hx) as [-> _].
        eapply triple_bind; [apply construct_triple|]. intros rc [H1 H2]. by apply triple_ret.
      - intros rs Hrs. split.
        + induction Hrs as [|x y l l' (E & Hc & _) _ IH]; constructor; [done|]. apply IH. by inversion Hi.
        + clear -Hrs. induction Hrs as [|x y l l' (E & Hc & Hz) _ IH]; cbn; [done|]. by rewrite Hz.
      - done.
    Qed.

    (** ** Recorded calls *)
    Lemma load_refs_triple (d : pydict ids) : (forall kv, kv ∈ d -> shape_in m kv.2) ->
      triple J (load_refs true d) (fun l => l = refmap d) (fun _ => False).
    Proof using Hinj Hg.
      intros Hd. unfold load_refs. eapply triple_mono.
      - apply triple_mapM with (Q := fun kv y => y = (kv.1, RAtom kv.2.1 kv.2.2 None)). intros [k' [c h]] Hx.
        eapply triple_bind; [apply load_ref_triple; by apply (Hd _ Hx)|]. intros r (v & _ & ->). by apply triple_ret.
      - intros l Hl. clear Hd. unfold refmap. induction Hl; cbn; [done|]. by f_equal.
      - done.
    Qed.
    Lemma call_from_data_triple d : m_calls m !! d_hid d = Some (info d) -> call_ok d ->
      triple J (call_from_data d true)
        (fun c => m_ops m !! d_op d = Some (c_op c) /\ c_hid c = d_hid d /\ c_cid c = d_cid d /\ c_ins c = refmap (d_ins d) /\ c_outs c = refmap (d_outs d) /\
                  cdata_of c = d)
        (fun _ => False).
    Proof using Hinj Hg.
      intros Hi Hok. destruct (g_calls _ Hg _ _ Hi) as [_ [o Ho] _ Gi Go]. cbn in *.
      apply triple_bind with (Q := fun o' => o' = o).
      { eapply triple_mono; [apply get_op_triple| |]; cbn; [congruence|]. intros e He. congruence. }
      intros _ ->. apply triple_bind with (Q := fun l => l = refmap (d_ins d)).
      { apply load_refs_triple. intros [k' x] Hx. apply (Gi k'). apply elem_of_list_to_map; [by apply call_ok_NoDup_ins|done]. }
      intros _ ->. apply triple_bind with (Q := fun l => l = refmap (d_outs d)).
      { apply load_refs_triple. intros [k' x] Hx. apply (Go k'). apply elem_of_list_to_map; [by apply call_ok_NoDup_outs|done]. }
      intros _ ->. apply triple_ret. split_and!; try done. unfold cdata_of. cbn.
      rewrite (g_ops _ Hg _ _ Ho). pose proof (idmap_refmap (d_ins d)) as E1. pose proof (idmap_refmap (d_outs d)) as E2. unfold idmap in *.
      rewrite E1, E2. by destruct d.
    Qed.
  End frozen.
End atoms.
