(** Proofs for C19: what was saved is loaded again. *)
From Coq Require Import Lia.
From stdpp Require Import base strings gmap list.
From Verif Require Import Base PyDict PyDict_proofs Returns DictStore Spec_DictStore DictStore_proofs CallStore Spec_CallStore CallStore_proofs
  Commit Spec_Commit Commit_proofs Refs Args Ident Storage Spec_Storage Spec_Storage2 Storage_base Storage_tabs Storage_save Spec_Cleanup Storage_clean Spec_Roundtrip.

Lemma elements_nodes r e : e ∈ elements_of r -> e ∈ nodes r.
Proof. intros He. eapply nodes_elements; [done|apply nodes_self]. Qed.
Lemma nodes_cases r x : x ∈ nodes r -> x = r \/ exists e, e ∈ elements_of r /\ x ∈ nodes e.
Proof.
  destruct r as [c h o|c h [l|]|c h [l|]]; cbn [elements_of nodes]; intros [->|Hx]%elem_of_cons; auto; try by apply elem_of_nil in Hx.
  - right. apply elem_of_list_In, in_concat in Hx as (n & Hn & Hx). apply in_map_iff in Hn as (e & <- & He).
    exists e. split; by apply elem_of_list_In.
  - right. apply elem_of_list_In, in_concat in Hx as (n & Hn & Hx). apply in_map_iff in Hn as (e & <- & He).
    exists e.2. split; [by apply elem_of_list_In, in_map|by apply elem_of_list_In].
Qed.

(** height, and its bound *)
Fixpoint height (r : ref) : nat :=
  S match r with
    | RList _ _ (Some l) => list_max (map height l)
    | RDict _ _ (Some l) => list_max (map (fun kr => height kr.2) l)
    | _ => 0
    end.
Lemma list_max_elem l n : n ∈ l -> n <= list_max l.
Proof. induction l as [|x l IH]; [by intros ?%elem_of_nil|]. cbn. intros [->|Hn]%elem_of_cons; [lia|]. specialize (IH Hn). unfold list_max in IH. lia. Qed.
Lemma list_max_bound l n : (forall x, x ∈ l -> x <= n) -> list_max l <= n.
Proof.
  induction l as [|x l IH]; cbn; [lia|]. intros Hb. pose proof (Hb x ltac:(left)).
  assert (list_max l <= n) by (apply IH; intros; apply Hb; by right). unfold list_max in *. lia.
Qed.
Lemma height_element r e : e ∈ elements_of r -> height e < height r.
Proof.
  destruct r as [c h o|c h [l|]|c h [l|]]; cbn [elements_of height]; try by intros ?%elem_of_nil.
  - intros He. apply Nat.lt_succ_r, list_max_elem. apply elem_of_list_fmap. eauto.
  - intros (kr & -> & He)%elem_of_list_fmap. apply Nat.lt_succ_r, list_max_elem. apply elem_of_list_fmap. eauto.
Qed.
Lemma height_le r n : (forall e, e ∈ elements_of r -> height e <= n) -> height r <= S n.
Proof.
  destruct r as [c h o|c h [l|]|c h [l|]]; cbn [elements_of height]; intros He; try lia.
  - apply le_n_S, list_max_bound. intros x (e & -> & Hx)%elem_of_list_fmap. by apply He.
  - apply le_n_S, list_max_bound. intros x (e & -> & Hx)%elem_of_list_fmap. apply He. apply elem_of_list_fmap. eauto.
Qed.
Lemma node_height r x : x ∈ nodes r -> height x <= height r.
Proof.
  remember (height r) as n eqn:En. revert r En. induction (lt_wf n) as [n _ IH]. intros r -> Hx.
  apply nodes_cases in Hx as [->|(e & He & Hx)]; [done|]. pose proof (height_element _ _ He).
  specialize (IH (height e) ltac:(lia) e eq_refl Hx). lia.
Qed.
Lemma not_inside r e : e ∈ elements_of r -> r ∉ nodes e.
Proof. intros He Hr. apply node_height in Hr. pose proof (height_element _ _ He). lia. Qed.

Definition hids (r : ref) : gset string := list_to_set (map rhid (nodes r)).
Lemma hids_elem r h : h ∈ hids r <-> exists x, x ∈ nodes r /\ rhid x = h.
Proof. unfold hids. rewrite elem_of_list_to_set, elem_of_list_fmap. naive_solver. Qed.
Lemma height_hids (all : list ref) r : (forall x y, x ∈ all -> y ∈ all -> rhid x = rhid y -> x = y) -> (forall x, x ∈ nodes r -> x ∈ all) ->
  height r <= size (hids r).
Proof.
  intros Hs. remember (height r) as n eqn:En. revert r En. induction (lt_wf n) as [n _ IH]. intros r -> Ha.
  assert (Hself : rhid r ∈ hids r) by (apply hids_elem; exists r; split; [apply nodes_self|done]).
  assert (Hpos : 1 <= size (hids r)).
  { destruct (size (hids r)) eqn:E; [|lia]. apply size_empty_inv in E. rewrite E in Hself. by apply elem_of_empty in Hself. }
  destruct (size (hids r)) as [|k] eqn:Ek; [lia|]. apply height_le. intros e He.
  pose proof (height_element _ _ He) as Hlt. specialize (IH (height e) ltac:(lia) e eq_refl).
  assert (Hea : forall x, x ∈ nodes e -> x ∈ all) by (intros x Hx; apply Ha; by eapply nodes_elements).
  specialize (IH Hea). assert (Hsub : {[rhid r]} ∪ hids e ⊆ hids r).
  { intros h [->%elem_of_singleton|(x & Hx & <-)%hids_elem]%elem_of_union; [done|]. apply hids_elem. exists x. split; [|done].
    by eapply nodes_elements. }
  apply subseteq_size in Hsub. rewrite size_union, size_singleton in Hsub; [lia|].
  apply disjoint_singleton_l. intros (x & Hx & Hh)%hids_elem. apply (not_inside r e He).
  replace r with x; [done|]. apply Hs; [by apply Hea|apply Ha, nodes_self|done].
Qed.

Definition in_mem (x : ref) : Prop := match x with RAtom _ _ None | RList _ _ None | RDict _ _ None => False | _ => True end.

Section round.
  Context (H : pyval -> string) (bigA : pyval -> bool).
  Hypothesis Hinj : Inj (=) (=) H.
  Context (all : list ref).
  Hypothesis all_closed : forall r e, r ∈ all -> e ∈ elements_of r -> e ∈ all.
  Hypothesis all_same : forall x y, x ∈ all -> y ∈ all -> rhid x = rhid y -> x = y.
  Hypothesis all_hash : forall c h v, RAtom c h (Some v) ∈ all -> c = H v.
  Hypothesis all_mem : forall x, x ∈ all -> in_mem x.

  Lemma all_nodes r x : r ∈ all -> x ∈ nodes r -> x ∈ all.
  Proof using all_closed.
    remember (height r) as n eqn:En. revert r En. induction (lt_wf n) as [n _ IH]. intros r -> Hr Hx.
    apply nodes_cases in Hx as [->|(e & He & Hx)]; [done|]. eapply IH; [by apply height_element|done|by eapply all_closed|done].
  Qed.

  (** The saved shapes are shapes of refs in [all]; all but [D] have all their elements *)
  Definition J (D : list ref) (m : contents pyval ref op) : Prop :=
    forall h sh, m_shapes m !! h = Some sh -> exists x, x ∈ all /\ rhid x = h /\ sh = shape_of x /\
      (forall c h' v, x = RAtom c h' (Some v) -> m_atoms m !! c = Some v) /\
      (x ∉ D -> forall e, e ∈ elements_of x -> is_Some (m_shapes m !! rhid e)).
  Record more (m m' : contents pyval ref op) : Prop := {
    mo_shapes : m_shapes m ⊆ m_shapes m';
    mo_atoms : m_atoms m ⊆ m_atoms m';
  }.
  Lemma more_refl m : more m m. Proof. done. Qed.
  Lemma more_trans m m' m'' : more m m' -> more m' m'' -> more m m''.
  Proof. intros [] []. split; etrans; done. Qed.
  Definition has (m : contents pyval ref op) (r : ref) : Prop := is_Some (m_shapes m !! rhid r).
  Lemma has_more m m' r : more m m' -> has m r -> has m' r.
  Proof. intros Hm [x Hx]. exists x. by eapply lookup_weaken; [|apply Hm]. Qed.

  Lemma set_shape_inv s m h r : sinv H s m ->
    sinv H (set_shape h r s).2 (Contents (m_atoms m) (<[h := r]> (m_shapes m)) (m_ops m) (m_calls m)).
  Proof.
    intros [IA IS IO IC]. split; cbn; try done. by apply (cd_set_inv _ _ any_fun).
  Qed.
  Lemma set_atom_inv s m v : sinv H s m ->
    sinv H (set_atom (H v) v s).2 (Contents (<[H v := v]> (m_atoms m)) (m_shapes m) (m_ops m) (m_calls m)).
  Proof using Hinj.
    intros [IA IS IO IC]. split; cbn; try done. by apply (cd_set_inv _ _ (okA_fun H Hinj)).
  Qed.

  Definition saves (D : list ref) (f : M st unit) (P : contents pyval ref op -> Prop) : Prop := forall s m, sinv H s m -> J D m ->
    exists m' s', f s = (Ok tt, s') /\ sinv H s' m' /\ J D m' /\ more m m' /\ P m'.
  Lemma saves_list D l : (forall e, e ∈ l -> saves D (save_ref e) (fun m => has m e)) ->
    saves D (iterM save_ref l) (fun m => forall e, e ∈ l -> has m e).
  Proof.
    induction l as [|e l IH]; intros Hl s m Hs HJ.
    - exists m, s. split_and!; try done. intros e He. by apply elem_of_nil in He.
    - cbn [iterM]. unfold bindM. destruct (Hl e ltac:(left) s m Hs HJ) as (m1 & s1 & -> & Hs1 & HJ1 & M1 & P1).
      destruct (IH ltac:(intros; apply Hl; by right) s1 m1 Hs1 HJ1) as (m2 & s2 & -> & Hs2 & HJ2 & M2 & P2).
      exists m2, s2. split_and!; try done; [by eapply more_trans|]. intros x [->|Hx]%elem_of_cons; [by eapply has_more|auto].
  Qed.
  Lemma J_weaken D D' m : (forall x, x ∈ D' -> x ∈ D) -> J D' m -> J D m.
  Proof. intros HD HJ h sh Hh. destruct (HJ _ _ Hh) as (x & ? & ? & ? & ? & He). exists x. split_and!; try done. intros Hx. apply He. auto. Qed.

  Lemma save_ref_saves r : forall D, r ∈ all -> (forall d, d ∈ D -> d ∉ nodes r) -> saves D (save_ref r) (fun m => has m r).
  Proof using Hinj all_closed all_same all_hash all_mem.
    remember (height r) as n eqn:En. revert r En. induction (lt_wf n) as [n _ IH]. intros r -> D Hr HD s m Hs HJ.
    rewrite save_ref_unfold. rewrite (has_shape_inv H s m _ Hs). case_bool_decide as Hsh.
    { exists m, s. split_and!; done. }
    assert (Hnew : m_shapes m !! rhid r = None) by (by apply eq_None_not_Some).
    pose proof (all_mem _ Hr) as Hmem. rewrite decide_True by (by destruct r as [c h [v|]|c h [l|]|c h [l|]]).
    assert (Hcoll : (forall c h o, r <> RAtom c h o) -> exists m' s',
      iterM save_ref (elements_of r) (set_shape (rhid r) (shape_of r) s).2 = (Ok tt, s') /\ sinv H s' m' /\ J D m' /\ more m m' /\ has m' r).
    { intros Hna.
      set (m1 := Contents (m_atoms m) (<[rhid r := shape_of r]> (m_shapes m)) (m_ops m) (m_calls m)).
      pose proof (set_shape_inv _ _ (rhid r) (shape_of r) Hs) as Hs1.
      generalize dependent (set_shape (rhid r) (shape_of r) s).2. intros s1 Hs1. fold m1 in Hs1.
      assert (HJ1 : J (r :: D) m1).
      { intros h sh Hh. cbn in Hh. destruct (decide (h = rhid r)) as [->|Hne].
        - rewrite lookup_insert in Hh. injection Hh as <-. exists r. split_and!; try done.
          + intros c h' v E. by destruct (Hna _ _ _ E).
          + intros Hx. destruct Hx. left.
        - rewrite lookup_insert_ne in Hh by done. destruct (HJ _ _ Hh) as (x & Hx & Hxh & Hxs & Hxa & Hxe).
          exists x. split_and!; try done. intros Hx' e He. cbn. destruct (Hxe ltac:(intros ?; apply Hx'; by right) e He) as [y Hy].
          destruct (decide (rhid e = rhid r)) as [->|Hne']; [rewrite lookup_insert; eauto|]. rewrite lookup_insert_ne by done. eauto. }
      assert (M1 : more m m1). { split; [|done]. cbn. by apply insert_subseteq. }
      destruct (saves_list (r :: D) (elements_of r)) with (s := s1) (m := m1) as (m2 & s2 & E2 & Hs2 & HJ2 & M2 & P2); try done.
      { intros e He. eapply IH; [by apply height_element|done|by eapply all_closed|].
        intros d [->|Hd]%elem_of_cons; [by apply not_inside|]. intros Hn. apply (HD d Hd). by eapply nodes_elements. }
      exists m2, s2. split_and!; try done; [|by eapply more_trans|].
      - intros h sh Hh. destruct (HJ2 _ _ Hh) as (x & Hx & Hxh & Hxs & Hxa & Hxe). exists x. split_and!; try done.
        intros Hxd e He. destruct (decide (x = r)) as [->|Hne]; [by apply P2|].
        apply Hxe; [|done]. intros [?|?]%elem_of_cons; done.
      - eapply has_more; [done|]. exists (shape_of r). cbn. by rewrite lookup_insert. }
    destruct r as [c h [v|]|c h [l|]|c h [l|]]; cbn in Hmem; try done.
    - pose proof (all_hash _ _ _ Hr) as ->.
      pose proof (set_atom_inv _ _ v Hs) as Hs1.
      pose proof (set_shape_inv _ _ h (RAtom (H v) h None) Hs1) as Hs2. cbn in Hnew. cbn [m_atoms m_shapes m_ops m_calls] in Hs2.
      eexists _, _. split; [done|]. split; [exact Hs2|].
      assert (Hat : m_atoms m ⊆ <[H v:=v]> (m_atoms m)).
      { apply map_subseteq_spec. intros k w Hk. destruct (decide (k = H v)) as [->|Hne]; [|by rewrite lookup_insert_ne].
        rewrite lookup_insert. f_equal. apply Hinj. symmetry. eapply (atoms_hash H); [exact Hs|done]. }
      split_and!.
      + intros k sh Hk. cbn in Hk. destruct (decide (k = h)) as [->|Hne].
        * rewrite lookup_insert in Hk. injection Hk as <-. exists (RAtom (H v) h (Some v)). split_and!; try done.
          -- intros ? ? ? [= <- <- <-]. cbn. by rewrite lookup_insert.
          -- intros _ e He. by apply elem_of_nil in He.
        * rewrite lookup_insert_ne in Hk by done. destruct (HJ _ _ Hk) as (x & Hx & Hxh & Hxs & Hxa & Hxe).
          exists x. split_and!; try done; cbn.
          -- intros c' h' w E. eapply lookup_weaken; [by eapply Hxa|done].
          -- intros Hx' e He. destruct (Hxe Hx' e He) as [y Hy].
             destruct (decide (rhid e = h)) as [->|Hne']; [rewrite lookup_insert; eauto|]. rewrite lookup_insert_ne by done. eauto.
      + split; cbn; [by apply insert_subseteq|done].
      + exists (RAtom (H v) h None). cbn. by rewrite lookup_insert.
    - by apply Hcoll.
    - by apply Hcoll.
  Qed.

  (** What loading gives: the elements of lists stay detached *)
  Fixpoint loaded_as (im : bool) (r : ref) : ref :=
    match r with
    | RAtom c h o => RAtom c h (if im then None else o)
    | RList c h (Some l) => RList c h (Some (map detached l))
    | RDict c h (Some l) => RDict c h (Some (map (fun kr => (kr.1, loaded_as im kr.2)) l))
    | _ => r
    end.
  Lemma loaded_ids im r : rcid (loaded_as im r) = rcid r /\ rhid (loaded_as im r) = rhid r.
  Proof. by destruct r as [c h o|c h [l|]|c h [l|]]. Qed.
  Lemma detached_rhid r : rhid (detached r) = rhid r.
  Proof. by destruct r. Qed.

  Section frozen.
    Context (m : contents pyval ref op) (k : ccalls) (al : option mcalls) (b : bool) (lg : list (op * pydict ref)).
    Hypothesis HJ : J [] m.
    Notation F := (frozen H m k al b lg).

    Lemma has_shape_of r : r ∈ all -> has m r -> m_shapes m !! rhid r = Some (shape_of r) /\
      (forall c h v, r = RAtom c h (Some v) -> m_atoms m !! c = Some v) /\ (forall e, e ∈ elements_of r -> has m e).
    Proof using HJ all_same.
      intros Hr [sh Hsh]. destruct (HJ _ _ Hsh) as (x & Hx & Hh & -> & Ha & He).
      rewrite (all_same x r Hx Hr Hh) in *. split_and!; [done|done|]. apply He. apply not_elem_of_nil.
    Qed.
    Lemma has_nodes r x : r ∈ all -> has m r -> x ∈ nodes r -> has m x.
    Proof using HJ all_same all_closed.
      remember (height r) as n eqn:En. revert r En. induction (lt_wf n) as [n _ IH]. intros r -> Hr Hh Hx.
      apply nodes_cases in Hx as [->|(e & He & Hx)]; [done|]. eapply IH; [by apply height_element|done|by eapply all_closed| |done].
      by apply (has_shape_of r).
    Qed.

    Lemma load_triple im r : forall fuel, r ∈ all -> has m r -> height r <= fuel ->
      triple F (load_ref_ fuel im (rhid r)) (fun r' => r' = loaded_as im r) (fun _ => False).
    Proof using HJ Hinj all_same all_closed all_mem.
      remember (height r) as n eqn:En. revert r En. induction (lt_wf n) as [n _ IH]. intros r -> fuel Hr Hh Hf.
      destruct fuel as [|fuel]; [destruct r as [? ? ?|? ? ?|? ? ?]; cbn in Hf; lia|]. cbn [load_ref_].
      destruct (has_shape_of r Hr Hh) as (Hs & Ha & He). pose proof (all_mem _ Hr) as Hm.
      assert (Hel : forall e, e ∈ elements_of r -> triple F (load_ref_ fuel im (rhid e)) (fun r' => r' = loaded_as im e) (fun _ => False)).
      { intros e Hie. pose proof (height_element _ _ Hie). eapply IH; [done|done|by eapply all_closed|by apply He|lia]. }
      apply triple_bind with (Q := fun x => x = shape_of r).
      { eapply triple_mono; [apply get_shape_triple|..]; cbn; intros; congruence. }
      intros sh ->. destruct r as [c h [v|]|c h [l|]|c h [l|]]; cbn in Hm; try done; cbn [shape_of loaded_as].
      - destruct im; [by apply triple_ret|]. specialize (Ha _ _ _ eq_refl).
        apply triple_bind with (Q := fun w => w = v).
        { eapply triple_mono; [by apply get_atom_triple|..]; cbn; intros; congruence. }
        intros w ->. by apply triple_ret.
      - unfold shape_list. apply triple_bind with (Q := fun _ => True).
        { apply triple_iterM. intros e (e0 & -> & He0)%elem_of_list_fmap. rewrite detached_rhid.
          eapply triple_bind; [by apply Hel|]. intros ? _. by apply triple_ret. }
        intros _ _. by apply triple_ret.
      - unfold shape_dict. apply triple_bind with (Q := fun l' => l' = map (fun kr => (kr.1, loaded_as im kr.2)) l).
        + eapply triple_mono; [apply (triple_mapM _ _ _ (fun x y => forall e, e ∈ all -> rhid e = rhid x.2 -> y = (x.1, loaded_as im e)) (fun _ => False))|..]; [| |done].
          * intros x (kr & -> & Hk)%elem_of_list_fmap. cbn [fst snd]. rewrite detached_rhid.
            assert (Hke : kr.2 ∈ elements_of (RDict c h (Some l))) by (cbn; apply elem_of_list_fmap; eauto).
            eapply triple_bind; [by apply Hel|]. intros r ->. apply triple_ret. intros e Hea Hee.
            do 2 f_equal. symmetry. apply all_same; [done| |done]. eapply all_closed; [exact Hr|done].
          * intros l' Hl'. cbn beta in Hl'. assert (Hin : forall kr, kr ∈ l -> kr.2 ∈ all).
            { intros kr Hk. eapply all_closed; [exact Hr|]. cbn. apply elem_of_list_fmap. eauto. }
            clear -Hl' Hin. revert l' Hl'. induction l as [|kr l IHl]; intros l' Hl'; cbn in Hl'.
            -- by apply Forall2_nil_inv_l in Hl'.
            -- apply Forall2_cons_inv_l in Hl' as (y & l1 & Hy & Hl1 & ->). cbn. f_equal.
               ++ apply Hy; [apply Hin; left|]. cbn. by rewrite detached_rhid.
               ++ apply IHl; [|done]. intros; apply Hin; by right.
        + intros l' ->. by apply triple_ret.
    Qed.

    Lemma fuel_enough s r : F s -> r ∈ all -> has m r -> height r <= ref_fuel s.
    Proof using HJ Hinj all_same all_closed all_hash all_mem.
      intros [[_ IS _ _] _ _ _ _] Hr Hh. unfold ref_fuel.
      assert (height r <= size (hids r)) as Hle. { apply (height_hids all); [done|]. intros x. by apply all_nodes. }
      set (d := t_shapes (s_tabs s)) in *.
      assert (hids r ⊆ dom (cd_cache d) ∪ list_to_set (pd_keys (cd_pers d))) as Hsub.
      { intros h (x & Hx & <-)%hids_elem. destruct (has_nodes r x Hr Hh Hx) as [sh Hsh].
        pose proof (inv_view _ _ _ _ IS (rhid x)) as Hv. unfold view in Hv. rewrite Hsh in Hv. apply elem_of_union.
        destruct (cd_cache d !! rhid x) eqn:Ec; [left; by eapply elem_of_dom_2|]. right. apply elem_of_list_to_set. apply pd_keys_plook. by rewrite Hv. }
      apply subseteq_size in Hsub. pose proof (size_union_alt (dom (cd_cache d)) (list_to_set (C := gset string) (pd_keys (cd_pers d)))) as E.
      assert (size (list_to_set (C := gset string) (pd_keys (cd_pers d)) ∖ dom (cd_cache d)) <= length (pd_keys (cd_pers d))) as Hk.
      { transitivity (size (list_to_set (C := gset string) (pd_keys (cd_pers d)))); [apply subseteq_size; set_solver|].
        clear. induction (pd_keys (cd_pers d)) as [|a l IH]; cbn; [by rewrite size_empty|].
        rewrite size_union_alt, size_singleton. etrans; [|apply le_n_S, IH]. apply le_n_S, subseteq_size. set_solver. }
      rewrite E, size_dom in Hsub. lia.
    Qed.
    Lemma load_ref_ok im r : r ∈ all -> has m r -> triple F (load_ref im (rhid r)) (fun r' => r' = loaded_as im r) (fun _ => False).
    Proof using HJ Hinj all_same all_closed all_mem all_hash.
      intros Hr Hh s Hs. unfold load_ref. apply load_triple; [done|done| |done]. by apply fuel_enough.
    Qed.

    Lemma unwrap_ok r : r ∈ all -> has m r -> lists_of_atoms r -> exists v, value_of r = Some v /\
      triple F (unwrap_ref (loaded_as false r)) (fun v' => v' = v) (fun _ => False).
    Proof using HJ Hinj all_same all_closed all_mem all_hash.
      induction r as [c h o|c h|c h l IH|c h|c h l IH] using ref_ind'; intros Hr Hh Hl; pose proof (all_mem _ Hr) as Hm; cbn in Hm; try done.
      - destruct o as [v|]; [|done]. exists v. split; [done|]. by apply triple_ret.
      - cbn [value_of loaded_as unwrap_ref].
        assert (exists vs, mapM value_of l = Some vs /\ triple F (mapM' unwrap_ref (map detached l)) (fun vs' => vs' = vs) (fun _ => False)) as (vs & Hvs & Ht).
        { assert (He : forall e, e ∈ l -> exists v, value_of e = Some v /\ triple F (unwrap_ref (detached e)) (fun v' => v' = v) (fun _ => False)).
          { intros e He. assert (Hea : e ∈ all) by (eapply all_closed; [exact Hr|done]).
            destruct (Hl c h l e ltac:(left) He) as (c' & h' & o & ->). pose proof (all_mem _ Hea) as Hme. destruct o as [v|]; [|done].
            exists v. split; [done|]. cbn [detached unwrap_ref unwrap_atom].
            destruct (has_shape_of _ Hr Hh) as (_ & _ & Hel). specialize (Hel _ He).
            destruct (has_shape_of _ Hea Hel) as (_ & Ha & _).
            eapply triple_bind; [exact (load_ref_ok false _ Hea Hel)|]. intros x ->. cbn [loaded_as].
            eapply triple_bind; [apply set_atom_triple; [done|by eapply Ha]|]. intros _ _. by apply triple_ret. }
          clear -He. induction l as [|e l IHl].
          - exists []. split; [done|]. by apply triple_ret.
          - destruct (He e ltac:(left)) as (v & Hv & Ht). destruct IHl as (vs & Hvs & Hts); [intros; apply He; by right|].
            exists (v :: vs). cbn. rewrite Hv. cbn. rewrite Hvs. split; [done|].
            eapply triple_bind; [exact Ht|]. intros ? ->. eapply triple_bind; [exact Hts|]. intros ? ->. by apply triple_ret. }
        rewrite Hvs. cbn. eexists. split; [done|]. eapply triple_bind; [exact Ht|]. intros ? ->. by apply triple_ret.
      - cbn [value_of loaded_as unwrap_ref].
        assert (exists vs, mapM (fun kr : string * ref => v ← value_of kr.2; Some (kr.1, v)) l = Some vs /\
          triple F (mapM' (fun kr : string * ref => (v <- unwrap_ref kr.2 ;; retM (kr.1, v))%pym) (map (fun kr => (kr.1, loaded_as false kr.2)) l))
            (fun vs' => vs' = vs) (fun _ => False)) as (vs & Hvs & Ht).
        { assert (He : forall kr, kr ∈ l -> exists v, value_of kr.2 = Some v /\ triple F (unwrap_ref (loaded_as false kr.2)) (fun v' => v' = v) (fun _ => False)).
          { intros kr Hk. rewrite Forall_forall in IH. assert (Hke : kr.2 ∈ elements_of (RDict c h (Some l))) by (cbn; apply elem_of_list_fmap; eauto).
            apply IH; [done|by eapply all_closed|by apply (has_shape_of _ Hr Hh)|].
            intros c' h' l' e Hn Hin. eapply Hl; [|done]. by eapply nodes_elements. }
          clear -He. induction l as [|e l IHl].
          - exists []. split; [done|]. by apply triple_ret.
          - destruct (He e ltac:(left)) as (v & Hv & Ht). destruct IHl as (vs & Hvs & Hts); [intros; apply He; by right|].
            exists ((e.1, v) :: vs). cbn. rewrite Hv. cbn. rewrite Hvs. split; [done|].
            eapply triple_bind; [eapply triple_bind; [exact Ht|]; intros ? ->; apply (triple_ret _ _ (fun y => y = (e.1, v))); done|].
            intros ? ->. eapply triple_bind; [exact Hts|]. intros ? ->. by apply triple_ret. }
        rewrite Hvs. cbn. eexists. split; [done|]. eapply triple_bind; [exact Ht|]. intros ? ->. by apply triple_ret.
    Qed.
  End frozen.

  Lemma saved_inv R s : saved_refs bigA R s -> (forall r, r ∈ R -> r ∈ all) ->
    exists m, sinv H s m /\ J [] m /\ forall r, r ∈ R -> has m r.
  Proof using Hinj all_same all_closed all_mem all_hash.
    induction 1 as [ov|R s r x s' Hsv IH E|R s b r x s' Hsv IH Hin E|R s f o s' Hsv IH Ho E|R s x s' Hsv IH E|R s Hsv IH Hd]; intros HR.
    - eexists. split; [apply (tabs_new H)|]. split; [intros h sh Hh; cbn in Hh; by rewrite lookup_empty in Hh|]. intros r Hr. by apply elem_of_nil in Hr.
    - destruct IH as (m & Hs & HJ & Hh); [intros; apply HR; by right|].
      destruct (save_ref_saves r [] ltac:(apply HR; left) ltac:(intros d Hd; by apply elem_of_nil in Hd) s m Hs HJ) as (m' & s1 & E1 & Hs1 & HJ1 & M1 & P1).
      rewrite E in E1. injection E1 as _ ->. exists m'. split_and!; try done. intros y [->|Hy]%elem_of_cons; [done|]. eapply has_more; [done|auto].
    - destruct IH as (m & Hs & HJ & Hh); [done|]. apply elem_of_list_In, in_concat in Hin as (n & Hn & Hin).
      apply in_map_iff in Hn as (r0 & <- & Hr0). apply elem_of_list_In in Hin, Hr0.
      assert (r ∈ all) by (eapply all_nodes; [by apply HR|done]).
      assert (has m r) by (eapply has_nodes; [done|by apply HR|by apply Hh|done]).
      destruct (load_ref_ok m _ _ _ _ HJ b r ltac:(done) ltac:(done) s ltac:(by constructor)) as [HF _].
      rewrite E in HF. exists m. split_and!; try done. apply HF.
    - destruct IH as (m & Hs & HJ & Hh); [done|]. exists m. split_and!; try done.
      unfold commit_storage in E. unfold on_tabs in E. destruct (commit_disk _ _ _ f o (s_tabs s)) as [rr t'] eqn:Et.
      injection E as -> <-. by eapply (tabs_commit H bigA Hinj).
    - destruct IH as (m & Hs & HJ & Hh); [done|]. exists m. split_and!; try done.
      unfold clear_storage in E. destruct (clear_cache false (s_tabs s)) as [[u|ee] t'] eqn:Et; injection E as <- <-;
        exact (proj1 (tabs_clear H _ _ _ _ Hs Et)).
    - destruct IH as (m & Hs & HJ & Hh); [done|]. exists m. split_and!; try done. exact (tabs_reopen H _ _ Hs Hd).
  Qed.
End round.

Lemma round_trip H bigA R s r : Inj (=) (=) H -> saved_refs bigA R s -> proper_refs H R -> r ∈ concat (map nodes R) ->
  exists r' s', load_ref false (rhid r) s = (Ok r', s') /\ rcid r' = rcid r /\ rhid r' = rhid r /\
    (lists_of_atoms r -> exists v, value_of r = Some v /\ (unwrap_ref r' s').1 = Ok v).
Proof.
  intros Hinj Hsv [Psame Phash Pmem] Hr. set (all := concat (map nodes R)) in *.
  assert (closed : forall r e, r ∈ all -> e ∈ elements_of r -> e ∈ all).
  { intros x e Hx He. unfold all in *. apply elem_of_list_In, in_concat in Hx as (n & Hn & Hx). apply elem_of_list_In, in_concat.
    exists n. split; [done|]. apply in_map_iff in Hn as (r0 & <- & Hr0). apply elem_of_list_In in Hx. apply elem_of_list_In. by eapply nodes_closed. }
  assert (HR : forall r, r ∈ R -> r ∈ all).
  { intros x Hx. apply elem_of_list_In, in_concat. exists (nodes x). split; [apply in_map; by apply elem_of_list_In|apply elem_of_list_In, nodes_self]. }
  destruct (saved_inv H bigA Hinj all closed Psame Phash Pmem R s Hsv HR) as (m & Hs & HJ & Hh).
  assert (Hhr : has m r).
  { unfold all in Hr. apply elem_of_list_In, in_concat in Hr as (n & Hn & Hin). apply in_map_iff in Hn as (r0 & <- & Hr0).
    apply elem_of_list_In in Hin, Hr0. eapply has_nodes; [exact closed|exact Psame|exact HJ|by apply HR|by apply Hh|done]. }
  destruct (load_ref_ok H Hinj all closed Psame Phash Pmem m _ _ _ _ HJ false r Hr Hhr s ltac:(by constructor)) as [HF Ho].
  destruct (load_ref false (rhid r) s) as [[r'|e] s'] eqn:E; cbn in Ho; [|done]. subst r'. cbn in HF.
  eexists _, _. split; [done|]. destruct (loaded_ids false r) as [-> ->]. split_and!; try done.
  intros Hl. destruct (unwrap_ok H Hinj all closed Psame Phash Pmem m (t_calls (s_tabs s)) (s_alias s) (s_allow s) (s_log s) HJ r Hr Hhr Hl) as (v & Hv & Ht).
  exists v. split; [done|]. destruct (Ht s' HF) as [_ Hu]. destruct (unwrap_ref _ s').1; by subst.
Qed.

Lemma save_succeeds H bigA R s r : Inj (=) (=) H -> saved_refs bigA R s -> proper_refs H (r :: R) -> (save_ref r s).1 = Ok tt.
Proof.
  intros Hinj Hsv [Psame Phash Pmem]. set (all := concat (map nodes (r :: R))) in *.
  assert (closed : forall r e, r ∈ all -> e ∈ elements_of r -> e ∈ all).
  { intros x e Hx He. unfold all in *. apply elem_of_list_In, in_concat in Hx as (n & Hn & Hx). apply elem_of_list_In, in_concat.
    exists n. split; [done|]. apply in_map_iff in Hn as (r0 & <- & Hr0). apply elem_of_list_In in Hx. apply elem_of_list_In. by eapply nodes_closed. }
  assert (HR : forall x, x ∈ r :: R -> x ∈ all).
  { intros x Hx. apply elem_of_list_In, in_concat. exists (nodes x). split; [apply in_map; by apply elem_of_list_In|apply elem_of_list_In, nodes_self]. }
  destruct (saved_inv H bigA Hinj all closed Psame Phash Pmem R s Hsv) as (m & Hs & HJ & Hh); [intros; apply HR; by right|].
  destruct (save_ref_saves H Hinj all closed Psame Phash Pmem r [] ltac:(apply HR; left) ltac:(intros d Hd; by apply elem_of_nil in Hd) s m Hs HJ)
    as (m' & s1 & -> & _). done.
Qed.
