(** Proofs for C07: the ids of values of collection types determine the values. *)
From stdpp Require Import base strings gmap list.
From Verif Require Import Base PyDict PyDict_proofs Returns Refs Args Ident Ident_proofs Spec_Values.

Lemma dget_imap_from {A} (name : nat -> string) `{!Inj (=) (=) name} (l : list A) n i :
  dget (name (n + i)) (imap (fun j x => (name (n + j), x)) l) = l !! i.
Proof.
  revert n i. induction l as [|x l IH]; intros n i; [by destruct i|]. cbn [imap].
  change (dget (name (n + i)) ((name (n + 0), x) :: imap ((fun j x => (name (n + j), x)) ∘ S) l) = (x :: l) !! i).
  cbn [dget]. destruct i as [|i].
  - by rewrite decide_True.
  - rewrite decide_False by (intros E%(inj name); lia). rewrite (imap_ext _ (fun j x => (name (S n + j), x))).
    + replace (n + S i) with (S n + i) by lia. apply IH.
    + intros j y _. cbn. do 3 f_equal. lia.
Qed.
Lemma dget_imap {A} (name : nat -> string) `{!Inj (=) (=) name} (l : list A) i :
  dget (name i) (imap (fun j x => (name j, x)) l) = l !! i.
Proof. exact (dget_imap_from name l 0 i). Qed.
Lemma dget_imap_eq {A B} (f : A -> B) (name : nat -> string) `{!Inj (=) (=) name} (l l' : list A) :
  (forall k, f <$> dget k (imap (fun j x => (name j, x)) l) = f <$> dget k (imap (fun j x => (name j, x)) l')) <-> f <$> l = f <$> l'.
Proof.
  split.
  - intros E. apply list_eq. intros i. rewrite !list_lookup_fmap, <- !(dget_imap name). apply E.
  - intros E k.
    assert (forall l : list A, dget k (imap (fun j x => (name j, x)) l) = None \/ exists i, k = name i) as Hk.
    { intros l0. destruct (dget k _) eqn:Ek; [|by left]. right. apply dget_Some_elem in Ek.
      apply elem_of_lookup_imap in Ek as (i & y & [= -> _] & _). eauto. }
    destruct (Hk l) as [E1|(i & ->)], (Hk l') as [E2|(j & Ej)]; subst.
    + by rewrite E1, E2.
    + rewrite !(dget_imap name), <- !list_lookup_fmap. by rewrite E.
    + rewrite !(dget_imap name), <- !list_lookup_fmap. by rewrite E.
    + rewrite !(dget_imap name), <- !list_lookup_fmap. by rewrite E.
Qed.

Global Instance VStr_inj : Inj (=) (=) VStr.
Proof. by intros ?? [=]. Qed.
Definition vpair (kv : string * string) : pyval := VTuple [VStr kv.1; VStr kv.2].
Global Instance vpair_inj : Inj (=) (=) vpair.
Proof. by intros [] [] [= -> ->]. Qed.
Global Instance elts_inj : Inj (=) (=) (fun i => "elts_" +:+ dec i).
Proof. intros i j E. apply dec_inj. by apply string_app_inj in E. Qed.

Section values.
  Context (H : pyval -> string) `{!Inj (=) (=) H}.
  Local Notation id t v i := (ident H t (AVal v) = Ok i).

  Definition faithful (t : ty) : Prop := forall v v' i i', value_of t v -> value_of t v' -> id t v i -> id t v' i' ->
    (i.1 = i'.1 <-> same_value t v v') /\ (i.2 = i'.2 <-> same_value t v v').

  Lemma ids_list t (f : string * string -> string) (l l' : list pyval) ids ids' :
    (forall v v' i i', v ∈ l -> v' ∈ l' -> id t v i -> id t v' i' -> (f i = f i' <-> same_value t v v')) ->
    Forall2 (fun v i => id t v i) l ids -> Forall2 (fun v i => id t v i) l' ids' ->
    f <$> ids = f <$> ids' <-> Forall2 (same_value t) l l'.
  Proof.
    intros Hf Hl. revert l' ids' Hf. induction Hl as [|v i l ids Hv Hl IH]; intros l' ids' Hf Hl'.
    - destruct Hl' as [|v' i' l' ids' Hv' Hl']; [split; [constructor|done]|]. split; [done|]. intros Hx. inversion Hx.
    - destruct Hl' as [|v' i' l' ids' Hv' Hl']; [split; [done|]; intros Hx; inversion Hx|].
      rewrite !fmap_cons, Forall2_cons, <- (Hf v v' i i'), <- (IH l' ids'); auto; try left.
      + split; [by intros [= ? ?]|by intros [-> ->]].
      + intros; apply Hf; auto; by right.
  Qed.
  Lemma list_case v l t i : seq_of v l -> id (TList t) v i ->
    exists ids, Forall2 (fun v i => id t v i) l ids /\
      i = (rcid (make_list H (map idref ids)),
           output_hid H (call_hid H op_make_list (imap (fun i r => ("elts_" +:+ dec i, r)) (map idref ids)) None) "list").
  Proof.
    intros Hs E. assert (list_elems (AVal v) = Ok (map AVal l)) as El by (destruct Hs as [->| ->]; done).
    cbn [ident] in E. rewrite El in E. cbn [mbind result_bind] in E.
    destruct (mapR (ident H t) (map AVal l)) as [ids|] eqn:Ei; cbn [mbind result_bind] in E; [|done]. injection E as <-.
    exists ids. split; [|done]. clear -Ei. revert ids Ei. induction l as [|x l IH]; intros ids; cbn.
    - intros [= <-]. constructor.
    - destruct (ident H t (AVal x)) as [j|] eqn:Ex; cbn; [|done]. destruct (mapR _ _) as [js|]; cbn; [|done].
      intros [= <-]. constructor; auto.
  Qed.
  Lemma dict_case (d : list (string * pyval)) tk t i : id (TDict tk t) (VDict d) i ->
    exists ids : pydict ref, (forall k, match dget k d with
               | Some x => exists j, id t x j /\ dget k ids = Some (idref j)
               | None => dget k ids = None end) /\
      i = (rcid (make_dict H ids), output_hid H (call_hid H op_make_dict ids None) "dict").
  Proof.
    cbn [ident dict_items mbind result_bind].
    destruct (mapR _ _) as [ids|] eqn:Ei; cbn [mbind result_bind]; [|done]. intros [= <-].
    exists ids. split; [|done]. clear -Ei. revert ids Ei. induction d as [|[k0 x] d IH]; intros ids; cbn.
    - by intros [= <-].
    - destruct (ident H t (AVal x)) as [j|] eqn:Ex; cbn; [|done]. destruct (mapR _ _) as [js|]; cbn; [|done].
      intros [= <-] k. cbn. destruct (decide (k = k0)); [eauto|]. by apply IH.
  Qed.
  Lemma rcid_fmap_idref ids : map (fun r => VStr (rcid r)) (map idref ids) = VStr <$> (fst <$> ids).
  Proof. induction ids; cbn; [done|]. by f_equal. Qed.

  Theorem ident_faithful t : faithful t.
  Proof.
    induction t as [|t IH|tk _ t IH|t _|]; intros v v' i i' Hv Hv' Hi Hi'; cbn [value_of] in *; try done.
    - rewrite ident_atom in Hi, Hi' by done. injection Hi as <-. injection Hi' as <-. cbn [fst snd same_value].
      split; split; intros E; [by apply (inj H)|by subst| |by subst].
      apply (inj H) in E. injection E as E. by apply (inj H).
    - destruct Hv as (l & Hl & Hal), Hv' as (l' & Hl' & Hal'). rewrite Forall_forall in Hal, Hal'.
      destruct (list_case _ _ _ _ Hl Hi) as (ids & Hids & ->), (list_case _ _ _ _ Hl' Hi') as (ids' & Hids' & ->).
      cbn [fst snd].
      assert (same_value (TList t) v v' <-> Forall2 (same_value t) l l') as ->.
      { cbn [same_value]. split; [|eauto 10]. intros (m & m' & Hm & Hm' & HF).
        assert (m = l /\ m' = l') as [-> ->]; [|done].
        destruct Hl as [->| ->], Hl' as [->| ->], Hm as [E|E], Hm' as [E'|E']; by simplify_eq. }
      split.
      + rewrite <- (ids_list t fst l l' ids ids'); [| |done|done].
        * cbn [make_list rcid]. rewrite !rcid_fmap_idref. split.
          -- intros E%(inj H). injection E as E. by apply (inj (fmap VStr)) in E.
          -- by intros ->.
        * intros x x' j j' Hx Hx' Ej Ej'. by apply (IH x x' j j'); auto.
      + rewrite <- (ids_list t snd l l' ids ids'); [| |done|done].
        * unfold output_hid. transitivity (rhid <$> map idref ids = rhid <$> map idref ids').
          -- rewrite <- (dget_imap_eq rhid (fun i => "elts_" +:+ dec i)). split.
             ++ intros E%(inj H). injection E as E. by apply (call_hid_iff H) in E as (_ & _ & _ & E).
             ++ intros E. do 3 f_equal. f_equal. by apply (call_hid_iff H).
          -- assert (forall ids, rhid <$> map idref ids = snd <$> ids) as Er.
             { intros x. induction x; cbn; [done|]. by f_equal. }
             by rewrite !Er.
        * intros x x' j j' Hx Hx' Ej Ej'. by apply (IH x x' j j'); auto.
    - destruct Hv as (d & -> & Hd), Hv' as (d' & -> & Hd').
      destruct (dict_case _ _ _ _ Hi) as (ids & Hids & ->), (dict_case _ _ _ _ Hi') as (ids' & Hids' & ->). cbn [fst snd].
      assert (forall f : string * string -> string,
        (forall v v' i i', value_of t v -> value_of t v' -> id t v i -> id t v' i' -> (f i = f i' <-> same_value t v v')) ->
        forall g : ref -> string, (forall i, g (idref i) = f i) ->
        (forall k, g <$> dget k ids = g <$> dget k ids') <-> same_value (TDict tk t) (VDict d) (VDict d')) as Hg.
      { intros f Hf g Hfg. cbn [same_value]. split.
        - intros E. exists d, d'. split; [done|]. split; [done|]. intros k. specialize (E k). specialize (Hids k). specialize (Hids' k).
          destruct (dget k d) as [x|] eqn:Ex, (dget k d') as [x'|] eqn:Ex'.
          + destruct Hids as (j & Hj & Ej), Hids' as (j' & Hj' & Ej'). rewrite Ej, Ej' in E. cbn in E. injection E as E.
            rewrite !Hfg in E. constructor. apply (Hf x x' j j'); eauto.
          + destruct Hids as (j & Hj & Ej). rewrite Ej, Hids' in E. done.
          + destruct Hids' as (j' & Hj' & Ej'). rewrite Ej', Hids in E. done.
          + constructor.
        - intros (e & e' & [= <-] & [= <-] & E) k. specialize (E k). specialize (Hids k). specialize (Hids' k).
          inversion E as [x x' Hx Ex Ex'|Ex Ex'].
          + rewrite <- Ex in Hids. rewrite <- Ex' in Hids'. destruct Hids as (j & Hj & ->), Hids' as (j' & Hj' & ->).
            cbn. f_equal. rewrite !Hfg. apply (Hf x x' j j'); eauto.
          + rewrite <- Ex in Hids. rewrite <- Ex' in Hids'. by rewrite Hids, Hids'. }
      split.
      + rewrite <- (Hg fst) with (g := rcid); [| |done].
        * cbn [make_dict rcid]. unfold sorted_pairs.
          assert (canon (map (fun kr : string * ref => (kr.1, rcid kr.2)) ids) = canon (map (fun kr => (kr.1, rcid kr.2)) ids') <->
                  forall k, rcid <$> dget k ids = rcid <$> dget k ids') as <-.
          { rewrite canon_same. unfold same_map. by setoid_rewrite (dget_map_val rcid). }
          split; [|by intros ->]. intros E%(inj H). injection E as E.
          by apply (inj (fmap vpair)) in E.
        * intros. by apply IH.
      + rewrite <- (Hg snd) with (g := rhid); [| |done].
        * unfold output_hid. split.
          -- intros E%(inj H). injection E as E. by apply (call_hid_iff H) in E as (_ & _ & _ & E).
          -- intros E. do 3 f_equal. f_equal. by apply (call_hid_iff H).
        * intros. by apply IH.
  Qed.
End values.
