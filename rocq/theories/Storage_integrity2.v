(** Proofs for C18 with collections, part 2: saving, committing, and whole histories. *)
From Coq Require Import Lia.
From stdpp Require Import base strings gmap list.
From Verif Require Import Base PyDict PyDict_proofs Returns DictStore Spec_DictStore DictStore_proofs CallStore Spec_CallStore CallStore_proofs
  Commit Spec_Commit Commit_proofs Refs Args Args_proofs Ident Storage Spec_Storage Spec_Storage2 Storage_base Storage_tabs Storage_laws Storage_save
  Spec_Outputs Storage_outputs Spec_Roundtrip Storage_roundtrip Spec_Atoms Atoms_rel Storage_atoms Storage_atoms3 Spec_Integrity Storage_integrity.

(** * The refs that parsing the arguments leaves in the inputs *)
Section parse.
  Context (ms : gmap string ref).
  Notation Rk := (Rk ms).
  Definition bok (v : bval arg) : Prop :=
    match v with BOne a => Rk a | BTuple l => forall a, a ∈ l -> Rk a | BDict d => forall ka, ka ∈ d -> Rk ka.2 end.
  Lemma parse_one_refs ig p v s x : bok v -> (parse_one unwrap ig p v s).1 = Ok x -> forall y, y ∈ x.2 -> Rk y.2.1.
  Proof.
    intros Hv. unfold parse_one. destruct v as [a|l|d].
    - cbn zeta. set (a' := if bool_decide (p_name p ∈ ig) then AIgn false a else a).
      assert (Rk a') as Ha' by (subst a'; by case_bool_decide). clearbody a'. clear a Hv.
      assert (forall y, y ∈ [(p_name p, (a', p_ann p))] -> Rk y.2.1) as H1 by by intros y ->%elem_of_list_singleton.
      assert (forall y : string * (arg * ty), y ∈ [] -> Rk y.2.1) as H0 by by intros y ?%elem_of_nil.
      assert (forall (d : arg) (f : M st arg) (s : st), ((w <- f ;; e <- liftR (ceq d w) ;;
                 if (e : bool) then retM (BOne d, []) else retM (BOne a', [(p_name p, (a', p_ann p))]))%pym s).1 = Ok x -> forall y, y ∈ x.2 -> Rk y.2.1) as Hg.
      { intros d f s0. unfold bindM, liftR. destruct (f s0) as [[w|e] s1]; [|done]. destruct (ceq d w) as [[]|]; intros [= <-]; done. }
      destruct a' as [v|r|bb a|l|d]; [| |by intros [= <-]|..];
        (destruct (p_default p) as [[ | |[] d0| | ]|]; try (by intros [= <-]); apply Hg).
    - intros [= <-]. cbn [fst snd]. intros y Hy. apply elem_of_list_omap in Hy as ([i a] & Hi & Hy). cbn in Hy.
      destruct (is_ign a); [done|]. injection Hy as <-. apply Hv. apply elem_of_lookup_imap in Hi as (j & z & [= -> ->] & Hj).
      by eapply elem_of_list_lookup_2.
    - intros [= <-]. cbn [fst snd]. intros y Hy. apply elem_of_list_omap in Hy as ([i a] & Hi & Hy). cbn in Hy.
      destruct (is_ign a); [done|]. injection Hy as <-. apply (Hv _ Hi).
  Qed.
  Lemma parse_loop_refs ig sig bd acc s x : (forall kv, kv ∈ bd -> bok kv.2) -> (forall y, y ∈ acc -> Rk y.2.1) ->
    (parse_loop unwrap ig sig bd acc s).1 = Ok x -> forall y, y ∈ x.2 -> Rk y.2.1.
  Proof.
    intros Hb. revert acc s x. induction sig as [|p sig IH]; intros acc s x Hacc; cbn [parse_loop]; [by intros [= <-]|].
    destruct (dget (p_name p) bd) as [v|] eqn:Ev; [|by apply IH]. unfold bindM.
    destruct (parse_one unwrap ig p v s) as [[y|e] s1] eqn:Ey; [|done].
    assert (forall z, z ∈ y.2 -> Rk z.2.1) as Hy.
    { apply (parse_one_refs ig p v s); [apply (Hb (p_name p, v)); by apply dget_Some_elem|by rewrite Ey]. }
    destruct (parse_loop unwrap ig sig bd (dupdate acc y.2) s1) as [[z|e] s2] eqn:Ez; [|done]. intros [= <-]. cbn [snd].
    apply (IH (dupdate acc y.2) s1); [|by rewrite Ez]. intros w [?|?]%dupdate_elem; auto.
  Qed.
  Lemma bound_bok sig args kw bd :
    (forall a, a ∈ args \/ a ∈ map snd kw \/ (exists p, p ∈ sig /\ p_default p = Some a) -> Rk a) ->
    bind_full sig args kw = Ok bd -> forall kv, kv ∈ bd -> bok kv.2.
  Proof.
    intros Hr E kv Hkv.
    pose proof (rel_bind_full (fun a a' => a = a' /\ Rk a) sig args args kw kw) as Hb.
    rewrite E in Hb. cbn in Hb. assert (Forall (fun kv => bok kv.2) bd) as Hf; [|by rewrite Forall_forall in Hf; apply Hf].
    assert (forall d : list (string * arg), Forall (fun kv => Rk kv.2) d -> rel_dict (fun a a' => a = a' /\ Rk a) d d) as Hd.
    { intros d Hd. apply Forall_Forall2_diag. eapply Forall_impl; [done|]. by intros x Hx. }
    assert (Forall2 (rel_kv (rel_bval (fun a a' => a = a' /\ Rk a))) bd bd) as Hbb.
    { apply Hb.
      - intros p d Hp Hdd. split; [done|]. apply Hr. eauto.
      - apply Forall_Forall2_diag, Forall_forall. intros a Ha. split; [done|]. apply Hr. auto.
      - apply Hd, Forall_forall. intros x Hx. apply Hr. right. left. by apply elem_of_list_fmap_1. }
    clear -Hbb. assert (forall bd2, Forall2 (rel_kv (rel_bval (fun a a' => a = a' /\ Rk a))) bd bd2 -> Forall (fun kv => bok kv.2) bd) as Hgen; [|by eapply Hgen].
    clear Hbb. induction 1 as [|[k1 v] [k2 w] l l' [_ Hv] _ IH]; constructor; [|done]. clear IH. cbn in *.
    destruct v as [a|t|d], w as [a'|t'|d']; try done; cbn in *.
    - apply Hv.
    - intros a Ha. apply elem_of_list_lookup in Ha as [i Hi]. eapply Forall2_lookup_l in Hv as (y & _ & _ & Hy); [|done]. done.
    - intros a Ha. apply elem_of_list_lookup in Ha as [i Hi]. eapply Forall2_lookup_l in Hv as (y & _ & _ & _ & Hy); [|done]. done.
  Qed.
  Lemma parse_args_refs sig ig args kw s x :
    (forall a, a ∈ args \/ a ∈ map snd kw \/ (exists p, p ∈ sig /\ p_default p = Some a) -> Rk a) ->
    (parse_args unwrap sig ig args kw s).1 = Ok x -> forall y, y ∈ x.2 -> Rk y.2.1.
  Proof.
    intros Hr. unfold parse_args, bindM, liftR. destruct (bind_full sig args kw) as [bd|] eqn:E; [|done].
    apply parse_loop_refs; [by eapply bound_bok|]. by intros y ?%elem_of_nil.
  Qed.
End parse.

(** * Saving *)
Definition growm {V} (m m' : gmap string V) : Prop := forall h, is_Some (m !! h) -> is_Some (m' !! h).
Lemma growm_insert {V} (m : gmap string V) k v : growm m (<[k := v]> m).
Proof. intros h [x Hx]. destruct (decide (h = k)) as [->|?]; [rewrite lookup_insert; eauto|rewrite lookup_insert_ne by done; eauto]. Qed.
Lemma okr_grow ms ms' r : growm ms ms' -> okr ms r -> okr ms' r.
Proof. intros Hg Hr x Hx Hd. by apply Hg, Hr. Qed.
Lemma shape_of_elements r e : e ∈ elements_of (shape_of r) -> exists e', e' ∈ elements_of r /\ e = detached e'.
Proof.
  destruct r as [c h o|c h [l|]|c h [l|]]; cbn; try by intros ?%elem_of_nil.
  - by intros (e' & -> & He)%elem_of_list_fmap; eauto.
  - intros (kr & -> & (kr' & -> & He)%elem_of_list_fmap)%elem_of_list_fmap. cbn. exists kr'.2. split; [by apply elem_of_list_fmap_1|done].
Qed.

Definition saves_to (X : string -> Prop) (f : M st unit) (Pre : gmap string ref -> Prop) (Post : gmap string ref -> Prop) : Prop :=
  forall ms mo s, stab ms mo s -> closed ms X -> Pre ms ->
    exists ms' s', f s = (Ok tt, s') /\ stab ms' mo s' /\ closed ms' X /\ growm ms ms' /\ Post ms'.
Lemma saves_to_list X l : (forall e, e ∈ l -> saves_to X (save_ref e) (fun m => okr m e) (fun m => is_Some (m !! rhid e))) ->
  saves_to X (iterM save_ref l) (fun m => forall e, e ∈ l -> okr m e) (fun m => forall e, e ∈ l -> is_Some (m !! rhid e)).
Proof.
  induction l as [|e l IH]; intros Hl ms mo s Hs Hc Hp.
  - exists ms, s. split_and!; try done; [by intros h|]. by intros e He%elem_of_nil.
  - cbn [iterM]. unfold bindM. destruct (Hl e ltac:(left) ms mo s Hs Hc (Hp e ltac:(left))) as (m1 & s1 & -> & Hs1 & Hc1 & G1 & P1).
    destruct (IH ltac:(intros; apply Hl; by right) m1 mo s1 Hs1 Hc1) as (m2 & s2 & -> & Hs2 & Hc2 & G2 & P2).
    { intros x Hx. eapply okr_grow; [done|]. apply Hp. by right. }
    exists m2, s2. split_and!; try done; [intros h Hh; auto|]. intros x [->|Hx]%elem_of_cons; auto.
Qed.
Lemma save_ref_to r : forall X, saves_to X (save_ref r) (fun m => okr m r) (fun m => is_Some (m !! rhid r)).
Proof.
  remember (height r) as n eqn:En. revert r En. induction (lt_wf n) as [n _ IH]. intros r -> X ms mo s Hs Hc Hr.
  rewrite save_ref_unfold. unfold has_shape. rewrite (cd_exists_inv _ _ _ _ _ (proj1 Hs)). case_bool_decide as Hsh.
  { exists ms, s. split_and!; try done. by intros h. }
  assert (~ det r) as Hnd by (intros Hd; apply Hsh; by apply (Hr r (nodes_self r))).
  rewrite decide_True by (by destruct r as [c h [v|]|c h [l|]|c h [l|]]).
  set (s0 := match r with RAtom c h (Some v) => (set_atom c v s).2 | _ => s end).
  assert (stab ms mo s0) as Hs0 by (subst s0; by destruct r as [c h [v|]|c h [l|]|c h [l|]]). clearbody s0.
  set (ms1 := <[rhid r := shape_of r]> ms).
  assert (stab ms1 mo (set_shape (rhid r) (shape_of r) s0).2) as Hs1.
  { destruct Hs0 as [A1 A2]. split; cbn; [|done]. by apply (cd_set_inv _ _ any_fun). }
  generalize dependent (set_shape (rhid r) (shape_of r) s0).2. intros s1 Hs1.
  pose proof (growm_insert ms (rhid r) (shape_of r)) as G1. fold ms1 in G1.
  set (X' := fun h => X h \/ exists e, e ∈ elements_of r /\ rhid e = h).
  assert (closed ms1 X') as Hc1.
  { intros h sh Hh. unfold ms1 in Hh. destruct (decide (h = rhid r)) as [->|Hne].
    - rewrite lookup_insert in Hh. injection Hh as <-. split; [by destruct r as [c h [v|]|c h [l|]|c h [l|]]|].
      intros e (e' & He & ->)%shape_of_elements. split; [by destruct e' as [c h [v|]|c h [l|]|c h [l|]]|].
      right. right. exists e'. split; [done|]. by rewrite detached_rhid.
    - rewrite lookup_insert_ne in Hh by done. destruct (Hc _ _ Hh) as [H1 H2]. split; [done|].
      intros e He. destruct (H2 e He) as [? [?|?]]; (split; [done|]); [left; by apply G1|right; by left]. }
  destruct (saves_to_list X' (elements_of r)) with (ms := ms1) (mo := mo) (s := s1) as (ms2 & s2 & E2 & Hs2 & Hc2 & G2 & P2); try done.
  { intros e He. eapply IH; [by apply height_element|done]. }
  { intros e He. eapply okr_grow; [done|]. by apply okr_el in Hr; apply Hr. }
  exists ms2, s2. split_and!; try done.
  - intros h sh Hh. destruct (Hc2 _ _ Hh) as [H1 H2]. split; [done|]. intros e He. destruct (H2 e He) as [? [?|[?|(e' & He' & <-)]]]; auto.
  - intros h Hh. auto.
  - apply G2. unfold ms1. rewrite lookup_insert. eauto.
Qed.

(** * The rows of the call table *)
Section rows.
  Context (A B : string -> Prop).
  Definition okrow (r : crow) : Prop := A (r_rhid r) /\ B (r_op r).
  Definition okd (d : cdata) : Prop := B (d_op d) /\ forall k i, (k, i) ∈ d_ins d ++ d_outs d -> A i.2.
  Lemma okd_rows d : okd d -> forall r, r ∈ rows_of d -> okrow r.
  Proof.
    intros [Ho Hi] r [([k v] & -> & Hk)%elem_of_list_fmap|([k v] & -> & Hk)%elem_of_list_fmap]%elem_of_app;
      (split; [|done]); cbn; apply (Hi k), elem_of_app; auto.
  Qed.
  Lemma data_of_okd hid rows d : data_of_rows hid rows = Ok d -> (forall r, r ∈ rows -> okrow r) -> okd d.
  Proof.
    unfold data_of_rows. destruct rows as [|r0 rows]; [done|]. intros [= <-] Hr. split; cbn [d_op d_ins d_outs].
    - apply Hr. left.
    - intros k i [Hk|Hk]%elem_of_app; apply elem_of_dict_of_inv in Hk; apply elem_of_list_fmap in Hk as (r & [= -> ->] & [_ Hin]%elem_of_list_filter);
        by apply Hr.
  Qed.
  Lemma okrow_upsert r t : okrow r -> (forall r', r' ∈ t -> okrow r') -> forall r', r' ∈ upsert r t -> okrow r'.
  Proof.
    intros Hr. induction t as [|r0 t IH]; intros Ht r'; cbn [upsert].
    - by intros [->|?%elem_of_nil]%elem_of_cons.
    - destruct (decide _).
      + intros [->|?]%elem_of_cons; [done|]. apply Ht. by right.
      + intros [->|?]%elem_of_cons; [apply Ht; left|]. apply IH; [|done]. intros; apply Ht; by right.
  Qed.
  Lemma okrow_mc_save d m : okd d -> (forall r, r ∈ mc_rows m -> okrow r) -> forall r, r ∈ mc_rows (mc_save d m) -> okrow r.
  Proof.
    intros Hd0 Hm. pose proof (okd_rows _ Hd0) as Hd. clear Hd0. unfold mc_save. destruct (decide _); [done|]. cbn [mc_rows]. revert Hm. generalize (mc_rows m).
    induction (rows_of d) as [|r0 l IH]; intros t Ht; cbn [fold_left]; [done|].
    apply IH; [intros; apply Hd; by right|]. apply okrow_upsert; [apply Hd; left|done].
  Qed.
  Lemma okrow_mc_get hid m d : (forall r, r ∈ mc_rows m -> okrow r) -> mc_get hid m = Ok d -> okd d.
  Proof.
    intros Hm. unfold mc_get. destruct (mc_exists hid m); [|done]. unfold mc_mget. cbn [mapR].
    destruct (data_of_rows hid _) as [d'|] eqn:Ed; cbn; [|done]. intros [= <-].
    eapply data_of_okd; [done|]. intros r [_ Hr]%elem_of_list_filter. by apply Hm.
  Qed.
  Lemma okrow_insert f l t : (forall r, r ∈ l -> okrow r) -> (forall r, r ∈ t -> okrow r) ->
    forall r, r ∈ (iterM (fun r => with_fault (f r) (sql_insert r)) l t).2 -> okrow r.
  Proof.
    intros Hl. revert t. induction l as [|r0 l IH]; intros t Ht; cbn [iterM]; [done|]. unfold bindM.
    assert (forall r, r ∈ (with_fault (f r0) (sql_insert r0) t).2 -> okrow r) as H1.
    { destruct (f r0); cbn [with_fault]; [done|]. unfold sql_insert. destruct (decide _); [done|]. cbn.
      intros r [?|Hr%elem_of_list_singleton]%elem_of_app; [by apply Ht|]. subst. apply Hl. left. }
    destruct (with_fault (f r0) (sql_insert r0) t) as [[u|e] t1]; [|done]. apply IH; [|done].
    intros; apply Hl; by right.
  Qed.
  Definition okcc (T : ccalls) : Prop :=
    (forall r, r ∈ mc_rows (cc_cache T) -> okrow r) /\ (forall r, r ∈ cc_pers T -> okrow r).
  Lemma okcc_commit f o T : okcc T -> okcc (calls_commit f o T).2.
  Proof.
    intros HT. unfold calls_commit.
    assert (okcc (iterM (calls_commit_hid f) o T).2) as HI.
    { revert T HT. induction o as [|h o IH]; intros T HT; cbn [iterM]; [done|]. unfold bindM.
      assert (okcc (calls_commit_hid f h T).2) as H1.
      { unfold calls_commit_hid. destruct (mc_get h (cc_cache T)) as [d|e] eqn:Eg; [|done]. destruct HT as [HT1 HT2].
        pose proof (okrow_insert f (rows_of d) (cc_pers T) (okd_rows _ (okrow_mc_get _ _ _ HT1 Eg)) HT2) as Hi.
        destruct (iterM _ (rows_of d) (cc_pers T)) as [r t]. by split. }
      destruct (calls_commit_hid f h T) as [[u|e] T1]; [|done]. by apply IH. }
    destruct (iterM (calls_commit_hid f) o T) as [[u|e] T']; [|done]. by destruct HI.
  Qed.
  Lemma tabs_commit_okcc bigA f o (t : tabs pyval ref op) : okcc (t_calls t) -> okcc (t_calls (commit_body bigA (fun _ => false) (fun _ => false) f o t).2).
  Proof.
    intros Ht. unfold commit_body.
    set (R := fun t t' : tabs pyval ref op => okcc (t_calls t) -> okcc (t_calls t')).
    assert (PreOrder R) as HR by (split; unfold R; [by intros x|by intros x y z; auto]).
    match goal with |- okcc (t_calls (?f t).2) => enough (inR R f) as Hf by by apply Hf end.
    apply inR_bind; [done| |intros _].
    { intros x. unfold on_atoms. unfold R. by destruct (dict_commit _ _ _ _). }
    apply inR_bind; [done| |intros _].
    { intros x. unfold on_shapes. unfold R. by destruct (dict_commit _ _ _ _). }
    apply inR_bind; [done| |intros _].
    { intros x. unfold on_ops. unfold R. by destruct (dict_commit _ _ _ _). }
    apply inR_bind; [done| |intros _].
    { intros x Hx. unfold on_calls. pose proof (okcc_commit (fun r => f (SRow r)) (o_calls o) _ Hx) as Hc.
      by destruct (calls_commit _ _ _). }
    intros x. destruct (f SCommit); done.
  Qed.
End rows.

(** * Histories *)
Section hist.
  Context (H : pyval -> string) (sel : list crow -> list crow) (bigA : pyval -> bool).
  Notation has m := (fun h => is_Some (m !! h)).
  Record inv (held : list ref) (s : st) (ms : gmap string ref) (mo : gmap string op) : Prop := {
    iv_stab : stab ms mo s;
    iv_closed : closed ms (fun _ => False);
    iv_rows : forall r, recorded_row s r -> okrow (has ms) (has mo) r;
    iv_held : forall r, r ∈ held -> okr ms r;
  }.
  Lemma rows_cc A B s : (forall r, recorded_row s r -> okrow A B r) <->
    okcc A B (t_calls (s_tabs s)) /\ forall m, s_alias s = Some m -> forall r, r ∈ mc_rows m -> okrow A B r.
  Proof.
    split.
    - intros Hs. split; [split|]; intros; apply Hs; unfold recorded_row; eauto.
    - intros [[A1 A2] A3] r [?|[?|(m & ? & ?)]]; eauto.
  Qed.
  Lemma inv_ki held s s' ms mo : ki s s' -> inv held s ms mo -> inv held s' ms mo.
  Proof.
    intros [K1 K2 K3 K4] [[S1 S2] I2 I3 I4]. split; [split; auto|done| |done].
    intros r. unfold recorded_row. rewrite K3, K4. apply I3.
  Qed.
  Lemma inv_read {X} held s ms mo (f : M st X) r s' : inR ki f -> f s = (r, s') -> inv held s ms mo -> inv held s' ms mo.
  Proof. intros Hf E. apply inv_ki. specialize (Hf s). by rewrite E in Hf. Qed.
  Lemma inv_held held held' s ms mo : (forall r, r ∈ held' -> okr ms r) -> inv held s ms mo -> inv (held' ++ held) s ms mo.
  Proof. intros Hh [I1 I2 I3 I4]. split; try done. intros r [?|?]%elem_of_app; auto. Qed.

  Local Instance keeps_calls_pre' : PreOrder keeps_calls.
  Proof. split; [by intros s|]. intros s1 s2 s3 [] []. split; congruence. Qed.
  Lemma save_call_inv held c s ms mo : inv held s ms mo -> callok ms c ->
    exists ms' mo' s', save_call c s = (Ok tt, s') /\ inv held s' ms' mo' /\ growm ms ms'.
  Proof.
    intros [I1 I2 I3 I4] Hc. unfold save_call, if_st. destruct (has_call (c_hid c) s).
    { exists ms, mo, s. split_and!; try done. by intros h. }
    set (n := op_name (c_op c)). unfold bindM at 1.
    assert (exists mo1 s1, (if has_op n s then retM tt s else set_op n (c_op c) s) = (Ok tt, s1) /\ stab ms mo1 s1 /\ growm mo mo1 /\ is_Some (mo1 !! n) /\ keeps_calls s s1) as (mo1 & s1 & -> & Hs1 & Gm & Hn & Hk1).
    { unfold has_op. destruct I1 as [S1 S2]. rewrite (cd_exists_inv _ _ _ _ _ S2). case_bool_decide as Ho.
      - exists mo, s. split_and!; try done. by intros h.
      - exists (<[n := c_op c]> mo). eexists. split; [done|]. split; [split; cbn; [done|by apply (cd_set_inv _ _ any_fun)]|].
        split; [apply growm_insert|]. rewrite lookup_insert. split; [eauto|]. by split. }
    unfold bindM.
    destruct (saves_to_list (fun _ => False) (map snd (c_ins c) ++ map snd (c_outs c))) with (ms := ms) (mo := mo1) (s := s1)
      as (ms2 & s2 & E2 & Hs2 & Hc2 & G2 & P2); try done.
    { intros e _. apply save_ref_to. }
    pose proof (inR_iterM keeps_calls save_ref (map snd (c_ins c) ++ map snd (c_outs c)) ltac:(intros; apply save_ref_keeps) s1) as Hk2.
    rewrite E2 in Hk2 |- *. cbn [snd] in Hk2. destruct Hk1 as [K1 K1'], Hk2 as [K2 K2'].
    eexists ms2, mo1, _. split; [done|]. split; [|done]. split.
    - destruct Hs2. by split.
    - done.
    - assert (forall r, okrow (has ms) (has mo) r -> okrow (has ms2) (has mo1) r) as Hmono.
      { intros r [R1 R2]. split; [by apply G2|by apply Gm]. }
      apply rows_cc in I3 as [[A1 A2] A3]. apply rows_cc. cbn. rewrite K2', K1', K2, K1. split; [split|]; cbn.
      + intros r Hr. eapply okrow_mc_save; [| |exact Hr]; [|intros; by apply Hmono, A1].
        split; [done|]. cbn [cdata_of d_ins d_outs]. intros k i [([k' r'] & [= -> ->] & Hk)%elem_of_list_fmap|([k' r'] & [= -> ->] & Hk)%elem_of_list_fmap]%elem_of_app; cbn;
          apply P2, elem_of_app; [left|right]; by apply (elem_of_list_fmap_1 snd) in Hk.
      + intros r Hr. by apply Hmono, A2.
      + intros m Em r Hr. by eapply Hmono, A3.
    - intros r Hr. eapply okr_grow; [done|]. by apply I4.
  Qed.
  Lemma save_calls_inv held cs s ms mo : inv held s ms mo -> callsok ms cs ->
    exists ms' mo' s', iterM save_call cs s = (Ok tt, s') /\ inv held s' ms' mo' /\ growm ms ms'.
  Proof.
    revert s ms mo. induction cs as [|c cs IH]; intros s ms mo Hi Hc; cbn [iterM].
    { exists ms, mo, s. split_and!; try done. by intros h. }
    unfold bindM. destruct (save_call_inv held c s ms mo Hi (Hc c ltac:(left))) as (m1 & mo1 & s1 & -> & Hi1 & G1).
    destruct (IH s1 m1 mo1 Hi1) as (m2 & mo2 & s2 & -> & Hi2 & G2).
    { intros c' Hc' r Hr. eapply okr_grow; [done|]. eapply Hc; [by right|done]. }
    exists m2, mo2, s2. split_and!; try done. intros h Hh; auto.
  Qed.
  Lemma call_run_inv held o args kw keys s ms mo r s' : no_refs_returned o -> passes_held held o args kw -> inv held s ms mo ->
    call_run H sel o args kw keys s = (r, s') -> exists ms' mo', inv (returned_refs r ++ held) s' ms' mo'.
  Proof.
    intros Hno Hp Hi. unfold call_run. unfold bindM at 1.
    pose proof (parse_args_ki (od_sig o) (op_ignore (od_op o)) args kw s) as Hk.
    pose proof (parse_args_refs ms (od_sig o) (op_ignore (od_op o)) args kw s) as Href.
    destruct (parse_args _ _ _ _ _ s) as [[[b ins]|e] s1]; cbn [snd fst] in *.
    2:{ intros [= <- <-]. exists ms, mo. by eapply inv_ki. }
    assert (Hi1 : inv held s1 ms mo) by by eapply inv_ki.
    specialize (Href (b, ins)). cbn [snd] in Href.
    assert (forall y, y ∈ ins -> Rk ms y.2.1) as Hins.
    { apply Href; [|done]. intros a Ha r' Hr'. apply (iv_held _ _ _ _ Hi). by eapply Hp. }
    unfold bindM at 1.
    destruct (call_internal_t H sel ms mo (t_calls (s_tabs s1)) (s_alias s1) (iv_closed _ _ _ _ Hi1) o ins b keys Hno Hins s1) as [HJ Hok].
    { split_and!; try done. apply Hi1. }
    destruct (call_internal H sel o ins b keys s1) as [[[c cs]|e] s2]; cbn [fst snd] in *;
      (assert (Hi2 : inv held s2 ms mo); [destruct HJ as [J1 [J2 J3]], Hi1 as [_ I2 I3 I4]; split; try done;
        intros r0; unfold recorded_row; rewrite J2, J3; apply I3|]).
    2:{ intros [= <- <-]. by exists ms, mo. }
    unfold bindM at 1. destruct (save_calls_inv held (c :: cs) s2 ms mo Hi2 Hok) as (ms3 & mo3 & s3 & -> & Hi3 & G3).
    unfold bindM, liftR. destruct (get_ordered_outputs _ _) as [outs|e] eqn:Eo; intros [= <- <-]; exists ms3, mo3; [|done].
    apply inv_held; [|done]. intros r Hr. eapply okr_grow; [done|]. apply (Hok c ltac:(left)). apply elem_of_app. right.
    assert (r ∈ outs) as Hro by (destruct outs as [|x [|? ?]]; done).
    by eapply ordered_elem.
  Qed.

  Lemma commit_inv' held f o s s' ms mo : orders_of o (s_tabs s) -> commit_storage bigA f o s = (Ok tt, s') ->
    inv held s ms mo -> inv held s' ms mo.
  Proof.
    intros (OA & OS & OO & OC) E [[S1 S2] I2 I3 I4]. apply rows_cc in I3 as [A1 A2].
    unfold commit_storage, on_tabs, commit_disk in E.
    pose proof (tabs_commit_okcc _ _ bigA f o _ A1) as Hb.
    destruct (commit_body bigA _ _ f o (s_tabs s)) as [[[]|e] t] eqn:Eb; [|done]. injection E as <-.
    apply body_ok in Eb as (HA & HS & HO & HCk).
    destruct (commit_inv (fun _ => false) _ _ Commit_proofs.any_fun _ _ _ _ _ S1 OS HS) as [IS' PS].
    destruct (commit_inv (fun _ => false) _ _ Commit_proofs.any_fun _ _ _ _ _ S2 OO HO) as [IO' PO].
    split; [by split|done| |done]. apply rows_cc. cbn. by split.
  Qed.
  Lemma clear_stab ms mo A B (t t' : tabs pyval ref op) r :
    cd_inv anyv false ms (t_shapes t) -> cd_inv anyv false mo (t_ops t) -> okcc A B (t_calls t) -> clear_cache false t = (r, t') ->
    cd_inv anyv false ms (t_shapes t') /\ cd_inv anyv false mo (t_ops t') /\ okcc A B (t_calls t').
  Proof.
    intros IS IO IC. unfold clear_cache, bindM, on_atoms, on_shapes, on_ops, on_calls.
    destruct (cd_clear false (t_atoms t)) as [[[]|e] dA]; [|by intros [= <- <-]].
    cbn [t_shapes t_ops t_calls].
    destruct (cd_clear false (t_shapes t)) as [rS dS] eqn:ES.
    destruct (cd_clear_inv _ _ _ _ _ _ _ IS ES ltac:(done)) as (IS' & _).
    destruct rS as [[]|e]; [|by intros [= <- <-]].
    cbn [t_shapes t_ops t_calls t_atoms].
    destruct (cd_clear false (t_ops t)) as [rO dO] eqn:EO.
    destruct (cd_clear_inv _ _ _ _ _ _ _ IO EO ltac:(done)) as (IO' & _).
    destruct rO as [[]|e]; [|by intros [= <- <-]].
    cbn [t_shapes t_ops t_calls t_atoms].
    unfold cc_clear. case_bool_decide; cbn; intros [= <- <-]; split_and!; try done.
    destruct IC as [_ IC]. split; [by intros r Hr%elem_of_nil|done].
  Qed.
  Lemma clear_inv held s r s' ms mo : clear_storage false s = (r, s') -> inv held s ms mo -> inv held s' ms mo.
  Proof.
    intros E [[S1 S2] I2 I3 I4]. apply rows_cc in I3 as [A1 A2]. unfold clear_storage in E.
    destruct (clear_cache false (s_tabs s)) as [rc t] eqn:Ec.
    destruct (clear_stab _ _ _ _ _ _ _ S1 S2 A1 Ec) as (S1' & S2' & A1').
    assert (forall r, r ∈ mc_rows (call_cache s) -> okrow (has ms) (has mo) r) as Hcc.
    { intros x Hx. unfold call_cache in Hx. destruct (s_alias s) as [m|] eqn:Ea; cbn [default from_option id] in Hx.
      - by apply (A2 m eq_refl).
      - destruct A1 as [A1 _]. by apply A1. }
    destruct rc as [u|e]; injection E as <- <-; (split; [by split|done| |done]); apply rows_cc; cbn; (split; [done|]).
    - by intros m [= <-].
    - done.
  Qed.
  Lemma reopen_inv held s ms mo : nothing_dirty s -> inv held s ms mo -> inv held (reopen s) ms mo.
  Proof.
    intros (_ & D1 & D2 & _) [[S1 S2] I2 I3 I4].
    assert (forall V m (d : cdict V), cd_inv anyv false m d -> cd_dirty d = ∅ -> cd_inv anyv false m (cd_open (cd_pers d))) as Ho.
    { intros V m d Hd D. destruct (cd_clear false d) as [r d'] eqn:Ec.
      destruct (cd_clear_inv _ _ _ _ _ _ _ Hd Ec ltac:(done)) as (Hd' & _).
      unfold cd_clear in Ec. rewrite bool_decide_eq_true_2 in Ec by done. by injection Ec as <- <-. }
    split; [|done| |done].
    - split; cbn; by apply Ho.
    - intros r [Hr|[Hr|(m & [=] & _)]]; [by apply elem_of_nil in Hr|]. apply I3. right. by left.
  Qed.
  Lemma new_inv overflow : inv [] (new_storage overflow) ∅ ∅.
  Proof.
    split.
    - split; cbn.
      + apply cd_inv_open; [apply sql_ok|]. intros k. unfold plook. cbn. by rewrite lookup_empty.
      + apply cd_inv_open; [apply sql_ok|]. intros k. unfold plook. cbn. by rewrite lookup_empty.
    - intros h sh. by rewrite lookup_empty.
    - intros r [Hr|[Hr|(m & [=] & _)]]; by apply elem_of_nil in Hr.
    - by intros r Hr%elem_of_nil.
  Qed.
  Lemma inv_J held s ms mo : inv held s ms mo -> stab ms mo s /\ t_calls (s_tabs s) = t_calls (s_tabs s) /\ s_alias s = s_alias s.
  Proof. by intros []. Qed.
  Lemma istep_inv x y ms mo : istep H sel bigA x y -> inv x.1 x.2 ms mo -> exists ms' mo', inv y.1 y.2 ms' mo'.
  Proof.
    destruct 1 as [held s o args kw keys r s' Hno Hp E|held s o args kw r s' E|held s x r s' E|held s b hid r s' E|held s hids b cs s' E
      |held s r e Hr He|held s r Hd He|held s f o s' Ho E|held s r s' E|held s b|held s Hd]; cbn [fst snd]; intros Hi.
    - by eapply call_run_inv.
    - exists ms, mo. eapply inv_read; [apply call_noop_ki|done|done].
    - exists ms, mo. eapply inv_read; [apply unwrap_ref_ki|done|done].
    - exists ms, mo. apply (inv_held held [r]); [|eapply inv_read; [apply load_ref_ki|done|done]].
      intros r' ->%elem_of_list_singleton.
      destruct (load_ref_t ms mo _ _ (iv_closed _ _ _ _ Hi) b hid s (inv_J _ _ _ _ Hi)) as [_ Hl]. rewrite E in Hl. by apply okt_okr.
    - exists ms, mo. apply inv_held; [|eapply inv_read; [apply mget_call_ki|done|done]].
      unfold mget_call in E. destruct (mget_datas _ _ _ _) as [ds|]; [|done].
      destruct (triple_mapM (fun s0 => stab ms mo s0 /\ t_calls (s_tabs s0) = t_calls (s_tabs s) /\ s_alias s0 = s_alias s)
        (fun d => call_from_data d b) ds (fun _ c => forall r, r ∈ call_refs c -> okt ms r) (fun _ => True)) with (s := s) as [_ Hm].
      { intros d _. eapply triple_mono; [apply (call_from_data_t ms mo _ _ (iv_closed _ _ _ _ Hi))|done|done]. }
      { by apply (inv_J held). }
      rewrite E in Hm. cbn in Hm. intros r Hr. apply elem_of_list_In, in_concat in Hr as (l & Hl & Hr).
      apply in_map_iff in Hl as (c & <- & Hc). apply elem_of_list_In in Hc, Hr.
      destruct (Forall2_elem_r _ _ _ _ Hm Hc) as (? & _ & Hok). by apply okt_okr, Hok.
    - exists ms, mo. apply (inv_held held [e]); [|done]. intros r' ->%elem_of_list_singleton.
      apply (okr_el ms r); [by apply Hi|done].
    - exists ms, mo. apply (inv_held held [r]); [|done]. intros r' ->%elem_of_list_singleton.
      apply okr_intro; [done|]. intros e He'. apply Hi. by apply He.
    - exists ms, mo. by eapply commit_inv'.
    - exists ms, mo. by eapply clear_inv.
    - exists ms, mo. by destruct Hi.
    - exists ms, mo. by apply reopen_inv.
  Qed.
  Theorem ireach_inv x : ireach H sel bigA x -> exists ms mo, inv x.1 x.2 ms mo.
  Proof.
    induction 1 as [ov|x y _ (ms & mo & Hi) Hs]; [exists ∅, ∅; apply new_inv|]. by eapply istep_inv.
  Qed.

  Lemma shape_at_view ms mo s h sh : stab ms mo s -> shape_at s h sh <-> ms !! h = Some sh.
  Proof.
    intros [S1 _]. unfold shape_at. destruct (cd_get_inv _ _ any_fun _ _ h S1) as [_ ->]. destruct (ms !! h); cbn; split; congruence.
  Qed.
  Lemma op_at_view ms mo s h o : stab ms mo s -> op_at s h o <-> mo !! h = Some o.
  Proof.
    intros [_ S1]. unfold op_at. destruct (cd_get_inv _ _ any_fun _ _ h S1) as [_ ->]. destruct (mo !! h); cbn; split; congruence.
  Qed.
  Theorem ireach_intact held s : ireach H sel bigA (held, s) -> intact s.
  Proof.
    intros (ms & mo & [I1 I2 I3 I4])%ireach_inv. cbn in *. split.
    - intros row Hr. destruct (I3 row Hr) as [[sh Hsh] [o Ho]].
      split; [exists sh|exists o]; [by eapply shape_at_view|by eapply op_at_view].
    - intros hid sh e Hsh%(shape_at_view _ _ _ _ _ I1) He. destruct (I2 _ _ Hsh) as [_ He'].
      destruct (He' e He) as [_ [[sh' ?]|[]]]. exists sh'. by eapply shape_at_view.
    - intros hid sh Hsh%(shape_at_view _ _ _ _ _ I1). by destruct (I2 _ _ Hsh).
  Qed.
  Theorem ireach_loads (sel_perm : forall l, sel l ≡ₚ l) held s hid d : ireach H sel bigA (held, s) ->
    cc_get sel hid (t_calls (s_tabs s)) = Ok d ->
    (exists c, (call_from_data d true s).1 = Ok c) \/ (call_from_data d true s).1 = Err EFuel.
  Proof.
    intros (ms & mo & Hi)%ireach_inv Hd. cbn in *.
    destruct (call_from_data_t ms mo _ _ (iv_closed _ _ _ _ Hi) d true s (inv_J _ _ _ _ Hi)) as [_ Hc].
    destruct (call_from_data d true s) as [[c|e] s']; cbn in *; [left; eauto|]. right. f_equal. apply Hc; [done|].
    destruct Hi as [_ _ I3 _]. apply rows_cc in I3 as [[A1 A2] _].
    enough (okd (has ms) (has mo) d) as [? ?] by by split.
    unfold cc_get in Hd. destruct (mc_exists _ _); [by eapply okrow_mc_get|].
    unfold sql_get, sql_mget in Hd. cbn [mapR] in Hd. destruct (data_of_rows hid _) as [d'|] eqn:Ed; cbn in Hd; [|done].
    injection Hd as <-. eapply data_of_okd; [done|]. intros r [_ Hr]%elem_of_list_filter. rewrite sel_perm in Hr.
    apply elem_of_list_filter in Hr as [_ Hr]. by apply A2.
  Qed.
End hist.
