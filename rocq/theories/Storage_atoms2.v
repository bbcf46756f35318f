(** Proofs for C01-C03, C08, C18 over histories of programs with atoms, part 2: looking up, executing, saving. *)
From stdpp Require Import base strings gmap list.
From Verif Require Import Base PyDict PyDict_proofs Returns Spec_Returns Returns_proofs DictStore Spec_DictStore DictStore_proofs
  CallStore Spec_CallStore CallStore_proofs Commit Spec_Commit Commit_proofs Refs Args Ident Storage Spec_Storage Storage_base
  Storage_laws Storage_tabs Spec_Atoms Atoms_rel Storage_atoms.

(** ** The arguments for the function come from the bound arguments *)
Section pick.
  Context {X : Type} (P : X -> Prop) (tup : list X -> X) (dct : pydict X -> X).
  Hypothesis Htup : forall l, Forall P l -> P (tup l).
  Hypothesis Hdct : forall d, Forall (fun kx => P kx.2) d -> P (dct d).
  Definition bvP (v : bval X) : Prop :=
    match v with BOne x => P x | BTuple l => Forall P l | BDict d => Forall (fun kx => P kx.2) d end.
  Definition dP {Y} (Q : Y -> Prop) (d : pydict Y) : Prop := Forall (fun kx => Q kx.2) d.
  Lemma dP_get {Y} (Q : Y -> Prop) k (d : pydict Y) v : dP Q d -> dget k d = Some v -> Q v.
  Proof. intros Hd E%dget_Some_elem. unfold dP in Hd. rewrite Forall_forall in Hd. exact (Hd _ E). Qed.
  Lemma dP_del {Y} (Q : Y -> Prop) k (d : pydict Y) : dP Q d -> dP Q (ddel k d).
  Proof.
    intros Hd. unfold dP in *. rewrite Forall_forall in *. intros x Hx. apply Hd. clear -Hx.
    induction d as [|[k2 w] d IH]; cbn in Hx; [done|].
    case_decide; [by right|]. apply elem_of_cons in Hx as [->|Hx]; [left|right; auto].
  Qed.
  Lemma dP_update {Y} (Q : Y -> Prop) (d l : pydict Y) : dP Q d -> dP Q l -> dP Q (dupdate d l).
  Proof.
    intros Hd Hl. unfold dP in *. rewrite Forall_forall in *. intros x [Hx|Hx]%dupdate_elem; auto.
  Qed.
  Lemma dP_set {Y} (Q : Y -> Prop) k v (d : pydict Y) : dP Q d -> Q v -> dP Q (dset k v d).
  Proof. intros Hd Hv. apply (dP_update Q d [(k, v)]); [done|]. by repeat constructor. Qed.

  Lemma take_kwargs_P keys sig b kw b' kw' : dP bvP b -> dP P kw ->
    take_kwargs tup dct keys sig b kw = Ok (b', kw') -> dP bvP b' /\ dP P kw'.
  Proof using Htup Hdct.
    revert b kw. induction keys as [|k keys IH]; intros b kw Hb Hkw; cbn [take_kwargs]; [by intros [= <- <-]|].
    destruct (dget k b) as [v|] eqn:E.
    - apply IH; [by apply dP_del|]. apply dP_set; [done|]. pose proof (dP_get _ _ _ _ Hb E) as Hv. destruct v; cbn in *; auto.
    - destruct (find _ sig) as [p|]; [|done]. unfold dindex. destruct (dget (p_name p) b) as [v|] eqn:Ep; [|done].
      cbn [of_option mbind result_bind]. destruct v as [ | |d]; [done|done|]. destruct (dget k d) as [x|] eqn:Ed; [|done]. cbn.
      pose proof (dP_get _ _ _ _ Hb Ep) as Hd. cbn in Hd.
      apply IH; [apply dP_set; [done|by apply (dP_del P)]|apply dP_set; [done|by eapply (dP_get P)]].
  Qed.
  Lemma bound_args_P sig b : dP bvP b -> Forall P (bound_args sig b).
  Proof.
    intros Hb. induction sig as [|p sig IH]; cbn [bound_args]; [constructor|].
    destruct (p_kind p); try constructor; (destruct (dget (p_name p) b) as [[x|l|d]|] eqn:E; [| |done|constructor]);
      pose proof (dP_get _ _ _ _ Hb E) as Hv; cbn in Hv; try (by constructor); by apply Forall_app.
  Qed.
  Lemma bound_kwargs_P sig b st kw : dP bvP b -> dP P kw -> dP P (bound_kwargs tup dct sig b st kw).
  Proof using Htup Hdct.
    intros Hb. revert st kw. induction sig as [|p sig IH]; intros st kw Hkw; cbn [bound_kwargs]; [done|].
    destruct (dget (p_name p) b) as [v|] eqn:E.
    - pose proof (dP_get _ _ _ _ Hb E) as Hv. destruct (st || _); apply IH; try done.
      unfold kw_entry. destruct v as [x|l|d]; cbn in Hv.
      + by apply dP_set.
      + apply dP_set; auto.
      + case_decide; [by apply dP_update|apply dP_set; auto].
    - destruct (st || _); by apply IH.
  Qed.
  Lemma function_args_P sig b keys ak : dP bvP b -> function_args tup dct sig b keys = Ok ak -> Forall P ak.1 /\ dP P ak.2.
  Proof using Htup Hdct.
    intros Hb. unfold function_args. destruct (take_kwargs tup dct keys sig b []) as [[b' kw]|] eqn:E; [|done].
    cbn. intros [= <-]. apply take_kwargs_P in E as [H1 H2]; [|done|constructor]. cbn. split.
    - by apply bound_args_P.
    - apply dP_update; [done|]. apply bound_kwargs_P; [done|constructor].
  Qed.
  Lemma to_args_kwargs_P sig b ak : dP bvP b -> boundargs_to_args_kwargs sig b = Ok ak -> Forall P ak.1 /\ dP P ak.2.
  Proof.
    intros Hb. revert ak. induction sig as [|p sig IH]; intros ak; cbn [boundargs_to_args_kwargs].
    - intros [= <-]. split; constructor.
    - unfold dindex. destruct (dget (p_name p) b) as [v|] eqn:E; [|done]. cbn [of_option mbind result_bind].
      destruct (boundargs_to_args_kwargs sig b) as [[args kw]|]; [|done]. cbn.
      destruct (IH _ eq_refl) as [I1 I2]. pose proof (dP_get _ _ _ _ Hb E) as Hv.
      destruct (p_kind p), v as [x|l|d]; intros; simplify_eq; cbn in *; split; try done; try (by constructor); try (by apply Forall_app).
      + apply (dP_update P [(p_name p, x)]); [by repeat constructor|done].
      + by apply (dP_update P d).
  Qed.
End pick.

Lemma Forall2_elem {X Y} (P Q : X -> Y -> Prop) l l' :
  Forall2 P l l' -> (forall x y, x ∈ l -> y ∈ l' -> P x y -> Q x y) -> Forall2 Q l l'.
Proof.
  induction 1 as [|x y l l' Hxy _ IH]; intros Hq; constructor; [apply Hq; [left|left|done]|].
  apply IH. intros; apply Hq; [by right|by right|done].
Qed.
Lemma Forall2_in_r {X Y} (P : X -> Y -> Prop) l l' y : Forall2 P l l' -> y ∈ l' -> exists x, x ∈ l /\ P x y.
Proof.
  induction 1 as [|x z l l' Hxy _ IH]; [by intros ?%elem_of_nil|]. intros [->|Hy]%elem_of_cons; [eexists; split; [left|done]|].
  destruct (IH Hy) as (x' & Hx & Hp). exists x'. split; [by right|done].
Qed.
Lemma Forall2_in_l {X Y} (P : X -> Y -> Prop) l l' x : Forall2 P l l' -> x ∈ l -> exists y, y ∈ l' /\ P x y.
Proof.
  induction 1 as [|z y l l' Hxy _ IH]; [by intros ?%elem_of_nil|]. intros [->|Hy]%elem_of_cons; [eexists; split; [left|done]|].
  destruct (IH Hy) as (x' & Hx & Hp). exists x'. split; [by right|done].
Qed.
Lemma Forall2_keys {X Y} (P : string * X -> string * Y -> Prop) l l' :
  Forall2 P l l' -> (forall x y, P x y -> y.1 = x.1) -> map fst l' = map fst l.
Proof. intros HF Hp. induction HF as [|x y l l' Hxy _ IH]; cbn; [done|]. by rewrite (Hp _ _ Hxy), IH. Qed.

Section atoms2.
  Context (H : pyval -> string) (sel : list crow -> list crow).
  Hypothesis Hinj : Inj (=) (=) H.
  Hypothesis sel_perm : forall l, sel l ≡ₚ l.
  Notation good := (good H).
  Notation chash := (chash H).

  (** ** What can be saved *)
  Record pl (m : contents pyval ref op) (r : ref) : Prop := {
    pl_atom : exists c h o, r = RAtom c h o /\ (shape_in m (c, h) \/ h = H (VStr c)) /\
      match o with Some v => H v = c | None => is_Some (m_atoms m !! c) end;
  }.
  Lemma rok_pl m r : good m -> rok H m r -> pl m r.
  Proof.
    intros Hg (c & h & o & -> & Hs & Hv). split. exists c, h, o. split_and!; [done|by left|].
    destruct o; [by apply Hv|]. by eapply (good_shape H).
  Qed.
  Record savec (m : contents pyval ref op) (c : call) : Prop := {
    sv_ok : call_ok (cdata_of c);
    sv_ver : exists ver, c_hid c = chash ver (op_name (c_op c)) (snd <$> idm (c_ins c)) /\
                         c_cid c = chash ver (op_name (c_op c)) (fst <$> idm (c_ins c));
    sv_ins : forall k r, (k, r) ∈ c_ins c -> pl m r;
    sv_outs : forall k r, (k, r) ∈ c_outs c -> exists cc o, r = RAtom cc (output_hid H (c_hid c) k) o /\
                match o with Some v => H v = cc | None => is_Some (m_atoms m !! cc) end;
  }.
  Lemma output_hid_inj ch k ch' k' : output_hid H ch k = output_hid H ch' k' -> ch = ch' /\ k = k'.
  Proof using Hinj. intros E%Hinj. by simplify_eq. Qed.
  Lemma output_hid_not ch k c : output_hid H ch k <> H (VStr c).
  Proof using Hinj. intros E%Hinj. done. Qed.

  (** ** Looking up *)
  Section frozen.
    Context (m : contents pyval ref op) (k : ccalls) (al : option mcalls) (b : bool) (lg : list (op * pydict ref)).
    Context (Hg : good m) (Hk : calls_inv m k).
    Notation J := (frozen H m k al b lg).
    Notation A := (m_atoms m).

    (** the inputs of a call in play *)
    Definition ins_ok (ins : pydict ref) : Prop := NoDup (map fst ins) /\ forall k r, (k, r) ∈ ins -> pl m r.

    (** what a lookup may find for the call of [o] with [ins] *)
    Definition found_by_hid (o : op) (ins : pydict ref) (c : call) : Prop :=
      exists d, m_calls m !! d_hid d = Some (info d) /\ call_ok d /\ d_hid d = call_hid H o ins None /\
        m_ops m !! d_op d = Some (c_op c) /\ c_hid c = d_hid d /\ c_cid c = d_cid d /\
        c_ins c = refmap (d_ins d) /\ c_outs c = refmap (d_outs d) /\ cdata_of c = d.
    Definition found_by_content (o : op) (ins : pydict ref) (c : call) : Prop :=
      m_calls m !! c_hid c = None /\ savec m c /\ c_hid c = call_hid H o ins None /\ c_cid c = call_cid H o ins None /\
      idm (c_ins c) = idm ins /\ m_ops m !! op_name o = Some (c_op c) /\
      exists d, m_calls m !! d_hid d = Some (info d) /\ d_cid d = c_cid c /\ call_ok d /\ d_op d = op_name o /\
        Forall2 (fun kv kr => kr = (kv.1, RAtom kv.2.1 (output_hid H (c_hid c) kv.1) None)) (d_outs d) (c_outs c) /\
        map fst (c_ins c) = map fst (d_ins d).
    Definition not_found (o : op) (ins : pydict ref) : Prop :=
      m_calls m !! call_hid H o ins None = None /\ cc_exists_content (call_cid H o ins None) k = false.
    Definition lookup_spec (o : op) (ins : pydict ref) (found : option call) : Prop :=
      match found with
      | Some c => found_by_hid o ins c \/ found_by_content o ins c
      | None => not_found o ins
      end.

    Lemma set_hids_spec hids (d : pydict ref) d' : set_hids hids d = Ok d' ->
      Forall2 (fun kr kr' => exists h, hids kr.1 = Ok h /\ kr' = (kr.1, with_hid h kr.2)) d d'.
    Proof.
      intros E%mapR_Ok_inv. eapply Forall2_impl; [exact E|]. intros x y Hxy. cbn in Hxy.
      destruct (hids x.1) as [h|]; [|done]. cbn in Hxy. injection Hxy as <-. eauto.
    Qed.
    Lemma lookup_triple o ins : ins_ok ins ->
      triple J (lookup_call H sel o ins) (lookup_spec o ins) (fun _ => m_calls m !! call_hid H o ins None = None).
    Proof using Hinj sel_perm Hg Hk.
      intros [Hn Hpl]. unfold lookup_call.
      change (triple J (fun s => (fun kk => fun s => (if cc_exists (call_hid H o ins None) kk then
        (d <- liftR (cc_get sel (call_hid H o ins None) kk) ;; c <- call_from_data d true ;; retM (Some c))%pym s
        else if cc_exists_content (call_cid H o ins None) kk then
        (d <- liftR (cc_get_content (call_cid H o ins None) kk) ;;
         c <- call_from_data d true ;;
         names <- liftR (get_ordered_outputs (op_onames o) (map (fun kv => (kv.1, kv.1)) (d_outs d))) ;;
         outs <- liftR (set_hids (fun k => if decide (k ∈ names) then Ok (output_hid H (call_hid H o ins None) k) else Err EKeyError)
                          (c_outs c)) ;;
         ins' <- liftR (set_hids (fun k => r ← dindex k ins; Ok (rhid r)) (c_ins c)) ;;
         retM (Some (Call (c_op c) (c_cid c) (call_hid H o ins None) ins' outs (c_sem c) (c_cont c))))%pym s
        else (Ok None, s))) (t_calls (s_tabs s)) s) (lookup_spec o ins) (fun _ => m_calls m !! call_hid H o ins None = None)).
      apply calls_triple.
      rewrite (calls_exists _ _ _ Hk). case_bool_decide as He.
      - destruct He as [i Hi]. destruct (calls_get sel sel_perm _ _ _ _ Hk Hi) as (d & Ed & <- & Hok).
        rewrite Ed. pose proof (cg_hid _ _ _ _ (g_calls _ _ Hg _ _ Hi)) as Hhid. cbn in Hhid.
        apply triple_bind with (Q := fun x => x = d); [by apply triple_lift|]. intros _ ->.
        rewrite <-Hhid in Hi.
        eapply triple_bind; [eapply triple_mono; [by apply (call_from_data_triple H Hinj m k al b lg Hg)|done|done]|].
        intros c Hc. apply triple_ret. left. exists d. split_and!; try done; apply Hc.
      - apply eq_None_not_Some in He. destruct (cc_exists_content (call_cid H o ins None) k) eqn:Ec; [|by intros s Hs].
        destruct (cc_get_content (call_cid H o ins None) k) as [d|e] eqn:Ed; [|by intros s Hs].
        apply (calls_get_content _ _ _ _ Hk) in Ed as (Hi & Hcid & Hok).
        apply triple_bind with (Q := fun x => x = d); [by apply triple_lift|]. intros _ ->.
        eapply triple_bind; [eapply triple_mono; [by apply (call_from_data_triple H Hinj m k al b lg Hg)|done|done]|].
        intros c (Hop & Ech & Ecc & Eci & Eco & Ecd).
        apply triple_bind with (Q := fun _ => True).
        { apply triple_lift. destruct (get_ordered_outputs _ _); done. }
        intros names _.
        destruct (set_hids (fun k0 => if decide (k0 ∈ names) then Ok (output_hid H (call_hid H o ins None) k0) else Err EKeyError)
                          (c_outs c)) as [outs|] eqn:Eo; [|by intros s Hs].
        apply triple_bind with (Q := fun x => x = outs); [by apply triple_lift|]. intros _ ->.
        destruct (set_hids (fun k0 => r ← dindex k0 ins; Ok (rhid r)) (c_ins c)) as [ins'|] eqn:Ei; [|by intros s Hs].
        apply triple_bind with (Q := fun x => x = ins'); [by apply triple_lift|]. intros _ ->.
        apply triple_ret. right.
        destruct (g_calls _ _ Hg _ _ Hi) as [_ _ (ver & Gh & Gc) Gi Go]. cbn in Gh, Gc, Gi, Go.
        rewrite Hcid in Gc. rewrite call_cid_chash in Gc. apply (chash_inj H Hinj) in Gc as (Hver & Hname & Hins).
        apply set_hids_spec in Eo, Ei.
        pose proof (call_ok_NoDup_ins _ Hok) as Hnd.
        (* the inputs *)
        assert (Forall2 (fun (kv : string * ids) (kr : string * ref) => exists r, (kv.1, r) ∈ ins /\ rcid r = kv.2.1 /\ kr = (kv.1, RAtom kv.2.1 (rhid r) None)) (d_ins d) ins') as Fi.
        { rewrite Eci in Ei. unfold refmap in Ei. apply Forall2_fmap_l in Ei.
          eapply Forall2_elem; [exact Ei|]. intros [k0 [c0 h0]] y Hx _ (h & Hh & ->). cbn in *.
          unfold dindex in Hh. destruct (dget k0 ins) as [r|] eqn:Er; [|done]. cbn in Hh. injection Hh as <-.
          apply dget_Some_elem in Er. exists r. split_and!; [done| |done].
          assert (list_to_map (d_ins d) !! k0 = Some (c0, h0)) as E1 by (by apply elem_of_list_to_map).
          apply (f_equal (fun g : gmap string string => g !! k0)) in Hins. rewrite !lookup_fmap in Hins.
          rewrite E1, (idm_Some _ _ _ Hn Er) in Hins. cbn in Hins. congruence. }
        assert (map fst ins' = map fst (d_ins d)) as Ek.
        { eapply Forall2_keys; [exact Fi|]. intros x y (r & _ & _ & ->). done. }
        assert (Forall2 (fun (kv : string * ids) (kr : string * ref) => kr = (kv.1, RAtom kv.2.1 (output_hid H (call_hid H o ins None) kv.1) None)) (d_outs d) outs) as Fo.
        { rewrite Eco in Eo. unfold refmap in Eo. apply Forall2_fmap_l in Eo.
          eapply Forall2_impl; [exact Eo|]. intros [k0 [c0 h0]] y (h & Hh & ->). cbn in *. case_decide; [|done]. by injection Hh as <-. }
        assert (map fst outs = map fst (d_outs d)) as Ek2.
        { eapply Forall2_keys; [exact Fo|]. intros x y ->. done. }
        assert (idm ins' = idm ins) as Eid.
        { apply map_eq. intros k0. destruct (idm ins' !! k0) as [i|] eqn:E1.
          - apply idm_inv in E1 as (r & Hr & ->). apply (Forall2_in_r _ _ _ _ Fi) in Hr as (x & Hx & r' & Hr' & Er & E2).
            injection E2 as -> ->. cbn. rewrite (idm_Some _ _ _ Hn Hr'). by rewrite <-Er.
          - destruct (idm ins !! k0) as [i|] eqn:E2; [|done]. exfalso.
            apply (f_equal (fun g : gmap string string => g !! k0)) in Hins. rewrite !lookup_fmap in Hins. rewrite E2 in Hins.
            destruct (list_to_map (d_ins d) !! k0) as [j|] eqn:E3; [|done].
            apply elem_of_list_to_map_2 in E3. apply (Forall2_in_l _ _ _ _ Fi) in E3 as (y & Hy & r & _ & _ & ->).
            apply idm_Some in Hy; [|by rewrite Ek]. cbn in Hy. by rewrite Hy in E1. }
        unfold found_by_content. cbn [c_hid c_cid c_ins c_outs c_op]. split_and!; [done| |done|congruence|done| |].
        + split; cbn [c_hid c_cid c_ins c_outs c_op].
          * unfold call_ok, cdata_of. cbn. destruct Hok as [Hk1 Hk2]. split.
            { rewrite !map_map. cbn. change (NoDup (map fst ins' ++ map fst outs)). by rewrite Ek, Ek2. }
            { intros E. apply Hk2. apply app_eq_nil in E as [E1 E2]. apply map_eq_nil in E1, E2. subst ins' outs.
              inversion Fi; subst. inversion Fo; subst. done. }
          * exists (op_version o). rewrite Eid. rewrite (g_ops _ _ Hg _ _ Hop), <-Hname. split; [by rewrite call_hid_chash|].
            rewrite Ecc, Hcid. by rewrite call_cid_chash.
          * intros k0 r Hr. apply (Forall2_in_r _ _ _ _ Fi) in Hr as ([k1 [c1 h1]] & Hx & r' & Hr' & Er & [= -> ->]). cbn in *.
            destruct (Hpl _ _ Hr') as [(c2 & h2 & o2 & -> & Hsh & Ho2)]. cbn in Er. subst c2. split.
            exists c1, h2, None. split_and!; [done|done|].
            eapply (good_shape H); [done|]. apply (Gi k1 (c1, h1)). by apply elem_of_list_to_map.
          * intros k0 r Hr. apply (Forall2_in_r _ _ _ _ Fo) in Hr as ([k1 [c1 h1]] & Hx & [= -> ->]). cbn in *.
            exists c1, None. split; [done|]. eapply (good_shape H); [done|]. apply (Go k1 (c1, h1)).
            apply elem_of_list_to_map; [by apply call_ok_NoDup_outs|done].
        + by rewrite Hname.
        + exists d. split_and!; done.
    Qed.

    (** ** Executing *)
    Definition ran (o : opdef) (bd : pydict (bval arg)) (keys : list string) (env : pydict (bval arg)) : Prop :=
      exists ak, function_args mk_tuple mk_dict (od_sig o) bd keys = Ok ak /\
        py_call (od_sig o) (map deref_pointer (map (pun A) ak.1))
          (map (fun ka => (ka.1, deref_pointer ka.2)) (map (fun ka => (ka.1, pun A ka.2)) ak.2)) = Ok env.
    Lemma mk_tuple_ok l : Forall (refs_ok H m) l -> refs_ok H m (mk_tuple l).
    Proof.
      intros Hl. unfold mk_tuple. destruct (mapM to_val l); [by intros r ?%elem_of_nil|].
      intros r (x & Hr & Hx)%elem_of_concat. apply elem_of_list_fmap in Hx as (a & -> & Ha).
      rewrite Forall_forall in Hl. by apply (Hl a).
    Qed.
    Lemma mk_dict_ok d : Forall (fun kx => refs_ok H m kx.2) d -> refs_ok H m (mk_dict d).
    Proof.
      intros Hl. unfold mk_dict. destruct (mapM _ d); [by intros r ?%elem_of_nil|].
      intros r (x & Hr & Hx)%elem_of_concat. apply elem_of_list_fmap in Hx as (a & -> & Ha).
      rewrite Forall_forall in Hl. by apply (Hl a).
    Qed.
    Lemma bref_dP bd : (forall kv, kv ∈ bd -> bref_ok H m kv.2) -> dP (bvP (refs_ok H m)) bd.
    Proof.
      intros Hb. apply Forall_forall. intros kv Hkv. apply Hb in Hkv. destruct (kv.2); cbn in *; [done|by apply Forall_forall..].
    Qed.
    Lemma unwrap_args_triple l : Forall (refs_ok H m) l -> triple J (mapM' unwrap l) (fun x => x = map (pun A) l) (fun _ => False).
    Proof using Hinj Hg.
      intros Hl. eapply triple_mono.
      - apply triple_mapM with (Q := fun x y => y = pun A x). intros x Hx. rewrite Forall_forall in Hl.
        by apply (unwrap_triple H Hinj m k al b lg Hg), Hl.
      - intros x Hx. clear -Hx. induction Hx; cbn; [done|]. by f_equal.
      - done.
    Qed.
    Lemma unwrap_kwargs_triple (l : pydict arg) (f : arg -> arg) : dP (fun a => refs_ok H m (f a)) l ->
      triple J (mapM' (fun ka => a <- unwrap (f ka.2) ;; retM (ka.1, a))%pym l) (fun x => x = map (fun ka => (ka.1, pun A (f ka.2))) l) (fun _ => False).
    Proof using Hinj Hg.
      intros Hl. eapply triple_mono.
      - apply triple_mapM with (Q := fun x y => y = (x.1, pun A (f x.2))). intros x Hx. unfold dP in Hl. rewrite Forall_forall in Hl.
        eapply triple_bind; [by apply (unwrap_triple H Hinj m k al b lg Hg), Hl|]. intros y ->. by apply triple_ret.
      - intros x Hx. clear -Hx. induction Hx; cbn; [done|]. by f_equal.
      - done.
    Qed.
    Lemma run_function_out o bd keys ins s r s' : J s -> (forall kv, kv ∈ bd -> bref_ok H m kv.2) ->
      run_function o bd keys ins s = (r, s') ->
      (exists env, ran o bd keys env /\ r = od_fun o env /\ frozen H m k al b (lg ++ [(od_op o, ins)]) s') \/
      ((exists e, r = Err e) /\ J s').
    Proof using Hinj Hg.
      intros HJ Hb. unfold run_function, bindM, liftR.
      destruct (function_args mk_tuple mk_dict (od_sig o) bd keys) as [ak|e] eqn:Ef; [|intros [= <- <-]; eauto].
      destruct (function_args_P (refs_ok H m) _ _ mk_tuple_ok mk_dict_ok _ _ _ _ (bref_dP _ Hb) Ef) as [P1 P2].
      destruct (unwrap_args_triple _ P1 s HJ) as [J1 E1]. destruct (mapM' unwrap ak.1 s) as [[x1|e1] s1]; cbn in J1, E1; [subst x1|done].
      destruct (unwrap_kwargs_triple ak.2 (fun a => a) P2 s1 J1) as [J2 E2].
      unfold bindM in E2, J2.
      destruct (mapM' _ ak.2 s1) as [[x2|e2] s2]; cbn in J2, E2; [subst x2|done].
      destruct (py_call _ _ _) as [env|e] eqn:Ep; [|intros [= <- <-]; eauto].
      unfold modM. intros [= <- <-]. left. exists env. split; [exists ak; done|]. split; [done|].
      destruct J2 as [I Ek Ea Eb El]. split; cbn; try done. by rewrite El.
    Qed.

    Definition outputs_are (o : op) (ch : string) (vals : list pyval) (outs : pydict ref) : Prop :=
      outs = imap (fun i v => (dump_output_name i (op_onames o), RAtom (H v) (output_hid H ch (dump_output_name i (op_onames o))) (Some v))) vals.
    Definition exec_call (o : opdef) (ins : pydict ref) (env : pydict (bval arg)) (c : call) : Prop :=
      exists ret vals outs, od_fun o env = Ok ret /\ returned_values (op_nout (od_op o)) ret (map AVal vals) /\
        names_fit (op_onames (od_op o)) (length vals) /\
        outputs_are (od_op o) (call_hid H (od_op o) ins None) vals outs /\
        c = Call (od_op o) (call_cid H (od_op o) ins None) (call_hid H (od_op o) ins None) ins outs None None.
    Inductive internal_out (o : opdef) (inputs : pydict (arg * ty)) (bd : pydict (bval arg)) (keys : list string)
        : list (op * pydict ref) -> result (call * list call) -> Prop :=
      | io_err e : internal_out o inputs bd keys lg (Err e)
      | io_found ins c : inputs_are H inputs ins -> found_by_hid (od_op o) ins c \/ found_by_content (od_op o) ins c ->
          internal_out o inputs bd keys lg (Ok (c, []))
      | io_exec ins env r : inputs_are H inputs ins -> not_found (od_op o) ins -> ran o bd keys env -> b = true ->
          match r with Ok cc => cc.2 = [] /\ exec_call o ins env cc.1 | Err _ => True end ->
          internal_out o inputs bd keys (lg ++ [(od_op o, ins)]) r.

    Lemma inputs_ok inputs ins : NoDup (map fst inputs) -> Forall (in_ok H m) inputs -> (forall k a t, (k, (a, t)) ∈ inputs -> ~ pointer a) ->
      inputs_are H inputs ins -> map fst ins = map fst inputs /\ ins_ok ins.
    Proof using Hg.
      intros Hn Hi Hp Hins.
      assert (map fst ins = map fst inputs) as Ek.
      { eapply Forall2_keys; [exact Hins|]. by intros x y [-> _]. }
      split; [done|]. split; [by rewrite Ek|]. intros k0 r Hr.
      apply (Forall2_in_r _ _ _ _ Hins) in Hr as ([k1 [a t]] & Hx & E & Hc). cbn in *. subst k1.
      rewrite Forall_forall in Hi. destruct (Hi _ Hx) as [_ Hr]. cbn in Hr. specialize (Hp _ _ _ Hx).
      destruct a as [v|r'| | |]; cbn in Hc; try done; subst r.
      - split. assert (wrap_atom H v None = RAtom (H v) (H (VStr (H v))) (Some v)) as -> by (by destruct v).
        eexists _, _, _. split_and!; [done|by right|done].
      - apply rok_pl; [done|]. apply Hr. left.
    Qed.
    Lemma ret_atoms ann ks n anns : atom_returns ann -> ret_annotations ann ks n = Ok anns -> forall k t, (k, t) ∈ anns -> t = TAtom.
    Proof.
      intros Ha E k0 t Ht. destruct ann as [|t0|ts|t0]; cbn in *.
      - injection E as <-. apply elem_of_list_fmap in Ht as (? & [= _ ->] & _). done.
      - injection E as <-. apply elem_of_list_fmap in Ht as (? & [= _ ->] & _). done.
      - apply mapR_Ok_inv in E. apply (Forall2_in_r _ _ _ _ E) in Ht as (x & Hx & Hxy). cbn in Hxy.
        destruct (ts !! x.1) eqn:El; [|done]. cbn in Hxy. injection Hxy as _ <-. apply Ha. by eapply elem_of_list_lookup_2.
      - case_decide; [|done]. injection E as <-. apply elem_of_list_fmap in Ht as (? & [= _ ->] & _). done.
    Qed.
    Lemma returns_tuple_values {X} n (r : returned X) vs : returns_tuple n r = Ok vs -> returned_values n r vs.
    Proof.
      destruct n, r; cbn; try done; try (intros [= <-]; auto 10). case_decide; [|done]. intros [= <-]. subst. auto.
    Qed.
    Lemma wrapped_outputs (f : nat -> string) chid vals ws :
      Forall2 (fun (ka : string * arg) (y : string * (ref * list call)) => exists v, ka.2 = AVal v /\ y = (ka.1, (RAtom (H v) (output_hid H chid ka.1) (Some v), [])))
        (imap (fun i a => (f i, a)) (map AVal vals)) ws ->
      concat (map (fun krc : string * (ref * list call) => krc.2.2) ws) = [] /\
      map (fun krc : string * (ref * list call) => (krc.1, krc.2.1)) ws = imap (fun i v => (f i, RAtom (H v) (output_hid H chid (f i)) (Some v))) vals.
    Proof.
      revert f ws. induction vals as [|v vals IH]; intros f ws Hw; cbn in Hw; inversion Hw as [|x y l l' (v' & Hv & Hy) Hl E3 E4]; subst; [done|].
      cbn in *. injection Hv as <-. destruct (IH (f ∘ S) l' Hl) as [I1 I2]. rewrite I1. split; [done|]. f_equal. exact I2.
    Qed.
    Lemma call_internal_out o inputs bd keys s r s' : J s -> atom_op o -> NoDup (map fst inputs) -> Forall (in_ok H m) inputs ->
      (forall k a t, (k, (a, t)) ∈ inputs -> ~ pointer a) -> (forall kv, kv ∈ bd -> bref_ok H m kv.2) ->
      call_internal H sel o inputs bd keys s = (r, s') ->
      exists lg', frozen H m k al b lg' s' /\ internal_out o inputs bd keys lg' r.
    Proof using Hinj sel_perm Hg Hk.
      intros HJ Hao Hn Hi Hp Hb. unfold call_internal. unfold bindM at 1.
      destruct (inputs_triple H sel m k al b lg inputs Hi s HJ) as [J1 Hrs].
      destruct (mapM' _ inputs s) as [[rs|e] s1]; cbn in J1, Hrs; [|intros [= <- <-]; eexists; split; [done|constructor]].
      destruct Hrs as [Hins Hc0]. cbn zeta. rewrite Hc0. set (ins := map _ rs) in *. clearbody ins. clear Hc0 rs.
      destruct (inputs_ok _ _ Hn Hi Hp Hins) as [Eki Hiok].
      unfold bindM at 1. destruct (lookup_triple (od_op o) ins Hiok s1 J1) as [J2 Hl].
      destruct (lookup_call H sel (od_op o) ins s1) as [[[c|]|e] s2]; cbn in J2, Hl.
      - intros [= <- <-]. exists lg. split; [done|]. by eapply io_found.
      - unfold if_st. destruct (s_allow s2) eqn:Eal; [|intros [= <- <-]; eexists; split; [done|constructor]].
        pose proof (fz_allow _ _ _ _ _ _ _ J2) as Eb. rewrite Eal in Eb.
        unfold bindM at 1. destruct (run_function o bd keys ins s2) as [rr s3] eqn:Er.
        destruct (run_function_out _ _ _ _ _ _ _ J2 Hb Er) as [(env & Hran & -> & J3)|[[e ->] J3]];
          [|intros [= <- <-]; eexists; split; [done|constructor]].
        destruct (od_fun o env) as [ret|e] eqn:Efun.
        2: { intros [= <- <-]. eexists. split; [done|]. by eapply io_exec. }
        unfold bindM at 1, liftR at 1.
        destruct (parse_returns (od_ret o) (op_nout (od_op o)) (op_onames (od_op o)) ret) as [[d anns]|e] eqn:Ep.
        2: { intros [= <- <-]. eexists. split; [done|]. by eapply io_exec. }
        unfold parse_returns in Ep. destruct (returns_tuple (op_nout (od_op o)) ret) as [vs|] eqn:Ev; [|done]. cbn in Ep.
        apply returns_tuple_values in Ev. destruct (ao_outputs _ Hao _ _ _ Efun Ev) as [Hfit Hvals].
        rewrite out_dict_eq in Ep by (by apply names_fit_NoDup).
        destruct (ret_annotations _ _ _) as [anns'|] eqn:Ea; [|done]. injection Ep as <- <-. cbn [fst snd].
        pose proof (ret_atoms _ _ _ _ (ao_returns _ Hao) Ea) as Hat.
        assert (exists vals, vs = map AVal vals /\ forall v, v ∈ vals -> ~ pointer (AVal v)) as (vals & -> & Hnp).
        { clear -Hvals. induction vs as [|a vs IH]; [by exists []; split; [|intros ? ?%elem_of_nil]|].
          destruct IH as (vals & -> & Hv); [intros; apply Hvals; by right|].
          destruct (Hvals a ltac:(left)) as (v & -> & Hv'). exists (v :: vals). split; [done|]. intros w [->|]%elem_of_cons; auto. }
        set (chid := call_hid H (od_op o) ins None).
        set (names := op_onames (od_op o)) in *.
        unfold bindM at 1.
        match goal with |- context [mapM' ?f ?l s3] => assert (triple (frozen H m k al b (lg ++ [(od_op o, ins)])) (mapM' f l)
          (Forall2 (fun ka y => exists v, ka.2 = AVal v /\ y = (ka.1, (RAtom (H v) (output_hid H chid ka.1) (Some v), []))) l) (fun _ => True)) as Ht end.
        { apply triple_mapM. intros [k0 a] Hx.
          apply elem_of_lookup_imap in Hx as (i & a' & [= -> <-] & Hx).
          rewrite list_lookup_fmap in Hx. destruct (vals !! i) as [v|] eqn:Evi; [|done]. injection Hx as <-. cbn [fst snd].
          apply triple_bind with (Q := fun t => t = TAtom).
          { apply triple_lift. unfold dindex. destruct (dget _ anns') as [t|] eqn:Ed; [|done]. apply dget_Some_elem in Ed. by eapply Hat. }
          intros _ ->. apply elem_of_list_lookup_2 in Evi. apply Hnp in Evi.
          apply triple_bind with (Q := fun rc => rc = (RAtom (H v) (output_hid H chid (dump_output_name i names)) (Some v), [])).
          { cbn [wrap_output]. apply triple_ret. destruct v; try done. }
          intros _ ->. apply triple_ret. eauto. }
        destruct (Ht s3 J3) as [J4 Hw]. clear Ht.
        destruct (mapM' _ _ s3) as [[ws|e] s4]; cbn in J4, Hw.
        2: { intros [= <- <-]. eexists. split; [done|]. by eapply io_exec. }
        intros [= <- <-]. eexists. split; [done|]. eapply io_exec; try done. cbn [fst snd].
        assert (concat (map (fun krc : string * (ref * list call) => krc.2.2) ws) = [] /\
                map (fun krc : string * (ref * list call) => (krc.1, krc.2.1)) ws = imap (fun i v => (dump_output_name i names, RAtom (H v) (output_hid H chid (dump_output_name i names)) (Some v))) vals) as [E1 E2].
        { by apply (wrapped_outputs (fun i => dump_output_name i names)). }
        rewrite E1. split; [done|]. exists ret, vals, (map (fun krc : string * (ref * list call) => (krc.1, krc.2.1)) ws).
        split_and!; try done. by rewrite map_length in Hfit.
      - intros [= <- <-]. eexists. split; [done|constructor].
    Qed.
  End frozen.

  (** ** Saving *)
  Definition psave (m : contents pyval ref op) (r : ref) : contents pyval ref op :=
    if bool_decide (is_Some (m_shapes m !! rhid r)) then m
    else match r with
         | RAtom c h o => Contents (match o with Some v => <[c := v]> (m_atoms m) | None => m_atoms m end)
                            (<[h := RAtom c h None]> (m_shapes m)) (m_ops m) (m_calls m)
         | _ => m
         end.
  Record rest_same (s s' : st) : Prop := {
    rs_calls : t_calls (s_tabs s') = t_calls (s_tabs s);
    rs_alias : s_alias s' = s_alias s;
    rs_allow : s_allow s' = s_allow s;
    rs_log : s_log s' = s_log s;
  }.
  Lemma save_ref_inv s m r c h o : sinv H s m -> r = RAtom c h o -> (forall v, o = Some v -> H v = c) ->
    exists s', save_ref r s = (Ok tt, s') /\ sinv H s' (psave m r) /\ rest_same s s'.
  Proof using Hinj.
    intros Hs -> Hv. unfold psave. cbn [save_ref rhid]. unfold if_st. rewrite (has_shape_inv H _ _ _ Hs).
    case_bool_decide; [by exists s|].
    destruct Hs as [IA IS IO IC]. destruct o as [v|].
    - eexists. split; [reflexivity|]. split; [|by split]. split; cbn; try done.
      + apply (cd_set_inv _ _ (okA_fun H Hinj)); [done|]. by apply Hv.
      + apply (cd_set_inv _ _ any_fun); done.
    - eexists. split; [reflexivity|]. split; [|by split]. split; cbn; try done. apply (cd_set_inv _ _ any_fun); done.
  Qed.

  (** the atoms and shapes only *)
  Record wf (m : contents pyval ref op) : Prop := {
    wf_hash : forall c v, m_atoms m !! c = Some v -> H v = c;
    wf_shape : forall h r, m_shapes m !! h = Some r -> exists c, r = RAtom c h None /\ is_Some (m_atoms m !! c);
  }.
  Definition savable_atom (m : contents pyval ref op) (r : ref) : Prop :=
    exists c h o, r = RAtom c h o /\ match o with Some v => H v = c | None => is_Some (m_atoms m !! c) end.
  Record saved_from (l : list ref) (m m' : contents pyval ref op) : Prop := {
    sf_grow : grow m m';
    sf_wf : wf m';
    sf_ops : m_ops m' = m_ops m;
    sf_calls : m_calls m' = m_calls m;
    sf_all : forall r, r ∈ l -> shape_in m' (rcid r, rhid r);
    sf_new : forall h r, m_shapes m' !! h = Some r -> m_shapes m !! h = Some r \/ exists r', r' ∈ l /\ r = RAtom (rcid r') (rhid r') None;
    sf_atoms : forall c v, m_atoms m' !! c = Some v -> m_atoms m !! c = Some v \/ exists h, RAtom c h (Some v) ∈ l;
  }.
  Lemma save_refs_inv l s m : sinv H s m -> wf m ->
    (forall r, r ∈ l -> savable_atom m r) ->
    (forall r r', r ∈ l -> r' ∈ l -> rhid r = rhid r' -> rcid r = rcid r') ->
    (forall r c, r ∈ l -> m_shapes m !! rhid r = Some c -> rcid c = rcid r) ->
    exists s' m', iterM save_ref l s = (Ok tt, s') /\ sinv H s' m' /\ rest_same s s' /\ saved_from l m m'.
  Proof using Hinj.
    revert s m. induction l as [|r l IH]; intros s m Hs Hw Hsav Hcomp Hold.
    - exists s, m. split; [done|]. split; [done|]. split; [by split|]. split; try done.
      + by intros r ?%elem_of_nil.
      + auto.
      + auto.
    - destruct (Hsav r ltac:(left)) as (c & h & o & -> & Ho).
      destruct (save_ref_inv s m (RAtom c h o) c h o Hs eq_refl) as (s1 & E1 & Hs1 & R1); [by intros v ->|].
      assert (saved_from [RAtom c h o] m (psave m (RAtom c h o))) as S1.
      { unfold psave. cbn [rhid]. case_bool_decide as Hd.
        - split; try done; [|by auto..].
          intros r ->%elem_of_list_singleton. unfold shape_in. cbn. destruct Hd as [x Hx]. rewrite Hx.
          destruct (wf_shape _ Hw _ _ Hx) as (c' & -> & _). specialize (Hold _ _ ltac:(left) Hx). cbn in Hold. by subst c'.
        - apply eq_None_not_Some in Hd. split; cbn; try done.
          + split; cbn; try done.
            * destruct o as [v|]; [|done]. apply map_subseteq_spec. intros c' w Hc'.
              destruct (decide (c = c')) as [<-|]; [|by rewrite lookup_insert_ne]. rewrite lookup_insert. f_equal.
              apply Hinj. rewrite (wf_hash _ Hw _ _ Hc'). done.
            * by apply insert_subseteq.
          + split; cbn.
            * intros c' w. destruct o as [v|]; [|by apply Hw].
              destruct (decide (c = c')) as [<-|]; [rewrite lookup_insert; by intros [= <-]|]. rewrite lookup_insert_ne by done. by apply Hw.
            * intros h' r'. destruct (decide (h = h')) as [<-|].
              { rewrite lookup_insert. intros [= <-]. exists c. split; [done|]. destruct o; [rewrite lookup_insert; eauto|done]. }
              rewrite lookup_insert_ne by done. intros (c' & -> & Hc')%(wf_shape _ Hw). exists c'. split; [done|].
              destruct o as [v|]; [|done]. destruct (decide (c = c')) as [<-|]; [rewrite lookup_insert; eauto|by rewrite lookup_insert_ne].
          + intros r ->%elem_of_list_singleton. unfold shape_in. cbn. by rewrite lookup_insert.
          + intros h' r'. destruct (decide (h = h')) as [<-|].
            * rewrite lookup_insert. intros [= <-]. right. exists (RAtom c h o). split; [left|done].
            * rewrite lookup_insert_ne by done. auto.
          + intros c' w. destruct o as [v|]; [|by auto]. destruct (decide (c = c')) as [<-|].
            * rewrite lookup_insert. intros [= <-]. right. exists h. left.
            * rewrite lookup_insert_ne by done. auto. }
      destruct (IH s1 (psave m (RAtom c h o))) as (s2 & m2 & E2 & Hs2 & R2 & S2).
      + done.
      + apply S1.
      + intros r Hr. destruct (Hsav r) as (c' & h' & o' & -> & Ho'); [by right|]. exists c', h', o'. split; [done|].
        destruct o'; [done|]. destruct Ho' as [v Hv]. exists v. eapply lookup_weaken; [done|]. apply S1.
      + intros r r' Hr Hr'. apply Hcomp; by right.
      + intros r x Hr Hx. destruct (sf_new _ _ _ S1 _ _ Hx) as [Hx'|(r' & Hr' & ->)].
        * apply (Hold r); [by right|done].
        * apply elem_of_list_singleton in Hr' as ->. cbn.
          destruct (wf_shape _ (sf_wf _ _ _ S1) _ _ Hx) as (c' & [= -> E] & _).
          symmetry. apply (Hcomp r (RAtom c' h o)); [by right|by left|done].
      + exists s2, m2. split; [cbn [iterM]; unfold bindM; by rewrite E1|]. split; [done|]. split.
        { destruct R1, R2. split; congruence. }
        destruct S1 as [A1 A2 A3 A4 A5 A6 A7], S2 as [B1 B2 B3 B4 B5 B6 B7]. split; try congruence.
        * by etrans.
        * intros r [->|Hr]%elem_of_cons; [|by apply B5]. unfold shape_in. eapply lookup_weaken; [apply A5; left|apply B1].
        * intros h' r' [Hx|(r2 & Hr2 & ->)]%B6; [|right; exists r2; split; [by right|done]].
          destruct (A6 _ _ Hx) as [|(r2 & Hr2 & ->)]; [by left|]. right. exists r2. split; [|done].
          apply elem_of_list_singleton in Hr2 as ->. left.
        * intros c' w [[Hx|[h' Hx]]%A7|[h' Hx]]%B7; [by left| |right; exists h'; by right].
          right. exists h'. apply elem_of_list_singleton in Hx. rewrite Hx. left.
  Qed.

  Lemma good_wf s m : sinv H s m -> good m -> wf m.
  Proof.
    intros Hs Hg. split.
    - intros c v. by apply (atoms_hash H s).
    - intros h r (c & -> & Hc & _)%(g_shape _ _ Hg). eauto.
  Qed.
  Lemma shape_in_grow m m' x : grow m m' -> shape_in m x -> shape_in m' x.
  Proof. intros G Hs. unfold shape_in in *. eapply lookup_weaken; [done|apply G]. Qed.

  Record saved_call (c : call) (s s' : st) (m m' : contents pyval ref op) : Prop := {
    sc_inv : sinv H s' m';
    sc_good : good m';
    sc_grow : grow m m';
    sc_calls : m_calls m' = <[c_hid c := info (cdata_of c)]> (m_calls m);
    sc_ops : m_ops m' = if bool_decide (is_Some (m_ops m !! op_name (c_op c))) then m_ops m else <[op_name (c_op c) := c_op c]> (m_ops m);
    sc_refs : forall r, r ∈ map snd (c_ins c) ++ map snd (c_outs c) -> shape_in m' (rcid r, rhid r);
    sc_cache : t_calls (s_tabs s') = cc_save (cdata_of c) (t_calls (s_tabs s));
    sc_alias : s_alias s' = s_alias s;
    sc_allow : s_allow s' = s_allow s;
    sc_log : s_log s' = s_log s;
    sc_atoms : forall c0 v, m_atoms m' !! c0 = Some v ->
      m_atoms m !! c0 = Some v \/ exists h, RAtom c0 h (Some v) ∈ map snd (c_ins c) ++ map snd (c_outs c);
  }.
  Lemma save_call_new s m c : sinv H s m -> good m -> savec m c -> m_calls m !! c_hid c = None ->
    exists s' m', save_call c s = (Ok tt, s') /\ saved_call c s s' m m'.
  Proof using Hinj sel_perm.
    intros Hs Hg [Vok (ver & Vh & Vc) Vi Vo] Hnew.
    unfold save_call, if_st. rewrite (has_call_inv H _ _ _ Hs), Hnew. rewrite bool_decide_eq_false_2 by (by intros [? ?]).
    (* the op *)
    set (m1 := Contents (m_atoms m) (m_shapes m)
                 (if bool_decide (is_Some (m_ops m !! op_name (c_op c))) then m_ops m else <[op_name (c_op c) := c_op c]> (m_ops m)) (m_calls m)).
    assert (exists s1, (if has_op (op_name (c_op c)) s then retM tt s else set_op (op_name (c_op c)) (c_op c) s) = (Ok tt, s1) /\
              sinv H s1 m1 /\ rest_same s s1) as (s1 & E1 & Hs1 & R1).
    { rewrite (has_op_inv H _ _ _ Hs). subst m1. case_bool_decide.
      - exists s. split; [done|]. split; [by destruct m|done].
      - eexists. split; [reflexivity|]. split; [|done]. destruct Hs. split; cbn; try done. apply (cd_set_inv _ _ any_fun); done. }
    unfold bindM at 1. change (if_st ?x ?y ?z s) with ((if x s then y s else z s)). rewrite E1.
    set (l := map snd (c_ins c) ++ map snd (c_outs c)).
    assert (grow m m1) as G1.
    { split; cbn; try done. case_bool_decide as Hd; [done|]. apply insert_subseteq. by apply eq_None_not_Some. }
    assert (forall r, r ∈ l -> (exists k, (k, r) ∈ c_ins c) \/ exists k, (k, r) ∈ c_outs c) as Hl.
    { intros r [Hr|Hr]%elem_of_app; apply elem_of_list_fmap in Hr as ([k0 r'] & -> & Hr); eauto. }
    (* history ids that agree with the stored shapes *)
    assert (forall k r x, (k, r) ∈ c_outs c -> m_shapes m !! rhid r = Some x -> False) as Hfresh.
    { intros k0 r x (cc & o & -> & _)%Vo Hx. cbn in Hx.
      destruct (g_shape _ _ Hg _ _ Hx) as (c' & _ & _ & [E|(ch & k1 & i & E & Hi & _)]).
      - by apply output_hid_not in E.
      - apply output_hid_inj in E as [<- <-]. by rewrite Hi in Hnew. }
    assert (forall k r x, (k, r) ∈ c_ins c -> m_shapes m !! rhid r = Some x -> rcid x = rcid r) as Hagree.
    { intros k0 r x Hr%Vi Hx. destruct Hr as [(c1 & h1 & o1 & -> & Hsh & _)]. cbn in *.
      destruct Hsh as [Hsh| ->]; [unfold shape_in in Hsh; cbn in Hsh; by simplify_eq|].
      destruct (g_shape _ _ Hg _ _ Hx) as (c' & -> & _ & [E|(ch & k1 & i & E & _)]).
      - apply Hinj in E. by simplify_eq.
      - by apply symmetry, output_hid_not in E. }
    assert (forall k r, (k, r) ∈ c_ins c -> exists c' h' o', r = RAtom c' h' o' /\ (h' = H (VStr c') \/ is_Some (m_shapes m !! h'))) as Hin.
    { intros k0 r Hr%Vi. destruct Hr as [(c1 & h1 & o1 & -> & [Hsh| ->] & _)]; eexists _, _, _; split; try done; [right|by left].
      unfold shape_in in Hsh. cbn in Hsh. by rewrite Hsh. }
    pose proof (call_ok_NoDup_outs _ Vok) as Hndo. cbn in Hndo. rewrite map_map in Hndo. cbn in Hndo. change (NoDup (map fst (c_outs c))) in Hndo.
    destruct (save_refs_inv l s1 m1) as (s2 & m2 & E2 & Hs2 & R2 & S2).
    - done.
    - destruct (good_wf s m Hs Hg). by split.
    - intros r [[k0 Hr]|[k0 Hr]]%Hl.
      + destruct (Vi _ _ Hr) as [(c1 & h1 & o1 & -> & _ & Ho)]. by exists c1, h1, o1.
      + destruct (Vo _ _ Hr) as (c1 & o1 & -> & Ho). by eexists c1, _, o1.
    - intros r r' [[k0 Hr]|[k0 Hr]]%Hl [[k1 Hr']|[k1 Hr']]%Hl Eh.
      + destruct (Hin _ _ Hr) as (c1 & h1 & o1 & -> & [Ha|[x Hx]]), (Hin _ _ Hr') as (c2 & h2 & o2 & -> & [Hb|[y Hy]]); cbn in *; subst.
        * apply Hinj in Hb. by simplify_eq.
        * pose proof (Hagree _ _ _ Hr' Hy). pose proof (Hagree _ _ _ Hr Hy). cbn in *. congruence.
        * pose proof (Hagree _ _ _ Hr Hx). pose proof (Hagree _ _ _ Hr' Hx). cbn in *. congruence.
        * pose proof (Hagree _ _ _ Hr Hx). pose proof (Hagree _ _ _ Hr' Hx). cbn in *. congruence.
      + exfalso. destruct (Hin _ _ Hr) as (c1 & h1 & o1 & -> & [->|[x Hx]]).
        * destruct (Vo _ _ Hr') as (c2 & o2 & -> & _). cbn in Eh. by apply symmetry, output_hid_not in Eh.
        * cbn in Eh. subst h1. by eapply Hfresh.
      + exfalso. destruct (Hin _ _ Hr') as (c1 & h1 & o1 & -> & [->|[x Hx]]).
        * destruct (Vo _ _ Hr) as (c2 & o2 & -> & _). cbn in Eh. by apply output_hid_not in Eh.
        * cbn in Eh. subst h1. by eapply Hfresh.
      + destruct (Vo _ _ Hr) as (c1 & o1 & E3 & _), (Vo _ _ Hr') as (c2 & o2 & E4 & _). subst r r'. cbn in *.
        apply output_hid_inj in Eh as [_ <-].
        pose proof (dget_elem _ _ _ Hndo Hr) as F1. pose proof (dget_elem _ _ _ Hndo Hr') as F2. congruence.
    - intros r x [[k0 Hr]|[k0 Hr]]%Hl Hx; cbn in Hx; [by eapply Hagree|exfalso; by eapply Hfresh].
    - unfold bindM at 1. fold l. rewrite E2. unfold on_tabs, on_calls, upd. cbn.
      set (d := cdata_of c) in *.
      exists (with_tabs (Tabs (t_atoms (s_tabs s2)) (t_shapes (s_tabs s2)) (t_ops (s_tabs s2)) (cc_save d (t_calls (s_tabs s2)))) s2).
      exists (Contents (m_atoms m2) (m_shapes m2) (m_ops m2) (<[c_hid c := info d]> (m_calls m2))).
      split; [reflexivity|].
      destruct R1 as [Q1 Q2 Q3 Q4], R2 as [P1 P2 P3 P4]. destruct S2 as [B1 B2 B3 B4 B5 B6 B7].
      cbn in B4. rewrite B4.
      assert (grow m (Contents (m_atoms m2) (m_shapes m2) (m_ops m2) (<[c_hid c := info d]> (m_calls m)))) as G2.
      { destruct B1, G1. split; cbn; [by etrans|by etrans|by etrans|]. by apply insert_subseteq. }
      split; cbn; try congruence; try done.
      + destruct Hs2 as [IA IS IO [mc IC]]. split; cbn; try done. exists mc. rewrite B4 in IC.
        refine (inv_save sel sel_perm (m_calls m, mc) _ d IC Vok _). rewrite (inv_exists _ _ _ IC). cbn. rewrite Hnew.
        by apply bool_decide_eq_false_2; intros [? ?].
      + split; cbn.
        * intros h r Hr. destruct (wf_shape _ B2 _ _ Hr) as (c' & -> & Ha). exists c'. split; [done|]. split; [done|].
          destruct (B6 _ _ Hr) as [Hx|(r' & [[k0 Hr']|[k0 Hr']]%Hl & Er)].
          -- cbn in Hx. destruct (g_shape _ _ Hg _ _ Hx) as (c2 & [= <-] & _ & [->|(ch & k0 & i & -> & Hi & Ho)]); [by left|].
             right. exists ch, k0, i. split_and!; try done. rewrite lookup_insert_ne; [done|]. intros <-. congruence.
          -- destruct (Vi _ _ Hr') as [(c1 & h1 & o1 & -> & [Hsh| ->] & _)]; cbn in Er; injection Er as -> ->; [|by left].
             unfold shape_in in Hsh. cbn in Hsh.
             destruct (g_shape _ _ Hg _ _ Hsh) as (c2 & [= <-] & _ & [->|(ch & k1 & i & -> & Hi & Ho)]); [by left|].
             right. exists ch, k1, i. split_and!; try done. rewrite lookup_insert_ne; [done|]. intros <-. congruence.
          -- destruct (Vo _ _ Hr') as (c1 & o1 & -> & _). cbn in Er. injection Er as -> ->. right.
             exists (c_hid c), k0, (info d). split_and!; [done|by rewrite lookup_insert|]. subst d. unfold info, cdata_of. cbn.
             change (idm (c_outs c) !! k0 = Some (c1, output_hid H (c_hid c) k0)).
             by rewrite (idm_Some _ _ _ Hndo Hr').
        * rewrite B3. subst m1. cbn. intros n o. case_bool_decide; [apply Hg|].
          destruct (decide (op_name (c_op c) = n)) as [<-|]; [rewrite lookup_insert; by intros [= <-]|].
          rewrite lookup_insert_ne by done. apply Hg.
        * intros h i. destruct (decide (c_hid c = h)) as [<-|].
          -- rewrite lookup_insert. intros [= <-]. split; cbn; try done.
             ++ rewrite B3. subst m1. cbn. case_bool_decide; [done|]. rewrite lookup_insert. eauto.
             ++ exists ver. split; [exact Vh|exact Vc].
             ++ intros k0 x Hx. change (idm (c_ins c) !! k0 = Some x) in Hx. apply idm_inv in Hx as (r & Hr & ->).
                apply (B5 r). apply elem_of_app. left. by apply (elem_of_list_fmap_1 snd) in Hr.
             ++ intros k0 x Hx. change (idm (c_outs c) !! k0 = Some x) in Hx. apply idm_inv in Hx as (r & Hr & ->). split.
                ** apply (B5 r). apply elem_of_app. right. by apply (elem_of_list_fmap_1 snd) in Hr.
                ** by destruct (Vo _ _ Hr) as (c1 & o1 & -> & _).
          -- rewrite lookup_insert_ne by done. intros Hi. destruct (g_calls _ _ Hg _ _ Hi) as [C1 [o C2] C3 C4 C5].
             split; cbn; try done.
             ++ exists o. eapply lookup_weaken; [exact C2|]. apply G2.
             ++ intros k0 x Hx. by eapply (shape_in_grow m); [|by eapply C4].
             ++ intros k0 x Hx. destruct (C5 _ _ Hx) as [Hx1 Hx2]. split; [|done]. by eapply (shape_in_grow m).
      + subst d. congruence.
  Qed.
End atoms2.
