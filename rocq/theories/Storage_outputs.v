(** Proofs for C08: the history id of a recorded output is determined by the call and the name of
    the output, whatever happens to the storage. *)
From stdpp Require Import base strings gmap list.
From Verif Require Import Base PyDict PyDict_proofs Returns DictStore DictStore_proofs CallStore Spec_CallStore CallStore_proofs
  Commit Refs Args Ident Storage Spec_Storage Spec_Storage2 Storage_base Storage_laws Spec_Outputs.

Lemma elem_of_dict_of_inv {A} (kv : string * A) (l : list (string * A)) : kv ∈ dict_of l -> kv ∈ l.
Proof.
  assert (forall k (v : A) d, kv ∈ dset k v d -> kv = (k, v) \/ kv ∈ d) as Hs.
  { intros k v d. induction d as [|[k' v'] d IH]; cbn [dset].
    - intros [->|?]%elem_of_cons; auto.
    - destruct (decide (k = k')).
      + intros [->|?]%elem_of_cons; [by left|]. right. by right.
      + intros [->|[?|?]%IH]%elem_of_cons; [right; left|by left|right; by right]. }
  assert (forall d, kv ∈ dupdate d l -> kv ∈ d \/ kv ∈ l) as Hu.
  { unfold dupdate. induction l as [|[k v] l IH]; intros d; cbn; [by left|].
    intros [[->|?]%Hs|?]%IH; [right; left|by left|right; by right]. }
  intros [?%elem_of_nil|?]%Hu; done.
Qed.

Section outputs.
  Context (H : pyval -> string) (sel : list crow -> list crow) (bigA : pyval -> bool).

  Definition own (r : crow) : Prop := r_dir r = DOut -> r_rhid r = output_hid H (r_hid r) (r_name r).
  Definition owns (s : st) : Prop := forall r, recorded_row s r -> own r.

  (** ** Calls made by a lookup or an execution *)
  Definition okc (T : ccalls) (c : call) : Prop :=
    (forall k r, (k, r) ∈ c_outs c -> rhid r = output_hid H (c_hid c) k) \/ cc_exists (c_hid c) T = true.
  Definition okcs (T : ccalls) (cs : list call) : Prop := forall c, c ∈ cs -> okc T c.

  Lemma rhid_with_hid h r : rhid (with_hid h r) = h.
  Proof. by destruct r. Qed.
  Lemma data_of_rows_hid hid rows d : data_of_rows hid rows = Ok d -> d_hid d = hid.
  Proof. destruct rows; [done|]. by intros [= <-]. Qed.
  Lemma mc_get_hid hid m d : mc_get hid m = Ok d -> d_hid d = hid.
  Proof.
    unfold mc_get. destruct (mc_exists hid m); [|done]. unfold mc_mget. cbn [mapR].
    destruct (data_of_rows hid _) as [d'|] eqn:E; cbn; [|done]. intros [= <-]. by eapply data_of_rows_hid.
  Qed.

  Section calls.
    Context (T : ccalls).
    Let J (s : st) : Prop := t_calls (s_tabs s) = T.
    Let E : exn -> Prop := fun _ => True.
    Lemma tread {X} (f : M st X) : inR only_read f -> triple J f (fun _ => True) E.
    Proof.
      intros Hf s Hs. specialize (Hf s). split; [|by destruct (f s).1]. unfold J. by rewrite (or_calls _ _ Hf).
    Qed.
    Lemma tlift {X} (r : result X) (Q : X -> Prop) : (forall x, r = Ok x -> Q x) -> triple J (liftR r) Q E.
    Proof. intros Hr. apply triple_lift. destruct r; [by apply Hr|done]. Qed.
    Lemma set_hids_spec hids (d d' : pydict ref) : set_hids hids d = Ok d' ->
      forall k r, (k, r) ∈ d' -> exists h, hids k = Ok h /\ rhid r = h.
    Proof.
      unfold set_hids. revert d'. induction d as [|[k0 r0] d IH]; intros d'; cbn; [intros [= <-] k r Hk; by apply elem_of_nil in Hk|].
      destruct (hids k0) as [h|] eqn:Eh; cbn; [|done]. destruct (mapR _ d) as [d1|] eqn:Ed; cbn; [|done].
      intros [= <-] k r [[= -> ->]|Hk]%elem_of_cons.
      - exists h. split; [done|]. apply rhid_with_hid.
      - by apply (IH d1).
    Qed.
    Lemma from_data_ok d b : triple J (call_from_data d b) (fun c => c_hid c = d_hid d) E.
    Proof.
      unfold call_from_data. apply triple_bind with (Q := fun _ => True); [apply tread, get_op_read|]. intros o _.
      apply triple_bind with (Q := fun _ => True).
      { apply tread. unfold load_refs. apply inR_mapM; [apply _|]. intros x _. apply inR_bind; [apply _|apply load_ref_read|].
        intros; apply inR_ret; apply _. }
      intros ins _. apply triple_bind with (Q := fun _ => True).
      { apply tread. unfold load_refs. apply inR_mapM; [apply _|]. intros x _. apply inR_bind; [apply _|apply load_ref_read|].
        intros; apply inR_ret; apply _. }
      intros outs _. by apply triple_ret.
    Qed.
    Lemma lookup_ok o ins : triple J (lookup_call H sel o ins) (fun res => forall c, res = Some c -> okc T c) E.
    Proof.
      intros s Hs. unfold lookup_call. unfold J in Hs. rewrite Hs. set (chid := call_hid H o ins None).
      destruct (cc_exists chid T) eqn:Ex; [|destruct (cc_exists_content _ T) eqn:Ec; [|done]].
      - match goal with |- context [?f s] =>
          match f with bindM _ _ => enough (triple J f (fun res => forall c, res = Some c -> okc T c) E) as Hf by by apply Hf end end.
        apply triple_bind with (Q := fun d => d_hid d = chid).
        { apply tlift. intros d. unfold cc_get. destruct (mc_exists chid (cc_cache T)); [apply mc_get_hid|].
          unfold sql_get, sql_mget. cbn [mapR]. destruct (data_of_rows chid _) as [d'|] eqn:Ed; cbn; [|done].
          intros [= <-]. by eapply data_of_rows_hid. }
        intros d Hd. apply triple_bind with (Q := fun c => c_hid c = chid).
        { eapply triple_mono; [apply from_data_ok| |done]. cbn. congruence. }
        intros c Hc. apply triple_ret. intros ? [= <-]. right. by rewrite Hc.
      - match goal with |- context [?f s] =>
          match f with bindM _ _ => enough (triple J f (fun res => forall c, res = Some c -> okc T c) E) as Hf by by apply Hf end end.
        apply triple_bind with (Q := fun _ => True); [by apply tlift|]. intros d _.
        apply triple_bind with (Q := fun _ => True); [apply tread, call_from_data_read|]. intros c _.
        apply triple_bind with (Q := fun _ => True); [by apply tlift|]. intros names _.
        apply triple_bind with (Q := fun d => forall k r, (k, r) ∈ d -> rhid r = output_hid H chid k).
        { apply tlift. intros outs Ho k r Hk. destruct (set_hids_spec _ _ _ Ho k r Hk) as (h & Eh & ->).
          destruct (decide (k ∈ names)); [|done]. by injection Eh. }
        intros outs Ho. apply triple_bind with (Q := fun _ => True); [by apply tlift|]. intros ins' _.
        apply triple_ret. intros ? [= <-]. by left.
    Qed.
    Lemma struct_ok o f n ins : triple J (struct_call H sel o f n ins) (okc T) E.
    Proof.
      unfold struct_call. eapply triple_bind; [apply lookup_ok|]. intros [c|] Hc; [by apply triple_ret, Hc|].
      intros s Hs. unfold if_st. destruct (s_allow s); [|done].
      match goal with |- context [?f s] =>
          match f with bindM _ _ => enough (triple J f (okc T) E) as Hf by by apply Hf end end.
      apply triple_bind with (Q := fun _ => True); [by apply tlift|]. intros r _. apply triple_ret. left.
      cbn [c_outs c_hid]. intros k r' [[= -> ->]|Hk]%elem_of_cons; [apply rhid_with_hid|by apply elem_of_nil in Hk].
    Qed.
    Lemma okcs_app l1 l2 : okcs T l1 -> okcs T l2 -> okcs T (l1 ++ l2).
    Proof. intros A1 A2 c [?|?]%elem_of_app; auto. Qed.
    Lemma okcs_concat {X Y} (l : list X) (l' : list Y) (Q : X -> Y -> Prop) (f : Y -> list call) :
      Forall2 Q l l' -> (forall x y, Q x y -> okcs T (f y)) -> okcs T (concat (map f l')).
    Proof.
      intros HF HQ. induction HF as [|x y l l' Hxy _ IH]; cbn; [by intros c Hc%elem_of_nil|].
      apply okcs_app; [by eapply HQ|done].
    Qed.
    Lemma okcs_nil : okcs T [].
    Proof. by intros c Hc%elem_of_nil. Qed.
    Lemma okcs_cons c l : okc T c -> okcs T l -> okcs T (c :: l).
    Proof. intros A1 A2 c' [->|?]%elem_of_cons; auto. Qed.

    Lemma construct_ok t a : triple J (construct H sel t a) (fun rc => okcs T rc.2) E.
    Proof.
      assert (forall rs : ref, triple J (retM (rs, [])) (fun rc : ref * list call => okcs T rc.2) E) as Hret.
      { intros rs. apply triple_ret, okcs_nil. }
      assert (forall e, triple J (raiseM e) (fun rc : ref * list call => okcs T rc.2) E) as Hra.
      { intros e. by apply triple_raise. }
      revert a. induction t as [|t IH|tk IHk t IH|t IH|]; intros a.
      1,4,5: by destruct a as [v|r|b a|l|d]; cbn [construct]; first [apply Hret|apply Hra].
      - assert (triple J (l <- liftR (list_elems a) ;;
             rs <- mapM' (construct H sel t) l ;;
             c <- struct_call H sel op_make_list (f_make_list H) "list" (imap (fun i rc => ("elts_" +:+ dec i, rc.1)) rs) ;;
             r <- liftR (first_output c) ;;
             retM (r, concat (map snd rs) ++ [c]))%pym (fun rc => okcs T rc.2) E) as Hg.
        { apply triple_bind with (Q := fun _ => True); [by apply tlift|]. intros l _.
          eapply triple_bind; [apply triple_mapM; intros x _; apply (IH x)|]. intros rs Hrs.
          eapply triple_bind; [apply struct_ok|]. intros c Hc.
          apply triple_bind with (Q := fun _ => True); [by apply tlift|]. intros r _. apply triple_ret. cbn [snd].
          apply okcs_app; [by eapply (okcs_concat _ _ _ _ Hrs)|]. apply okcs_cons; [done|apply okcs_nil]. }
        destruct a as [v|r|b a|l|d]; cbn [construct]; first [apply Hret|apply Hg].
      - assert (triple J (d <- liftR (dict_items a) ;;
             rs <- mapM' (fun ka => rc <- construct H sel t ka.2 ;; retM (ka.1, rc)) d ;;
             c <- struct_call H sel op_make_dict (f_make_dict H) "dict" (map (fun krc => (krc.1, krc.2.1)) rs) ;;
             r <- liftR (first_output c) ;;
             retM (r, concat (map (fun krc => krc.2.2) rs) ++ [c]))%pym (fun rc => okcs T rc.2) E) as Hg.
        { apply triple_bind with (Q := fun _ => True); [by apply tlift|]. intros d _.
          apply triple_bind with (Q := Forall2 (fun _ krc => okcs T krc.2.2) d).
          { apply triple_mapM; intros x _. eapply triple_bind; [apply (IH x.2)|]. intros rc Hrc. by apply triple_ret. }
          intros rs Hrs.
          eapply triple_bind; [apply struct_ok|]. intros c Hc.
          apply triple_bind with (Q := fun _ => True); [by apply tlift|]. intros r _. apply triple_ret. cbn [snd].
          apply okcs_app; [by eapply (okcs_concat _ _ _ _ Hrs)|]. apply okcs_cons; [done|apply okcs_nil]. }
        destruct a as [v|r|b a|l|d]; cbn [construct]; first [apply Hret|apply Hg].
    Qed.
    Lemma destruct_ok t r : triple J (destruct_ref H sel t r) (fun rc => okcs T rc.2 /\ rhid rc.1 = rhid r) E.
    Proof.
      assert (forall e, triple J (raiseM e) (fun rc : ref * list call => okcs T rc.2 /\ rhid rc.1 = rhid r) E) as Hra.
      { intros e. by apply triple_raise. }
      assert (forall (t : ty) r, triple J (retM (r, [])) (fun rc : ref * list call => okcs T rc.2 /\ rhid rc.1 = rhid r) E) as Hret.
      { intros t' r'. apply triple_ret. split; [apply okcs_nil|done]. }
      revert r Hra. induction t as [|t IH|tk IHk t IH|t IH|]; intros r Hra.
      1,4,5: by destruct r as [c h o|c h [l|]|c h [l|]]; cbn [destruct_ref]; first [apply (Hret TAtom)|apply Hra].
      - destruct r as [c h o|c h [l|]|c h [l|]]; cbn [destruct_ref]; try first [apply (Hret TAtom)|apply Hra].
        eapply triple_bind with (Q := Forall2 (fun _ ec => okcs T ec.2) (seq 0 (length l))).
        { apply triple_mapM. intros i _. eapply triple_bind; [apply struct_ok|]. intros gc Hgc.
          apply triple_bind with (Q := fun _ => True); [by apply tlift|]. intros e _.
          eapply triple_bind; [apply (IH e); intros; by apply triple_raise|]. intros ec [Hec _]. apply triple_ret.
          by apply okcs_cons. }
        intros es Hes. apply triple_ret. split; [|done]. cbn [snd]. by eapply (okcs_concat _ _ _ _ Hes).
      - destruct r as [c h o|c h [l|]|c h [l|]]; cbn [destruct_ref]; try first [apply (Hret TAtom)|apply Hra].
        eapply triple_bind with (Q := Forall2 (fun _ ec => okcs T ec.2) l).
        { apply triple_mapM. intros i _. apply triple_bind with (Q := fun _ => True); [apply tread, construct_read|]. intros k _.
          eapply triple_bind; [apply struct_ok|]. intros gc Hgc.
          apply triple_bind with (Q := fun _ => True); [by apply tlift|]. intros e _.
          eapply triple_bind; [apply (IH e); intros; by apply triple_raise|]. intros ec [Hec _]. apply triple_ret.
          by apply okcs_cons. }
        intros es Hes. apply triple_ret. split; [|done]. cbn [snd]. by eapply (okcs_concat _ _ _ _ Hes).
    Qed.
    Lemma wrap_output_ok h t a : (forall id v, a <> AVal (VPtr id v)) ->
      triple J (wrap_output H sel h t a) (fun rc => okcs T rc.2 /\ rhid rc.1 = h) E.
    Proof.
      intros Ha.
      assert (triple J (rc <- construct H sel t a ;; destruct_ref H sel t (with_hid h rc.1))%pym
                (fun rc => okcs T rc.2 /\ rhid rc.1 = h) E) as Hg.
      { apply triple_bind with (Q := fun _ => True); [apply tread, construct_read|]. intros rc _.
        eapply triple_mono; [apply destruct_ok| |done]. cbn. intros x [? ?]. by rewrite rhid_with_hid in *. }
      unfold wrap_output. destruct a as [v|r|b a|l|d].
      2:{ apply triple_ret. split; [apply okcs_nil|apply rhid_with_hid]. }
      all: destruct t; try done; try (by apply triple_raise).
      apply triple_ret. split; [apply okcs_nil|]. cbn [fst]. destruct v; try done. by destruct (Ha id v).
    Qed.
    Lemma run_function_log o b keys ins : triple J (run_function o b keys ins)
      (fun ret => exists env, od_fun o env = Ok ret) E.
    Proof.
      unfold run_function. apply triple_bind with (Q := fun _ => True); [by apply tlift|]. intros ak _.
      apply triple_bind with (Q := fun _ => True).
      { apply tread. apply inR_mapM; [apply _|]. intros; apply unwrap_read. }
      intros args _. apply triple_bind with (Q := fun _ => True).
      { apply tread. apply inR_mapM; [apply _|]. intros; apply inR_bind; [apply _|apply unwrap_read|].
        intros; apply inR_ret; apply _. }
      intros kw _. apply triple_bind with (Q := fun _ => True); [by apply tlift|]. intros env _.
      apply triple_bind with (Q := fun _ => True); [by intros s Hs|]. intros _ _.
      apply tlift. intros ret Hret. by exists env.
    Qed.
    Lemma call_internal_ok o inputs b keys : returns_plain o ->
      triple J (call_internal H sel o inputs b keys) (fun cs => okcs T (cs.1 :: cs.2)) E.
    Proof.
      intros Hpl. unfold call_internal.
      apply triple_bind with (Q := Forall2 (fun _ krc => okcs T krc.2.2) inputs).
      { apply triple_mapM. intros x _. eapply triple_bind; [apply construct_ok|]. intros rc Hrc. by apply triple_ret. }
      intros rs Hrs. set (ins := map _ rs). assert (okcs T (concat (map (fun krc => krc.2.2) rs))) as Hin.
      { by eapply (okcs_concat _ _ _ _ Hrs). }
      set (ics := concat _) in *. clearbody ics ins.
      eapply triple_bind; [apply lookup_ok|]. intros [c|] Hc.
      { apply triple_ret. cbn [fst snd]. apply okcs_cons; [by apply Hc|done]. }
      intros s Hs. unfold if_st. destruct (s_allow s); [|done].
      match goal with |- context [?f s] =>
          match f with bindM _ _ => enough (triple J f (fun cs => okcs T (cs.1 :: cs.2)) E) as Hf by by apply Hf end end.
      eapply triple_bind; [apply run_function_log|]. intros ret (env & Hret).
      apply triple_bind with (Q := fun outs => forall k a, (k, a) ∈ outs.1 -> forall id v, a <> AVal (VPtr id v)).
      { apply tlift. intros [d anns] Hp k a Hk id v ->. cbn [fst] in Hk. apply (Hpl env ret id v Hret).
        unfold parse_returns in Hp. destruct (returns_tuple _ ret) as [vs|] eqn:Ev; cbn in Hp; [|done].
        destruct (ret_annotations _ _ _); cbn in Hp; [|done]. injection Hp as <- _.
        apply elem_of_dict_of_inv in Hk. apply elem_of_lookup_imap in Hk as (i & x & [= _ <-] & Hx).
        assert (AVal (VPtr id v) ∈ vs) as Hv by by eapply elem_of_list_lookup_2.
        unfold returns_tuple in Ev. repeat (case_match; try done); simplify_eq/=; done. }
      intros outs Houts. set (chid := call_hid H (od_op o) ins None).
      apply triple_bind with (Q := Forall2 (fun _ krc => okcs T krc.2.2 /\ rhid krc.2.1 = output_hid H chid krc.1) outs.1).
      { apply triple_mapM. intros [k a] Hx. cbn [fst snd]. apply triple_bind with (Q := fun _ => True); [by apply tlift|]. intros t _.
        eapply triple_bind; [apply wrap_output_ok; by apply (Houts k a)|]. intros rc Hrc. by apply triple_ret. }
      intros ws Hws. apply triple_ret. cbn [fst snd]. apply okcs_cons.
      - left. cbn [c_outs c_hid]. intros k r (krc & [= -> ->] & Hin')%elem_of_list_fmap.
        apply elem_of_list_lookup in Hin' as (i & Hi).
        destruct (Forall2_lookup_r _ _ _ _ _ Hws Hi) as (x & _ & [_ HQ]). done.
      - apply okcs_app; [done|]. eapply (okcs_concat _ _ _ _ Hws). intros x y [? _]. done.
    Qed.
  End calls.

  (** only the log changes besides what reading changes *)
  Definition keeps_alias (s s' : st) : Prop := s_alias s' = s_alias s.
  Local Instance keeps_alias_pre : PreOrder keeps_alias.
  Proof. split; [by intros s|]. unfold keeps_alias. congruence. Qed.
  Lemma read_alias {X} (f : M st X) : inR only_read f -> inR keeps_alias f.
  Proof. apply inR_sub. by intros s s' []. Qed.
  Lemma call_internal_alias o inputs b keys s : s_alias (call_internal H sel o inputs b keys s).2 = s_alias s.
  Proof.
    enough (inR keeps_alias (call_internal H sel o inputs b keys)) as Hf by apply Hf. unfold call_internal.
    apply inR_bind; [apply _| |intros rs].
    { apply read_alias. apply inR_mapM; [apply _|]. intros; apply inR_bind; [apply _|apply construct_read|].
      intros; apply inR_ret; apply _. }
    apply inR_bind; [apply _|apply read_alias, lookup_call_read|]. intros [c|]; [apply inR_ret; apply _|].
    unfold if_st. apply inR_if; [|apply inR_raise; apply _]. apply inR_bind; [apply _| |intros ret].
    { unfold run_function. apply inR_bind; [apply _|apply inR_lift; apply _|]. intros ak. apply inR_bind; [apply _| |intros args].
      { apply read_alias. apply inR_mapM; [apply _|]. intros; apply unwrap_read. }
      apply inR_bind; [apply _| |intros kw].
      { apply read_alias. apply inR_mapM; [apply _|]. intros; apply inR_bind; [apply _|apply unwrap_read|].
        intros; apply inR_ret; apply _. }
      apply inR_bind; [apply _|apply inR_lift; apply _|]. intros env. apply inR_bind; [apply _|by intros s'|].
      intros; apply inR_lift; apply _. }
    apply inR_bind; [apply _|apply inR_lift; apply _|]. intros outs. apply inR_bind; [apply _| |intros; apply inR_ret; apply _].
    apply inR_mapM; [apply _|]. intros x _. apply inR_bind; [apply _|apply inR_lift; apply _|]. intros t.
    apply inR_bind; [apply _|apply read_alias, wrap_output_read|]. intros; apply inR_ret; apply _.
  Qed.

  (** ** Tables *)
  Lemma own_rows_of d : (forall k v, (k, v) ∈ d_outs d -> v.2 = output_hid H (d_hid d) k) ->
    forall r, r ∈ rows_of d -> own r.
  Proof.
    intros Hd r [(kv & -> & Hk)%elem_of_list_fmap|([k v] & -> & Hk)%elem_of_list_fmap]%elem_of_app; [done|].
    intros _. cbn. by apply Hd.
  Qed.
  Lemma own_upsert r t : own r -> (forall r', r' ∈ t -> own r') -> forall r', r' ∈ upsert r t -> own r'.
  Proof.
    intros Hr. induction t as [|r0 t IH]; intros Ht r'; cbn [upsert].
    - by intros [->|?%elem_of_nil]%elem_of_cons.
    - destruct (decide _).
      + intros [->|?]%elem_of_cons; [done|]. apply Ht. by right.
      + intros [->|?]%elem_of_cons; [apply Ht; left|]. apply IH; [|done]. intros; apply Ht; by right.
  Qed.
  Lemma own_mc_save d m : (forall r, r ∈ rows_of d -> own r) -> (forall r, r ∈ mc_rows m -> own r) ->
    forall r, r ∈ mc_rows (mc_save d m) -> own r.
  Proof.
    intros Hd Hm. unfold mc_save. destruct (decide _); [done|]. cbn [mc_rows]. revert Hm. generalize (mc_rows m).
    induction (rows_of d) as [|r0 l IH]; intros t Ht; cbn [fold_left]; [done|].
    apply IH; [intros; apply Hd; by right|]. apply own_upsert; [apply Hd; left|done].
  Qed.
  Lemma own_mc_get hid m d : (forall r, r ∈ mc_rows m -> own r) -> mc_get hid m = Ok d -> forall r, r ∈ rows_of d -> own r.
  Proof.
    intros Hm. unfold mc_get. destruct (mc_exists hid m); [|done]. unfold mc_mget. cbn [mapR].
    destruct (data_of_rows hid _) as [d'|] eqn:E; cbn; [|done]. intros [= <-].
    unfold data_of_rows in E. destruct (rows_for hid (mc_rows m)) as [|r0 l] eqn:Er; [done|]. injection E as <-.
    apply own_rows_of. cbn [d_outs d_hid]. intros k v Hk%elem_of_dict_of_inv.
    apply elem_of_list_fmap in Hk as (r & [= -> ->] & Hr). apply elem_of_list_filter in Hr as [Hdir Hr].
    rewrite <- Er in Hr. apply elem_of_list_filter in Hr as [<- Hr]. by apply Hm.
  Qed.
  Lemma own_insert f l t : (forall r, r ∈ l -> own r) -> (forall r, r ∈ t -> own r) ->
    forall r, r ∈ (iterM (fun r => with_fault (f r) (sql_insert r)) l t).2 -> own r.
  Proof.
    intros Hl. revert t. induction l as [|r0 l IH]; intros t Ht; cbn [iterM]; [done|]. unfold bindM.
    assert (forall r, r ∈ (with_fault (f r0) (sql_insert r0) t).2 -> own r) as H1.
    { destruct (f r0); cbn [with_fault]; [done|]. unfold sql_insert. destruct (decide _); [done|]. cbn.
      intros r [?|Hr%elem_of_list_singleton]%elem_of_app; [by apply Ht|]. subst. apply Hl. left. }
    destruct (with_fault (f r0) (sql_insert r0) t) as [[u|e] t1]; [|done]. apply IH; [|done].
    intros; apply Hl; by right.
  Qed.
  Definition owncc (T : ccalls) : Prop :=
    (forall r, r ∈ mc_rows (cc_cache T) -> own r) /\ (forall r, r ∈ cc_pers T -> own r).
  Lemma own_calls_commit f o T : owncc T -> owncc (calls_commit f o T).2.
  Proof.
    intros HT. unfold calls_commit.
    assert (owncc (iterM (calls_commit_hid f) o T).2) as HI.
    { revert T HT. induction o as [|h o IH]; intros T HT; cbn [iterM]; [done|]. unfold bindM.
      assert (owncc (calls_commit_hid f h T).2) as H1.
      { unfold calls_commit_hid. destruct (mc_get h (cc_cache T)) as [d|e] eqn:Eg; [|done]. destruct HT as [HT1 HT2].
        pose proof (own_insert f (rows_of d) (cc_pers T) (own_mc_get _ _ _ HT1 Eg) HT2) as Hi.
        destruct (iterM _ (rows_of d) (cc_pers T)) as [r t]. by split. }
      destruct (calls_commit_hid f h T) as [[u|e] T1]; [|done]. by apply IH. }
    destruct (iterM (calls_commit_hid f) o T) as [[u|e] T']; [|done]. by destruct HI.
  Qed.

  (** ** Steps *)
  Lemma owns_calls s s' : t_calls (s_tabs s') = t_calls (s_tabs s) -> s_alias s' = s_alias s -> owns s -> owns s'.
  Proof. intros E1 E2 Hs r. unfold recorded_row. rewrite E1, E2. apply Hs. Qed.
  Lemma owns_read s s' : only_read s s' -> owns s -> owns s'.
  Proof. intros []. by apply owns_calls. Qed.
  Lemma owns_cc s : owns s <-> owncc (t_calls (s_tabs s)) /\ forall m, s_alias s = Some m -> forall r, r ∈ mc_rows m -> own r.
  Proof.
    split.
    - intros Hs. split; [split|]; intros; apply Hs; unfold recorded_row; eauto.
    - intros [[A1 A2] A3] r [?|[?|(m & ? & ?)]]; eauto.
  Qed.

  Definition keeps_calls (s s' : st) : Prop := t_calls (s_tabs s') = t_calls (s_tabs s) /\ s_alias s' = s_alias s.
  Local Instance keeps_calls_pre : PreOrder keeps_calls.
  Proof. split; [by intros s|]. intros s1 s2 s3 [] []. split; congruence. Qed.
  Lemma set_shape_keeps k r : inR keeps_calls (set_shape k r).
  Proof. by intros s. Qed.
  Lemma set_atom_keeps k v : inR keeps_calls (set_atom k v).
  Proof. by intros s. Qed.
  Lemma set_op_keeps k v : inR keeps_calls (set_op k v).
  Proof. by intros s. Qed.
  Lemma save_ref_keeps r : inR keeps_calls (save_ref r).
  Proof.
    induction r as [c h o|c h|c h l IH|c h|c h l IH] using ref_ind'; cbn [save_ref]; unfold if_st;
      (apply inR_if; [apply inR_ret; apply _|]); try (apply inR_raise; apply _).
    - apply inR_bind; [apply _| |intros; apply set_shape_keeps]. destruct o; [apply set_atom_keeps|apply inR_ret; apply _].
    - apply inR_bind; [apply _|apply set_shape_keeps|]. intros ?. apply inR_iterM; [apply _|]. by rewrite Forall_forall in IH.
    - apply inR_bind; [apply _|apply set_shape_keeps|]. intros ?. apply inR_iterM; [apply _|]. by rewrite Forall_forall in IH.
  Qed.

  Lemma exists_save h d T : cc_exists h T = true -> cc_exists h (cc_save d T) = true.
  Proof.
    unfold cc_exists, cc_save, mc_exists, mc_save. cbn. rewrite !orb_true_iff. intros [Hh|Hh]; [left|by right].
    apply bool_decide_eq_true in Hh. apply bool_decide_eq_true. destruct (decide _); [done|]. cbn. set_solver.
  Qed.
  Lemma save_call_owns c s : okc (t_calls (s_tabs s)) c -> owns s ->
    owns (save_call c s).2 /\ (forall h, has_call h s = true -> has_call h (save_call c s).2 = true).
  Proof.
    intros Hc Hs. unfold save_call, if_st. destruct (has_call (c_hid c) s) eqn:Eh; [done|].
    destruct Hc as [Hc|Hc]; [|unfold has_call in Eh; congruence].
    assert (inR keeps_calls (if_st (has_op (op_name (c_op c))) (retM tt) (set_op (op_name (c_op c)) (c_op c)) ;;;
                iterM save_ref (map snd (c_ins c) ++ map snd (c_outs c)))%pym) as Hk.
    { apply inR_bind; [apply _| |].
      - unfold if_st. apply inR_if; [apply inR_ret; apply _|apply set_op_keeps].
      - intros _. apply inR_iterM; [apply _|]. intros; apply save_ref_keeps. }
    specialize (Hk s). unfold if_st, bindM in *.
    destruct (if has_op (op_name (c_op c)) s then _ else _) as [[u|e] s1].
    2:{ destruct Hk as [K1 K2]. cbn in *. split; [by eapply owns_calls|]. intros h. unfold has_call. by rewrite K1. }
    destruct (iterM save_ref _ s1) as [[u'|e] s2]; cbn [snd] in Hk; destruct Hk as [K1 K2].
    2:{ cbn in *. split; [by eapply owns_calls|]. intros h. unfold has_call. by rewrite K1. }
    unfold on_tabs, on_calls, upd. cbn [snd].
    assert (owns s2) as Hs2 by by eapply owns_calls.
    apply owns_cc in Hs2 as [[A1 A2] A3]. split.
    - apply owns_cc. split; [split|]; cbn.
      + apply own_mc_save; [|done]. apply own_rows_of. cbn [cdata_of d_outs d_hid].
        intros k v ([k' r] & [= -> ->] & Hk)%elem_of_list_fmap. cbn. by apply Hc.
      + done.
      + done.
    - intros h. unfold has_call. cbn. rewrite <- K1. apply exists_save.
  Qed.
  Lemma save_calls_owns cs s : okcs (t_calls (s_tabs s)) cs -> owns s -> owns (iterM save_call cs s).2.
  Proof.
    assert (forall T, okcs T cs -> (forall h, cc_exists h T = true -> has_call h s = true) -> owns s -> owns (iterM save_call cs s).2) as Hg.
    2:{ intros Hc Hs. by apply (Hg (t_calls (s_tabs s))). }
    intros T. revert s. induction cs as [|c cs IH]; intros s Hc HT Hs; cbn [iterM]; [done|]. unfold bindM.
    assert (okc (t_calls (s_tabs s)) c) as Hok.
    { destruct (Hc c ltac:(left)) as [?|?]; [by left|]. right. by apply HT. }
    pose proof (save_call_owns c s Hok Hs) as [H1 H2].
    destruct (save_call c s) as [[u|e] s1]; [|done]. apply IH; [|auto|done].
    intros c' Hc'. apply Hc. by right.
  Qed.

  Lemma call_run_owns o args kw keys s : returns_plain o -> owns s -> owns (call_run H sel o args kw keys s).2.
  Proof.
    intros Hpl Hs. unfold call_run. unfold bindM at 1.
    pose proof (parse_args_read (od_sig o) (op_ignore (od_op o)) args kw s) as Hp.
    destruct (parse_args _ _ _ _ _ s) as [[[b ins]|e] s1]; cbn [snd] in Hp; [|by eapply owns_read].
    pose proof (owns_read _ _ Hp Hs) as Hs1.
    unfold bindM at 1. cbn [fst snd].
    destruct (call_internal_ok (t_calls (s_tabs s1)) o ins b keys Hpl s1 eq_refl) as [HJ Hok].
    pose proof (call_internal_alias o ins b keys s1) as Hal.
    destruct (call_internal H sel o ins b keys s1) as [[[c cs]|e] s2]; cbn [fst snd] in *; [|by eapply owns_calls].
    assert (owns s2) as Hs2 by by eapply owns_calls.
    unfold bindM at 1. rewrite <- HJ in Hok.
    pose proof (save_calls_owns (c :: cs) s2 Hok Hs2) as H3.
    destruct (iterM save_call (c :: cs) s2) as [[u|e] s3]; [|done]. cbn [snd] in H3.
    unfold bindM, liftR. by destruct (get_ordered_outputs _ _).
  Qed.

  Lemma tabs_commit_owns f o (t : tabs pyval ref op) : owncc (t_calls t) -> owncc (t_calls (commit_body bigA (fun _ => false) (fun _ => false) f o t).2).
  Proof.
    intros Ht. unfold commit_body.
    set (R := fun t t' : tabs pyval ref op => owncc (t_calls t) -> owncc (t_calls t')).
    assert (PreOrder R) as HR by (split; unfold R; [by intros x|by intros x y z; auto]).
    match goal with |- owncc (t_calls (?f t).2) => enough (inR R f) as Hf by by apply Hf end.
    apply inR_bind; [done| |intros _].
    { intros x. unfold on_atoms. unfold R. by destruct (dict_commit _ _ _ _). }
    apply inR_bind; [done| |intros _].
    { intros x. unfold on_shapes. unfold R. by destruct (dict_commit _ _ _ _). }
    apply inR_bind; [done| |intros _].
    { intros x. unfold on_ops. unfold R. by destruct (dict_commit _ _ _ _). }
    apply inR_bind; [done| |intros _].
    { intros x Hx. unfold on_calls. pose proof (own_calls_commit (fun r => f (SRow r)) (o_calls o) _ Hx) as Hc.
      by destruct (calls_commit _ _ _). }
    intros x. destruct (f SCommit); done.
  Qed.
  Lemma commit_owns f o s : owns s -> owns (commit_storage bigA f o s).2.
  Proof.
    intros Hs. apply owns_cc in Hs as [A1 A2]. unfold commit_storage, on_tabs, commit_disk.
    pose proof (tabs_commit_owns f o _ A1) as Hb.
    destruct (commit_body _ _ _ f o (s_tabs s)) as [[u|e] t]; cbn [snd] in *; apply owns_cc; cbn.
    - by split.
    - split; [|done]. destruct A1, Hb. by split.
  Qed.
  Lemma clear_owns b s : owns s -> owns (clear_storage b s).2.
  Proof.
    intros Hs. pose proof Hs as [A1 A2]%owns_cc. unfold clear_storage.
    assert (owncc (t_calls (clear_cache b (s_tabs s)).2)) as Hb.
    { unfold clear_cache.
      set (R := fun t t' : tabs pyval ref op => owncc (t_calls t) -> owncc (t_calls t')).
      assert (PreOrder R) as HR by (split; unfold R; [by intros x|by intros x y z; auto]).
      match goal with |- owncc (t_calls (?f ?t).2) => enough (inR R f) as Hf by by apply Hf end.
      apply inR_bind; [done| |intros _].
      { intros x. unfold on_atoms. unfold R. by destruct (cd_clear _ _). }
      apply inR_bind; [done| |intros _].
      { intros x. unfold on_shapes. unfold R. by destruct (cd_clear _ _). }
      apply inR_bind; [done| |intros _].
      { intros x. unfold on_ops. unfold R. by destruct (cd_clear _ _). }
      intros x [Hx1 Hx2]. unfold on_calls, cc_clear. destruct (_ || _); cbn; [|done]. split; [|done].
      by intros r Hr%elem_of_nil. }
    assert (forall r, r ∈ mc_rows (call_cache s) -> own r) as Hcc.
    { intros r Hr. unfold call_cache in Hr. destruct (s_alias s) as [m|] eqn:Ea; cbn [default from_option id] in Hr.
      - by apply (A2 m eq_refl).
      - destruct A1 as [A1 _]. by apply A1. }
    destruct (clear_cache b (s_tabs s)) as [[u|e] t]; cbn [snd] in *; apply owns_cc; cbn.
    - split; [done|]. by intros m [= <-].
    - by split.
  Qed.
  Lemma mc_drop_rows h m r : r ∈ mc_rows (mc_drop h m).2 -> r ∈ mc_rows m.
  Proof.
    unfold mc_drop. destruct (rows_for h (mc_rows m)); [done|]. destruct (decide _); cbn; by intros [_ ?]%elem_of_list_filter.
  Qed.
  Definition fewer (s s' : st) : Prop := forall r, recorded_row s' r -> recorded_row s r.
  Local Instance fewer_pre : PreOrder fewer.
  Proof. split; unfold fewer; [by intros s|]. intros s1 s2 s3 A B r Hr. auto. Qed.
  Lemma drop_fewer hids : inR fewer (drop_calls hids).
  Proof.
    unfold drop_calls. apply inR_bind; [apply _| |intros _]; (apply inR_iterM; [apply _|]); intros h _ s.
    - unfold drop_cached. destruct (mc_exists h (call_cache s)); [|done].
      pose proof (mc_drop_rows h (call_cache s)) as Hm. destruct (mc_drop h (call_cache s)) as [res m]. cbn [snd] in *.
      unfold set_call_cache, call_cache in *. intros r. unfold recorded_row.
      destruct (s_alias s) as [m0|] eqn:Ea; cbn in *.
      + try rewrite Ea. intros [?|[?|(m' & [= <-] & ?)]]; [by left|right; by left|]. right; right. exists m0. auto.
      + try rewrite Ea. intros [?|[?|(m' & [=] & ?)]]; [left; by auto|right; by left].
    - unfold drop_persistent. intros r. unfold recorded_row. cbn. intros [?|[[_ ?]%elem_of_list_filter|?]]; auto.
  Qed.
  Lemma cleanup_keeps : inR keeps_calls cleanup_refs.
  Proof.
    intros s. unfold cleanup_refs.
    match goal with |- keeps_calls s (iterM ?f ?l ?s1).2 => assert (keeps_calls s s1) as H1; [|
      assert (inR keeps_calls (iterM f l)) as H2; [|by etrans; [exact H1|apply H2]]] end.
    - match goal with |- keeps_calls s (iterM ?f ?l s).2 => enough (inR keeps_calls (iterM f l)) as Hf by apply Hf end.
      apply inR_iterM; [apply _|]. by intros x _ s'.
    - apply inR_iterM; [apply _|]. by intros x _ s'.
  Qed.
  Lemma mget_call_read hids b : inR only_read (mget_call sel hids b).
  Proof.
    intros s. unfold mget_call. destruct (mget_datas _ _ _ _) as [ds|]; [|done].
    match goal with |- only_read s (mapM' ?f ?l s).2 => enough (inR only_read (mapM' f l)) as Hf by apply Hf end.
    apply inR_mapM; [apply _|]. intros; apply call_from_data_read.
  Qed.

  Lemma open_owns (d : db pyval ref op) log : (forall r, r ∈ db_calls d -> own r) -> owns (St (open_db d) None true log).
  Proof. intros Hd. apply owns_cc. split; [split|done]; [by intros r Hr%elem_of_nil|done]. Qed.
  Lemma gstep_owns s s' : gstep H sel bigA s s' -> owns s -> owns s'.
  Proof.
    destruct 1 as [s o args kw keys r s' Hpl E|s o args kw r s' E|s x r s' E|s b hid r s' E|s hids b r s' E|s f o r s' E
      |s b r s' E|s hids r s' E|s r s' E|s b|s|s f o torn]; intros Hs.
    - pose proof (call_run_owns o args kw keys s Hpl Hs) as Hr. by rewrite E in Hr.
    - pose proof (call_noop_read o args kw s) as Hr. rewrite E in Hr. by eapply owns_read.
    - pose proof (unwrap_ref_read x s) as Hr. rewrite E in Hr. by eapply owns_read.
    - pose proof (load_ref_read b hid s) as Hr. rewrite E in Hr. by eapply owns_read.
    - pose proof (mget_call_read hids b s) as Hr. rewrite E in Hr. by eapply owns_read.
    - pose proof (commit_owns f o s Hs) as Hr. by rewrite E in Hr.
    - pose proof (clear_owns b s Hs) as Hr. by rewrite E in Hr.
    - pose proof (drop_fewer hids s) as Hr. rewrite E in Hr. intros r' Hr'. by apply Hs, Hr.
    - pose proof (cleanup_keeps s) as Hr. rewrite E in Hr. destruct Hr. by eapply owns_calls.
    - done.
    - apply open_owns. intros r Hr. apply Hs. right. by left.
    - apply open_owns. intros r Hr. apply Hs. right. left.
      unfold crash_disk in Hr. destruct torn as [[k v]|]; done.
  Qed.
  Lemma gsteps_owns s s' : gsteps H sel bigA s s' -> owns s -> owns s'.
  Proof. induction 1 as [s|s1 s2 s3 H1 _ IH]; [done|]. intros Hs. by apply IH, (gstep_owns _ _ H1). Qed.
  Theorem greach_owns s : greach H sel bigA s -> owns s.
  Proof.
    intros (ov & Hs). apply (gsteps_owns _ _ Hs). apply open_owns. by intros r Hr%elem_of_nil.
  Qed.
  Theorem greach_outputs `{!Inj (=) (=) H} s r r' : greach H sel bigA s -> recorded_row s r -> recorded_row s r' ->
    r_dir r = DOut -> r_dir r' = DOut -> r_rhid r = r_rhid r' -> r_hid r = r_hid r' /\ r_name r = r_name r'.
  Proof.
    intros Hg Hr Hr' D D'. rewrite (greach_owns s Hg r Hr D), (greach_owns s Hg r' Hr' D'). unfold output_hid.
    intros Eq%(inj H). by injection Eq.
  Qed.
  Theorem greach_creators `{!Inj (=) (=) H} s hid : greach H sel bigA s ->
    size (creator_hids {[hid]} (cc_pers (t_calls (s_tabs s)))) <= 1.
  Proof.
    intros Hg. destruct (decide (creator_hids {[hid]} (cc_pers (t_calls (s_tabs s))) = ∅)) as [->|Hne]; [by rewrite size_empty; lia|].
    apply set_choose_L in Hne as [c Hc]. transitivity (size ({[c]} : gset string)); [|by rewrite size_singleton].
    apply subseteq_size. intros c' Hc'. apply elem_of_singleton. unfold creator_hids in *.
    apply elem_of_list_to_set in Hc, Hc'. apply elem_of_list_fmap in Hc as (r & -> & Hr), Hc' as (r' & -> & Hr').
    apply elem_of_list_filter in Hr as [[Er Dr] Hr], Hr' as [[Er' Dr'] Hr'].
    eapply (greach_outputs s r' r Hg); unfold recorded_row; eauto. set_solver.
  Qed.
End outputs.
