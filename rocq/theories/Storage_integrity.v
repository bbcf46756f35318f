(** Proofs for C18 with collections: nothing recorded refers to something that is not recorded. *)
From stdpp Require Import base strings gmap list.
From Verif Require Import Base PyDict PyDict_proofs Returns DictStore Spec_DictStore DictStore_proofs CallStore Spec_CallStore CallStore_proofs
  Commit Spec_Commit Commit_proofs Refs Args Args_proofs Ident Storage Spec_Storage Spec_Storage2 Storage_base Storage_tabs Storage_laws Storage_save
  Spec_Outputs Storage_outputs Spec_Roundtrip Storage_roundtrip Spec_Atoms Storage_atoms Spec_Integrity.

Notation anyv := (@Commit_proofs.anyv _).

(** * Reading keeps the tables of shapes and ops *)
Record ki (s s' : st) : Prop := {
  ki_shapes : forall m, cd_inv anyv false m (t_shapes (s_tabs s)) -> cd_inv anyv false m (t_shapes (s_tabs s'));
  ki_ops : forall m, cd_inv anyv false m (t_ops (s_tabs s)) -> cd_inv anyv false m (t_ops (s_tabs s'));
  ki_calls : t_calls (s_tabs s') = t_calls (s_tabs s);
  ki_alias : s_alias s' = s_alias s;
}.
Global Instance ki_pre : PreOrder ki.
Proof. split; [by intros s|]. intros s1 s2 s3 [] []. split; auto; congruence. Qed.

Section ki.
  Context (H : pyval -> string) (sel : list crow -> list crow).
  Lemma get_shape_ki k : inR ki (get_shape k).
  Proof.
    intros s. unfold get_shape, on_tabs, on_shapes.
    pose proof (fun m => cd_get_inv anyv false any_fun m (t_shapes (s_tabs s)) k) as Hg.
    destruct (cd_get k (t_shapes (s_tabs s))) as [r d]. cbn in *. split; try done. intros m Hm. by apply Hg.
  Qed.
  Lemma get_op_ki k : inR ki (get_op k).
  Proof.
    intros s. unfold get_op, on_tabs, on_ops.
    pose proof (fun m => cd_get_inv anyv false any_fun m (t_ops (s_tabs s)) k) as Hg.
    destruct (cd_get k (t_ops (s_tabs s))) as [r d]. cbn in *. split; try done. intros m Hm. by apply Hg.
  Qed.
  Lemma get_atom_ki k : inR ki (get_atom k).
  Proof. intros s. unfold get_atom, on_tabs, on_atoms. destruct (cd_get k (t_atoms (s_tabs s))) as [r d]. by split. Qed.
  Lemma set_atom_ki k v : inR ki (set_atom k v).
  Proof. intros s. by split. Qed.

  Ltac goo tac :=
    repeat first
      [ tac | apply inR_ret; apply _ | apply inR_raise; apply _ | apply inR_lift; apply _
      | apply get_shape_ki | apply get_op_ki | apply get_atom_ki | apply set_atom_ki
      | apply inR_bind; [apply _| |intros ?] | apply inR_mapM; [apply _|intros ? ?]
      | apply inR_iterM; [apply _|intros ? ?] ].
  Ltac go := goo fail.

  Lemma load_ref__ki fuel b h : inR ki (load_ref_ fuel b h).
  Proof.
    revert h. induction fuel as [|fuel IH]; intros h; cbn [load_ref_]; [go|].
    apply inR_bind; [apply _|apply get_shape_ki|]. intros sh. destruct sh as [c h' o|c h' [l|]|c h' [l|]]; try go.
    - destruct b; go.
    - apply IH.
    - apply IH.
  Qed.
  Lemma load_ref_ki b h : inR ki (load_ref b h).
  Proof. intros s. apply load_ref__ki. Qed.
  Lemma unwrap_atom_ki c h o : inR ki (unwrap_atom c h o).
  Proof.
    unfold unwrap_atom. destruct o; [go|]. apply inR_bind; [apply _|apply load_ref_ki|].
    intros [c' h' [v|]| |]; go.
  Qed.
  Lemma unwrap_ref_ki r : inR ki (unwrap_ref r).
  Proof.
    induction r as [c h o|c h|c h l IH|c h|c h l IH] using ref_ind'; cbn [unwrap_ref]; try go.
    - apply unwrap_atom_ki.
    - rewrite Forall_forall in IH. by apply IH.
    - rewrite Forall_forall in IH. by apply IH.
  Qed.
  Lemma unwrap_ki a : inR ki (unwrap a).
  Proof.
    induction a as [v|r|b a IH|l IH|d IH] using arg_ind'; cbn [unwrap]; try go.
    - apply unwrap_ref_ki.
    - rewrite Forall_forall in IH. by apply IH.
    - rewrite Forall_forall in IH. by apply IH.
  Qed.
  Lemma call_from_data_ki d b : inR ki (call_from_data d b).
  Proof. unfold call_from_data, load_refs. goo ltac:(apply load_ref_ki). Qed.
  Lemma lookup_call_ki o ins : inR ki (lookup_call H sel o ins).
  Proof.
    intros s. unfold lookup_call. destruct (cc_exists _ _); [|destruct (cc_exists_content _ _); [|done]].
    - match goal with |- ki s ((?f) s).2 => enough (inR ki f) as Hf by apply Hf end.
      goo ltac:(apply call_from_data_ki).
    - match goal with |- ki s ((?f) s).2 => enough (inR ki f) as Hf by apply Hf end.
      goo ltac:(apply call_from_data_ki).
  Qed.
  Lemma struct_call_ki o f n ins : inR ki (struct_call H sel o f n ins).
  Proof.
    unfold struct_call. apply inR_bind; [apply _|apply lookup_call_ki|]. intros [c|]; [go|].
    unfold if_st. apply inR_if; go.
  Qed.
  Lemma construct_ki t a : inR ki (construct H sel t a).
  Proof.
    revert a. induction t as [|t IH|tk IHk t IH|t IH|]; intros a; destruct a as [v|r|b a|l|d]; cbn [construct];
      goo ltac:(first [apply IH|apply struct_call_ki]).
  Qed.
  Lemma destruct_ki t r : inR ki (destruct_ref H sel t r).
  Proof.
    revert r. induction t as [|t IH|tk IHk t IH|t IH|]; intros r; destruct r as [c h o|c h [l|]|c h [l|]]; cbn [destruct_ref];
      goo ltac:(first [apply IH|apply struct_call_ki|apply construct_ki]).
  Qed.
  Lemma wrap_output_ki h t a : inR ki (wrap_output H sel h t a).
  Proof.
    unfold wrap_output. destruct a as [v|r|b a|l|d]; try go; destruct t;
      goo ltac:(first [apply construct_ki|apply destruct_ki]).
  Qed.
  Lemma parse_one_ki ignore p v : inR ki (parse_one unwrap ignore p v).
  Proof.
    unfold parse_one. destruct v as [a|l|d]; [|go|go].
    repeat (first [apply unwrap_ki | progress (goo ltac:(apply unwrap_ki)) | case_match]).
  Qed.
  Lemma parse_args_ki sig ignore args kw : inR ki (parse_args unwrap sig ignore args kw).
  Proof.
    unfold parse_args. apply inR_bind; [apply _|go|]. intros b. generalize (@nil (string * (arg * ty))).
    induction sig as [|p sig IH]; intros acc; cbn [parse_loop]; [go|].
    destruct (dget (p_name p) b); [|apply IH].
    apply inR_bind; [apply _|apply parse_one_ki|]. intros x. apply inR_bind; [apply _|apply IH|]. intros; go.
  Qed.
  Lemma call_noop_ki o args kw : inR ki (call_noop o args kw).
  Proof.
    unfold call_noop. apply inR_bind; [apply _|apply parse_args_ki|]. intros bi. goo ltac:(apply unwrap_ki).
  Qed.
  Lemma run_function_ki o b keys ins : inR ki (run_function o b keys ins).
  Proof.
    unfold run_function. apply inR_bind; [apply _|go|]. intros ak. apply inR_bind; [apply _| |intros args].
    { apply inR_mapM; [apply _|]. intros; apply unwrap_ki. }
    apply inR_bind; [apply _| |intros kw].
    { apply inR_mapM; [apply _|]. intros; apply inR_bind; [apply _|apply unwrap_ki|]. intros; go. }
    apply inR_bind; [apply _|go|]. intros env. apply inR_bind; [apply _|by intros s'; split|]. intros; go.
  Qed.
  Lemma mget_call_ki hids b : inR ki (mget_call sel hids b).
  Proof.
    intros s. unfold mget_call. destruct (mget_datas _ _ _ _) as [ds|]; [|done].
    match goal with |- ki s (mapM' ?f ?l s).2 => enough (inR ki (mapM' f l)) as Hf by apply Hf end.
    apply inR_mapM; [apply _|]. intros; apply call_from_data_ki.
  Qed.
End ki.

(** * Refs all of whose detached collections have a shape *)
Notation det := detached_collection.
Global Instance det_dec r : Decision (det r).
Proof. destruct r as [|? ? []|? ? []]; cbn; apply _. Defined.

Section refs.
  Context (ms : gmap string ref).
  Definition okr (r : ref) : Prop := forall x, x ∈ nodes r -> det x -> is_Some (ms !! rhid x).
  Definition okel (r : ref) : Prop := forall e, e ∈ elements_of r -> okr e.
  Definition okt (r : ref) : Prop := ~ det r /\ okel r.
  Lemma okr_el r : okr r -> okel r.
  Proof. intros Hr e He x Hx. apply Hr. by eapply nodes_elements. Qed.
  Lemma okr_intro r : (det r -> is_Some (ms !! rhid r)) -> okel r -> okr r.
  Proof. intros H1 H2 x [->|(e & He & Hx)]%nodes_cases; [done|]. by apply (H2 e He). Qed.
  Lemma okt_okr r : okt r -> okr r.
  Proof. intros [H1 H2]. apply okr_intro; [by intros ?%H1|done]. Qed.
  Lemma okr_atom c h o : okr (RAtom c h o).
  Proof. apply okr_intro; [done|]. intros e He. by apply elem_of_nil in He. Qed.
  Lemma okt_atom c h o : okt (RAtom c h o).
  Proof. split; [by intros ?|]. intros e He. by apply elem_of_nil in He. Qed.
  Lemma okel_with_hid h r : okel r -> okel (with_hid h r).
  Proof. by destruct r as [|? ? []|? ? []]. Qed.
  Lemma okt_with_hid h r : okt r -> okt (with_hid h r).
  Proof. intros [H1 H2]. split; [by destruct r as [|? ? []|? ? []]|by apply okel_with_hid]. Qed.
  Lemma okr_leaf r : elements_of r = [] -> is_Some (ms !! rhid r) -> okr r.
  Proof. intros E Hs. apply okr_intro; [done|]. intros e. rewrite E. by intros ?%elem_of_nil. Qed.

  (** All shapes are attached and have elements with shapes, except those in [X] *)
  Definition closed (X : string -> Prop) : Prop := forall h sh, ms !! h = Some sh ->
    ~ det sh /\ forall e, e ∈ elements_of sh -> elements_of e = [] /\ (is_Some (ms !! rhid e) \/ X (rhid e)).

  Definition callok (c : call) : Prop := forall r, r ∈ call_refs c -> okr r.
  Definition callsok (cs : list call) : Prop := forall c, c ∈ cs -> callok c.
  Lemma callsok_app l1 l2 : callsok l1 -> callsok l2 -> callsok (l1 ++ l2).
  Proof. intros A1 A2 c [?|?]%elem_of_app; auto. Qed.
  Lemma callsok_nil : callsok [].
  Proof. by intros c Hc%elem_of_nil. Qed.
  Lemma callsok_cons c l : callok c -> callsok l -> callsok (c :: l).
  Proof. intros A1 A2 c' [->|?]%elem_of_cons; auto. Qed.
  Lemma callsok_concat {A B} (l : list A) (l' : list B) (Q : A -> B -> Prop) (f : B -> list call) :
    Forall2 Q l l' -> (forall x y, Q x y -> callsok (f y)) -> callsok (concat (map f l')).
  Proof.
    intros HF HQ. induction HF as [|x y l l' Hxy _ IH]; cbn; [apply callsok_nil|].
    apply callsok_app; [by eapply HQ|done].
  Qed.
End refs.
Lemma Forall2_elem_r {A B} (Q : A -> B -> Prop) l l' y : Forall2 Q l l' -> y ∈ l' -> exists x, x ∈ l /\ Q x y.
Proof. intros HF [i Hi]%elem_of_list_lookup. destruct (Forall2_lookup_r _ _ _ _ _ HF Hi) as (x & Hx & HQ). exists x. split; [by eapply elem_of_list_lookup_2|done]. Qed.

Definition stab (ms : gmap string ref) (mo : gmap string op) (s : st) : Prop :=
  cd_inv anyv false ms (t_shapes (s_tabs s)) /\ cd_inv anyv false mo (t_ops (s_tabs s)).

Section reading.
  Context (H : pyval -> string) (sel : list crow -> list crow).
  Context (ms : gmap string ref) (mo : gmap string op) (T : ccalls) (al : option mcalls).
  Hypothesis Hcl : closed ms (fun _ => False).
  Let J (s : st) : Prop := stab ms mo s /\ t_calls (s_tabs s) = T /\ s_alias s = al.
  Let E : exn -> Prop := fun _ => True.
  Notation okr := (okr ms). Notation okt := (okt ms). Notation okel := (okel ms).
  Notation callok := (callok ms). Notation callsok := (callsok ms).

  Lemma tki {X} (f : M st X) : inR ki f -> triple J f (fun _ => True) E.
  Proof.
    intros Hf s [[H1 H2] [H3 H4]]. destruct (Hf s) as [K1 K2 K3 K4]. split; [|by destruct (f s).1].
    split_and!; [split; auto|congruence|congruence].
  Qed.
  Lemma tkiF {X} (f : M st X) (F : exn -> Prop) : inR ki f -> (forall e, F e) -> triple J f (fun _ => True) F.
  Proof. intros Hf HF. eapply triple_mono; [by apply tki|done|]. intros; apply HF. Qed.
  Lemma tliftI {X} (r : result X) (Q : X -> Prop) : (forall x, r = Ok x -> Q x) -> triple J (liftR r) Q E.
  Proof. intros Hr. apply triple_lift. destruct r; [by apply Hr|done]. Qed.
  Lemma get_shape_t h : triple J (get_shape h) (fun r => ms !! h = Some r) (fun e => ms !! h = None).
  Proof.
    intros s HJ. pose proof (get_shape_ki h s) as [K1 K2 K3 K4]. destruct HJ as [[H1 H2] [H3 H4]].
    unfold get_shape, on_tabs, on_shapes in *.
    destruct (cd_get_inv _ _ any_fun _ _ h H1) as [Hi Eq].
    destruct (cd_get h (t_shapes (s_tabs s))) as [r d]. simpl in *. subst r. split; [unfold J, stab; cbn; by split_and!|].
    by destruct (ms !! h).
  Qed.
  Lemma get_op_t h : triple J (get_op h) (fun r => mo !! h = Some r) (fun e => mo !! h = None).
  Proof.
    intros s HJ. pose proof (get_op_ki h s) as [K1 K2 K3 K4]. destruct HJ as [[H1 H2] [H3 H4]].
    unfold get_op, on_tabs, on_ops in *.
    destruct (cd_get_inv _ _ any_fun _ _ h H2) as [Hi Eq].
    destruct (cd_get h (t_ops (s_tabs s))) as [r d]. simpl in *. subst r. split; [unfold J, stab; cbn; by split_and!|].
    by destruct (mo !! h).
  Qed.

  Lemma load_ref__t fuel im h :
    triple J (load_ref_ fuel im h) okt (fun e => im = true -> is_Some (ms !! h) -> e = EFuel).
  Proof using Hcl.
    revert h. induction fuel as [|fuel IH]; intros h; cbn [load_ref_]; [by apply triple_raise|].
    apply triple_bind with (Q := fun sh => ms !! h = Some sh).
    { eapply triple_mono; [apply get_shape_t|done|]. cbn. intros e -> _ [? ?]. done. }
    intros sh Hsh. destruct (Hcl h sh Hsh) as [Hdet Hel]. destruct sh as [c h' o|c h' [l|]|c h' [l|]]; try by destruct Hdet.
    - destruct im; [apply triple_ret, okt_atom|].
      apply triple_bind with (Q := fun _ => True); [|intros v _; apply triple_ret, okt_atom].
      apply tkiF; [apply get_atom_ki|done].
    - apply triple_bind with (Q := fun _ => True).
      + apply triple_iterM. intros e He. apply triple_bind with (Q := fun _ => True); [|intros ? _; by apply triple_ret].
        eapply triple_mono; [apply IH|done|]. intros ex Hex Him _. apply Hex; [done|]. destruct (Hel e He) as [_ [?|[]]]. done.
      + intros _ _. apply triple_ret. split; [by intros ?|]. intros e He. destruct (Hel e He) as [? [?|[]]]. by apply okr_leaf.
    - apply triple_bind with (Q := Forall2 (fun _ (kr : string * ref) => okt kr.2) l).
      + apply triple_mapM. intros [k e] He. apply triple_bind with (Q := okt).
        * eapply triple_mono; [apply IH|done|]. intros ex Hex Him _. apply Hex; [done|].
          destruct (Hel e) as [_ [?|[]]]; [|done]. cbn. apply elem_of_list_fmap. by exists (k, e).
        * intros r Hr. by apply triple_ret.
      + intros l' Hl'. apply triple_ret. split; [by intros ?|]. cbn [elements_of]. intros e (kr & -> & Hk)%elem_of_list_fmap.
        destruct (Forall2_elem_r _ _ _ _ Hl' Hk) as (? & _ & ?). by apply okt_okr.
  Qed.
  Lemma load_ref_t im h : triple J (load_ref im h) okt (fun e => im = true -> is_Some (ms !! h) -> e = EFuel).
  Proof using Hcl. intros s Hs. unfold load_ref. by apply load_ref__t. Qed.
  Definition found (d : cdata) : Prop :=
    is_Some (mo !! d_op d) /\ forall k i, (k, i) ∈ d_ins d ++ d_outs d -> is_Some (ms !! i.2).
  Lemma load_refs_t im (d : pydict ids) : triple J (load_refs im d) (fun l => forall r, r ∈ map snd l -> okt r)
    (fun e => im = true -> (forall k i, (k, i) ∈ d -> is_Some (ms !! i.2)) -> e = EFuel).
  Proof using Hcl.
    unfold load_refs. eapply triple_mono.
    - apply triple_mapM with (Q := fun _ (kr : string * ref) => okt kr.2)
        (E := fun e => im = true -> (forall k i, (k, i) ∈ d -> is_Some (ms !! i.2)) -> e = EFuel). intros [k i] Hk.
      apply triple_bind with (Q := okt); [|intros r Hr; by apply triple_ret].
      eapply triple_mono; [apply load_ref_t|done|]. cbn. intros e He Him Hd. apply He; [done|]. by eapply Hd.
    - cbn. intros l Hl r (kr & -> & Hr)%elem_of_list_fmap. by destruct (Forall2_elem_r _ _ _ _ Hl Hr) as (? & _ & ?).
    - done.
  Qed.
  Lemma call_from_data_t d im : triple J (call_from_data d im) (fun c => forall r, r ∈ call_refs c -> okt r)
    (fun e => im = true -> found d -> e = EFuel).
  Proof using Hcl.
    unfold call_from_data. apply triple_bind with (Q := fun _ => True).
    { eapply triple_mono; [apply get_op_t|done|]. cbn. intros e En _ [[? Ho] _]. congruence. }
    intros o _. apply triple_bind with (Q := fun l => forall r, r ∈ map snd l -> okt r).
    { eapply triple_mono; [apply load_refs_t|done|]. cbn. intros e He Him [_ Hf]. apply He; [done|]. intros k i Hk. apply (Hf k). apply elem_of_app. by left. }
    intros ins Hi. apply triple_bind with (Q := fun l => forall r, r ∈ map snd l -> okt r).
    { eapply triple_mono; [apply load_refs_t|done|]. cbn. intros e He Him [_ Hf]. apply He; [done|]. intros k i Hk. apply (Hf k). apply elem_of_app. by right. }
    intros outs Ho. apply triple_ret. intros r [?|?]%elem_of_app; auto.
  Qed.
  Lemma set_hids_t f (d d' : pydict ref) : set_hids f d = Ok d' -> (forall r, r ∈ map snd d -> okt r) -> forall r, r ∈ map snd d' -> okt r.
  Proof.
    unfold set_hids. revert d'. induction d as [|[k0 r0] d IH]; intros d'; cbn; [intros [= <-] _ r Hk; by apply elem_of_nil in Hk|].
    destruct (f k0) as [h|]; cbn; [|done]. destruct (mapR _ d) as [d1|] eqn:Ed; cbn; [|done].
    intros [= <-] Hd r [->|Hk]%elem_of_cons; [apply okt_with_hid, Hd; left|].
    apply (IH d1); [done| |done]. intros; apply Hd; by right.
  Qed.
  Lemma lookup_t o ins : triple J (lookup_call H sel o ins) (fun res => forall c, res = Some c -> forall r, r ∈ call_refs c -> okt r) E.
  Proof using Hcl.
    intros s Hs. unfold lookup_call.
    destruct (cc_exists _ _); [|destruct (cc_exists_content _ _); [|done]];
      match goal with |- context [?f s] =>
        match f with bindM _ _ => enough (triple J f (fun res => forall c, res = Some c -> forall r, r ∈ call_refs c -> okt r) E) as Hf by by apply Hf end end.
    - apply triple_bind with (Q := fun _ => True); [by apply tliftI|]. intros d _.
      eapply triple_bind; [eapply triple_mono; [apply call_from_data_t|done|done]|]. intros c Hc. apply triple_ret. by intros ? [= <-].
    - apply triple_bind with (Q := fun _ => True); [by apply tliftI|]. intros d _.
      eapply triple_bind; [eapply triple_mono; [apply call_from_data_t|done|done]|]. intros c Hc.
      apply triple_bind with (Q := fun _ => True); [by apply tliftI|]. intros names _.
      eapply triple_bind with (Q := fun l => forall r, r ∈ map snd l -> okt r).
      { apply tliftI. intros l Hl. eapply set_hids_t; [exact Hl|]. intros r Hr. apply Hc. apply elem_of_app. by right. }
      intros outs Ho. eapply triple_bind with (Q := fun l => forall r, r ∈ map snd l -> okt r).
      { apply tliftI. intros l Hl. eapply set_hids_t; [exact Hl|]. intros r Hr. apply Hc. apply elem_of_app. by left. }
      intros ins' Hi. apply triple_ret. intros ? [= <-] r [?|?]%elem_of_app; auto.
  Qed.
  Lemma struct_t o f n ins (F : ref -> Prop) : (forall r, r ∈ map snd ins -> okr r) -> (forall r h, f ins = Ok r -> F (with_hid h r)) ->
    triple J (struct_call H sel o f n ins)
      (fun c => (forall r, r ∈ map snd (c_ins c) -> okr r) /\
         ((forall r, r ∈ map snd (c_outs c) -> okt r) \/ exists r, c_outs c = [(n, r)] /\ F r)) E.
  Proof using Hcl.
    intros Hins HF. unfold struct_call. eapply triple_bind; [apply lookup_t|]. intros [c|] Hc.
    { apply triple_ret. split; [|left]; intros r Hr; specialize (Hc _ eq_refl r); [apply okt_okr|]; apply Hc, elem_of_app; auto. }
    intros s Hs. unfold if_st. destruct (s_allow s); [|done].
    match goal with |- context [?f s] =>
          match f with bindM _ _ => enough (triple J f (fun c => (forall r, r ∈ map snd (c_ins c) -> okr r) /\
         ((forall r, r ∈ map snd (c_outs c) -> okt r) \/ exists r, c_outs c = [(n, r)] /\ F r)) E) as Hf by by apply Hf end end.
    eapply triple_bind with (Q := fun r => f ins = Ok r); [by apply tliftI|]. intros r Hr. apply triple_ret. cbn [c_ins c_outs].
    split; [done|]. right. eexists. split; [done|]. by apply HF.
  Qed.
  (** if the outputs are good, so is the call *)
  Lemma struct_callok (c : call) n (F : ref -> Prop) : (forall r, F r -> okt r) ->
    (forall r, r ∈ map snd (c_ins c) -> okr r) /\ ((forall r, r ∈ map snd (c_outs c) -> okt r) \/ exists r, c_outs c = [(n, r)] /\ F r) ->
    callok c /\ forall r, r ∈ map snd (c_outs c) -> okt r.
  Proof.
    intros HF [Hi Ho]. assert (forall r, r ∈ map snd (c_outs c) -> okt r) as Ho'.
    { destruct Ho as [?|(r & -> & Hr)]; [done|]. cbn. intros r' ->%elem_of_list_singleton. by apply HF. }
    split; [|done]. intros r [?|?]%elem_of_app; [by apply Hi|]. by apply okt_okr, Ho'.
  Qed.
  Lemma first_output_elem c r : first_output c = Ok r -> r ∈ map snd (c_outs c).
  Proof. unfold first_output. destruct (c_outs c) as [|kr l]; [done|]. intros [= <-]. left. Qed.
  Lemma dindex_elem {A} k (d : pydict A) x : dindex k d = Ok x -> x ∈ map snd d.
  Proof.
    unfold dindex. destruct (dget k d) as [y|] eqn:Eg; [|done]. intros [= <-]. apply dget_Some_elem in Eg.
    by apply elem_of_list_fmap_1 with (f := snd) in Eg.
  Qed.
  Lemma mapR_dindex {A B} (f : B -> string) (d : pydict A) l xs : mapR (fun i => dindex (f i) d) l = Ok xs -> forall x, x ∈ xs -> x ∈ map snd d.
  Proof.
    revert xs. induction l as [|i l IH]; intros xs; cbn; [intros [= <-] x Hx; by apply elem_of_nil in Hx|].
    destruct (dindex (f i) d) as [y|] eqn:Ei; cbn; [|done]. destruct (mapR _ l) as [ys|] eqn:El; cbn; [|done].
    intros [= <-] x [->|Hx]%elem_of_cons; [by eapply dindex_elem|by eapply IH].
  Qed.
  Lemma okr_wrap v h : okr (wrap_atom H v h).
  Proof. unfold wrap_atom. repeat case_match; apply okr_atom. Qed.

  Definition Rk (a : arg) : Prop := forall r, r ∈ arg_refs a -> okr r.
  Lemma list_elems_refs a l x : list_elems a = Ok l -> Rk a -> x ∈ l -> Rk x.
  Proof.
    destruct a as [v|r|b a|l0|d]; cbn; try done.
    - assert (forall l0, x ∈ map AVal l0 -> Rk x) as Hv.
      { intros l0 (v0 & -> & _)%elem_of_list_fmap r Hr. by apply elem_of_nil in Hr. }
      destruct v; try done; intros [= <-] _; apply Hv.
    - intros [= <-] Ha Hx r Hr. apply Ha. cbn. apply elem_of_list_In, in_concat. exists (arg_refs x).
      split; [by apply in_map, elem_of_list_In|by apply elem_of_list_In].
  Qed.
  Lemma dict_items_refs a d kx : dict_items a = Ok d -> Rk a -> kx ∈ d -> Rk kx.2.
  Proof.
    destruct a as [v|r|b a|l0|d0]; cbn; try done.
    - destruct v; try done. intros [= <-] _ (v0 & -> & _)%elem_of_list_fmap r Hr. by apply elem_of_nil in Hr.
    - intros [= <-] Ha Hx r Hr. apply Ha. cbn. apply elem_of_list_In, in_concat. exists (arg_refs kx.2).
      split; [apply (in_map (fun ka : string * arg => arg_refs ka.2)); by apply elem_of_list_In|by apply elem_of_list_In].
  Qed.
  Lemma construct_t t a : Rk a -> triple J (construct H sel t a) (fun rc => okr rc.1 /\ callsok rc.2) E.
  Proof using Hcl.
    assert (forall rs : ref, okr rs -> triple J (retM (rs, [])) (fun rc : ref * list call => okr rc.1 /\ callsok rc.2) E) as Hret.
    { intros rs Hr. apply triple_ret. split; [done|apply callsok_nil]. }
    assert (forall e, triple J (raiseM e) (fun rc : ref * list call => okr rc.1 /\ callsok rc.2) E) as Hra.
    { intros e. by apply triple_raise. }
    assert (forall r, Rk (ARef r) -> okr r) as Href by (intros r Hr; apply Hr; cbn; left).
    revert a. induction t as [|t IH|tk IHk t IH|t IH|]; intros a Ha.
    1,4,5: destruct a as [v|r|b a|l|d]; cbn [construct]; first [apply Hret; first [by apply Href|apply okr_wrap]|apply Hra].
    - assert (triple J (l <- liftR (list_elems a) ;;
             rs <- mapM' (construct H sel t) l ;;
             c <- struct_call H sel op_make_list (f_make_list H) "list" (imap (fun i rc => ("elts_" +:+ dec i, rc.1)) rs) ;;
             r <- liftR (first_output c) ;;
             retM (r, concat (map snd rs) ++ [c]))%pym (fun rc => okr rc.1 /\ callsok rc.2) E) as Hg.
      { apply triple_bind with (Q := fun l => list_elems a = Ok l); [by apply tliftI|]. intros l Hl.
        eapply triple_bind; [apply triple_mapM; intros x Hx; apply (IH x); by eapply list_elems_refs|]. intros rs Hrs.
        set (ins := imap _ rs). assert (forall r, r ∈ map snd ins -> okr r) as Hins.
        { intros r (kr & -> & (i & x & -> & Hx)%elem_of_lookup_imap)%elem_of_list_fmap. cbn.
          apply elem_of_list_lookup_2 in Hx. by destruct (Forall2_elem_r _ _ _ _ Hrs Hx) as (? & _ & ? & _). }
        eapply triple_bind; [apply (struct_t _ _ _ _ okt Hins)|].
        { intros r h Hr. apply okt_with_hid. unfold f_make_list in Hr. destruct (mapR _ _) as [elts|] eqn:Ee; cbn in Hr; [|done].
          injection Hr as <-. split; [by intros ?|]. cbn. intros e He. apply Hins. exact (mapR_dindex (fun i => "elts_" +:+ dec i) _ _ _ Ee e He). }
        intros c Hc. apply struct_callok in Hc as [Hc1 Hc2]; [|done].
        apply triple_bind with (Q := fun r => first_output c = Ok r); [by apply tliftI|]. intros r Hr. apply triple_ret. cbn [fst snd].
        split; [by apply okt_okr, Hc2, first_output_elem|].
        apply callsok_app; [eapply (callsok_concat _ _ _ _ _ Hrs); by intros ? ? []|]. apply callsok_cons; [done|apply callsok_nil]. }
      destruct a as [v|r|b a|l|d]; cbn [construct]; first [apply Hret; by apply Href|apply Hg].
    - assert (triple J (d <- liftR (dict_items a) ;;
             rs <- mapM' (fun ka => rc <- construct H sel t ka.2 ;; retM (ka.1, rc)) d ;;
             c <- struct_call H sel op_make_dict (f_make_dict H) "dict" (map (fun krc => (krc.1, krc.2.1)) rs) ;;
             r <- liftR (first_output c) ;;
             retM (r, concat (map (fun krc => krc.2.2) rs) ++ [c]))%pym (fun rc => okr rc.1 /\ callsok rc.2) E) as Hg.
      { apply triple_bind with (Q := fun l => dict_items a = Ok l); [by apply tliftI|]. intros d Hd.
        apply triple_bind with (Q := Forall2 (fun _ krc => okr krc.2.1 /\ callsok krc.2.2) d).
        { apply triple_mapM; intros x Hx. eapply triple_bind; [apply (IH x.2); by eapply dict_items_refs|]. intros rc Hrc. by apply triple_ret. }
        intros rs Hrs. set (ins := map _ rs). assert (forall r, r ∈ map snd ins -> okr r) as Hins.
        { intros r (kr & -> & (x & -> & Hx)%elem_of_list_fmap)%elem_of_list_fmap. cbn.
          by destruct (Forall2_elem_r _ _ _ _ Hrs Hx) as (? & _ & ? & _). }
        eapply triple_bind; [apply (struct_t _ _ _ _ okt Hins)|].
        { intros r h Hr. apply okt_with_hid. unfold f_make_dict in Hr. injection Hr as <-. split; [by intros ?|]. cbn. intros e He. by apply Hins. }
        intros c Hc. apply struct_callok in Hc as [Hc1 Hc2]; [|done].
        apply triple_bind with (Q := fun r => first_output c = Ok r); [by apply tliftI|]. intros r Hr. apply triple_ret. cbn [fst snd].
        split; [by apply okt_okr, Hc2, first_output_elem|].
        apply callsok_app; [eapply (callsok_concat _ _ _ _ _ Hrs); by intros ? ? []|]. apply callsok_cons; [done|apply callsok_nil]. }
      destruct a as [v|r|b a|l|d]; cbn [construct]; first [apply Hret; by apply Href|apply Hg].
  Qed.
  (** an element of a collection, destructed *)
  Lemma getitem_t o f n ins t : (forall r, r ∈ map snd ins -> okr r) -> (forall r, f ins = Ok r -> okr r) ->
    (forall r, okel r -> triple J (destruct_ref H sel t r) (fun rc => ~ det r /\ okt rc.1 /\ callsok rc.2) E) ->
    triple J (gc <- struct_call H sel o f n ins ;;
              e <- liftR (dindex n (c_outs gc)) ;;
              ec <- destruct_ref H sel t e ;;
              retM (ec.1, gc :: ec.2))%pym (fun rc => okt rc.1 /\ callsok rc.2) E.
  Proof using Hcl.
    intros Hins Hf IH. eapply triple_bind; [apply (struct_t _ _ _ _ okel Hins)|].
    { intros r h Hr. by apply okel_with_hid, okr_el, Hf. }
    intros gc Hgc. apply triple_bind with (Q := fun e => dindex n (c_outs gc) = Ok e); [by apply tliftI|]. intros e He.
    assert (okel e) as Hel.
    { destruct Hgc as [_ [Ho|(r & Eo & Hr)]]; [by apply Ho, (dindex_elem n)|]. rewrite Eo in He.
      apply dindex_elem in He. cbn in He. by apply elem_of_list_singleton in He as ->. }
    eapply triple_bind; [by apply IH|]. intros ec (Hd & H1 & H2). apply triple_ret. split; [done|]. cbn [snd].
    apply callsok_cons; [|done]. apply (struct_callok gc n (fun r => r = e)).
    - intros r ->. by split.
    - destruct Hgc as [Hi Ho]. split; [done|]. destruct Ho as [?|(r & Eo & Hr)]; [by left|]. right. exists e. split; [|done].
      rewrite Eo in He |- *. apply dindex_elem in He. cbn in He. by apply elem_of_list_singleton in He as ->.
  Qed.
  Lemma destruct_t t r : okel r -> triple J (destruct_ref H sel t r) (fun rc => ~ det r /\ okt rc.1 /\ callsok rc.2) E.
  Proof using Hcl.
    assert (forall r e, triple J (raiseM e) (fun rc : ref * list call => ~ det r /\ okt rc.1 /\ callsok rc.2) E) as Hra.
    { intros r' e. by apply triple_raise. }
    assert (forall c h o, triple J (retM (RAtom c h o, [])) (fun rc : ref * list call => ~ det (RAtom c h o) /\ okt rc.1 /\ callsok rc.2) E) as Hret.
    { intros c h o. apply triple_ret. split_and!; [by intros ?|apply okt_atom|apply callsok_nil]. }
    revert r. induction t as [|t IH|tk IHk t IH|t IH|]; intros r Hr.
    1,4,5: by destruct r as [c h o|c h [l|]|c h [l|]]; cbn [destruct_ref]; first [apply Hret|apply Hra].
    - destruct r as [c h o|c h [l|]|c h [l|]]; cbn [destruct_ref]; try first [apply Hret|apply Hra].
      eapply triple_bind with (Q := Forall2 (fun _ ec => okt ec.1 /\ callsok ec.2) (seq 0 (length l))).
      { apply triple_mapM. intros i _. apply (getitem_t _ _ _ _ t); [| |done].
        - intros r [->|[->|[]%elem_of_nil]%elem_of_cons]%elem_of_cons; [apply okr_intro; [by intros []|done]|apply okr_wrap].
        - intros r Hf. unfold f_list_getitem in Hf.
          change (dindex "list" _) with (Ok (RList c h (Some l)) : result ref) in Hf.
          change (dindex "i" _) with (Ok (wrap_atom H (VInt (Z.of_nat i)) None) : result ref) in Hf. revert Hf. generalize (Z.of_nat i). intros z.
          cbn [mbind result_bind wrap_atom]. destruct (bool_decide _); [|done]. destruct (l !! Z.to_nat z) as [x|] eqn:Ex; [|done].
          intros [= <-]. apply Hr. cbn. by eapply elem_of_list_lookup_2. }
      intros es Hes. apply triple_ret. split_and!; [by intros ?| |].
      + split; [by intros ?|]. cbn [elements_of fst]. intros e (ec & -> & Hec)%elem_of_list_fmap.
        destruct (Forall2_elem_r _ _ _ _ Hes Hec) as (? & _ & ? & _). by apply okt_okr.
      + cbn [snd]. eapply (callsok_concat _ _ _ _ _ Hes). by intros ? ? [].
    - destruct r as [c h o|c h [l|]|c h [l|]]; cbn [destruct_ref]; try first [apply Hret|apply Hra].
      eapply triple_bind with (Q := Forall2 (fun _ ec => okt ec.1.2 /\ callsok ec.2) l).
      { apply triple_mapM. intros kr Hkr. eapply triple_bind; [apply construct_t; intros r Hk; by apply elem_of_nil in Hk|]. intros k [Hk _].
        assert (triple J (gc <- struct_call H sel op_dict_getitem f_dict_getitem "dict_value" [("dict", RDict c h (Some l)); ("key", k.1)] ;;
              e <- liftR (dindex "dict_value" (c_outs gc)) ;;
              ec <- destruct_ref H sel t e ;;
              retM (ec.1, gc :: ec.2))%pym (fun rc => okt rc.1 /\ callsok rc.2) E) as Hg.
        { apply (getitem_t _ _ _ _ t); [| |done].
          - intros r [->|[->|[]%elem_of_nil]%elem_of_cons]%elem_of_cons; [apply okr_intro; [by intros []|done]|done].
          - intros r Hf. unfold f_dict_getitem in Hf.
            change (dindex "dict" _) with (Ok (RDict c h (Some l)) : result ref) in Hf.
            change (dindex "key" _) with (Ok k.1 : result ref) in Hf. revert Hf. cbn [mbind result_bind].
            destruct (k.1) as [? ? [[]|]|? ? ?|? ? ?]; try done. intros Hf%dindex_elem. by apply Hr. }
        intros s Hs. specialize (Hg s Hs). unfold bindM in *.
        destruct (struct_call _ _ _ _ _ _ s) as [[gc|e] s1]; [|done]. unfold liftR in *.
        destruct (dindex _ (c_outs gc)) as [e|e]; [|done]. destruct (destruct_ref _ _ _ _ s1) as [[ec|e'] s2]; done. }
      intros es Hes. apply triple_ret. split_and!; [by intros ?| |].
      + split; [by intros ?|]. cbn [elements_of fst]. intros e (ec & -> & (ec' & -> & Hec)%elem_of_list_fmap)%elem_of_list_fmap.
        destruct (Forall2_elem_r _ _ _ _ Hes Hec) as (? & _ & ? & _). by apply okt_okr.
      + cbn [snd]. eapply (callsok_concat _ _ _ _ _ Hes). by intros ? ? [].
  Qed.
  Lemma wrap_output_t h t a : arg_refs a = [] -> triple J (wrap_output H sel h t a) (fun rc => okr rc.1 /\ callsok rc.2) E.
  Proof using Hcl.
    intros Ha. assert (Rk a) as HR by (intros r; rewrite Ha; by intros ?%elem_of_nil).
    assert (triple J (rc <- construct H sel t a ;; destruct_ref H sel t (with_hid h rc.1))%pym (fun rc => okr rc.1 /\ callsok rc.2) E) as Hg.
    { eapply triple_bind; [by apply construct_t|]. intros rc [Hrc _].
      eapply triple_mono; [by apply destruct_t, okel_with_hid, okr_el| |done]. cbn. intros x (_ & ? & ?). split; [by apply okt_okr|done]. }
    unfold wrap_output. destruct a as [v|r|b a|l|d]; [|done|..]; destruct t; try done; try (by apply triple_raise).
    apply triple_ret. split; [apply okr_wrap|apply callsok_nil].
  Qed.
  Lemma run_function_t o b keys ins : triple J (run_function o b keys ins) (fun ret => exists env, od_fun o env = Ok ret) E.
  Proof.
    unfold run_function. apply triple_bind with (Q := fun _ => True); [by apply tliftI|]. intros ak _.
    apply triple_bind with (Q := fun _ => True).
    { apply tki. apply inR_mapM; [apply _|]. intros; apply unwrap_ki. }
    intros args _. apply triple_bind with (Q := fun _ => True).
    { apply tki. apply inR_mapM; [apply _|]. intros; apply inR_bind; [apply _|apply unwrap_ki|].
      intros; apply inR_ret; apply _. }
    intros kw _. apply triple_bind with (Q := fun _ => True); [by apply tliftI|]. intros env _.
    apply triple_bind with (Q := fun _ => True); [by intros s Hs|]. intros _ _.
    apply tliftI. intros ret Hret. by exists env.
  Qed.
  Lemma call_internal_t o inputs b keys : no_refs_returned o -> (forall x, x ∈ inputs -> Rk x.2.1) ->
    triple J (call_internal H sel o inputs b keys) (fun cs => callsok (cs.1 :: cs.2)) E.
  Proof using Hcl.
    intros Hno Hinp. unfold call_internal.
    apply triple_bind with (Q := Forall2 (fun _ krc => okr krc.2.1 /\ callsok krc.2.2) inputs).
    { apply triple_mapM. intros x Hx. eapply triple_bind; [apply construct_t; by apply Hinp|]. intros rc Hrc. by apply triple_ret. }
    intros rs Hrs. set (ins := map _ rs). assert (callsok (concat (map (fun krc => krc.2.2) rs))) as Hin.
    { eapply (callsok_concat _ _ _ _ _ Hrs). by intros ? ? []. }
    assert (forall r, r ∈ map snd ins -> okr r) as Hins.
    { intros r (kr & -> & (x & -> & Hx)%elem_of_list_fmap)%elem_of_list_fmap. cbn.
      by destruct (Forall2_elem_r _ _ _ _ Hrs Hx) as (? & _ & ? & _). }
    set (ics := concat _) in *. clearbody ics ins.
    eapply triple_bind; [apply lookup_t|]. intros [c|] Hc.
    { apply triple_ret. cbn [fst snd]. apply callsok_cons; [|done]. intros r Hr. by eapply okt_okr, Hc. }
    intros s Hs. unfold if_st. destruct (s_allow s); [|done].
    match goal with |- context [?f s] =>
        match f with bindM _ _ => enough (triple J f (fun cs => callsok (cs.1 :: cs.2)) E) as Hf by by apply Hf end end.
    eapply triple_bind; [apply run_function_t|]. intros ret (env & Hret).
    apply triple_bind with (Q := fun outs => forall k a, (k, a) ∈ outs.1 -> arg_refs a = []).
    { apply tliftI. intros [d anns] Hp k a Hk. cbn [fst] in Hk. apply (Hno env ret a Hret).
      unfold parse_returns in Hp. destruct (returns_tuple _ ret) as [vs|] eqn:Ev; cbn in Hp; [|done].
      destruct (ret_annotations _ _ _); cbn in Hp; [|done]. injection Hp as <- _.
      apply elem_of_dict_of_inv in Hk. apply elem_of_lookup_imap in Hk as (i & x & [= _ <-] & Hx).
      assert (a ∈ vs) as Hv by by eapply elem_of_list_lookup_2.
      unfold returns_tuple in Ev. repeat (case_match; try done); simplify_eq/=; done. }
    intros outs Houts. set (chid := call_hid H (od_op o) ins None).
    apply triple_bind with (Q := Forall2 (fun _ krc => okr krc.2.1 /\ callsok krc.2.2) outs.1).
    { apply triple_mapM. intros [k a] Hx. cbn [fst snd]. apply triple_bind with (Q := fun _ => True); [by apply tliftI|]. intros t _.
      eapply triple_bind; [apply wrap_output_t; by apply (Houts k a)|]. intros rc Hrc. by apply triple_ret. }
    intros ws Hws. apply triple_ret. cbn [fst snd]. apply callsok_cons.
    - intros r [Hr|Hr]%elem_of_app; cbn [c_ins c_outs] in Hr; [by apply Hins|].
      apply elem_of_list_fmap in Hr as (kr & -> & (x & -> & Hx)%elem_of_list_fmap). cbn.
      by destruct (Forall2_elem_r _ _ _ _ Hws Hx) as (? & _ & ? & _).
    - apply callsok_app; [done|]. eapply (callsok_concat _ _ _ _ _ Hws). by intros ? ? [].
  Qed.
End reading.
