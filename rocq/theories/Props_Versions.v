(** Code histories and versions (C29-C35, C49, C50). *)
From stdpp Require Import base strings gmap list relations.
From Verif Require Import Base Dag Spec_Dag Dag_proofs Versioner Spec_Versioner Versioner_proofs
  Versioner_lookup Versioner_recompute Versioner_sync.

Lemma later_app {T} (hash present : T -> string) (d1 d2 d3 : dag T) :
  later hash present d1 d2 -> later hash present d2 d3 -> later hash present d1 d3.
Proof. induction 1 as [|d o u r d' u' d'' R L IH]; [done|]. intros L2. eapply later_step; eauto. Qed.

(** * C29: a history never loses or changes contents *)

(** A content that was committed (or was the initial one) is retrieved
    verbatim after any later operations, with any hash function: no two
    contents of a history have the same hash, because [commit] refuses it. *)
Theorem C29_committed_retrieved :
  forall {T} (hash present : T -> string) d u t sem h d1 u1 d2,
  history hash present d ->
  commit_content hash present t sem (d, u) = (Ok h, (d1, u1)) \/ init hash t (d, u) = (Ok h, (d1, u1)) ->
  later hash present d1 d2 -> get_content d2 h = Ok t.
Proof.
  intros T hash present d u t sem h d1 u1 d2 Hd E L.
  assert (RD : exists o u r, run_dop hash present o (d, u) = (r, (d1, u1))).
  { destruct E as [E|E].
    - exists (OCommit t sem), u, (Ok tt). cbn. unfold bindM. by rewrite E.
    - exists (OInit t), u, (Ok tt). cbn. unfold bindM. by rewrite E. }
  destruct RD as (o & uu & rr & RD).
  assert (Hd1 : history hash present d1).
  { eapply later_app; [exact Hd|]. eapply later_step; [exact RD|constructor]. }
  assert (K : h = hash t /\ get_content d1 h = Ok t).
  { destruct (history_wf _ _ _ Hd) as [ord W]. destruct E as [E|E].
    - apply (commit_inv _ _ _ _ _ _ _ _ _ _ W) in E as [[_ [e [=]]]|(hd & hc & b & cur & _ & _ & N & _ & [= ->] & ->)].
      split; [done|]. destruct (history_wf _ _ _ Hd1) as [ord1 W1].
      edestruct (get_content_ok hash) as (t' & -> & K & _); [exact W1|by apply lookup_insert|].
      cbn in K. congruence.
    - unfold init in E. destruct (d_head d); [done|]. injection E as <- <- <-. split; [done|].
      unfold get_content. cbn. by rewrite lookup_insert. }
  destruct K as [-> K].
  destruct (get_content_later hash present d1 d2 (hash t) Hd1 L) as (t' & E1 & E2 & _); [|congruence].
  unfold get_content in K. cbn in K. destruct (d_commits d1 !! hash t); [eauto|done].
Qed.

(** Syncing to a content makes it retrievable for ever: what is retrieved has
    its hash (it is the content itself when the hash is injective). *)
Theorem C29_synced_retrieved :
  forall {T} (hash present : T -> string) d u t sem h d1 u1 d2,
  history hash present d ->
  sync hash present t sem (d, u) = (Ok h, (d1, u1)) -> later hash present d1 d2 ->
  exists t', get_content d2 h = Ok t' /\ hash t' = hash t /\ (Inj (=) (=) hash -> t' = t).
Proof.
  intros T hash present d u t sem h d1 u1 d2 Hd E L.
  assert (L1 : later hash present d d1).
  { eapply (later_step _ _ _ (OSync t sem) u (Ok tt)); [|constructor]. cbn. unfold bindM. by rewrite E. }
  assert (Hd1 : history hash present d1) by (eapply later_app; eauto).
  destruct (history_wf _ _ _ Hd) as [ord W]. pose proof (sync_head _ _ _ _ _ _ _ _ _ E) as Hh.
  assert (h = hash t) as ->.
  { apply (sync_inv _ _ _ _ _ _ _ _ _ _ W) in E as [[_ [e [=]]]|[(_ & _ & _ & [= ->] & _)|(_ & [= ->] & _)]]; done. }
  destruct (history_wf _ _ _ Hd1) as [ord1 (_ & D & _ & HD & _)].
  destruct (get_content_later hash present d1 d2 (hash t) Hd1 L) as (t' & _ & E2 & E3).
  { by apply D, HD. }
  exists t'. split_and!; auto.
Qed.

(** Whatever was retrieved once is retrieved ever after, and the checks of the
    history (dag heads, parents, diffs) always pass. *)
Theorem C29_stable :
  forall {T} (hash present : T -> string) d d' h t,
  history hash present d -> later hash present d d' -> get_content d h = Ok t -> get_content d' h = Ok t.
Proof.
  intros T hash present d d' h t Hd L E. destruct (get_content_later hash present d d' h Hd L) as (t' & ? & ? & _); [|congruence].
  unfold get_content in E. cbn in E. destruct (d_commits d !! h); [eauto|done].
Qed.
Theorem C29_checks :
  forall {T} (hash present : T -> string) (d : dag T), history hash present d -> dag_check d = true.
Proof. intros T hash present d. exact (dag_check_ok hash present d). Qed.

(** * C30: semantic versions follow the answers *)

Theorem C30_commit :
  forall {T} (hash present : T -> string) d u t sem h d1 u1,
  history hash present d -> commit_content hash present t sem (d, u) = (Ok h, (d1, u1)) ->
  exists hd b, d_head d = Some hd /\ decision sem u = Some b /\
    (* not a semantic change: the semantic version of the parent *)
    (b = false -> semantic d1 h = semantic d hd) /\
    (* a semantic change: a version that no earlier content had *)
    (b = true -> exists s, semantic d1 h = Some s /\ forall h0, semantic d h0 <> Some s) /\
    (* the other contents keep theirs *)
    (forall h0 s, semantic d h0 = Some s -> semantic d1 h0 = Some s).
Proof.
  intros T hash present d u t sem h d1 u1 Hd E. destruct (history_wf _ _ _ Hd) as [ord W].
  apply (commit_inv _ _ _ _ _ _ _ _ _ _ W) in E as [[_ [e [=]]]|(hd & hc & b & cur & E1 & E2 & N & E4 & [= ->] & ->)].
  exists hd, b. split_and!; auto.
  - intros ->. unfold semantic. cbn. rewrite lookup_insert, E2. done.
  - intros ->. exists (hash t). unfold semantic at 1. cbn. rewrite lookup_insert. split; [done|].
    intros h0. by eapply (semantic_fresh hash present).
  - intros h0 s. unfold semantic. cbn. intros (c & C & ->)%fmap_Some.
    rewrite lookup_insert_ne; [by rewrite C|]. congruence.
Qed.

(** Syncing to a known content asks nothing and restores the semantic version it had. *)
Theorem C30_sync_known :
  forall {T} (hash present : T -> string) d u t sem r d1 u1 s,
  history hash present d -> is_Some (d_head d) -> semantic d (hash t) = Some s ->
  sync hash present t sem (d, u) = (r, (d1, u1)) ->
  r = Ok (hash t) /\ u1 = u /\ d_head d1 = Some (hash t) /\ d_commits d1 = d_commits d /\
  semantic d1 (hash t) = Some s.
Proof.
  intros T hash present d u t sem r d1 u1 s Hd [hd Hh] S E.
  unfold semantic in S. apply fmap_Some in S as (c & C & ->).
  unfold sync in E. rewrite Hh in E. destruct (decide (hd = hash t)) as [->|Ne].
  - rewrite decide_True in E by done. injection E as <- <- <-. split_and!; auto. unfold semantic. by rewrite C.
  - rewrite C in E. unfold bindM, checkout, retM in E. rewrite C in E. cbn in E. rewrite decide_True in E by done.
    injection E as <- <- <-. split_and!; auto. unfold semantic. cbn. by rewrite C.
Qed.

(** A semantic version never changes later, and two contents have the same one
    exactly if the "no" answers make them equal. *)
Theorem C30_permanent :
  forall {T} (hash present : T -> string) d d' h s,
  history hash present d -> later hash present d d' -> semantic d h = Some s -> semantic d' h = Some s.
Proof. intros T hash present. exact (semantic_later hash present). Qed.
Theorem C30_declared :
  forall {T} (hash present : T -> string) eqs d a b,
  declared_history hash present eqs d -> is_Some (d_commits d !! a) -> is_Some (d_commits d !! b) ->
  (semantic d a = semantic d b <-> declared_equal eqs a b).
Proof. intros T hash present. exact (semantic_declared hash present). Qed.
Theorem C30_every_history_declared :
  forall {T} (hash present : T -> string) (d : dag T),
  history hash present d -> exists eqs, declared_history hash present eqs d.
Proof. intros T hash present. exact (history_declared hash present). Qed.

(** A history: "a", then "b" answered no, then "c" answered yes, back to "a". *)
Definition hx (s : string) : string := String.append "#" s.
Definition edits : M (dag string * user) unit :=
  bindM (init hx "a") (fun _ => bindM (sync hx id "b" None) (fun _ =>
  bindM (sync hx id "c" None) (fun _ => bindM (sync hx id "a" None) (fun _ => retM tt)))).
Definition edits_end := edits (empty_dag, User [ANo; AYes] []).
Example edits_ok :
  edits_end.1 = Ok tt /\
  (semantic edits_end.2.1 <$> ["#a"; "#b"; "#c"]) = [Some "#a"; Some "#a"; Some "#c"] /\
  (get_content edits_end.2.1 <$> ["#a"; "#b"; "#c"]) = [Ok "a"; Ok "b"; Ok "c"] /\
  u_asked edits_end.2.2 = [("a", "b"); ("b", "c")] /\ d_head edits_end.2.1 = Some "#a".
Proof. by vm_compute. Qed.
Lemma surjective_pairing2 {A B C} (x : A * (B * C)) : x = (x.1, (x.2.1, x.2.2)).
Proof. by destruct x as [? [? ?]]. Qed.
Lemma later_run {T} (hash present : T -> string) (o : dop) (s : dag T * user) d :
  later hash present (run_dop hash present o s).2.1 d -> later hash present s.1 d.
Proof.
  intros L. eapply (later_step _ _ _ o s.2); [|exact L]. destruct s as [d0 u]. cbn [fst snd].
  apply surjective_pairing2.
Qed.
Example edits_history : history hx id edits_end.2.1.
Proof.
  unfold history. change (@empty_dag string) with (empty_dag (T:=string), User [ANo; AYes] []).1.
  do 1 eapply (later_run hx id (OInit "a")). do 1 eapply (later_run hx id (OSync "b" None)).
  eapply (later_run hx id (OSync "c" None)). eapply (later_run hx id (OSync "a" None)).
  apply later_refl.
Qed.

(** * C31: syncing is idempotent *)

(** After a successful sync, syncing the same content again, whatever the
    caller says and whoever answers, asks nothing and changes nothing. *)
Theorem C31_sync_twice :
  forall {T} (hash present : T -> string) d u t sem h d1 u1 sem2 u2,
  sync hash present t sem (d, u) = (Ok h, (d1, u1)) ->
  sync hash present t sem2 (d1, u2) = (Ok (hash t), (d1, u2)).
Proof. intros T hash present d u t sem h d1 u1 sem2 u2 E. eapply sync_twice; eauto. Qed.
Theorem C31_sync_codebase_twice :
  forall H cs vs u vs1 u1 u2, sync_codebase H cs (vs, u) = (Ok tt, (vs1, u1)) ->
  sync_codebase H cs (vs1, u2) = (Ok tt, (vs1, u2)).
Proof. intros H cs vs u vs1 u1 u2. exact (sync_codebase_twice H cs vs u vs1 u1 u2). Qed.
Theorem C31_sync_component_twice :
  forall H k sem sem2 cs vs u h vs1 u1 u2, sync_component H k sem cs (vs, u) = (Ok h, (vs1, u1)) ->
  exists h2, sync_component H k sem2 cs (vs1, u2) = (Ok h2, (vs1, u2)).
Proof. intros H k sem sem2 cs vs u h vs1 u1 u2. exact (sync_component_twice H k sem sem2 cs vs u h vs1 u1 u2). Qed.

(** * C32: an aborted sync changes nothing *)

Theorem C32_aborted_sync :
  forall H cs vs u e vs1 u1, sync_codebase H cs (vs, u) = (Err e, (vs1, u1)) -> vs1 = vs.
Proof. intros H cs vs u e vs1 u1. exact (sync_codebase_fail H cs vs u e vs1 u1). Qed.
Theorem C32_aborted_sync_component :
  forall H k sem cs vs u e vs1 u1, sync_component H k sem cs (vs, u) = (Err e, (vs1, u1)) -> vs1 = vs.
Proof. intros H k sem cs vs u e vs1 u1. exact (sync_component_fail H k sem cs vs u e vs1 u1). Qed.
(** The same for one history. *)
Theorem C32_aborted_commit :
  forall H c sem d u e d1 u1, csync H c sem (d, u) = (Err e, (d1, u1)) -> d1 = d.
Proof. intros H c sem d u e d1 u1. exact (csync_fail H c sem d u e d1 u1). Qed.

(** * C33: a lookup only reuses compatible results *)

(** A version that a lookup returns was recorded for this op and this call,
    and every content [h] of every dependency [k] of it was declared equal, by
    the answers given so far, to the content of [k] in the code. *)
Theorem C33_hits_are_compatible :
  forall H vs cs comp uid cv sv, Inj (=) (=) H -> vreach H vs ->
  lookup_call H vs comp uid cs = Ok (Some (cv, sv)) ->
  exists v, recorded vs comp cv v /\ v_sv v = sv /\ VRow uid sv cv ∈ vs_df vs /\
    forall k hs h, v_cexp v !! k = Some hs -> h ∈ hs ->
      exists d n hc, vs_dags vs !! k = Some d /\ cs !! k = Some n /\ node_hash H n = Ok hc /\
        (exists eqs, declared_history (chash H) cpresent eqs d) /\
        (forall eqs, declared_history (chash H) cpresent eqs d -> declared_equal eqs h hc).
Proof.
  intros H vs cs comp uid cv sv HI R E.
  destruct (lookup_call_sound H vs cs comp uid cv sv HI R E) as (v & [u s c] & Hr & E1 & E2 & E3 & Rv & E4 & C).
  cbn in *. subst. exists v. split_and!; auto.
  intros k hs h Ek Hh. destruct (C _ _ _ Ek Hh) as (d & s & F1 & F2 & (n & hc & d' & G1 & G2 & G3 & G4)).
  exists d, n, hc. split_and!; auto.
  - apply history_declared. destruct (vreach_inv H vs HI R) as [I _]. by apply (vi_dags _ _ I) in F1 as [? _].
  - intros eqs D. assert (d' = d) as -> by congruence. eapply (compatible_declared H vs cs v); eauto.
Qed.

(** A semantic change in a dependency makes the lookup miss the version. *)
Theorem C33_semantic_change_misses :
  forall H vs cs comp uid cv sv v k hs h d n hc eqs, Inj (=) (=) H -> vreach H vs ->
  recorded vs comp cv v -> v_cexp v !! k = Some hs -> h ∈ hs ->
  vs_dags vs !! k = Some d -> declared_history (chash H) cpresent eqs d ->
  cs !! k = Some n -> node_hash H n = Ok hc -> ~ declared_equal eqs h hc ->
  lookup_call H vs comp uid cs <> Ok (Some (cv, sv)).
Proof.
  intros H vs cs comp uid cv sv v k hs h d n hc eqs HI R Rv Ek Hh Ed D En Eh N E.
  destruct (lookup_call_sound H vs cs comp uid cv sv HI R E) as (v' & _ & _ & _ & _ & _ & Rv' & _ & C).
  assert (v' = v) as -> by (destruct Rv as (? & ? & ?), Rv' as (? & ? & ?); congruence).
  apply N. eapply (compatible_declared H vs cs v); eauto.
Qed.

(** The contents recorded for a version are those of its own code and of the
    calls it reused: see [make_version]; they are never empty. *)

(** * C34: at most one version matches *)

Theorem C34_unique :
  forall H vs cs i j r1 r2 k1 k2 v1 v2, Inj (=) (=) H -> vreach H vs ->
  vs_df vs !! i = Some r1 -> vs_df vs !! j = Some r2 -> r_uid r1 = r_uid r2 ->
  recorded vs k1 (r_cv r1) v1 -> recorded vs k2 (r_cv r2) v2 ->
  compatible H vs cs v1 -> compatible H vs cs v2 -> i = j.
Proof.
  intros H vs cs i j r1 r2 k1 k2 v1 v2 HI R. destruct (vreach_inv H vs HI R) as [I _].
  exact (rows_unique H vs cs i j r1 r2 k1 k2 v1 v2 HI I).
Qed.

(** The lookup does not depend on the order of the table (for calls recorded
    for one op, see C49). *)
Theorem C34_order_irrelevant :
  forall H vs df' cs comp uid, Inj (=) (=) H -> vreach H vs -> df' ≡ₚ vs_df vs ->
  (forall r, r ∈ vs_df vs -> r_uid r = uid -> exists v, recorded vs comp (r_cv r) v) ->
  lookup_call H (Versioner (vs_strict vs) (vs_topology vs) (vs_nodes vs) (vs_dags vs) (vs_versions vs) df')
    comp uid cs = lookup_call H vs comp uid cs.
Proof. intros H. exact (lookup_order H). Qed.

(** * C35: a call that just ran is found again *)

(** The hypothesis on the terminal nodes says that the calls reused during
    the run were compatible with the code, which is what C33 says of them. *)
Theorem C35_found_again :
  forall H vs cs tr uid v vs1 cs1, Inj (=) (=) H -> session H vs cs -> one_root tr ->
  (forall k d cv, t_nodes tr !! k = Some (NTerm d cv) ->
     exists v', recorded vs d cv v' /\ compatible H vs cs v') ->
  finish_call H tr uid (vs, cs) = (Ok v, (vs1, cs1)) ->
  lookup_call H vs1 (v_comp v) uid cs1 = Ok (Some (v_cv v, v_sv v)).
Proof. intros H. exact (found_again H). Qed.

(** * A concrete history *)

(** [op] calls [helper] and reads the global [K]; [K] is not in the code state before the first call. *)
Definition kop : string * string := ("m", "op").
Definition khelp : string * string := ("m", "helper").
Definition kglob : string * string := ("m", "K").
Definition code1 : gmap (string * string) node :=
  {[ kop := NCall (Some "def op(x): return helper(x)*K") "c1";
     khelp := NCall (Some "def helper(x): return x+1") "c2" ]}.
Definition tr1 : trace :=
  Trace {[ kop ]} {[ kop := NCall None "c1"; khelp := NCall None "c2"; kglob := NGlobal "h10" "10" ]}.
Definition st0 := sync_codebase ser code1 (new_versioner true, User [] []).
Definition st1 := finish_call ser tr1 "u" (st0.2.1, code1).
(** The helper is edited; the user says that the change is semantic (resp. is not). *)
Definition code2 : gmap (string * string) node :=
  <[ khelp := NCall (Some "def helper(x): return x+2") "c3" ]> st1.2.2.
Definition st2 (a : answer) := sync_codebase ser code2 (st1.2.1, User [a] []).
Definition tr2 : trace :=
  Trace {[ kop ]} {[ kop := NCall None "c1"; khelp := NCall None "c3"; kglob := NGlobal "h10" "10" ]}.
Definition st3 := finish_call ser tr2 "u" ((st2 AYes).2.1, code2).

Definition isOk {A} (r : result A) : bool := match r with Ok _ => true | Err _ => false end.
Example st0_session : session ser st0.2.1 code1.
Proof.
  eapply (se_enter ser (new_versioner true) code1 (User [] []) st0.2.1 st0.2.2).
  - constructor.
  - cbn. rewrite dom_empty_L. apply empty_subseteq.
  - by vm_compute.
Qed.
Example tr1_root : one_root tr1. Proof. by exists kop. Qed.
Example tr2_root : one_root tr2. Proof. by exists kop. Qed.
Example st1_ok : isOk st1.1 = true. Proof. by vm_compute. Qed.
Example st1_session : session ser st1.2.1 st1.2.2.
Proof.
  eapply (se_call ser st0.2.1 code1 tr1 "u" st1.1); [apply st0_session|apply tr1_root|].
  fold st1. by destruct st1 as [? [? ?]].
Qed.
Lemma session_vreach vs cs : session ser vs cs -> vreach ser vs.
Proof.
  induction 1; eauto using vr_sync, vr_call, vr_component, vr_drop.
Qed.
Example st2_session a : isOk (st2 a).1 = true -> session ser (st2 a).2.1 code2.
Proof.
  intros E. eapply (se_enter ser st1.2.1 code2 (User [a] []) _ (st2 a).2.2).
  - eapply session_vreach, st1_session.
  - apply (bool_decide_unpack _). vm_compute. exact I.
  - fold (st2 a). destruct (st2 a) as [[[]|] [? ?]]; done.
Qed.
Example st2_ok : isOk (st2 AYes).1 = true /\ isOk (st2 ANo).1 = true /\ isOk (st2 AAbort).1 = false.
Proof. by vm_compute. Qed.
Example st3_ok : isOk st3.1 = true. Proof. by vm_compute. Qed.

(** The call is found after it ran, and after an edit declared not semantic; it
    is not after a semantic edit; then the new version is found, the old one
    again when the code is changed back. *)
Definition look (vs : versioner) cs := lookup_call ser vs kop "u" cs.
Definition hit (r : result (option (string * string))) : option bool :=
  match r with Ok (Some _) => Some true | Ok None => Some false | Err _ => None end.
Example lookups :
  hit (look st1.2.1 st1.2.2) = Some true /\
  hit (look (st2 ANo).2.1 code2) = Some true /\
  hit (look (st2 AYes).2.1 code2) = Some false /\
  hit (look st3.2.1 st3.2.2) = Some true /\
  hit (look st3.2.1 st1.2.2) = Some true /\
  look st3.2.1 st3.2.2 <> look st3.2.1 st1.2.2 /\
  look st3.2.1 st1.2.2 = look st1.2.1 st1.2.2.
Proof. vm_compute. split_and!; try done. Qed.
(** The second call of the op found again, by the theorem. *)
Example st3_found : exists v, st3.1 = Ok v /\
  lookup_call ser st3.2.1 (v_comp v) "u" st3.2.2 = Ok (Some (v_cv v, v_sv v)).
Proof.
  destruct st3 as [[v|] [vs1 cs1]] eqn:E; [|exfalso; pose proof st3_ok as X; rewrite E in X; discriminate X].
  exists v. split; [done|]. cbn.
  eapply (C35_found_again ser (st2 AYes).2.1 code2 tr2 "u"); [apply _|apply st2_session, st2_ok|apply tr2_root| |exact E].
  intros k d cv Ek.
  assert (F : map_Forall (fun _ n => is_term n = false) (t_nodes tr2)).
  { apply (bool_decide_unpack _). vm_compute. exact I. }
  by apply F in Ek.
Qed.
(** The aborted sync asked its question and changed nothing. *)
Example st2_abort : u_asked (st2 AAbort).2.2 = [("def helper(x): return x+1", "def helper(x): return x+2")].
Proof. by vm_compute. Qed.

(** * C49: a lookup of a versioned call never fails *)

(** It fails if a call of an op of the same name, in another module, with the
    same inputs was recorded: calls are keyed by the name of the op only
    (mandala/model.py:209-216) and the version is looked up under the op that
    is called. *)
Theorem C49_same_name_refuted :
  exists vs cs comp uid, session ser vs cs /\ lookup_call ser vs comp uid cs = Err EKeyError.
Proof.
  exists st1.2.1, st1.2.2, ("other", "op"), "u". split; [apply st1_session|]. by vm_compute.
Qed.
(** Otherwise it does not. *)
Theorem C49_lookup_total :
  forall H vs cs comp uid, Inj (=) (=) H -> session H vs cs ->
  (forall r, r ∈ vs_df vs -> r_uid r = uid -> exists v, recorded vs comp (r_cv r) v) ->
  exists o, lookup_call H vs comp uid cs = Ok o.
Proof.
  intros H vs cs comp uid HI S Ex. destruct (session_inv H vs cs HI S) as (I & _ & IS).
  destruct (codestate_hashes_insync H vs cs IS) as [hs Hs].
  unfold lookup_call. rewrite Hs. cbn.
  destruct (lookup_rows_complete H vs cs comp hs (filter (fun r => r_uid r = uid) (vs_df vs)) HI I Hs) as (o & E & _).
  - intros r [_ ?]%elem_of_list_filter. done.
  - intros r [? ?]%elem_of_list_filter. auto.
  - eauto.
Qed.

(** * C50: a call whose result is gone can be computed again *)

(** The table of versioned calls keeps the row of a call that is deleted from
    the storage (mandala/storage.py:404-434 [drop_calls] does not touch it), or
    that failed after its trace was processed (storage.py:901-905).  Running
    the call again then fails: its version is not distinguishable from the
    recorded one. *)
Theorem C50_recompute_refuted :
  exists vs cs tr uid v vs1 cs1, session ser vs cs /\ one_root tr /\
    finish_call ser tr uid (vs, cs) = (Ok v, (vs1, cs1)) /\
    (finish_call ser tr uid (vs1, cs1)).1 = Err EValueError.
Proof.
  destruct st1 as [[v|] [vs1 cs1]] eqn:E; [|exfalso; pose proof st1_ok as X; rewrite E in X; discriminate X].
  exists st0.2.1, code1, tr1, "u", v, vs1, cs1.
  split_and!; [apply st0_session|apply tr1_root|exact E|].
  assert (P : (finish_call ser tr1 "u" st1.2).1 = Err EValueError) by (by vm_compute).
  by rewrite E in P.
Qed.
(** After its semantic version was dropped (storage.py:1116-1133 [drop_version]) a call can be computed
    again: running it with the same trace succeeds, gives the same version, and the call is found.  The calls reused by
    the run must not be of the dropped version.  Missing from C50: everything but dropping the version. *)
Theorem C50_after_drop_partial :
  forall H vs cs tr uid v vs1 cs1, Inj (=) (=) H -> session H vs cs -> one_root tr ->
  (forall k d cv, t_nodes tr !! k = Some (NTerm d cv) ->
     exists v', recorded vs d cv v' /\ compatible H vs cs v' /\ v_sv v' <> v_sv v) ->
  finish_call H tr uid (vs, cs) = (Ok v, (vs1, cs1)) ->
  exists vs2, finish_call H tr uid (drop_semantic_version (v_sv v) vs1, cs1) = (Ok v, (vs2, cs1)) /\
    lookup_call H vs2 (v_comp v) uid cs1 = Ok (Some (v_cv v, v_sv v)).
Proof. intros H. exact (recompute_found H). Qed.
(** For the first call of the history above; without the drop it fails. *)
Example st1_dropped : exists v vs2, st1.1 = Ok v /\
  finish_call ser tr1 "u" (drop_semantic_version (v_sv v) st1.2.1, st1.2.2) = (Ok v, (vs2, st1.2.2)) /\
  lookup_call ser vs2 (v_comp v) "u" st1.2.2 = Ok (Some (v_cv v, v_sv v)) /\
  (finish_call ser tr1 "u" st1.2).1 = Err EValueError.
Proof.
  assert (P : (finish_call ser tr1 "u" st1.2).1 = Err EValueError) by (by vm_compute).
  destruct st1 as [[v|] [vs1 cs1]] eqn:E; [|exfalso; pose proof st1_ok as X; rewrite E in X; discriminate X].
  destruct (C50_after_drop_partial ser st0.2.1 code1 tr1 "u" v vs1 cs1) as (vs2 & E1 & E2); [apply _|apply st0_session|apply tr1_root| |exact E|].
  - intros k d cv Ek. assert (F : map_Forall (fun _ n => is_term n = false) (t_nodes tr1)).
    { apply (bool_decide_unpack _). vm_compute. exact I. }
    by apply F in Ek.
  - exists v, vs2. split; [reflexivity|]. split; [exact E1|]. split; [exact E2|exact P].
Qed.

Print Assumptions C29_committed_retrieved.
Print Assumptions C29_synced_retrieved.
Print Assumptions C29_stable.
Print Assumptions C29_checks.
Print Assumptions C30_commit.
Print Assumptions C30_sync_known.
Print Assumptions C30_permanent.
Print Assumptions C30_declared.
Print Assumptions C30_every_history_declared.
Print Assumptions C31_sync_twice.
Print Assumptions C31_sync_codebase_twice.
Print Assumptions C31_sync_component_twice.
Print Assumptions C32_aborted_sync.
Print Assumptions C32_aborted_sync_component.
Print Assumptions C32_aborted_commit.
Print Assumptions C33_hits_are_compatible.
Print Assumptions C33_semantic_change_misses.
Print Assumptions C34_unique.
Print Assumptions C34_order_irrelevant.
Print Assumptions C35_found_again.
Print Assumptions C49_same_name_refuted.
Print Assumptions C49_lookup_total.
Print Assumptions C50_recompute_refuted.
Print Assumptions C50_after_drop_partial.
