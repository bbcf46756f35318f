(** Proofs about the parsing and ordering of outputs. *)
From stdpp Require Import base strings list list_numbers.
From Coq Require Import Ascii DecimalString DecimalNat DecimalFacts.
From Verif Require Import Base PyDict PyDict_proofs Returns Spec_Returns.

Local Arguments String.append : simpl nomatch.

Fixpoint no_us (s : string) : bool :=
  match s with
  | EmptyString => true
  | String c s => negb (bool_decide (c = "_"%char)) && no_us s
  end.

Lemma no_us_after s : no_us s = true -> after_last_underscore s = None.
Proof.
  induction s as [|c s IH]; simpl; [done|].
  intros [H1 H2]%andb_true_iff. rewrite IH by done.
  case_bool_decide; [done|done].
Qed.

Lemma no_us_uint d : no_us (NilEmpty.string_of_uint d) = true.
Proof. induction d; simpl; auto. Qed.

Lemma dec_no_us i : no_us (dec i) = true.
Proof.
  unfold dec. pose proof (no_us_uint (Nat.to_uint i)) as H.
  destruct (Nat.to_uint i); simpl in *; auto.
Qed.

Lemma dec_nonempty i : dec i <> "".
Proof.
  unfold dec. destruct (Nat.to_uint i) eqn:E; simpl; try done.
Qed.

Lemma parse_int_dec i : parse_int (dec i) = Ok i.
Proof.
  unfold parse_int. pose proof (dec_nonempty i) as Hne.
  assert (NilZero.uint_of_string (dec i) = Some (Nat.to_uint i)) as E.
  { unfold dec. apply NilZero.usu. 
    rewrite <-(Unsigned.of_to i), Unsigned.to_of. apply unorm_nonnil. }
  rewrite E, Unsigned.of_to. by destruct (dec i).
Qed.

Lemma after_last_app p s :
  after_last_underscore s = None -> after_last_underscore (p +:+ String "_" s) = Some s.
Proof.
  intros E. induction p as [|c p IH]; simpl.
  - by rewrite E.
  - by rewrite IH.
Qed.

(** the round trip of generic output names *)
Lemma parse_dump i : parse_output_name (dump_output_name i None) = Ok i.
Proof.
  unfold parse_output_name, split_last, dump_output_name.
  change ("output_" +:+ dec i) with ("output" +:+ String "_" (dec i)).
  rewrite after_last_app; [simpl; apply parse_int_dec|].
  apply no_us_after, dec_no_us.
Qed.

Lemma dec_inj i j : dec i = dec j -> i = j.
Proof. intros E. assert (Ok i = Ok j) by (by rewrite <-!parse_int_dec, E). congruence. Qed.

Lemma string_app_inv_head (p a b : string) : p +:+ a = p +:+ b -> a = b.
Proof. induction p as [|c p IH]; simpl; [done|]. intros E; injection E; auto. Qed.

Lemma dump_None_inj i j : dump_output_name i None = dump_output_name j None -> i = j.
Proof. simpl. intros E%(string_app_inv_head "output_"). by apply dec_inj. Qed.

Lemma imap_fst {A} (g : nat -> string) (vs : list A) :
  map fst (imap (fun i v => (g i, v)) vs) = map g (seq 0 (length vs)).
Proof.
  apply list_eq. intros i. rewrite !list_lookup_fmap, list_lookup_imap.
  destruct (vs !! i) as [v|] eqn:E.
  - simpl. rewrite lookup_seq_lt; [done|]. by eapply lookup_lt_Some.
  - simpl. rewrite lookup_seq_ge; [done|]. by apply lookup_ge_None.
Qed.

Lemma NoDup_dump_None n : NoDup (map (fun i => dump_output_name i None) (seq 0 n)).
Proof.
  apply NoDup_fmap_2_strong; [|apply NoDup_seq].
  intros i j _ _. apply dump_None_inj.
Qed.

Lemma dump_Some_lookup ns i n : ns !! i = Some n -> dump_output_name i (Some ns) = n.
Proof. simpl. by intros ->. Qed.

Lemma map_dump_Some ns : map (fun i => dump_output_name i (Some ns)) (seq 0 (length ns)) = ns.
Proof.
  apply list_eq. intros i. rewrite list_lookup_fmap.
  destruct (ns !! i) as [n|] eqn:E.
  - rewrite lookup_seq_lt by (by eapply lookup_lt_Some). simpl. by rewrite E.
  - rewrite lookup_seq_ge; [done|]. by apply lookup_ge_None.
Qed.

(** the output dictionary, when the names are distinct *)
Lemma out_dict_eq {A} names (vs : list A) :
  NoDup (map (fun i => dump_output_name i names) (seq 0 (length vs))) ->
  dict_of (imap (fun i v => (dump_output_name i names, v)) vs)
  = imap (fun i v => (dump_output_name i names, v)) vs.
Proof. intros H. apply dict_of_NoDup. by rewrite imap_fst. Qed.

Lemma assoc_last_elem {A} k (v : A) l :
  NoDup (map fst l) -> (k, v) ∈ l -> assoc_last k l = Some v.
Proof.
  induction l as [|[i w] l IH]; simpl; [by intros _ ?%elem_of_nil|].
  intros [Hn Hd]%NoDup_cons [E|E]%elem_of_cons; simplify_eq/=.
  - destruct (assoc_last i l) as [u|] eqn:E.
    + exfalso. apply Hn. clear -E. induction l as [|[j x] l IH]; simpl in *; [done|].
      destruct (assoc_last i l) eqn:E'; simplify_eq.
      * right. eauto.
      * case_decide; simplify_eq. left.
    + by rewrite decide_True.
  - by rewrite (IH Hd E).
Qed.

Lemma ordered_generic {A} (vs : list A) (d : pydict A) :
  d ≡ₚ imap (fun i v => (dump_output_name i None, v)) vs ->
  get_ordered_outputs None d = Ok vs.
Proof.
  intros Hp. unfold get_ordered_outputs.
  assert (exists ints, mapR (fun kv : string * A => i ← parse_output_name kv.1; Ok (i, kv.2)) d = Ok ints
    /\ ints ≡ₚ imap (fun i v => (i, v)) vs) as (ints & E & Hints).
  { assert (forall l : list (string * A), (exists n, forall k v, (k, v) ∈ l -> exists i, i < n /\ k = dump_output_name i None) ->
      mapR (fun kv : string * A => i ← parse_output_name kv.1; Ok (i, kv.2)) l
      = Ok (map (fun kv => (match parse_output_name kv.1 with Ok i => i | Err _ => 0 end, kv.2)) l)) as Hl.
    { intros l [n Hn]. apply mapR_Ok. apply Forall2_fmap_r.
      apply Forall_Forall2_diag, Forall_forall. intros [k v] Hkv.
      destruct (Hn k v Hkv) as (i & _ & ->). unfold compose. cbn beta. cbn [fst snd]. rewrite parse_dump. reflexivity. }
    eexists. split.
    - apply Hl. exists (length vs). intros k v Hkv. rewrite Hp in Hkv.
      apply elem_of_lookup_imap in Hkv as (i & w & [= -> ->] & Hi).
      exists i. split; [by eapply lookup_lt_Some|done].
    - etrans; [apply fmap_Permutation; exact Hp|].
      rewrite fmap_imap.
      match goal with |- ?a ≡ₚ ?b => assert (a = b) as ->; [|done] end.
      apply imap_ext. intros i v _. cbn [compose fst snd]. by rewrite parse_dump. }
  rewrite E. cbn [mbind result_bind].
  assert (length d = length vs) as -> by (by rewrite Hp, imap_length).
  apply mapR_Ok. apply Forall2_same_length_lookup. split; [by rewrite seq_length|].
  intros i k v Hk Hv. rewrite lookup_seq in Hk. destruct Hk as [-> Hi]. simpl in *.
  rewrite (assoc_last_elem i v); [done| |].
  - rewrite Hints. rewrite fmap_imap.
    match goal with |- NoDup ?a => assert (a = seq 0 (length vs)) as ->; [|apply NoDup_seq] end.
    apply list_eq. intros j. rewrite list_lookup_imap.
    destruct (vs !! j) as [w|] eqn:Ew; simpl.
    + rewrite lookup_seq_lt; [done|]. by eapply lookup_lt_Some.
    + rewrite lookup_seq_ge; [done|]. by apply lookup_ge_None.
  - rewrite Hints. apply elem_of_lookup_imap. eauto.
Qed.

Lemma ordered_named {A} ns (vs : list A) (d : pydict A) :
  NoDup ns -> length ns = length vs ->
  d ≡ₚ imap (fun i v => (dump_output_name i (Some ns), v)) vs ->
  get_ordered_outputs (Some ns) d = Ok vs.
Proof.
  intros Hnd Hlen Hp. unfold get_ordered_outputs.
  apply mapR_Ok. apply Forall2_same_length_lookup. split; [done|].
  intros i n v Hn Hv. unfold dindex.
  assert (map fst (imap (fun i v => (dump_output_name i (Some ns), v)) vs) = ns) as Hkeys.
  { rewrite imap_fst, <-Hlen. apply map_dump_Some. }
  rewrite (dget_Permutation n d (imap (fun i v => (dump_output_name i (Some ns), v)) vs)); [| |done].
  - rewrite (dget_elem n v); [done| |].
    + by rewrite Hkeys.
    + apply elem_of_lookup_imap. exists i, v. rewrite (dump_Some_lookup _ _ n) by done. done.
  - rewrite Hp. by rewrite Hkeys.
Qed.

(** ** The combined statements *)

Lemma returns_tuple_spec {A} n (r : returned A) vs :
  returned_values n r vs -> returns_tuple n r = Ok vs.
Proof.
  destruct r as [l|a]; simpl.
  - intros [-> [->|[->| ->]]]; simpl; try done. by rewrite decide_True.
  - by intros [-> ->].
Qed.

Lemma names_fit_NoDup {A} names (vs : list A) :
  names_fit names (length vs) ->
  NoDup (map (fun i => dump_output_name i names) (seq 0 (length vs))).
Proof.
  destruct names as [ns|]; cbn [names_fit].
  - intros [Hnd <-]. by rewrite (map_dump_Some ns).
  - intros _. apply NoDup_dump_None.
Qed.

Lemma parse_returns_keys {A} ann n names (r : returned A) vs d anns :
  returned_values n r vs -> names_fit names (length vs) ->
  parse_returns ann n names r = Ok (d, anns) ->
  d = imap (fun i v => (dump_output_name i names, v)) vs.
Proof.
  intros Hr Hf. unfold parse_returns. rewrite (returns_tuple_spec _ _ _ Hr). simpl.
  rewrite out_dict_eq by (by apply names_fit_NoDup).
  destruct (ret_annotations _ _ _); simpl; congruence.
Qed.

Lemma imap_map_pair {A B} (f : nat -> string) (g : string -> A -> B) (vs : list A) :
  map (fun kv => (kv.1, g kv.1 kv.2)) (imap (fun i v => (f i, v)) vs)
  = imap (fun i w => (f i, w)) (imap (fun i v => g (f i) v) vs).
Proof.
  apply list_eq. intros i.
  rewrite list_lookup_fmap, !list_lookup_imap. by destruct (vs !! i).
Qed.

Lemma zip_with_imap {A B} (f : nat -> string) (g : string -> A -> B) (vs : list A) :
  zip_with g (map fst (imap (fun i v => (f i, v)) vs)) vs = imap (fun i v => g (f i) v) vs.
Proof.
  rewrite imap_fst. apply list_eq. intros i.
  rewrite lookup_zip_with, list_lookup_fmap, list_lookup_imap.
  destruct (vs !! i) as [v|] eqn:E; simpl.
  - rewrite lookup_seq_lt by (by eapply lookup_lt_Some). done.
  - destruct (seq 0 (length vs) !! i); done.
Qed.

Lemma outputs_roundtrip {A B} ann n names (r : returned A) vs d anns
    (g : string -> A -> B) rows :
  returned_values n r vs -> names_fit names (length vs) ->
  parse_returns ann n names r = Ok (d, anns) ->
  rows ≡ₚ map (fun kv => (kv.1, g kv.1 kv.2)) d ->
  NoDup (map fst d) /\ length d = length vs /\
  get_ordered_outputs names rows = Ok (zip_with g (map fst d) vs).
Proof.
  intros Hr Hf Hp Hrows.
  pose proof (parse_returns_keys _ _ _ _ _ _ _ Hr Hf Hp) as ->.
  split_and!.
  - rewrite imap_fst. by apply names_fit_NoDup.
  - by rewrite imap_length.
  - rewrite zip_with_imap. rewrite imap_map_pair in Hrows.
    destruct names as [ns|]; simpl in Hf.
    + destruct Hf. apply ordered_named; [done|by rewrite imap_length|done].
    + by apply ordered_generic.
Qed.

Lemma parse_returns_total {A} n names (r : returned A) vs :
  returned_values n r vs ->
  exists d anns, parse_returns RAnnNone n names r = Ok (d, anns).
Proof.
  intros Hr. unfold parse_returns. rewrite (returns_tuple_spec _ _ _ Hr). simpl. eauto.
Qed.
