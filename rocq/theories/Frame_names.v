(** Generated names: the search ends and what it returns is not in use. *)
From stdpp Require Import base strings gmap list pretty.
From Verif Require Import Base PyDict Refs Storage Frame Spec_Frame Frame_base.

Lemma string_app_inj s1 s2 s3 : s1 +:+ s2 = s1 +:+ s3 -> s2 = s3.
Proof. induction s1 as [|c s1 IH]; cbn; [done|]. intros [= H]. auto. Qed.
Lemma numbered_inj v i j : numbered v i = numbered v j -> i = j.
Proof. unfold numbered. intros H. apply string_app_inj, string_app_inj in H. by apply (inj pretty) in H. Qed.

Lemma next_free_fresh used v fuel : forall i n, next_free used v fuel i = Ok n -> n ∉ used.
Proof. induction fuel as [|fuel IH]; intros i n; cbn; [done|]. case_decide; [apply IH|]. by intros [= <-]. Qed.
Lemma next_free_err used v fuel : forall i, (forall n, next_free used v fuel i <> Ok n) ->
  forall k, k < fuel -> numbered v (i + N.of_nat k) ∈ used.
Proof.
  induction fuel as [|fuel IH]; intros i Hn k Hk; [lia|]. cbn in Hn. case_decide as Hu; [|by destruct (Hn (numbered v i))].
  destruct k as [|k]; [by rewrite N.add_0_r|].
  replace (i + N.of_nat (S k))%N with (N.succ i + N.of_nat k)%N by lia. apply IH; [done|lia].
Qed.
Lemma next_free_name_ok used v i : exists n, next_free_name used v i = Ok n /\ n ∉ used.
Proof.
  unfold next_free_name. destruct (next_free used v (S (size used)) i) as [n|e] eqn:E.
  - exists n. split; [done|]. by eapply next_free_fresh.
  - exfalso. assert (Hall : forall k, k < S (size used) -> numbered v (i + N.of_nat k) ∈ used).
    { apply next_free_err. intros n. by rewrite E. }
    set (l := (fun k => numbered v (i + N.of_nat k)) <$> seq 0 (S (size used))).
    assert (Hnd : NoDup l).
    { apply NoDup_fmap_2_strong; [|apply NoDup_seq]. intros a b _ _ H. apply numbered_inj in H. lia. }
    assert (Hsub : (list_to_set l : sset) ⊆ used).
    { intros x. rewrite elem_of_list_to_set. unfold l. rewrite elem_of_list_fmap. intros (k & -> & Hk).
      apply elem_of_seq in Hk. apply Hall. lia. }
    apply subseteq_size in Hsub. rewrite size_list_to_set in Hsub by done. unfold l in Hsub.
    rewrite fmap_length, seq_length in Hsub. lia.
Qed.

Lemma get_new_vname_ok hint F : exists n, get_new_vname hint F = Ok n /\ n ∉ vnames F.
Proof.
  unfold get_new_vname. destruct (split_us hint) as [w ws].
  assert (Hh : exists n, (if decide (hint ∈ dom (f_vs F)) then next_free_name (dom (f_vs F)) hint 0 else Ok hint) = Ok n /\ n ∉ vnames F).
  { case_decide; [apply next_free_name_ok|eauto]. }
  destruct (last ws) as [d|]; [|done]. destruct (isdigit d); [|done].
  destruct (String.eqb w "output"); apply next_free_name_ok.
Qed.
Lemma get_new_fname_ok hint F : exists n, get_new_fname hint F = Ok n /\ n ∉ fnames F.
Proof. unfold get_new_fname. case_decide; [apply next_free_name_ok|eauto]. Qed.

(** the name is the hint itself, or the hint (or its first part) with a number *)
Lemma get_new_fname_shape hint F n : get_new_fname hint F = Ok n -> n = hint \/ exists i, n = numbered hint i.
Proof.
  unfold get_new_fname. case_decide; [|by intros [= ->]; left]. unfold next_free_name.
  assert (Hg : forall fuel i, next_free (dom (f_fs F)) hint fuel i = Ok n -> exists j, n = numbered hint j).
  { induction fuel as [|fuel IH]; intros i; cbn; [done|]. case_decide; [apply IH|]. intros [= <-]. eauto. }
  intros Hr. right. by eapply Hg.
Qed.
