(** Lemmas about insertion-ordered dictionaries. *)
From stdpp Require Import base strings list.
From Verif Require Import Base PyDict.

Section pydict.
  Context {A : Type}.
  Implicit Types d : pydict A.

  Lemma dget_dset_eq k v d : dget k (dset k v d) = Some v.
  Proof.
    induction d as [|[k' v'] d IH]; simpl; [by rewrite decide_True|].
    destruct (decide (k = k')); simpl; [by rewrite decide_True|by rewrite decide_False].
  Qed.
  Lemma dget_dset_ne k k' v d : k <> k' -> dget k' (dset k v d) = dget k' d.
  Proof.
    intros Hne. induction d as [|[k1 v1] d IH]; simpl.
    - by rewrite decide_False.
    - case_decide; simplify_eq/=.
      + by rewrite !decide_False.
      + case_decide; auto.
  Qed.
  Lemma dget_None k d : dget k d = None <-> k ∉ map fst d.
  Proof.
    induction d as [|[k' v'] d IH]; simpl.
    - split; [intros _; apply not_elem_of_nil|done].
    - rewrite not_elem_of_cons. case_decide; simplify_eq/=.
      + split; [done|intros [? _]; done].
      + rewrite IH. naive_solver.
  Qed.
  Lemma dget_Some_elem k v d : dget k d = Some v -> (k, v) ∈ d.
  Proof.
    induction d as [|[k' v'] d IH]; simpl; [done|].
    case_decide; intros; simplify_eq; [left|right; auto].
  Qed.
  Lemma dget_elem k v d : NoDup (map fst d) -> (k, v) ∈ d -> dget k d = Some v.
  Proof.
    induction d as [|[k' v'] d IH]; simpl; [by intros _ ?%elem_of_nil|].
    intros [Hn Hd]%NoDup_cons [E|E]%elem_of_cons; simplify_eq.
    - by rewrite decide_True.
    - rewrite decide_False; auto. intros ->. apply Hn.
      apply elem_of_list_fmap. by exists (k', v).
  Qed.
  Lemma dget_Permutation k d d' :
    NoDup (map fst d) -> d ≡ₚ d' -> dget k d = dget k d'.
  Proof.
    intros Hd Hp. assert (Hd' : NoDup (map fst d')) by (by rewrite <-Hp).
    destruct (dget k d) as [v|] eqn:E.
    - symmetry. apply dget_elem; [done|]. rewrite <-Hp. by apply dget_Some_elem.
    - symmetry. apply dget_None. apply dget_None in E. by rewrite <-Hp.
  Qed.
  Lemma dset_keys k v d :
    map fst (dset k v d) = if decide (k ∈ map fst d) then map fst d else map fst d ++ [k].
  Proof.
    induction d as [|[k' v'] d IH].
    - destruct (decide _) as [[]%elem_of_nil|]; done.
    - cbn [dset]. destruct (decide (k = k')) as [->|Hne].
      + clear IH. destruct (decide (k' ∈ _)) as [|Hn]; [reflexivity|]. destruct Hn. left.
      + cbn [map fst]. rewrite IH.
        destruct (decide (k ∈ map fst d)) as [Hi|Hi].
        * destruct (decide (k ∈ k' :: _)) as [|Hn]; [reflexivity|]. destruct Hn. by right.
        * destruct (decide (k ∈ k' :: _)) as [Hy|Hy]; [|reflexivity].
          apply elem_of_cons in Hy. naive_solver.
  Qed.
  Lemma dset_fresh k v d : k ∉ map fst d -> dset k v d = d ++ [(k, v)].
  Proof.
    induction d as [|[k' v'] d IH]; simpl; [done|].
    intros [Hne Hn]%not_elem_of_cons. rewrite decide_False by done. by rewrite IH.
  Qed.
  Lemma dset_NoDup k v d : NoDup (map fst d) -> NoDup (map fst (dset k v d)).
  Proof.
    intros Hd. rewrite dset_keys. case_decide as E; [done|].
    apply NoDup_app. split_and!; [done| |apply NoDup_singleton].
    intros x Hx ->%elem_of_list_singleton. done.
  Qed.
  Lemma dupdate_NoDup d l : NoDup (map fst d) -> NoDup (map fst (dupdate d l)).
  Proof.
    revert d. induction l as [|[k v] l IH]; intros d Hd; simpl; [done|].
    apply IH. by apply dset_NoDup.
  Qed.
  Lemma dict_of_NoDup_keys (l : list (string * A)) : NoDup (map fst (dict_of l)).
  Proof. apply dupdate_NoDup, NoDup_nil_2. Qed.
  Lemma dupdate_fresh d l : NoDup (map fst (d ++ l)) -> dupdate d l = d ++ l.
  Proof.
    revert d. induction l as [|[k v] l IH]; intros d Hd; simpl.
    - by rewrite app_nil_r.
    - rewrite dset_fresh.
      + change (dupdate (d ++ [(k, v)]) l = d ++ (k, v) :: l). rewrite IH.
        * by rewrite <-app_assoc.
        * by rewrite <-app_assoc.
      + rewrite map_app in Hd. simpl in Hd. apply NoDup_app in Hd as (_ & Hd & _).
        intros Hin. apply (Hd k Hin). left.
  Qed.
  Lemma dict_of_NoDup (l : list (string * A)) : NoDup (map fst l) -> dict_of l = l.
  Proof. intros. by apply (dupdate_fresh []). Qed.
  Lemma dmem_spec k d : dmem k d = true <-> k ∈ map fst d.
  Proof.
    unfold dmem. rewrite bool_decide_eq_true. destruct (dget k d) as [v|] eqn:E.
    - split; [intros _|eauto]. apply dget_Some_elem in E.
      apply elem_of_list_fmap. by exists (k, v).
    - apply dget_None in E. split; [by intros [? [=]]|done].
  Qed.
End pydict.

Lemma mapR_Ok {A B} (f : A -> result B) l l' :
  Forall2 (fun x y => f x = Ok y) l l' -> mapR f l = Ok l'.
Proof. induction 1 as [|x y l l' E _ IH]; simpl; [done|]. rewrite E. simpl. by rewrite IH. Qed.

Lemma mapR_Ok_inv {A B} (f : A -> result B) l l' :
  mapR f l = Ok l' -> Forall2 (fun x y => f x = Ok y) l l'.
Proof.
  revert l'. induction l as [|x l IH]; intros l'; simpl.
  - intros; simplify_eq. constructor.
  - destruct (f x) as [y|] eqn:E; simpl; [|done].
    destruct (mapR f l) as [ys|] eqn:E'; simpl; [|done].
    intros; simplify_eq. constructor; auto.
Qed.

Lemma mapR_ext {A B} (f g : A -> result B) l :
  (forall x, x ∈ l -> f x = g x) -> mapR f l = mapR g l.
Proof.
  induction l as [|x l IH]; intros E; simpl; [done|].
  rewrite E by left. rewrite IH; [done|]. intros; apply E; by right.
Qed.
