(** Binding is parametric: related arguments bind to related values. *)
From stdpp Require Import base strings gmap list.
From Verif Require Import Base PyDict PyDict_proofs Returns Refs Args.

Definition rel_res {X Y} (R : X -> Y -> Prop) (r : result X) (r' : result Y) : Prop :=
  match r, r' with Ok x, Ok y => R x y | Err e, Err e' => e = e' | _, _ => False end.
Definition rel_kv {X Y} (R : X -> Y -> Prop) (a : string * X) (b : string * Y) : Prop := a.1 = b.1 /\ R a.2 b.2.
Notation rel_dict R := (Forall2 (rel_kv R)).
Definition rel_bval {X Y} (R : X -> Y -> Prop) (v : bval X) (w : bval Y) : Prop :=
  match v, w with
  | BOne x, BOne y => R x y
  | BTuple l, BTuple l' => Forall2 R l l'
  | BDict d, BDict d' => rel_dict R d d'
  | _, _ => False
  end.

Section dict.
  Context {X Y : Type} (R : X -> Y -> Prop).
  Lemma rel_dget k d d' : rel_dict R d d' ->
    match dget k d, dget k d' with Some x, Some y => R x y | None, None => True | _, _ => False end.
  Proof.
    induction 1 as [|[a x] [b y] d d' [E HR] _ IH]; cbn in *; [done|]. subst. by case_decide.
  Qed.
  Lemma rel_dmem k d d' : rel_dict R d d' -> dmem k d = dmem k d'.
  Proof.
    intros Hd%(rel_dget k). unfold dmem. destruct (dget k d), (dget k d'); try done; apply bool_decide_ext; split; eauto.
  Qed.
  Lemma rel_dset k x y d d' : R x y -> rel_dict R d d' -> rel_dict R (dset k x d) (dset k y d').
  Proof.
    intros Hxy. induction 1 as [|[a v] [b w] d d' [E HR] Hd IH]; cbn in *; [by repeat constructor|]. subst.
    case_decide; constructor; try done.
  Qed.
  Lemma rel_ddel k d d' : rel_dict R d d' -> rel_dict R (ddel k d) (ddel k d').
  Proof.
    induction 1 as [|[a v] [b w] d d' [E HR] Hd IH]; cbn in *; [constructor|]. subst. case_decide; [done|]. by constructor.
  Qed.
  Lemma rel_dupdate l l' d d' : rel_dict R d d' -> rel_dict R l l' -> rel_dict R (dupdate d l) (dupdate d' l').
  Proof.
    intros Hd Hl. revert d d' Hd. induction Hl as [|[a v] [b w] l l' [E HR] Hl IH]; intros d d' Hd; cbn in *; [done|]. subst.
    apply IH. by apply rel_dset.
  Qed.
  Lemma rel_keys d d' : rel_dict R d d' -> map fst d = map fst d'.
  Proof. induction 1 as [|? ? ? ? [E _] _ IH]; cbn; congruence. Qed.
End dict.
Lemma rel_mapR {X Y X' Y'} (R : X -> X' -> Prop) (Q : Y -> Y' -> Prop) (f : X -> result Y) (g : X' -> result Y') l l' :
  Forall2 R l l' -> (forall x x', R x x' -> rel_res Q (f x) (g x')) -> rel_res (Forall2 Q) (mapR f l) (mapR g l').
Proof.
  intros Hl Hf. induction Hl as [|x x' l l' Hx Hl IH]; cbn; [constructor|]. specialize (Hf _ _ Hx).
  destruct (f x), (g x'); cbn in *; try done. destruct (mapR f l), (mapR g l'); cbn in *; try done. by constructor.
Qed.

Section bind.
  Context {X : Type} (R : X -> X -> Prop).
  Notation RB := (rel_bval R).
  Lemma rel_bind_pos (ps : list (param X)) args args' kw kw' acc acc' :
    Forall2 R args args' -> rel_dict R kw kw' -> rel_dict RB acc acc' ->
    rel_res (fun r r' => rel_dict RB r.1 r'.1 /\ r.2 = r'.2) (bind_pos ps args kw acc) (bind_pos ps args' kw' acc').
  Proof.
    intros Ha Hk. revert args args' acc acc' Ha. induction ps as [|p ps IH]; intros args args' acc acc' Ha Hacc.
    - destruct Ha; done.
    - destruct Ha as [|a a' args args' Haa Ha]; cbn [bind_pos]; rewrite <-(rel_dmem _ _ _ _ Hk).
      + repeat case_decide; repeat case_match; done.
      + destruct (p_kind p) eqn:Ep; try done.
        * destruct (_ && _); [done|]. apply IH; [done|]. by apply rel_dset.
        * destruct (_ && _); [done|]. apply IH; [done|]. by apply rel_dset.
        * split; [|done]. apply rel_dset; [|done]. by constructor.
  Qed.
  Lemma rel_bind_kw (ps : list (param X)) kw kw' acc acc' n :
    rel_dict R kw kw' -> rel_dict RB acc acc' -> rel_res (rel_dict RB) (bind_kw ps kw acc n) (bind_kw ps kw' acc' n).
  Proof.
    revert kw kw' acc acc' n. induction ps as [|p ps IH]; intros kw kw' acc acc' n Hk Hacc; cbn [bind_kw].
    - destruct Hk as [|? ? ? ? Hh Hk]; [done|]. destruct n; [|done]. cbn. apply rel_dset; [|done]. by constructor.
    - pose proof (rel_dget R (p_name p) _ _ Hk) as Hg.
      destruct (p_kind p); try (by apply IH);
        (destruct (dget (p_name p) kw), (dget (p_name p) kw'); try done;
         repeat case_decide; try done; try (apply IH; [by apply rel_ddel|by apply rel_dset]);
         destruct (p_default p); [by apply IH|done]).
  Qed.
  Lemma rel_bind_full (sig : list (param X)) args args' kw kw' :
    (forall p d, p ∈ sig -> p_default p = Some d -> R d d) ->
    Forall2 R args args' -> rel_dict R kw kw' ->
    rel_res (rel_dict RB) (bind_full sig args kw) (bind_full sig args' kw').
  Proof.
    intros Hd Ha Hk. unfold bind_full, sig_bind.
    pose proof (rel_bind_pos sig args args' kw kw' [] [] Ha Hk ltac:(constructor)) as Hp.
    destruct (bind_pos sig args kw []) as [[acc ps]|], (bind_pos sig args' kw' []) as [[acc' ps']|]; cbn in *; try done.
    destruct Hp as (Hacc & <-).
    pose proof (rel_bind_kw ps kw kw' acc acc' None Hk Hacc) as Hb.
    destruct (bind_kw ps kw acc None) as [b|], (bind_kw ps kw' acc' None) as [b'|]; cbn in *; try done.
    unfold apply_defaults. clear -Hd Hb. induction sig as [|p sig IH]; cbn; [constructor|].
    assert (rel_dict RB (apply_defaults sig b) (apply_defaults sig b')) as Hrest.
    { apply IH. intros. eapply Hd; [|done]. by right. }
    pose proof (rel_dget RB (p_name p) _ _ Hb) as Hg.
    destruct (dget (p_name p) b), (dget (p_name p) b'); try done; [by constructor|].
    destruct (p_default p) eqn:Ep; [constructor; [|done]; split; [done|]; cbn; eapply Hd; [left|done]|].
    destruct (p_kind p); try done; (constructor; [split; [done|]; cbn; constructor|done]).
  Qed.
End bind.
