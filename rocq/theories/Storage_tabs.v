(** Proofs about the storage, part 4: committing, clearing and opening keep the contents. *)
From stdpp Require Import base strings gmap list.
From Verif Require Import Base PyDict PyDict_proofs Returns DictStore Spec_DictStore DictStore_proofs
  CallStore Spec_CallStore CallStore_proofs Commit Spec_Commit Commit_proofs Refs Args Ident Storage Spec_Storage Storage_base.

Section tabs.
  Context (H : pyval -> string) (bigA : pyval -> bool).
  Hypothesis Hinj : Inj (=) (=) H.
  Notation tinv := (tabs_inv H).

  Lemma tabs_commit m f o (s s' : tabs pyval ref op) :
    tinv s m -> orders_of o s -> commit_disk bigA (fun _ => false) (fun _ => false) f o s = (Ok tt, s') ->
    tinv s' m /\ cc_cache (t_calls s') = cc_cache (t_calls s).
  Proof using Hinj.
    intros [IA IS IO [mc IC]] (OA & OS & OO & OC) E. unfold commit_disk in E.
    destruct (commit_body bigA _ _ f o s) as [[[]|e] s1] eqn:Eb; [|done]. injection E as <-.
    pose proof (body_cases _ _ _ f o s s1 _ Eb) as (rA & rS & rO & rC & _ & _ & _ & HC & Hr & _).
    apply body_ok in Eb as (HA & HS & HO & HCk).
    destruct (commit_inv bigA _ _ (okA_fun H Hinj) _ _ _ _ _ IA OA HA) as [IA' PA].
    destruct (commit_inv (fun _ => false) _ _ Commit_proofs.any_fun _ _ _ _ _ IS OS HS) as [IS' PS].
    destruct (commit_inv (fun _ => false) _ _ Commit_proofs.any_fun _ _ _ _ _ IO OO HO) as [IO' PO].
    destruct (inv_commit _ _ _ IC OC) as (c' & HC' & IC' & _).
    rewrite HCk in HC'. injection HC' as <-. simpl in IC'. split; [constructor; eauto|].
    specialize (Hr eq_refl) as ->. case_decide; [by apply calls_commit_cache in HC|]. by destruct HC as [-> _].
  Qed.
  Lemma tabs_clear m (s s' : tabs pyval ref op) r :
    tinv s m -> clear_cache false s = (r, s') ->
    tinv s' m /\ (nothing_dirty (St s None true []) -> s' = open_db (db_of s)).
  Proof.
    intros [IA IS IO [mc IC]]. unfold clear_cache, bindM, on_atoms, on_shapes, on_ops, on_calls.
    destruct (cd_clear false (t_atoms s)) as [rA dA] eqn:EA.
    destruct (cd_clear_inv _ _ _ _ _ _ _ IA EA ltac:(done)) as (IA' & PA & RA & DA).
    destruct rA as [[]|e].
    2:{ intros [= <- <-]. split; [constructor; eauto|]. intros (D & _). apply RA in D. done. }
    cbn [t_shapes t_ops t_calls].
    destruct (cd_clear false (t_shapes s)) as [rS dS] eqn:ES.
    destruct (cd_clear_inv _ _ _ _ _ _ _ IS ES ltac:(done)) as (IS' & PS & RS & DS).
    destruct rS as [[]|e].
    2:{ intros [= <- <-]. split; [constructor; eauto|]. intros (_ & D & _). apply RS in D. done. }
    cbn [t_shapes t_ops t_calls t_atoms].
    destruct (cd_clear false (t_ops s)) as [rO dO] eqn:EO.
    destruct (cd_clear_inv _ _ _ _ _ _ _ IO EO ltac:(done)) as (IO' & PO & RO & DO).
    destruct rO as [[]|e].
    2:{ intros [= <- <-]. split; [constructor; eauto|]. intros (_ & _ & D & _). apply RO in D. done. }
    cbn [t_shapes t_ops t_calls t_atoms].
    destruct (cc_clear false (t_calls s)) as [rC dC] eqn:EC.
    pose proof (inv_clear _ _ _ _ IC EC) as IC'.
    unfold cc_clear in EC. case_bool_decide as HdC; simpl in EC; injection EC as <- <-; intros [= <- <-].
    - split; [constructor; eauto|]. intros _. unfold open_db, db_of, cd_open, cc_open. cbn.
      assert (forall V (d d' : cdict V) , cd_clear false d = (Ok tt, d') -> d' = CDict ∅ ∅ (cd_pers d)) as Hcl.
      { intros V d d'. unfold cd_clear. case_bool_decide; simpl; congruence. }
      by rewrite (Hcl _ _ _ EA), (Hcl _ _ _ ES), (Hcl _ _ _ EO).
    - split; [constructor; eauto|]. intros (_ & _ & _ & D). done.
  Qed.
  Lemma tabs_reopen m (s : tabs pyval ref op) :
    tinv s m -> nothing_dirty (St s None true []) -> tinv (open_db (db_of s)) m.
  Proof.
    intros Hi Hd. destruct (clear_cache false s) as [r s'] eqn:E.
    destruct (tabs_clear _ _ _ _ Hi E) as [Hi' Ho]. rewrite <-(Ho Hd). done.
  Qed.
  Lemma tabs_new overflow : sinv H (new_storage overflow) (Contents ∅ ∅ ∅ ∅).
  Proof.
    split; cbn.
    - apply cd_inv_open; cbn.
      + split; [done|]. split; cbn.
        * intros k v. by rewrite lookup_empty.
        * destruct overflow; [intros o k v [= <-]|done]. by rewrite lookup_empty.
      + intros k. unfold plook. cbn. rewrite lookup_empty. by destruct overflow.
    - apply cd_inv_open; [apply sql_ok|]. intros k. unfold plook. cbn. by rewrite lookup_empty.
    - apply cd_inv_open; [apply sql_ok|]. intros k. unfold plook. cbn. by rewrite lookup_empty.
    - exists ∅. apply (inv_open ∅). intros hid. by rewrite lookup_empty.
  Qed.
End tabs.
