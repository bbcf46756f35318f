(** Proofs for C28: saving is idempotent and does not depend on the order. *)
From stdpp Require Import base strings gmap list.
From Verif Require Import Base PyDict PyDict_proofs Returns DictStore CallStore Spec_CallStore CallStore_proofs
  Commit Refs Args Ident Storage Spec_Storage Spec_Storage2 Storage_laws.

(** * Saving something that is there *)
Lemma has_shape_set k k' r s : has_shape k (set_shape k' r s).2 = bool_decide (k = k') || has_shape k s.
Proof.
  unfold has_shape, set_shape, on_tabs, on_shapes, upd, cd_exists. cbn.
  destruct (decide (k = k')) as [->|Hn].
  - rewrite lookup_insert, bool_decide_eq_true_2 by by eexists. by rewrite bool_decide_eq_true_2.
  - rewrite lookup_insert_ne by done. by rewrite (bool_decide_eq_false_2 (k = k')).
Qed.
Lemma has_shape_atom k k' v s : has_shape k (set_atom k' v s).2 = has_shape k s.
Proof. done. Qed.
Lemma cc_exists_save c k : cc_exists (d_hid c) (cc_save c k) = true.
Proof.
  unfold cc_exists, cc_save, mc_save, mc_exists. cbn.
  destruct (decide (d_hid c ∈ mc_hids (cc_cache k))).
  - by rewrite bool_decide_eq_true_2.
  - cbn. rewrite bool_decide_eq_true_2; [done|]. set_solver.
Qed.
Lemma cc_exists_save_mono c h k : cc_exists h k = true -> cc_exists h (cc_save c k) = true.
Proof.
  unfold cc_exists, cc_save, mc_save, mc_exists. cbn. intros [E|E]%orb_true_iff; apply orb_true_iff.
  - left. apply bool_decide_eq_true in E. apply bool_decide_eq_true.
    destruct (decide _); [done|]. cbn. set_solver.
  - by right.
Qed.

(** nothing that is saved goes away *)
Record grows (s s' : st) : Prop := {
  gr_shapes : forall h, has_shape h s = true -> has_shape h s' = true;
  gr_calls : forall h, has_call h s = true -> has_call h s' = true;
}.
Global Instance grows_pre : PreOrder grows.
Proof. split; [by intros s|]. intros s1 s2 s3 [] []. split; auto. Qed.
Lemma set_shape_grows h r : inR grows (set_shape h r).
Proof. intros s. split; [|done]. intros k E. rewrite has_shape_set, E. by rewrite orb_true_r. Qed.
Lemma set_atom_grows h r : inR grows (set_atom h r).
Proof. intros s. by split. Qed.
Lemma set_op_grows h r : inR grows (set_op h r).
Proof. intros s. by split. Qed.
Lemma save_ref_grows r : inR grows (save_ref r).
Proof.
  induction r as [c h o|c h|c h l IH|c h|c h l IH] using ref_ind'; cbn [save_ref]; unfold if_st;
    (apply inR_if; [apply inR_ret; apply _|]); try (apply inR_raise; apply _).
  - apply inR_bind; [apply _| |intros; apply set_shape_grows]. destruct o; [apply set_atom_grows|apply inR_ret; apply _].
  - apply inR_bind; [apply _|apply set_shape_grows|]. intros ?. apply inR_iterM; [apply _|]. by rewrite Forall_forall in IH.
  - apply inR_bind; [apply _|apply set_shape_grows|]. intros ?. apply inR_iterM; [apply _|]. by rewrite Forall_forall in IH.
Qed.
Lemma save_call_grows c : inR grows (save_call c).
Proof.
  unfold save_call, if_st. apply inR_if; [apply inR_ret; apply _|].
  apply inR_bind; [apply _|apply inR_if; [apply inR_ret; apply _|apply set_op_grows]|]. intros ?.
  apply inR_bind; [apply _| |].
  - apply inR_iterM; [apply _|]. intros; apply save_ref_grows.
  - intros _ s. split; [done|]. intros h. unfold has_call. cbn. apply cc_exists_save_mono.
Qed.

Theorem save_ref_twice r s s' : save_ref r s = (Ok tt, s') -> save_ref r s' = (Ok tt, s').
Proof.
  intros E. assert (Hh : has_shape (rhid r) s' = true).
  2:{ destruct r as [c h o|c h [l|]|c h [l|]]; cbn [save_ref]; unfold if_st; cbn [rhid] in *; by rewrite Hh. }
  destruct (has_shape (rhid r) s) eqn:Es.
  { assert (s' = s) as ->; [|done]. destruct r as [c h o|c h [l|]|c h [l|]]; cbn [save_ref] in E; unfold if_st in E; cbn [rhid] in *; rewrite Es in E; by injection E. }
  destruct r as [c h o|c h [l|]|c h [l|]]; cbn [save_ref] in E; unfold if_st in E; cbn [rhid] in *; rewrite Es in E; try done.
  - unfold bindM in E. destruct o as [v|].
    + change (set_shape h (RAtom c h None) (set_atom c v s).2 = (Ok tt, s')) in E.
      assert (s' = (set_shape h (RAtom c h None) (set_atom c v s).2).2) as -> by by rewrite E.
      rewrite has_shape_set. by rewrite bool_decide_eq_true_2.
    + change (set_shape h (RAtom c h None) s = (Ok tt, s')) in E.
      assert (s' = (set_shape h (RAtom c h None) s).2) as -> by by rewrite E.
      rewrite has_shape_set. by rewrite bool_decide_eq_true_2.
  - unfold bindM in E. change (iterM save_ref l (set_shape h (shape_list c h l) s).2 = (Ok tt, s')) in E.
    assert (inR grows (iterM save_ref l)) as Hg by (apply inR_iterM; [apply _|]; intros; apply save_ref_grows).
    specialize (Hg (set_shape h (shape_list c h l) s).2). rewrite E in Hg. apply Hg.
    rewrite has_shape_set. by rewrite bool_decide_eq_true_2.
  - unfold bindM in E. change (iterM (fun kr : string * ref => save_ref kr.2) l (set_shape h (shape_dict c h l) s).2 = (Ok tt, s')) in E.
    assert (inR grows (iterM (fun kr : string * ref => save_ref kr.2) l)) as Hg by (apply inR_iterM; [apply _|]; intros; apply save_ref_grows).
    specialize (Hg (set_shape h (shape_dict c h l) s).2). rewrite E in Hg. apply Hg.
    rewrite has_shape_set. by rewrite bool_decide_eq_true_2.
Qed.
Lemma save_call_has c s s' : save_call c s = (Ok tt, s') -> has_call (c_hid c) s' = true.
Proof.
  unfold save_call, if_st. destruct (has_call (c_hid c) s) eqn:E; [by intros [= <-]|].
  unfold bindM at 1. match goal with |- context [if ?b then _ else _] => destruct (if b then retM tt s else set_op (op_name (c_op c)) (c_op c) s) as [[u|e] s1] end; [|done].
  unfold bindM. destruct (iterM save_ref _ s1) as [[u'|e] s2]; [|done].
  intros [= <-]. unfold has_call. cbn. apply (cc_exists_save (cdata_of c)).
Qed.
Lemma save_call_known c s : has_call (c_hid c) s = true -> save_call c s = (Ok tt, s).
Proof. intros E. unfold save_call, if_st. by rewrite E. Qed.
Lemma save_calls_has cs s s' : iterM save_call cs s = (Ok tt, s') -> forall c, c ∈ cs -> has_call (c_hid c) s' = true.
Proof.
  revert s. induction cs as [|c cs IH]; intros s; cbn [iterM]; [by intros _ c ?%elem_of_nil|].
  unfold bindM. destruct (save_call c s) as [[[]|e] s1] eqn:E; [|done].
  intros E' c' [->|Hc']%elem_of_cons; [|by eapply IH].
  apply save_call_has in E.
  assert (inR grows (iterM save_call cs)) as Hg by (apply inR_iterM; [apply _|]; intros; apply save_call_grows).
  specialize (Hg s1). rewrite E' in Hg. by apply Hg.
Qed.
Theorem save_calls_again cs cs' s s' : iterM save_call cs s = (Ok tt, s') -> (forall c, c ∈ cs' -> c ∈ cs) ->
  iterM save_call cs' s' = (Ok tt, s').
Proof.
  intros E Hsub. pose proof (save_calls_has _ _ _ E) as Hh. clear E.
  induction cs' as [|c cs' IH]; [done|]. cbn [iterM]. unfold bindM. rewrite save_call_known.
  - apply IH. intros; apply Hsub; by right.
  - apply Hh, Hsub. left.
Qed.

(** * The order does not matter *)
Lemma nodes_self r : r ∈ nodes r.
Proof. destruct r as [c h o|c h [l|]|c h [l|]]; left. Qed.
Lemma nodes_elements r e x : e ∈ elements_of r -> x ∈ nodes e -> x ∈ nodes r.
Proof.
  destruct r as [c h o|c h [l|]|c h [l|]]; cbn [elements_of nodes]; try by intros ?%elem_of_nil.
  - intros He Hx. right. apply elem_of_list_In, in_concat. exists (nodes e). split; [|by apply elem_of_list_In].
    apply in_map. by apply elem_of_list_In.
  - intros (ke & -> & He)%elem_of_list_fmap Hx. right. apply elem_of_list_In, in_concat. exists (nodes ke.2). split; [|by apply elem_of_list_In].
    apply (in_map (fun kr : string * ref => nodes kr.2)). by apply elem_of_list_In.
Qed.
Lemma nodes_closed r : forall x e, x ∈ nodes r -> e ∈ elements_of x -> e ∈ nodes r.
Proof.
  assert (forall (l : list ref) x e, (forall r, r ∈ l -> forall x e, x ∈ nodes r -> e ∈ elements_of x -> e ∈ nodes r) ->
     x ∈ concat (map nodes l) -> e ∈ elements_of x -> e ∈ concat (map nodes l)) as Hl.
  { intros l x e IH Hx He. apply elem_of_list_In, in_concat in Hx as (n & Hn & Hx). apply elem_of_list_In, in_concat.
    exists n. split; [done|]. apply in_map_iff in Hn as (r1 & <- & Hr). apply elem_of_list_In.
    apply (IH r1) with x; [by apply elem_of_list_In|by apply elem_of_list_In|done]. }
  induction r as [c h o|c h|c h l IH|c h|c h l IH] using ref_ind'; intros x e; cbn [nodes].
  - intros ->%elem_of_list_singleton He. by apply elem_of_nil in He.
  - intros ->%elem_of_list_singleton He. by apply elem_of_nil in He.
  - rewrite Forall_forall in IH. intros [->|Hx]%elem_of_cons He; right.
    + apply elem_of_list_In, in_concat. exists (nodes e). split; [apply in_map; by apply elem_of_list_In|apply elem_of_list_In, nodes_self].
    + by apply (Hl l x).
  - intros ->%elem_of_list_singleton He. by apply elem_of_nil in He.
  - rewrite Forall_forall in IH.
    assert (map (fun kr : string * ref => nodes kr.2) l = map nodes (map snd l)) as -> by by rewrite map_map.
    intros [->|Hx]%elem_of_cons He; right.
    + apply elem_of_list_In, in_concat. exists (nodes e). split; [apply in_map; by apply elem_of_list_In|apply elem_of_list_In, nodes_self].
    + apply (Hl (map snd l) x); [|done..]. intros r (kr & -> & Hr)%elem_of_list_fmap. by apply IH.
Qed.

Definition shape_of (r : ref) : ref :=
  match r with
  | RAtom c h o => RAtom c h None
  | RList c h (Some l) => shape_list c h l
  | RDict c h (Some l) => shape_dict c h l
  | _ => r
  end.
Definition savable (r : ref) : Prop := match r with RList _ _ None | RDict _ _ None => False | _ => True end.

Global Instance savable_dec r : Decision (savable r).
Proof. destruct r as [c h o|c h [l|]|c h [l|]]; cbn; apply _. Defined.

Section order.
  Context (all : list ref).
  Hypothesis all_closed : forall r e, r ∈ all -> e ∈ elements_of r -> e ∈ all.
  Hypothesis all_refs : forall r r', r ∈ all -> r' ∈ all -> rhid r = rhid r' -> r = r'.
  Hypothesis all_atoms : forall c h h' v v', RAtom c h (Some v) ∈ all -> RAtom c h' (Some v') ∈ all -> v = v'.

  (** [s] is [s0] where the refs with history ids in [X] have been saved *)
  Record saved (s0 : st) (X : gset string) (s : st) : Prop := {
    sv_in : forall h, h ∈ X -> exists r, r ∈ all /\ rhid r = h /\ savable r /\ has_shape h s0 = false;
    sv_shape : forall r, r ∈ all -> rhid r ∈ X -> cd_cache (t_shapes (s_tabs s)) !! rhid r = Some (shape_of r);
    sv_shape_old : forall h, h ∉ X -> cd_cache (t_shapes (s_tabs s)) !! h = cd_cache (t_shapes (s_tabs s0)) !! h;
    sv_shape_dirty : cd_dirty (t_shapes (s_tabs s)) = X ∪ cd_dirty (t_shapes (s_tabs s0));
    sv_shape_pers : cd_pers (t_shapes (s_tabs s)) = cd_pers (t_shapes (s_tabs s0));
    sv_atom : forall c h v, RAtom c h (Some v) ∈ all -> h ∈ X ->
        cd_cache (t_atoms (s_tabs s)) !! c = Some v /\ c ∈ cd_dirty (t_atoms (s_tabs s));
    sv_atom_old : forall c, (forall h v, RAtom c h (Some v) ∈ all -> h ∉ X) ->
        cd_cache (t_atoms (s_tabs s)) !! c = cd_cache (t_atoms (s_tabs s0)) !! c /\
        (c ∈ cd_dirty (t_atoms (s_tabs s)) <-> c ∈ cd_dirty (t_atoms (s_tabs s0)));
    sv_atom_dirty : forall c, c ∈ cd_dirty (t_atoms (s_tabs s0)) -> c ∈ cd_dirty (t_atoms (s_tabs s));
    sv_atom_pers : cd_pers (t_atoms (s_tabs s)) = cd_pers (t_atoms (s_tabs s0));
  }.
  Lemma saved_nil s : saved s ∅ s.
  Proof. clear all_closed all_refs all_atoms. split; try done; try set_solver. Qed.
  Lemma saved_has s0 X s h : saved s0 X s -> has_shape h s = bool_decide (h ∈ X) || has_shape h s0.
  Proof.
    intros Hs. unfold has_shape, cd_exists. rewrite (sv_shape_pers _ _ _ Hs).
    destruct (decide (h ∈ X)) as [Hx|Hx].
    - destruct (sv_in _ _ _ Hs _ Hx) as (r & Hr & <- & _). rewrite (sv_shape _ _ _ Hs r) by done.
      rewrite (bool_decide_eq_true_2 (rhid r ∈ X)) by done. rewrite bool_decide_eq_true_2; [done|by eexists].
    - rewrite (sv_shape_old _ _ _ Hs) by done. by rewrite (bool_decide_eq_false_2 (h ∈ X)).
  Qed.
  (** one ref is added *)
  Lemma saved_add s0 X s r : saved s0 X s -> r ∈ all -> savable r -> has_shape (rhid r) s = false ->
    saved s0 ({[rhid r]} ∪ X)
      (set_shape (rhid r) (shape_of r) (match r with RAtom c h (Some v) => (set_atom c v s).2 | _ => s end)).2.
  Proof.
    intros Hs Hr Hsv Hh. rewrite (saved_has _ _ _ _ Hs) in Hh. apply orb_false_iff in Hh as [Hh1 Hh2].
    apply bool_decide_eq_false in Hh1.
    destruct Hs as [S1 S2 S3 S4 S5 S6 S7 S8 S9].
    set (s' := match r with RAtom c h (Some v) => (set_atom c v s).2 | _ => s end).
    assert (Esh : t_shapes (s_tabs s') = t_shapes (s_tabs s)) by (unfold s'; by destruct r as [c h [v|]| |]).
    assert (E6 : cd_pers (t_atoms (s_tabs s')) = cd_pers (t_atoms (s_tabs s))) by (unfold s'; by destruct r as [c h [v|]| |]).
    unfold set_shape, on_tabs, on_shapes, upd. cbn. split; cbn.
    - intros h [->%elem_of_singleton|Hx]%elem_of_union; [|by apply S1]. by exists r.
    - intros r' Hr' Hx. destruct (decide (rhid r' = rhid r)) as [E|Hn].
      + rewrite E, lookup_insert. by rewrite (all_refs r' r).
      + rewrite lookup_insert_ne by done. rewrite Esh. apply S2; [done|]. set_solver.
    - intros h Hx. rewrite lookup_insert_ne by set_solver. rewrite Esh. apply S3. set_solver.
    - rewrite Esh, S4. set_solver.
    - by rewrite Esh.
    - intros c h v Hin Hx. unfold s'. destruct (decide (h = rhid r)) as [->|Hn].
      + assert (RAtom c (rhid r) (Some v) = r) as <- by (apply all_refs; done). cbn. rewrite lookup_insert. split; [done|set_solver].
      + destruct (S6 c h v) as [A B]; [done|set_solver|].
        destruct r as [c' h' [v'|]| |]; cbn; try done. destruct (decide (c = c')) as [->|Hc].
        * rewrite lookup_insert. split; [|set_solver]. f_equal. by apply (all_atoms c' h' h).
        * rewrite lookup_insert_ne by done. split; [done|set_solver].
    - intros c Hc. destruct (S7 c) as [A B].
      { intros h v Hin. specialize (Hc h v Hin). set_solver. }
      unfold s'. destruct r as [c' h' [v'|]| |]; cbn; try done. cbn in Hc.
      assert (c <> c') by (intros ->; specialize (Hc h' v' Hr); set_solver).
      rewrite lookup_insert_ne by done. split; [done|]. rewrite <-B. set_solver.
    - intros c Hc. apply S8 in Hc. unfold s'. destruct r as [c' h' [v'|]| |]; cbn; set_solver.
    - congruence.
  Qed.

  (** the refs that have to be saved: reachable without going through refs that are there already *)
  Inductive needed (roots : list ref) (s0 : st) : ref -> Prop :=
    | nd_root r : r ∈ roots -> has_shape (rhid r) s0 = false -> needed roots s0 r
    | nd_elem r e : needed roots s0 r -> e ∈ elements_of r -> has_shape (rhid e) s0 = false -> needed roots s0 e.
  (** every saved ref, except those in [D], has its elements saved *)
  Definition closed_but (s0 : st) (D X : gset string) : Prop :=
    forall r e, r ∈ all -> rhid r ∈ X -> rhid r ∉ D -> e ∈ elements_of r -> has_shape (rhid e) s0 = true \/ rhid e ∈ X.

  Context (roots : list ref) (s0 : st).
  Definition sound (X : gset string) : Prop := forall h, h ∈ X -> exists r, r ∈ all /\ rhid r = h /\ needed roots s0 r.

  Definition outcome (D X : gset string) (P : gset string -> Prop) (o : result unit * st) : Prop :=
    match o with
    | (Ok _, s') => exists X', X ⊆ X' /\ saved s0 X' s' /\ closed_but s0 D X' /\ sound X' /\ P X'
    | (Err _, _) => exists r, r ∈ all /\ needed roots s0 r /\ ~ savable r
    end.
  Definition there (X : gset string) (h : string) : Prop := has_shape h s0 = true \/ h ∈ X.

  Lemma save_list_outcome (l : list ref) D X s :
    (forall r, r ∈ l -> forall D X s, saved s0 X s -> closed_but s0 D X -> sound X ->
       outcome D X (fun X' => there X' (rhid r)) (save_ref r s)) ->
    saved s0 X s -> closed_but s0 D X -> sound X ->
    outcome D X (fun X' => forall r, r ∈ l -> there X' (rhid r)) (iterM save_ref l s).
  Proof.
    revert X s. induction l as [|r l IH]; intros X s Hl H1 H2 H3; cbn [iterM].
    - exists X. split_and!; try done. by intros r ?%elem_of_nil.
    - unfold bindM. pose proof (Hl r (elem_of_list_here _ _) D X s H1 H2 H3) as Ho.
      destruct (save_ref r s) as [[u|e] s1]; cbn in Ho; [|done].
      destruct Ho as (X1 & Hs1 & K1 & K2 & K3 & K4).
      assert (Hl' : forall r, r ∈ l -> forall D X s, saved s0 X s -> closed_but s0 D X -> sound X ->
         outcome D X (fun X' => there X' (rhid r)) (save_ref r s)) by (intros; apply Hl; [by right|done..]).
      specialize (IH X1 s1 Hl' K1 K2 K3). destruct (iterM save_ref l s1) as [[u'|e] s2]; [|done].
      destruct IH as (X2 & Hs2 & L1 & L2 & L3 & L4). exists X2. split_and!; try done; [by etrans|].
      intros r' [->|Hr']%elem_of_cons; [|by apply L4]. destruct K4; [by left|right; by apply Hs2].
  Qed.

  Lemma iterM_snd {X} (f : X -> M st unit) (l : list (string * X)) s : iterM (fun kr => f kr.2) l s = iterM f (map snd l) s.
  Proof. revert s. induction l as [|x l IH]; intros s; [done|]. cbn [iterM map]. unfold bindM. destruct (f x.2 s) as [[u|e] s1]; [apply IH|done]. Qed.

  Lemma save_ref_unfold r s : save_ref r s =
    if has_shape (rhid r) s then (Ok tt, s)
    else if decide (savable r) then
      iterM save_ref (elements_of r) (set_shape (rhid r) (shape_of r) (match r with RAtom c h (Some v) => (set_atom c v s).2 | _ => s end)).2
    else (Err ETypeError, s).
  Proof.
    destruct r as [c h o|c h [l|]|c h [l|]]; cbn [save_ref]; unfold if_st; cbn [rhid]; destruct (has_shape h s); try done; cbn [elements_of].
    - destruct o; [|done]. done.
    - rewrite decide_True by done. unfold bindM. cbn [shape_of]. exact (iterM_snd save_ref l _).
  Qed.

  Lemma save_ref_outcome r : forall D X s, r ∈ all -> (has_shape (rhid r) s0 = false -> needed roots s0 r) ->
    saved s0 X s -> closed_but s0 D X -> sound X ->
    outcome D X (fun X' => there X' (rhid r)) (save_ref r s).
  Proof.
    remember (length (nodes r)) as n eqn:En. revert r En. induction n as [n IH] using lt_wf_ind. intros r -> D X s Hr Hneed Hs Hc Hsd. rewrite save_ref_unfold.
    destruct (has_shape (rhid r) s) eqn:Eh.
    { exists X. split_and!; try done. rewrite (saved_has _ _ _ _ Hs) in Eh. apply orb_true_iff in Eh as [E|E]; [right|by left].
      by apply bool_decide_eq_true in E. }
    assert (E0 : has_shape (rhid r) s0 = false) by (rewrite (saved_has _ _ _ _ Hs) in Eh; by apply orb_false_iff in Eh as [_ ?]).
    specialize (Hneed E0).
    destruct (decide (savable r)) as [Hsv|Hsv]; [|by exists r].
    set (s1 := (set_shape (rhid r) _ _).2).
    assert (Hs1 : saved s0 ({[rhid r]} ∪ X) s1) by by apply saved_add.
    assert (Hx : rhid r ∉ X).
    { rewrite (saved_has _ _ _ _ Hs) in Eh. apply orb_false_iff in Eh as [E _]. by apply bool_decide_eq_false in E. }
    assert (Ho : outcome ({[rhid r]} ∪ D) ({[rhid r]} ∪ X) (fun X' => forall e, e ∈ elements_of r -> there X' (rhid e)) (iterM save_ref (elements_of r) s1)).
    { apply save_list_outcome; [|done| |].
      - intros e He D' X' s' K1 K2 K3. eapply (IH (length (nodes e))); try done.
        + destruct r as [c h o|c h [l|]|c h [l|]]; cbn [elements_of] in He; try by apply elem_of_nil in He.
          * cbn [nodes length]. apply elem_of_list_split in He as (l1 & l2 & ->). rewrite map_app, concat_app. cbn.
            rewrite !app_length. lia.
          * cbn [nodes length]. apply elem_of_list_fmap in He as (ke & -> & He). apply elem_of_list_split in He as (l1 & l2 & ->).
            rewrite map_app, concat_app. cbn. rewrite !app_length. lia.
        + by eapply all_closed.
        + intros Ee. by eapply nd_elem.
      - intros r' e Hr' Hin Hd He. destruct (decide (rhid r' = rhid r)) as [E|Hn]; [rewrite E in *; set_solver|].
        destruct (Hc r' e) as [K|K]; try done; [set_solver..|by left|right; set_solver].
      - intros h [->%elem_of_singleton|Hh]%elem_of_union; [by exists r|by apply Hsd]. }
    destruct (iterM save_ref (elements_of r) s1) as [[u|e] s2]; [|done].
    destruct Ho as (X2 & K0 & K1 & K2 & K3 & K4). exists X2. split_and!; try done.
    - set_solver.
    - intros r' e Hr' Hin Hd He. destruct (decide (rhid r' = rhid r)) as [E|Hn].
      + assert (r' = r) as -> by by apply all_refs. destruct (K4 e He); [by left|by right].
      + apply (K2 r' e); try done. set_solver.
    - right. set_solver.
  Qed.

  Lemma save_all_outcome l X s : (forall r, r ∈ l -> r ∈ all /\ r ∈ roots) ->
    saved s0 X s -> closed_but s0 ∅ X -> sound X ->
    outcome ∅ X (fun X' => forall r, r ∈ l -> there X' (rhid r)) (iterM save_ref l s).
  Proof.
    intros Hl Hs Hc Hsd. apply save_list_outcome; try done.
    intros r Hr D' X' s' K1 K2 K3. destruct (Hl r Hr). apply save_ref_outcome; try done.
    intros E. by apply nd_root.
  Qed.

  (** everything needed is saved at the end *)
  Lemma needed_complete X : (forall r, r ∈ roots -> r ∈ all) -> closed_but s0 ∅ X -> (forall r, r ∈ roots -> there X (rhid r)) ->
    forall r, needed roots s0 r -> r ∈ all /\ rhid r ∈ X.
  Proof.
    intros Hra Hc Hroot r Hn. induction Hn as [r Hr Hh|r e Hn IH He Hh].
    - split; [by apply Hra|]. destruct (Hroot r Hr) as [E|E]; [congruence|done].
    - destruct IH as [IH1 IH2]. split; [by eapply all_closed|].
      destruct (Hc r e) as [E|E]; [done..| |congruence|done]. set_solver.
  Qed.
End order.

Lemma saved_same all s0 X s s' :
  (forall r r', r ∈ all -> r' ∈ all -> rhid r = rhid r' -> r = r') ->
  saved all s0 X s -> saved all s0 X s' -> t_shapes (s_tabs s) = t_shapes (s_tabs s') /\ t_atoms (s_tabs s) = t_atoms (s_tabs s').
Proof.
  intros Hrefs [S1 S2 S3 S4 S5 S6 S7 S8 S9] [T1 T2 T3 T4 T5 T6 T7 T8 T9]. split.
  - destruct (t_shapes (s_tabs s)) as [c d p] eqn:E, (t_shapes (s_tabs s')) as [c' d' p'] eqn:E'. cbn in *. f_equal; [|congruence..].
    apply map_eq. intros h. destruct (decide (h ∈ X)) as [Hx|Hx].
    + destruct (S1 h Hx) as (r & Hr & <- & _). by rewrite S2, T2.
    + by rewrite S3, T3.
  - assert (Hcase : forall c, (exists h v, RAtom c h (Some v) ∈ all /\ h ∈ X) \/ (forall h v, RAtom c h (Some v) ∈ all -> h ∉ X)).
    { intros c. set (P := fun r => match r with RAtom c' h (Some _) => c' = c /\ h ∈ X | _ => False end).
      assert (forall r, Decision (P r)) as Hd by (intros [c' h [v|]| |]; apply _).
      destruct (decide (Exists P all)) as [Ex|Ex].
      - apply Exists_exists in Ex as ([c' h [v|]| |] & Hin & HP); try done. destruct HP as [-> HP]. left. eauto.
      - right. intros h v Hin Hx. apply Ex. apply Exists_exists. exists (RAtom c h (Some v)). done. }
    destruct (t_atoms (s_tabs s)) as [c d p] eqn:E, (t_atoms (s_tabs s')) as [c' d' p'] eqn:E'. cbn in *. f_equal; [| |congruence].
    + apply map_eq. intros k. destruct (Hcase k) as [(h & v & Hin & Hx)|Hno].
      * destruct (S6 k h v), (T6 k h v); try done. congruence.
      * destruct (S7 k Hno), (T7 k Hno). congruence.
    + apply set_eq. intros k. destruct (Hcase k) as [(h & v & Hin & Hx)|Hno].
      * destruct (S6 k h v), (T6 k h v); done.
      * destruct (S7 k Hno) as [_ ->], (T7 k Hno) as [_ ->]. done.
Qed.

(** ** Calls *)
Record rest_kept (s s' : st) : Prop := {
  rk_ops : t_ops (s_tabs s') = t_ops (s_tabs s); rk_calls : t_calls (s_tabs s') = t_calls (s_tabs s);
  rk_rest : s_alias s' = s_alias s /\ s_allow s' = s_allow s /\ s_log s' = s_log s }.
Local Instance rest_kept_pre : PreOrder rest_kept.
Proof. split; [by intros s|]. intros s1 s2 s3 [? ? (? & ? & ?)] [? ? (? & ? & ?)]. split; [congruence..|]. split_and!; congruence. Qed.
Lemma save_ref_rest r : inR rest_kept (save_ref r).
Proof.
  induction r as [c h o|c h|c h l IH|c h|c h l IH] using ref_ind'; cbn [save_ref]; unfold if_st;
    (apply inR_if; [apply inR_ret; apply _|]); try (apply inR_raise; apply _).
  - apply inR_bind; [apply _| |by intros ? s]. destruct o; [by intros s|apply inR_ret; apply _].
  - apply inR_bind; [apply _|by intros s|]. intros ?. apply inR_iterM; [apply _|]. by rewrite Forall_forall in IH.
  - apply inR_bind; [apply _|by intros s|]. intros ?. apply inR_iterM; [apply _|]. by rewrite Forall_forall in IH.
Qed.

Lemma upsert_rows_for r t hid : rows_for hid (upsert r t) = if decide (r_hid r = hid) then upsert r (rows_for hid t) else rows_for hid t.
Proof.
  unfold rows_for. induction t as [|r' t IH]; cbn [upsert].
  - rewrite filter_cons, filter_nil. by destruct (decide (r_hid r = hid)).
  - destruct (decide (same_key r r')) as [[E1 E2]|Hn].
    + rewrite !filter_cons. destruct (decide (r_hid r = hid)) as [E|E].
      * rewrite decide_True by congruence. cbn [upsert]. by rewrite decide_True by done.
      * by rewrite decide_False by congruence.
    + rewrite !filter_cons. destruct (decide (r_hid r' = hid)) as [E'|E'].
      * rewrite IH. destruct (decide (r_hid r = hid)); [|done]. cbn [upsert]. by rewrite (decide_False Hn) || by rewrite decide_False.
      * rewrite IH. done.
Qed.
Lemma fold_upsert_rows_for rows t hid hid' : (forall r, r ∈ rows -> r_hid r = hid') ->
  rows_for hid (fold_left (fun t r => upsert r t) rows t) =
  if decide (hid' = hid) then fold_left (fun t r => upsert r t) rows (rows_for hid t) else rows_for hid t.
Proof.
  revert t. induction rows as [|r rows IH]; intros t Hr; cbn [fold_left]; [by destruct (decide _)|].
  rewrite IH by (intros; apply Hr; by right). rewrite upsert_rows_for, (Hr r) by left.
  by destruct (decide (hid' = hid)).
Qed.

Local Arguments rows_for : simpl never.
Local Arguments rows_of : simpl never.
Section calls.
  Context (fam : list call) (s0 : st).
  Hypothesis Hcons : consistent fam.
  Definition is_new (c : call) : Prop := has_call (c_hid c) s0 = false.
  Definition fam_nodes := concat (map nodes (concat (map call_refs fam))).
  Definition new_roots := concat (map call_refs (filter is_new fam)).

  Record csaved (Y Z : gset string) (s : st) : Prop := {
    cs_new : forall h, h ∈ Y -> exists c, c ∈ fam /\ c_hid c = h /\ is_new c;
    cs_hids : mc_hids (cc_cache (t_calls (s_tabs s))) = Y ∪ mc_hids (cc_cache (t_calls (s_tabs s0)));
    cs_dirty : cc_dirty (t_calls (s_tabs s)) = Y ∪ cc_dirty (t_calls (s_tabs s0));
    cs_pers : cc_pers (t_calls (s_tabs s)) = cc_pers (t_calls (s_tabs s0));
    cs_rows : forall c, c ∈ fam -> c_hid c ∈ Y -> rows_for (c_hid c) (mc_rows (cc_cache (t_calls (s_tabs s)))) =
      fold_left (fun t r => upsert r t) (rows_of (cdata_of c)) (rows_for (c_hid c) (mc_rows (cc_cache (t_calls (s_tabs s0)))));
    cs_rows_old : forall h, h ∉ Y -> rows_for h (mc_rows (cc_cache (t_calls (s_tabs s)))) =
      rows_for h (mc_rows (cc_cache (t_calls (s_tabs s0))));
    os_in : forall n, n ∈ Z -> has_op n s0 = false;
    os_new : forall c, c ∈ fam -> op_name (c_op c) ∈ Z -> cd_cache (t_ops (s_tabs s)) !! op_name (c_op c) = Some (c_op c);
    os_fam : forall n, n ∈ Z -> exists c, c ∈ fam /\ op_name (c_op c) = n;
    os_old : forall n, n ∉ Z -> cd_cache (t_ops (s_tabs s)) !! n = cd_cache (t_ops (s_tabs s0)) !! n;
    os_dirty : cd_dirty (t_ops (s_tabs s)) = Z ∪ cd_dirty (t_ops (s_tabs s0));
    os_pers : cd_pers (t_ops (s_tabs s)) = cd_pers (t_ops (s_tabs s0));
    os_rest : s_alias s = s_alias s0 /\ s_allow s = s_allow s0 /\ s_log s = s_log s0;
  }.
  Lemma csaved_has Y Z s h : csaved Y Z s -> has_call h s = bool_decide (h ∈ Y) || has_call h s0.
  Proof.
    intros Hs. unfold has_call, cc_exists, mc_exists. rewrite (cs_pers _ _ _ Hs), (cs_hids _ _ _ Hs).
    rewrite (bool_decide_ext (h ∈ Y ∪ _) _ (elem_of_union _ _ _)). rewrite bool_decide_or. by rewrite orb_assoc.
  Qed.
  Lemma csaved_has_op Y Z s n : csaved Y Z s -> has_op n s = bool_decide (n ∈ Z) || has_op n s0.
  Proof.
    intros Hs. unfold has_op, cd_exists. rewrite (os_pers _ _ _ Hs).
    destruct (decide (n ∈ Z)) as [Hx|Hx].
    - destruct (os_fam _ _ _ Hs _ Hx) as (c & Hc & <-). rewrite (os_new _ _ _ Hs c) by done.
      rewrite (bool_decide_eq_true_2 (_ ∈ Z)) by done. rewrite bool_decide_eq_true_2; [done|by eexists].
    - rewrite (os_old _ _ _ Hs) by done. by rewrite (bool_decide_eq_false_2 (n ∈ Z)).
  Qed.

  (** the state after some of the calls [l] have been saved *)
  Definition progress (l : list call) (s : st) : Prop :=
    (forall c, c ∈ l -> c ∈ fam) /\
    exists X Y Z, saved fam_nodes s0 X s /\ closed_but fam_nodes s0 ∅ X /\ sound fam_nodes new_roots s0 X /\ csaved Y Z s /\
      (forall h, h ∈ Y <-> exists c, c ∈ l /\ is_new c /\ c_hid c = h) /\
      (forall n, n ∈ Z <-> has_op n s0 = false /\ exists c, c ∈ l /\ is_new c /\ op_name (c_op c) = n) /\
      (forall c r, c ∈ l -> is_new c -> r ∈ call_refs c -> there s0 X (rhid r)).
  Definition stuck : Prop := exists r, r ∈ fam_nodes /\ needed new_roots s0 r /\ ~ savable r.

  Lemma fam_closed r e : r ∈ fam_nodes -> e ∈ elements_of r -> e ∈ fam_nodes.
  Proof.
    unfold fam_nodes. intros Hr He. apply elem_of_list_In, in_concat in Hr as (n & Hn & Hr). apply elem_of_list_In, in_concat.
    exists n. split; [done|]. apply in_map_iff in Hn as (r0 & <- & Hr0). apply elem_of_list_In.
    apply nodes_closed with r; [by apply elem_of_list_In|done].
  Qed.
  Lemma fam_root c r : c ∈ fam -> r ∈ call_refs c -> r ∈ fam_nodes.
  Proof.
    intros Hc Hr. unfold fam_nodes. apply elem_of_list_In, in_concat. exists (nodes r). split; [|apply elem_of_list_In, nodes_self].
    apply in_map, in_concat. exists (call_refs c). split; [apply in_map; by apply elem_of_list_In|by apply elem_of_list_In].
  Qed.
  Lemma new_root c r : c ∈ fam -> is_new c -> r ∈ call_refs c -> r ∈ new_roots.
  Proof.
    intros Hc Hn Hr. unfold new_roots. apply elem_of_list_In, in_concat. exists (call_refs c). split; [|by apply elem_of_list_In].
    apply in_map. apply elem_of_list_In, elem_of_list_filter. done.
  Qed.
  Lemma new_roots_inv r : r ∈ new_roots -> exists c, c ∈ fam /\ is_new c /\ r ∈ call_refs c.
  Proof.
    unfold new_roots. intros (n & Hn & Hr)%elem_of_list_In%in_concat. apply in_map_iff in Hn as (c & <- & Hc).
    apply elem_of_list_In, elem_of_list_filter in Hc as [? ?]. exists c. split_and!; [done..|by apply elem_of_list_In].
  Qed.

  Lemma save_call_progress c l s : c ∈ fam -> progress l s ->
    match save_call c s with (Ok _, s') => progress (l ++ [c]) s' | (Err _, _) => stuck end.
  Proof.
    intros Hc (Hl & X & Y & Z & S1 & S2 & S3 & S4 & HY & HZ & HX).
    assert (Hl' : forall c', c' ∈ l ++ [c] -> c' ∈ fam) by (intros c' [?| ->%elem_of_list_singleton]%elem_of_app; auto).
    unfold save_call, if_st. destruct (has_call (c_hid c) s) eqn:Eh.
    { assert (Hin : is_new c -> c ∈ l).
      { intros Hn. rewrite (csaved_has _ _ _ _ S4), Hn, orb_false_r in Eh. apply bool_decide_eq_true in Eh.
        apply HY in Eh as (c2 & Hc2 & Hn2 & E2). by rewrite <-(co_calls _ Hcons c2 c) by auto. }
      assert (Hsame : forall c', is_new c' -> c' ∈ l ++ [c] <-> c' ∈ l).
      { intros c' Hn. rewrite elem_of_app, elem_of_list_singleton. split; [intros [?| ->]; auto|auto]. }
      split; [done|]. exists X, Y, Z. split_and!; try done.
      - intros h. rewrite HY. split; intros (c1 & ? & ? & ?); exists c1; (split_and!; [by apply Hsame|done..]).
      - intros n. rewrite HZ. split; intros (? & c1 & ? & ? & ?); (split; [done|]); exists c1; (split_and!; [by apply Hsame|done..]).
      - intros c1 r Hc1 Hn1. apply HX; [by apply Hsame|done]. }
    assert (Hnew : is_new c /\ c_hid c ∉ Y).
    { rewrite (csaved_has _ _ _ _ S4) in Eh. apply orb_false_iff in Eh as [E1 E2]. by apply bool_decide_eq_false in E1. }
    destruct Hnew as [Hnew HcY]. set (name := op_name (c_op c)).
    set (Z1 := if has_op name s then Z else {[name]} ∪ Z).
    unfold bindM at 1.
    assert (exists s1, (if has_op name s then retM tt s else set_op name (c_op c) s) = (Ok tt, s1) /\
              csaved Y Z1 s1 /\ t_atoms (s_tabs s1) = t_atoms (s_tabs s) /\ t_shapes (s_tabs s1) = t_shapes (s_tabs s)) as (s1 & E1 & Hcs1 & Ea & Es).
    { unfold Z1. destruct (has_op name s) eqn:Eo; [by exists s|]. eexists. split; [reflexivity|]. split; [|done].
      rewrite (csaved_has_op _ _ _ _ S4) in Eo. apply orb_false_iff in Eo as [Eo1 Eo2]. apply bool_decide_eq_false in Eo1.
      destruct S4 as [C1 C2 C3 C4 C5 C6 O1 O2 O3 O4 O5 O6 O7]. split; cbn; try done.
      - intros n [->%elem_of_singleton|?]%elem_of_union; [done|by apply O1].
      - intros c' Hc' Hin. destruct (decide (op_name (c_op c') = name)) as [E|Hn].
        + rewrite E, lookup_insert. f_equal. symmetry. by apply (co_ops _ Hcons).
        + rewrite lookup_insert_ne by done. apply O2; [done|]. set_solver.
      - intros n [->%elem_of_singleton|?]%elem_of_union; [by exists c|by apply O3].
      - intros n Hn. rewrite lookup_insert_ne by set_solver. apply O4. set_solver.
      - rewrite O5. by rewrite assoc_L by apply _. }
    rewrite E1. unfold bindM at 1.
    assert (Hsv1 : saved fam_nodes s0 X s1).
    { destruct S1 as [T1 T2 T3 T4 T5 T6 T7 T8 T9]. split; rewrite ?Ea, ?Es; done. }
    pose proof (save_all_outcome fam_nodes fam_closed (co_refs _ Hcons) (co_atoms _ Hcons) new_roots s0
      (map snd (c_ins c) ++ map snd (c_outs c)) X s1) as Ho.
    assert (Hk : inR rest_kept (iterM save_ref (map snd (c_ins c) ++ map snd (c_outs c)))).
    { apply inR_iterM; [apply _|]. intros; apply save_ref_rest. }
    specialize (Hk s1).
    destruct (iterM save_ref (map snd (c_ins c) ++ map snd (c_outs c)) s1) as [[u|e] s2]; cbn in Hk.
    2:{ apply Ho; try done. intros r Hr. split; [by eapply fam_root|by eapply new_root]. }
    destruct Ho as (X2 & K0 & K1 & K2 & K3 & K4); try done.
    { intros r Hr. split; [by eapply fam_root|by eapply new_root]. }
    destruct Hk as [R1 R2 R3]. cbn. split; [done|]. exists X2, ({[c_hid c]} ∪ Y), Z1. split_and!; try done.
    - destruct K1 as [T1 T2 T3 T4 T5 T6 T7 T8 T9]. by split.
    - destruct Hcs1 as [C1 C2 C3 C4 C5 C6 O1 O2 O3 O4 O5 O6 O7].
      assert (Hnot : d_hid (cdata_of c) ∉ mc_hids (cc_cache (t_calls (s_tabs s2)))).
      { cbn. rewrite R2. unfold has_call, cc_exists in Eh. apply orb_false_iff in Eh as [Eh _].
        apply bool_decide_eq_false in Eh. rewrite C2. rewrite (cs_hids _ _ _ S4) in Eh. done. }
      assert (Hsave : exists rows, cc_save (cdata_of c) (t_calls (s_tabs s2)) =
          CCalls (MCalls rows ({[c_hid c]} ∪ mc_hids (cc_cache (t_calls (s_tabs s1))))) ({[c_hid c]} ∪ cc_dirty (t_calls (s_tabs s1))) (cc_pers (t_calls (s_tabs s1))) /\
          forall h, rows_for h rows = if decide (c_hid c = h) then fold_left (fun t r => upsert r t) (rows_of (cdata_of c)) (rows_for h (mc_rows (cc_cache (t_calls (s_tabs s1)))))
                                      else rows_for h (mc_rows (cc_cache (t_calls (s_tabs s1))))).
      { eexists. unfold cc_save, mc_save. rewrite decide_False by done. rewrite R2. split; [reflexivity|].
        intros h. apply fold_upsert_rows_for. intros r Hr. by apply rows_of_hid in Hr. }
      destruct Hsave as (rows & Hsave & Hrows). rewrite Hsave. clear Hsave.
      split; cbn; rewrite ?R1; try done.
      + intros h [->%elem_of_singleton|?]%elem_of_union; [by exists c|by apply C1].
      + rewrite C2. by rewrite assoc_L by apply _.
      + rewrite C3. by rewrite assoc_L by apply _.
      + intros c' Hc' Hin. rewrite Hrows. destruct (decide (c_hid c = c_hid c')) as [E|Hn].
        * assert (c = c') as <- by by apply (co_calls _ Hcons). by rewrite C6 by done.
        * apply C5; [done|]. set_solver.
      + intros h Hh. rewrite Hrows. rewrite decide_False by set_solver. apply C6. set_solver.
      + destruct R3 as (? & ? & ?), O7 as (? & ? & ?). split_and!; congruence.
    - intros h. rewrite elem_of_union, elem_of_singleton, HY. setoid_rewrite elem_of_app. setoid_rewrite elem_of_list_singleton. split.
      + intros [->|(c1 & ? & ? & ?)]; [by exists c; auto|exists c1; auto].
      + intros (c1 & [?| ->] & ? & <-); [right; by exists c1|by left].
    - intros n. unfold Z1. rewrite (csaved_has_op _ _ _ _ S4). setoid_rewrite elem_of_app. setoid_rewrite elem_of_list_singleton.
      destruct (bool_decide (name ∈ Z) || has_op name s0) eqn:Eo.
      + rewrite HZ. split; intros (Hn & c1 & Hc1 & Hn1 & E); (split; [done|]).
        * exists c1. auto.
        * destruct Hc1 as [Hc1| ->]; [by exists c1|]. subst n.
          apply orb_true_iff in Eo as [Eo|Eo]; [|unfold name in Eo; congruence]. apply bool_decide_eq_true in Eo. by apply HZ in Eo as [_ Eo].
      + apply orb_false_iff in Eo as [Eo1 Eo2]. rewrite elem_of_union, elem_of_singleton, HZ. split.
        * intros [->|(Hn & c1 & ? & ? & ?)]; [split; [done|]; exists c; auto|]. split; [done|]. exists c1; auto.
        * intros (Hn & c1 & [?| ->] & ? & <-); [right; split; [done|]; by exists c1|by left].
    - intros c1 r [Hc1| ->%elem_of_list_singleton]%elem_of_app Hn1 Hr.
      + destruct (HX c1 r Hc1 Hn1 Hr); [by left|right; by apply K0].
      + by apply K4.
  Qed.

  Lemma save_calls_progress cs l s : (forall c, c ∈ cs -> c ∈ fam) -> progress l s ->
    match iterM save_call cs s with (Ok _, s') => progress (l ++ cs) s' | (Err _, _) => stuck end.
  Proof.
    revert l s. induction cs as [|c cs IH]; intros l s Hcs Hp; cbn [iterM].
    - by rewrite app_nil_r.
    - unfold bindM. pose proof (save_call_progress c l s (Hcs c (elem_of_list_here _ _)) Hp) as H1.
      destruct (save_call c s) as [[u|e] s1]; [|done].
      specialize (IH (l ++ [c]) s1 (fun c' Hc' => Hcs c' (elem_of_list_further _ _ _ Hc')) H1).
      rewrite <-app_assoc in IH. done.
  Qed.
  Lemma progress_nil : progress [] s0.
  Proof.
    split; [by intros c ?%elem_of_nil|]. exists ∅, ∅, ∅. split_and!.
    - apply saved_nil.
    - intros r e _ Hx. by apply elem_of_empty in Hx.
    - intros h Hh. by apply elem_of_empty in Hh.
    - split; try done; try (by intros ? Hx%elem_of_empty); try (by intros ? ? Hx%elem_of_empty); by rewrite left_id_L by apply _.
    - intros h. split; [by intros ?%elem_of_empty|by intros (c & ?%elem_of_nil & _)].
    - intros h. split; [by intros ?%elem_of_empty|by intros (_ & c & ?%elem_of_nil & _)].
    - by intros c r ?%elem_of_nil.
  Qed.

  Lemma progress_same l l' s s' : (forall c, c ∈ l <-> c ∈ fam) -> (forall c, c ∈ l' <-> c ∈ fam) ->
    progress l s -> progress l' s' -> same_tables s s'.
  Proof.
    intros Hl Hl' (_ & X & Y & Z & S1 & S2 & S3 & S4 & HY & HZ & HX) (_ & X' & Y' & Z' & S1' & S2' & S3' & S4' & HY' & HZ' & HX').
    assert (Hcompl : forall (X : gset string) (l : list call), closed_but fam_nodes s0 ∅ X -> (forall c, c ∈ l <-> c ∈ fam) ->
      (forall c r, c ∈ l -> is_new c -> r ∈ call_refs c -> there s0 X (rhid r)) -> forall r, needed new_roots s0 r -> r ∈ fam_nodes /\ rhid r ∈ X).
    { intros X1 l1 K1 K2 K3. apply needed_complete; try done.
      - apply fam_closed.
      - intros r (c & ? & ? & ?)%new_roots_inv. by eapply fam_root.
      - intros r (c & ? & ? & ?)%new_roots_inv. apply (K3 c); try done. by apply K2. }
    assert (X = X') as <-.
    { apply set_eq. intros h. split; intros Hh.
      - apply S3 in Hh as (r & ? & <- & Hn). by apply (Hcompl X' l').
      - apply S3' in Hh as (r & ? & <- & Hn). by apply (Hcompl X l). }
    assert (Y = Y') as <-.
    { apply set_eq. intros h. rewrite HY, HY'. split; intros (c & Hc & ?); exists c; (split; [by apply Hl', Hl in Hc || by apply Hl, Hl' in Hc|done]). }
    assert (Z = Z') as <-.
    { apply set_eq. intros h. rewrite HZ, HZ'. split; intros (? & c & Hc & ?); (split; [done|]); exists c; (split; [by apply Hl', Hl in Hc || by apply Hl, Hl' in Hc|done]). }
    destruct (saved_same _ _ _ _ _ (co_refs _ Hcons) S1 S1') as [E1 E2].
    destruct S4 as [C1 C2 C3 C4 C5 C6 O1 O2 O3 O4 O5 O6 O7], S4' as [C1' C2' C3' C4' C5' C6' O1' O2' O3' O4' O5' O6' O7'].
    split; try done; try congruence.
    - destruct (t_ops (s_tabs s)) as [c d p], (t_ops (s_tabs s')) as [c' d' p']. cbn in *. f_equal; [|congruence..].
      apply map_eq. intros n. destruct (decide (n ∈ Z)) as [Hn|Hn].
      + destruct (O3 n Hn) as (c1 & ? & <-). by rewrite O2, O2'.
      + by rewrite O4, O4'.
    - intros hid. destruct (decide (hid ∈ Y)) as [Hn|Hn].
      + destruct (C1 hid Hn) as (c1 & ? & <- & _). by rewrite C5, C5'.
      + by rewrite C6, C6'.
    - destruct O7 as (? & ? & ?), O7' as (? & ? & ?). split_and!; congruence.
  Qed.
  Lemma progress_not_stuck l s : (forall c, c ∈ l <-> c ∈ fam) -> progress l s -> ~ stuck.
  Proof.
    intros Hl (_ & X & Y & Z & S1 & S2 & S3 & S4 & HY & HZ & HX) (r & Hr & Hn & Hsv).
    destruct (needed_complete fam_nodes fam_closed new_roots s0 X) with r as [_ Hx]; try done.
    - intros r' (c & ? & ? & ?)%new_roots_inv. by eapply fam_root.
    - intros r' (c & ? & ? & ?)%new_roots_inv. apply (HX c); try done. by apply Hl.
    - destruct (sv_in _ _ _ _ S1 _ Hx) as (r' & Hr' & E & Hsv' & _). apply Hsv. by rewrite <-(co_refs _ Hcons r' r).
  Qed.
End calls.

Theorem save_order cs cs' s s1 : consistent cs -> (forall c, c ∈ cs <-> c ∈ cs') ->
  iterM save_call cs s = (Ok tt, s1) -> exists s2, iterM save_call cs' s = (Ok tt, s2) /\ same_tables s1 s2.
Proof.
  intros Hc Hcs E.
  pose proof (save_calls_progress cs s Hc cs [] s (fun _ h => h) (progress_nil cs s)) as H1. rewrite E in H1.
  pose proof (save_calls_progress cs s Hc cs' [] s (fun c h => proj2 (Hcs c) h) (progress_nil cs s)) as H2.
  destruct (iterM save_call cs' s) as [[[]|e] s2].
  - exists s2. split; [done|]. eapply (progress_same cs s Hc); [| |exact H1|exact H2]; [done|]. intros c. by rewrite Hcs.
  - by apply (progress_not_stuck cs s Hc _ s1) in H1.
Qed.
