From stdpp Require Import base gmap list numbers.
From Verif Require Import Contexts Spec_Contexts.

Lemma stor_of_set i t s : stor_of (set_stor i t s) i = t.
Proof. unfold stor_of, set_stor. cbn. by rewrite lookup_insert. Qed.
Lemma stor_of_set_ne i j t s : i <> j -> stor_of (set_stor i t s) j = stor_of s j.
Proof. intros. unfold stor_of, set_stor. cbn. by rewrite lookup_insert_ne. Qed.

Lemma stor_commit i j s : stor_of (do_commit j s).2 i = stor_of s i. Proof. done. Qed.
Lemma stor_cur i c s : stor_of (set_cur c s) i = stor_of s i. Proof. done. Qed.

(** The state in which storage [i] has the given stack, no hooks, and the current context is [cur]. *)
Record at_ (i : nat) (cur : option nat) (l : list mode) (cs : list bool) (tr : list event) (s : cstate) : Prop := At {
  at_cur : cx_cur s = cur;
  at_stack : st_stack (stor_of s i) = l;
  at_next : st_next (stor_of s i) = top l;
  at_hooks : st_hooks (stor_of s i) = [];
  at_cs : cx_commits s = cs;
  at_syncs : cx_syncs s = [];
  at_tr : cx_trace s = tr }.

Definition cur_of (i : nat) (l : list mode) : option nat := match l with [] => None | _ => Some i end.
Definition lex_of (i : nat) (l : list mode) : option (nat * mode) := match l with [] => None | m :: _ => Some (i, m) end.

(** From here on the storages other than [i] are untouched, so only [at_] matters. *)
Lemma enter_at i s cur l cs tr m : at_ i cur l cs tr s ->
  exists s', enter i (match m with Some m => call_mode i m s | None => s end) = (true, s') /\
             at_ i (Some i) (default (top l) m :: l) cs tr s'.
Proof.
  intros [H1 H2 H3 H4 H5 H6 H7].
  destruct m as [m|]; cbn; unfold enter, do_sync; cbn; rewrite H6; eexists; split; try reflexivity; split; cbn; try done.
  all: unfold stor_of, call_mode, set_stor; cbn; rewrite ?lookup_insert; cbn; rewrite ?lookup_insert; cbn;
    unfold stor_of in *; try congruence.
Qed.

Lemma exit_stor i s m l : st_stack (stor_of s i) = m :: l -> st_hooks (stor_of s i) = [] ->
  exit_ i s = match l with
    | [] => ((next_ok (cx_commits s)).1, set_stor i (Stor [] MRun []) (set_cur None (do_commit i s).2))
    | m' :: _ => (true, set_stor i (Stor l m' []) s)
    end.
Proof.
  intros H2 H4. unfold exit_. rewrite H2. destruct l as [|m' l].
  - rewrite bool_decide_eq_true_2 by done. destruct (do_commit i s) as [ok s1] eqn:E.
    assert (Es : stor_of s1 i = stor_of s i) by (by rewrite <- (stor_commit i i s), E).
    rewrite Es, H4. cbn. unfold pop_mode. rewrite stor_cur, Es, H2, H4. cbn. rewrite andb_true_r. f_equal.
    unfold do_commit in E. by injection E as <- _.
  - rewrite bool_decide_eq_false_2 by (cbn; lia). unfold pop_mode. rewrite H2, H4. done.
Qed.

Lemma exit_at i s cur m l cs tr : at_ i cur (m :: l) cs tr s ->
  exists s', match l with
    | [] => exit_ i s = ((next_ok cs).1, s') /\ at_ i None [] (next_ok cs).2 (tr ++ [EvCommit i (next_ok cs).1]) s'
    | _ => exit_ i s = (true, s') /\ at_ i cur l cs tr s'
    end.
Proof.
  intros [H1 H2 H3 H4 H5 H6 H7]. rewrite (exit_stor _ _ _ _ H2 H4). destruct l as [|m' l].
  - rewrite H5. eexists. split; [done|]. split; cbn; rewrite ?stor_of_set; cbn; try done; by rewrite ?H7, ?H5.
  - eexists. split; [done|]. split; cbn; rewrite ?stor_of_set; cbn; done.
Qed.

Lemma call_mode_at i s cur l cs tr m : at_ i cur l cs tr s -> l <> [] ->
  forall m' s', exit_ i s = (m', s') -> exists m'' s'', exit_ i (call_mode i m s) = (m'', s'') /\ m'' = m' /\
    forall cur l cs tr, at_ i cur l cs tr s' -> at_ i cur l cs tr s''.
Proof.
  intros [H1 H2 H3 H4 H5 H6 H7] Hl m' s'. destruct l as [|m0 l]; [done|].
  assert (HS : stor_of (call_mode i m s) i = Stor (m0 :: l) m []).
  { unfold call_mode. rewrite stor_of_set. by rewrite H2, H4. }
  rewrite (exit_stor _ _ _ _ H2 H4). rewrite (exit_stor i (call_mode i m s) m0 l) by (by rewrite HS).
  destruct l as [|m1 l]; intros [= <- <-]; eexists _, _; (split; [done|]); (split; [done|]);
    intros cur' l' cs' tr' [G1 G2 G3 G4 G5 G6 G7]; cbn in *; rewrite !stor_of_set in *; split; cbn; rewrite ?stor_of_set; cbn in *; done.
Qed.

Local Arguments enter : simpl never.
Local Arguments exit_ : simpl never.
Local Arguments call_mode : simpl never.
Local Arguments noop_enter : simpl never.
Local Arguments noop_exit : simpl never.
Local Arguments with_ : simpl never.
Lemma one_storage i p : only_stor i p -> forall l cs tr s, at_ i (cur_of i l) l cs tr s ->
  exists s', crun p s = ((lex_run p (lex_of i l) cs).1.1, s') /\
             at_ i (cur_of i l) l (lex_run p (lex_of i l) cs).1.2 (tr ++ (lex_run p (lex_of i l) cs).2) s'.
Proof.
  induction p as [| | |p IHp q IHq|p IHp q IHq|j m b IH|b IH]; cbn; intros Ho l cs tr s Hat.
  - eexists. split; [done|]. destruct Hat as [H1 H2 H3 H4 H5 H6 H7]. split; cbn; try done. rewrite H7. do 3 f_equal.
    unfold op_target. rewrite H1. destruct l; cbn; [done|]. unfold mode_of. by rewrite H2.
  - eexists. split; [done|]. by rewrite app_nil_r.
  - eexists. split; [done|]. by rewrite app_nil_r.
  - destruct Ho as [Ho1 Ho2]. destruct (IHp Ho1 _ _ _ _ Hat) as (s1 & -> & H1).
    destruct (lex_run p (lex_of i l) cs) as [[ok cs1] t1]. cbn in *. destruct ok; [|eauto].
    destruct (IHq Ho2 _ _ _ _ H1) as (s2 & -> & H2).
    destruct (lex_run q (lex_of i l) cs1) as [[ok2 cs2] t2]. cbn in *. rewrite app_assoc. eauto.
  - destruct Ho as [Ho1 Ho2]. destruct (IHp Ho1 _ _ _ _ Hat) as (s1 & -> & H1).
    destruct (lex_run p (lex_of i l) cs) as [[ok cs1] t1]. cbn in *. destruct ok; [eauto|].
    destruct (IHq Ho2 _ _ _ _ H1) as (s2 & -> & H2).
    destruct (lex_run q (lex_of i l) cs1) as [[ok2 cs2] t2]. cbn in *. rewrite app_assoc. eauto.
  - destruct Ho as [-> Ho]. unfold with_; cbv beta. destruct (enter_at i s _ l cs tr m Hat) as (s1 & -> & H1).
    destruct (IH Ho (default (top l) m :: l) _ _ _ H1) as (s2 & -> & H2). cbn in H2 |- *.
    destruct l as [|m0 l]; cbn in *.
    + destruct (lex_run b _ cs) as [[ok cs1] t1]. cbn in *. destruct (exit_at _ _ _ _ _ _ _ H2) as (s3 & -> & H3).
      cbn. rewrite app_assoc. eauto.
    + destruct (lex_run b _ cs) as [[ok cs1] t1]. cbn in *. destruct (exit_at _ _ _ _ _ _ _ H2) as (s3 & -> & H3).
      cbn. rewrite andb_true_r. eauto.
  - unfold with_, noop_enter; cbv beta. destruct l as [|m0 l]; cbn in *.
    + rewrite (at_cur _ _ _ _ _ _ Hat). destruct (IH Ho [] _ _ _ Hat) as (s2 & -> & H2). cbn in *.
      unfold noop_exit. rewrite (at_cur _ _ _ _ _ _ H2). rewrite andb_true_r. eauto.
    + rewrite (at_cur _ _ _ _ _ _ Hat). destruct (enter_at i s (Some i) (m0 :: l) cs tr (Some MNoop) Hat) as (s1 & E1 & H1).
      cbn in E1, H1. rewrite E1. destruct (IH Ho (MNoop :: m0 :: l) _ _ _ H1) as (s2 & -> & H2). cbn in H2 |- *.
      unfold noop_exit. rewrite (at_cur _ _ _ _ _ _ H2).
      destruct (exit_at _ _ _ _ _ _ _ H2) as (s3 & E3 & H3).
      destruct (call_mode_at _ _ _ _ _ _ MRun H2 ltac:(done) _ _ E3) as (m'' & s'' & -> & -> & H4).
      cbn. rewrite andb_true_r. eauto.
Qed.

(** Several storages *)
Record ats (e : env) (cs : list bool) (tr : list event) (s : cstate) : Prop := Ats {
  as_cur : forall i, cx_cur s = Some i -> e i <> [];
  as_stack : forall i, st_stack (stor_of s i) = e i;
  as_next : forall i, st_next (stor_of s i) = top (e i);
  as_hooks : forall i, st_hooks (stor_of s i) = [];
  as_cs : cx_commits s = cs;
  as_syncs : cx_syncs s = [];
  as_tr : cx_trace s = tr }.

Lemma enter_ats i s e cs tr m : ats e cs tr s ->
  exists s', enter i (match m with Some m => call_mode i m s | None => s end) = (true, s') /\
             ats (push i (default (top (e i)) m) e) cs tr s'.
Proof.
  intros [H1 H2 H3 H4 H5 H6 H7].
  destruct m as [m|]; unfold enter, do_sync, call_mode; cbn; rewrite H6; eexists; split; try reflexivity; split; cbn; try done.
  - intros j [= <-]. unfold push. by rewrite decide_True.
  - intros j. unfold push. destruct (decide (j = i)) as [->|]; unfold stor_of, set_stor; cbn;
      rewrite ?lookup_insert, ?lookup_insert_ne by done; cbn; rewrite ?lookup_insert; cbn; try apply H2. f_equal. apply H2.
  - intros j. unfold push. destruct (decide (j = i)) as [->|]; unfold stor_of, set_stor; cbn;
      rewrite ?lookup_insert, ?lookup_insert_ne by done; cbn; rewrite ?lookup_insert; cbn; try apply H3. done.
  - intros j. destruct (decide (j = i)) as [->|]; unfold stor_of, set_stor; cbn;
      rewrite ?lookup_insert, ?lookup_insert_ne by done; cbn; rewrite ?lookup_insert; cbn; apply H4.
  - intros j [= <-]. unfold push. by rewrite decide_True.
  - intros j. unfold push. destruct (decide (j = i)) as [->|]; cbn; unfold stor_of, set_stor; cbn;
      rewrite ?lookup_insert, ?lookup_insert_ne by done; cbn; try apply H2. f_equal; [apply H3|apply H2].
  - intros j. unfold push. destruct (decide (j = i)) as [->|]; cbn; unfold stor_of, set_stor; cbn;
      rewrite ?lookup_insert, ?lookup_insert_ne by done; cbn; try apply H3.
  - intros j. destruct (decide (j = i)) as [->|]; cbn; unfold stor_of, set_stor; cbn;
      rewrite ?lookup_insert, ?lookup_insert_ne by done; cbn; apply H4.
Qed.

Lemma exit_ats i s e cs tr m : ats (push i m e) cs tr s ->
  exists s', match e i with
    | [] => exit_ i s = ((next_ok cs).1, s') /\ ats e (next_ok cs).2 (tr ++ [EvCommit i (next_ok cs).1]) s'
    | _ => exit_ i s = (true, s') /\ ats e cs tr s'
    end.
Proof.
  intros [H1 H2 H3 H4 H5 H6 H7].
  assert (Hstk : st_stack (stor_of s i) = m :: e i) by (rewrite H2; unfold push; by rewrite decide_True).
  rewrite (exit_stor _ _ _ _ Hstk (H4 i)).
  destruct (e i) as [|m' l] eqn:Ei.
  - rewrite H5. eexists. split; [done|]. split; cbn; try done; try (by rewrite ?H5, ?H7).
    + intros j. destruct (decide (j = i)) as [->|]; [rewrite stor_of_set; cbn; done|].
      rewrite stor_of_set_ne by done. rewrite ?stor_cur, ?stor_commit. etrans; [apply H2|]. unfold push. by rewrite decide_False.
    + intros j. destruct (decide (j = i)) as [->|]; [rewrite stor_of_set; cbn; by rewrite Ei|].
      rewrite stor_of_set_ne by done. rewrite ?stor_cur, ?stor_commit. etrans; [apply H3|]. unfold push. by rewrite decide_False.
    + intros j. destruct (decide (j = i)) as [->|]; [rewrite stor_of_set; done|].
      rewrite stor_of_set_ne by done. apply H4.
  - eexists. split; [done|]. split; cbn; try done.
    + intros j Hj. specialize (H1 j Hj). unfold push in H1. destruct (decide (j = i)) as [->|]; [by rewrite Ei|done].
    + intros j. destruct (decide (j = i)) as [->|]; [rewrite stor_of_set; cbn; done|].
      rewrite stor_of_set_ne by done. rewrite ?stor_cur, ?stor_commit. etrans; [apply H2|]. unfold push. by rewrite decide_False.
    + intros j. destruct (decide (j = i)) as [->|]; [rewrite stor_of_set; cbn; by rewrite Ei|].
      rewrite stor_of_set_ne by done. rewrite ?stor_cur, ?stor_commit. etrans; [apply H3|]. unfold push. by rewrite decide_False.
    + intros j. destruct (decide (j = i)) as [->|]; [rewrite stor_of_set; done|].
      rewrite stor_of_set_ne by done. apply H4.
Qed.

Lemma many_storages p : no_noop p -> forall e cs tr s, ats e cs tr s ->
  exists s' t, crun p s = ((lex_multi p e cs).1.1, s') /\ ats e (lex_multi p e cs).1.2 (tr ++ t) s' /\
             Forall2 event_match t (lex_multi p e cs).2.
Proof.
  induction p as [| | |p IHp q IHq|p IHp q IHq|j m b IH|b IH]; cbn; intros Ho e cs tr s Hat.
  - eexists _, [EvOp (op_target s)]. split; [done|]. destruct Hat as [H1 H2 H3 H4 H5 H6 H7]. split.
    + split; cbn; try done. by rewrite H7.
    + constructor; [|constructor]. cbn. unfold op_target. destruct (cx_cur s) as [i|]; [|done]. split; [by apply H1|].
      unfold mode_of. by rewrite H2.
  - eexists _, []. rewrite app_nil_r. split; [done|]. split; [done|constructor].
  - eexists _, []. rewrite app_nil_r. split; [done|]. split; [done|constructor].
  - destruct Ho as [Ho1 Ho2]. destruct (IHp Ho1 _ _ _ _ Hat) as (s1 & u1 & -> & H1 & F1).
    destruct (lex_multi p e cs) as [[ok cs1] t1]. cbn in *. destruct ok; [|eauto].
    destruct (IHq Ho2 _ _ _ _ H1) as (s2 & u2 & -> & H2 & F2).
    destruct (lex_multi q e cs1) as [[ok2 cs2] t2]. cbn in *. exists s2, (u1 ++ u2). rewrite app_assoc. eauto using Forall2_app.
  - destruct Ho as [Ho1 Ho2]. destruct (IHp Ho1 _ _ _ _ Hat) as (s1 & u1 & -> & H1 & F1).
    destruct (lex_multi p e cs) as [[ok cs1] t1]. cbn in *. destruct ok; [eauto|].
    destruct (IHq Ho2 _ _ _ _ H1) as (s2 & u2 & -> & H2 & F2).
    destruct (lex_multi q e cs1) as [[ok2 cs2] t2]. cbn in *. exists s2, (u1 ++ u2). rewrite app_assoc. eauto using Forall2_app.
  - unfold with_; cbv beta. destruct (enter_ats j s e cs tr m Hat) as (s1 & -> & H1).
    destruct (IH Ho _ _ _ _ H1) as (s2 & u & -> & H2 & F2).
    destruct (lex_multi b _ cs) as [[ok cs1] t1]. cbn in *. destruct (exit_ats _ _ _ _ _ _ H2) as (s3 & H3).
    destruct (e j) as [|m0 l] eqn:Ej.
    + destruct H3 as [-> H3]. cbn. eexists _, (u ++ [EvCommit j (default true (head cs1))]). rewrite app_assoc. split; [done|]. split; [exact H3|].
      apply Forall2_app; [done|]. constructor; [|constructor]. done.
    + destruct H3 as [-> H3]. cbn. rewrite andb_true_r. eexists _, u. eauto.
  - done.
Qed.

Lemma nested_no_commit p : forall x cs k ok, EvCommit k ok ∉ (lex_run p (Some x) cs).2.
Proof.
  induction p as [| | |p IHp q IHq|p IHp q IHq|j m' b IH|b IH]; cbn; intros x cs k ok.
  - intros H. apply elem_of_list_singleton in H. discriminate.
  - apply not_elem_of_nil.
  - apply not_elem_of_nil.
  - specialize (IHp x cs k ok). destruct (lex_run p _ cs) as [[[] cs1] t1]; [|done].
    specialize (IHq x cs1 k ok). destruct (lex_run q _ cs1) as [[ok2 cs2] t2]. cbn in *. rewrite elem_of_app. tauto.
  - specialize (IHp x cs k ok). destruct (lex_run p _ cs) as [[[] cs1] t1]; [done|].
    specialize (IHq x cs1 k ok). destruct (lex_run q _ cs1) as [[ok2 cs2] t2]. cbn in *. rewrite elem_of_app. tauto.
  - destruct x as [? m0]. apply IH.
  - destruct x as [? m0]. apply IH.
Qed.
