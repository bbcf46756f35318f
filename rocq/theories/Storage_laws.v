(** Proofs for C20, C21, C27, C28: laws that hold for arbitrary states of the tables. *)
From stdpp Require Import base strings gmap list.
From Verif Require Import Base PyDict PyDict_proofs Returns DictStore DictStore_proofs CallStore Spec_CallStore CallStore_proofs
  Commit Refs Args Ident Storage Spec_Storage Spec_Storage2 Storage_base.

(** * Relations between the states before and after *)
Definition inR {S X} (R : S -> S -> Prop) (f : M S X) : Prop := forall s, R s (f s).2.
Section inR.
  Context {S : Type} (R : S -> S -> Prop) `{!PreOrder R}.
  Lemma inR_ret {X} (x : X) : inR R (retM x).
  Proof. by intros s. Qed.
  Lemma inR_raise {X} e : inR R (raiseM e : M S X).
  Proof. by intros s. Qed.
  Lemma inR_lift {X} (r : result X) : inR R (liftR r).
  Proof. by intros s. Qed.
  Lemma inR_bind {X Y} (m : M S X) (f : X -> M S Y) : inR R m -> (forall x, inR R (f x)) -> inR R (bindM m f).
  Proof.
    intros Hm Hf s. unfold bindM. specialize (Hm s). destruct (m s) as [[x|e] s1]; simpl in *; [|done].
    etrans; [done|apply Hf].
  Qed.
  Lemma inR_mapM {X Y} (f : X -> M S Y) l : (forall x, x ∈ l -> inR R (f x)) -> inR R (mapM' f l).
  Proof.
    induction l as [|x l IH]; intros Hf; cbn [mapM']; [apply inR_ret|].
    apply inR_bind; [apply Hf; left|]. intros y. apply inR_bind; [|intros; apply inR_ret].
    apply IH. intros; apply Hf; by right.
  Qed.
  Lemma inR_iterM {X} (f : X -> M S unit) l : (forall x, x ∈ l -> inR R (f x)) -> inR R (iterM f l).
  Proof.
    induction l as [|x l IH]; intros Hf; cbn [iterM]; [apply inR_ret|].
    apply inR_bind; [apply Hf; left|]. intros y. apply IH. intros; apply Hf; by right.
  Qed.
  Lemma inR_if {X} (b : S -> bool) (f g : M S X) : inR R f -> inR R g -> inR R (fun s => if b s then f s else g s).
  Proof. intros Hf Hg s. destruct (b s); [apply Hf|apply Hg]. Qed.
End inR.
Lemma inR_sub {S X} (R R' : S -> S -> Prop) (f : M S X) : (forall s s', R s s' -> R' s s') -> inR R f -> inR R' f.
Proof. intros HR Hf s. apply HR, Hf. Qed.

Lemma elem_snd {A} (x : string * A) (d : pydict A) : x ∈ d -> x.2 ∈ map snd d.
Proof. intros. by apply elem_of_list_fmap_1. Qed.

(** induction on args *)
Section arg_ind.
  Variable P : arg -> Prop.
  Hypothesis HVal : forall v, P (AVal v).
  Hypothesis HRef : forall r, P (ARef r).
  Hypothesis HIgn : forall b a, P a -> P (AIgn b a).
  Hypothesis HList : forall l, Forall P l -> P (AList l).
  Hypothesis HDict : forall d, Forall (fun ka => P ka.2) d -> P (ADict d).
  Fixpoint arg_ind' (a : arg) : P a :=
    match a with
    | AVal v => HVal v
    | ARef r => HRef r
    | AIgn b a => HIgn b a (arg_ind' a)
    | AList l => HList l ((fix go (l : list arg) : Forall P l :=
            match l with [] => Forall_nil_2 _ | x :: l => Forall_cons_2 _ _ _ (arg_ind' x) (go l) end) l)
    | ADict d => HDict d ((fix go (l : list (string * arg)) : Forall (fun kv => P kv.2) l :=
            match l with
            | [] => Forall_nil_2 _
            | (k, x) :: l => Forall_cons_2 (fun kv => P kv.2) (k, x) l (arg_ind' x) (go l)
            end) d)
    end.
End arg_ind.

Section read.
  Context (H : pyval -> string) (sel : list crow -> list crow).

  Global Instance only_read_pre : PreOrder only_read.
  Proof.
    split.
    - intros s. by split.
    - intros s1 s2 s3 [A1 A2 A3 A4 A5 A6 A7 A8 A9] [B1 B2 B3 B4 B5 B6 B7 B8 B9].
      split; try congruence; intros h; by rewrite ?B7, ?B8, ?A7, ?A8.
  Qed.
  Lemma cd_get_again {V} k h (d : cdict V) : (cd_get h (cd_get k d).2).1 = (cd_get h d).1.
  Proof.
    unfold cd_get at 2. destruct (cd_cache d !! k) as [v|] eqn:E; [done|].
    destruct (pd_get k (cd_pers d)) as [v|e] eqn:Ep; [|done]. cbn. unfold cd_get. cbn.
    destruct (decide (h = k)) as [->|Hn].
    - by rewrite lookup_insert, E, Ep.
    - rewrite lookup_insert_ne by done. by destruct (cd_cache d !! h), (pd_get h (cd_pers d)).
  Qed.
  Lemma cd_get_rest {V} k (d : cdict V) : cd_dirty (cd_get k d).2 = cd_dirty d /\ cd_pers (cd_get k d).2 = cd_pers d.
  Proof. unfold cd_get. destruct (cd_cache d !! k); [done|]. by destruct (pd_get k (cd_pers d)). Qed.

  Lemma get_shape_read k : inR only_read (get_shape k).
  Proof.
    intros s. unfold get_shape, on_tabs, on_shapes.
    pose proof (fun h => cd_get_again k h (t_shapes (s_tabs s))) as Ha. destruct (cd_get_rest k (t_shapes (s_tabs s))) as [E1 E2].
    destruct (cd_get k (t_shapes (s_tabs s))) as [r d]. cbn in *. split; try done. unfold db_of. cbn. congruence.
  Qed.
  Lemma get_op_read k : inR only_read (get_op k).
  Proof.
    intros s. unfold get_op, on_tabs, on_ops.
    pose proof (fun h => cd_get_again k h (t_ops (s_tabs s))) as Ha. destruct (cd_get_rest k (t_ops (s_tabs s))) as [E1 E2].
    destruct (cd_get k (t_ops (s_tabs s))) as [r d]. cbn in *. split; try done. unfold db_of. cbn. congruence.
  Qed.
  Lemma get_atom_read k : inR only_read (get_atom k).
  Proof.
    intros s. unfold get_atom, on_tabs, on_atoms. destruct (cd_get_rest k (t_atoms (s_tabs s))) as [E1 E2].
    destruct (cd_get k (t_atoms (s_tabs s))) as [r d]. cbn in *. split; try done. unfold db_of. cbn. congruence.
  Qed.
  Lemma set_atom_read k v : inR only_read (set_atom k v).
  Proof. intros s. by split. Qed.

  Ltac goo tac :=
    repeat first
      [ tac | apply inR_ret; apply _ | apply inR_raise; apply _ | apply inR_lift; apply _
      | apply get_shape_read | apply get_op_read | apply get_atom_read | apply set_atom_read
      | apply inR_bind; [apply _| |intros ?] | apply inR_mapM; [apply _|intros ? ?]
      | apply inR_iterM; [apply _|intros ? ?] ].
  Ltac go := goo fail.

  Lemma load_ref__read fuel b h : inR only_read (load_ref_ fuel b h).
  Proof.
    revert h. induction fuel as [|fuel IH]; intros h; cbn [load_ref_]; [go|].
    apply inR_bind; [apply _|apply get_shape_read|]. intros sh. destruct sh as [c h' o|c h' [l|]|c h' [l|]]; try go.
    - destruct b; go.
    - apply IH.
    - apply IH.
  Qed.
  Lemma load_ref_read b h : inR only_read (load_ref b h).
  Proof. intros s. apply load_ref__read. Qed.
  Lemma unwrap_atom_read c h o : inR only_read (unwrap_atom c h o).
  Proof.
    unfold unwrap_atom. destruct o; [go|]. apply inR_bind; [apply _|apply load_ref_read|].
    intros [c' h' [v|]| |]; go.
  Qed.
  Lemma unwrap_ref_read r : inR only_read (unwrap_ref r).
  Proof.
    induction r as [c h o|c h|c h l IH|c h|c h l IH] using ref_ind'; cbn [unwrap_ref]; try go.
    - apply unwrap_atom_read.
    - rewrite Forall_forall in IH. by apply IH.
    - rewrite Forall_forall in IH. by apply IH.
  Qed.
  Lemma unwrap_read a : inR only_read (unwrap a).
  Proof.
    induction a as [v|r|b a IH|l IH|d IH] using arg_ind'; cbn [unwrap]; try go.
    - apply unwrap_ref_read.
    - rewrite Forall_forall in IH. by apply IH.
    - rewrite Forall_forall in IH. by apply IH.
  Qed.
  Lemma call_from_data_read d b : inR only_read (call_from_data d b).
  Proof. unfold call_from_data, load_refs. goo ltac:(apply load_ref_read). Qed.
  Lemma lookup_call_read o ins : inR only_read (lookup_call H sel o ins).
  Proof.
    intros s. unfold lookup_call. destruct (cc_exists _ _); [|destruct (cc_exists_content _ _); [|done]].
    - match goal with |- only_read s ((?f) s).2 => enough (inR only_read f) as Hf by apply Hf end.
      goo ltac:(apply call_from_data_read).
    - match goal with |- only_read s ((?f) s).2 => enough (inR only_read f) as Hf by apply Hf end.
      goo ltac:(apply call_from_data_read).
  Qed.
  Lemma struct_call_read o f n ins : inR only_read (struct_call H sel o f n ins).
  Proof.
    unfold struct_call. apply inR_bind; [apply _|apply lookup_call_read|]. intros [c|]; [go|].
    unfold if_st. apply inR_if; go.
  Qed.
  Lemma construct_read t a : inR only_read (construct H sel t a).
  Proof.
    revert a. induction t as [|t IH|tk IHk t IH|t IH|]; intros a; destruct a as [v|r|b a|l|d]; cbn [construct];
      goo ltac:(first [apply IH|apply struct_call_read]).
  Qed.
  Lemma destruct_read t r : inR only_read (destruct_ref H sel t r).
  Proof.
    revert r. induction t as [|t IH|tk IHk t IH|t IH|]; intros r; destruct r as [c h o|c h [l|]|c h [l|]]; cbn [destruct_ref];
      goo ltac:(first [apply IH|apply struct_call_read|apply construct_read]).
  Qed.
  Lemma wrap_output_read h t a : inR only_read (wrap_output H sel h t a).
  Proof.
    unfold wrap_output. destruct a as [v|r|b a|l|d]; try go; destruct t;
      goo ltac:(first [apply construct_read|apply destruct_read]).
  Qed.
  Lemma parse_one_read ignore p v : inR only_read (parse_one unwrap ignore p v).
  Proof.
    unfold parse_one. destruct v as [a|l|d]; [|go|go].
    repeat (first [apply unwrap_read | progress (goo ltac:(apply unwrap_read)) | case_match]).
  Qed.
  Lemma parse_args_read sig ignore args kw : inR only_read (parse_args unwrap sig ignore args kw).
  Proof.
    unfold parse_args. apply inR_bind; [apply _|go|]. intros b. generalize (@nil (string * (arg * ty))).
    induction sig as [|p sig IH]; intros acc; cbn [parse_loop]; [go|].
    destruct (dget (p_name p) b); [|apply IH].
    apply inR_bind; [apply _|apply parse_one_read|]. intros x. apply inR_bind; [apply _|apply IH|]. intros; go.
  Qed.
  Lemma call_noop_read o args kw : inR only_read (call_noop o args kw).
  Proof.
    unfold call_noop. apply inR_bind; [apply _|apply parse_args_read|]. intros bi. goo ltac:(apply unwrap_read).
  Qed.

  (** ** Forbidding new calls *)
  (** [call_internal] with new calls forbidden: it only reads, and it returns only what a lookup found *)
  Lemma call_internal_forbidden o inputs b keys s : s_allow s = false ->
    only_read s (call_internal H sel o inputs b keys s).2 /\
    match (call_internal H sel o inputs b keys s).1 with
    | Ok cs => exists ins s1, only_read s s1 /\ (lookup_call H sel (od_op o) ins s1).1 = Ok (Some cs.1)
    | Err _ => True
    end.
  Proof.
    intros Hs. destruct (call_internal H sel o inputs b keys s) as [res s'] eqn:E. cbn [fst snd]. revert E.
    unfold call_internal. unfold bindM at 1.
    match goal with |- context [mapM' ?f inputs s] => assert (only_read s (mapM' f inputs s).2) as Hr;
      [|destruct (mapM' f inputs s) as [[rs|e] s1]; simpl in Hr; [|by intros [= <- <-]]] end.
    { apply inR_mapM; [apply _|]. intros x Hx. goo ltac:(apply construct_read). }
    unfold bindM at 1. pose proof (lookup_call_read (od_op o) (map (fun krc : string * (ref * list call) => (krc.1, krc.2.1)) rs) s1) as Hl.
    destruct (lookup_call H sel (od_op o) _ s1) as [[[c|]|e] s2] eqn:El; simpl in Hl; [| |by intros [= <- <-]; split; [etrans|]].
    - intros [= <- <-]. split; [by etrans|]. eexists _, s1. split; [done|]. by rewrite El.
    - unfold if_st. rewrite (or_allow _ _ Hl), (or_allow _ _ Hr), Hs. intros [= <- <-]. split; [by etrans|done].
  Qed.

  (** what saving keeps *)
  Definition log_kept (s s' : st) : Prop := s_log s' = s_log s /\ s_allow s' = s_allow s.
  Local Instance log_kept_pre : PreOrder log_kept.
  Proof. split; [by intros s|]. intros s1 s2 s3 [] []. split; congruence. Qed.
  Lemma on_tabs_log {X} (m : M (tabs pyval ref op) X) : inR log_kept (on_tabs m).
  Proof. intros s. unfold on_tabs. by destruct (m (s_tabs s)). Qed.
  Lemma save_ref_log r : inR log_kept (save_ref r).
  Proof.
    induction r as [c h o|c h|c h l IH|c h|c h l IH] using ref_ind'; cbn [save_ref]; unfold if_st;
      (apply inR_if; [apply inR_ret; apply _|]); try (apply inR_raise; apply _).
    - apply inR_bind; [apply _| |intros; apply on_tabs_log]. destruct o; [apply on_tabs_log|apply inR_ret; apply _].
    - apply inR_bind; [apply _|apply on_tabs_log|]. intros ?. apply inR_iterM; [apply _|]. by rewrite Forall_forall in IH.
    - apply inR_bind; [apply _|apply on_tabs_log|]. intros ?. apply inR_iterM; [apply _|]. by rewrite Forall_forall in IH.
  Qed.
  Lemma save_call_log c : inR log_kept (save_call c).
  Proof.
    unfold save_call, if_st. apply inR_if; [apply inR_ret; apply _|].
    apply inR_bind; [apply _|apply inR_if; [apply inR_ret; apply _|apply on_tabs_log]|]. intros ?.
    apply inR_bind; [apply _| |intros; apply on_tabs_log]. apply inR_iterM; [apply _|]. intros; apply save_ref_log.
  Qed.
  (** saving can raise TypeError only *)
  Definition type_error {X} (r : result X) : Prop := forall e, r = Err e -> e = ETypeError.
  Lemma iterM_type_error {X} (f : X -> M st unit) l : (forall x s, x ∈ l -> type_error (f x s).1) -> forall s, type_error (iterM f l s).1.
  Proof.
    induction l as [|x l IH]; intros Hf s; cbn [iterM]; [done|]. unfold bindM. assert (type_error (f x s).1) by (apply Hf; left).
    destruct (f x s) as [[u|e] s1]; [|done]. apply IH. intros; apply Hf; by right.
  Qed.
  Lemma save_ref_err r s : type_error (save_ref r s).1.
  Proof.
    revert s. induction r as [c h o|c h|c h l IH|c h|c h l IH] using ref_ind'; intros s; cbn [save_ref]; unfold if_st;
      destruct (has_shape _ s); try done; try (intros e; cbn; congruence).
    - by destruct o.
    - unfold bindM. cbn. rewrite Forall_forall in IH. apply iterM_type_error. auto.
    - unfold bindM. cbn. rewrite Forall_forall in IH. apply iterM_type_error. intros x s' Hx. by apply IH.
  Qed.
  Lemma save_call_err c s : type_error (save_call c s).1.
  Proof.
    unfold save_call, if_st. destruct (has_call _ s); [done|]. unfold bindM at 1.
    assert (exists s1, (if has_op (op_name (c_op c)) s then retM tt s else set_op (op_name (c_op c)) (c_op c) s) = (Ok tt, s1)) as [s1 ->].
    { destruct (has_op _ s); [by eexists|]. unfold set_op, on_tabs, on_ops, upd. by eexists. }
    unfold bindM.
    assert (type_error (iterM save_ref (map snd (c_ins c) ++ map snd (c_outs c)) s1).1) as He by (apply iterM_type_error; intros; apply save_ref_err).
    destruct (iterM save_ref _ s1) as [[u|e] s2]; [|done]. done.
  Qed.

  Theorem forbidden_no_execution o args kw keys s r s' : s_allow s = false ->
    call_run H sel o args kw keys s = (r, s') -> s_log s' = s_log s /\ s_allow s' = false.
  Proof.
    intros Hs. unfold call_run. unfold bindM at 1.
    pose proof (parse_args_read (od_sig o) (op_ignore (od_op o)) args kw s) as Hp.
    destruct (parse_args _ _ _ _ _ s) as [[[b ins]|e] s1]; simpl in Hp.
    2:{ intros [= <- <-]. destruct Hp. split; congruence. }
    assert (s_allow s1 = false) as Hs1 by (destruct Hp; congruence).
    unfold bindM at 1. destruct (call_internal_forbidden o ins b keys s1 Hs1) as [Hc _]. cbn [fst snd].
    destruct (call_internal H sel o ins b keys s1) as [[[c cs]|e] s2]; simpl in Hc.
    2:{ intros [= <- <-]. destruct Hp, Hc. split; congruence. }
    assert (inR log_kept (iterM save_call (c :: cs))) as Hk by (apply inR_iterM; [apply _|]; intros; apply save_call_log).
    specialize (Hk s2). unfold bindM at 1. cbn [fst snd].
    destruct (iterM save_call (c :: cs) s2) as [[u|e] s3]; simpl in Hk; destruct Hk as [K1 K2], Hp, Hc.
    - unfold bindM, liftR. destruct (get_ordered_outputs _ _); intros [= <- <-]; split; congruence.
    - intros [= <- <-]. split; congruence.
  Qed.

  Lemma mapR_err {X Y} (f : X -> result Y) l e : mapR f l = Err e -> exists x, x ∈ l /\ f x = Err e.
  Proof.
    induction l as [|x l IH]; cbn; [done|]. destruct (f x) as [y|e'] eqn:E; cbn.
    - destruct (mapR f l); cbn; [done|]. intros [= ->]. destruct IH as (x' & ? & ?); [done|]. exists x'. split; [by right|done].
    - intros [= ->]. exists x. split; [left|done].
  Qed.
  Lemma ordered_no_runtime {X} names (d : pydict X) : get_ordered_outputs names d <> Err ERuntime.
  Proof.
    unfold get_ordered_outputs. destruct names as [ns|].
    - intros (x & _ & E)%mapR_err. unfold dindex in E. by destruct (dget x d).
    - destruct (mapR _ d) as [ints|e] eqn:E; cbn.
      + intros (x & _ & E')%mapR_err. by destruct (assoc_last x ints).
      + intros [= ->]. apply mapR_err in E as (x & _ & E). unfold parse_output_name, parse_int in E.
        repeat (case_match; try done).
  Qed.

  Theorem forbidden_outcome o args kw keys s r s' : s_allow s = false ->
    call_run H sel o args kw keys s = (r, s') ->
    (forall ret, r = Ok ret -> exists ins s1 c outs, only_read s s1 /\ (lookup_call H sel (od_op o) ins s1).1 = Ok (Some c) /\
        get_ordered_outputs (op_onames (od_op o)) (c_outs c) = Ok outs /\ ret = present_outputs outs) /\
    (r = Err ERuntime -> only_read s s').
  Proof.
    intros Hs. unfold call_run. unfold bindM at 1.
    pose proof (parse_args_read (od_sig o) (op_ignore (od_op o)) args kw s) as Hp.
    destruct (parse_args _ _ _ _ _ s) as [[[b ins]|e] s1]; simpl in Hp.
    2:{ intros [= <- <-]. split; [done|]. done. }
    assert (s_allow s1 = false) as Hs1 by (destruct Hp; congruence).
    unfold bindM at 1. destruct (call_internal_forbidden o ins b keys s1 Hs1) as [Hc Hf]. cbn [fst snd].
    destruct (call_internal H sel o ins b keys s1) as [[[c cs]|e] s2]; simpl in Hc, Hf.
    2:{ intros [= <- <-]. split; [done|]. intros _. by etrans. }
    destruct Hf as (ins' & s3 & Hr & Hl).
    assert (type_error (iterM save_call (c :: cs) s2).1) as He by (apply iterM_type_error; intros; apply save_call_err).
    unfold bindM at 1. cbn [fst snd].
    destruct (iterM save_call (c :: cs) s2) as [[u|e] s4].
    - unfold bindM, liftR. destruct (get_ordered_outputs _ _) as [outs|e] eqn:Eo; intros [= <- <-].
      + split; [|done]. intros ret [= <-]. eexists ins', s3, c, outs. split; [by etrans|done].
      + split; [done|]. intros [= ->]. by apply ordered_no_runtime in Eo.
    - intros [= <- <-]. split; [done|]. intros [= ->]. by specialize (He ERuntime eq_refl).
  Qed.
End read.
