(** The storage: saving and loading refs and calls, unwrapping, constructing and destructing
    collections, looking up and executing calls, deleting.  Models mandala/storage.py
    - 245-326 refs, 331-434 calls, 464-483 orphans
    - 488-522 [unwrap], 535-637 [construct], [destruct]
    - 639-695 [lookup_call], 773-936 [call_internal], 1162-1203 [call].

    Scope: storages without versioning (Versioner.v models versioning).  The function of an op is a
    mathematical function of its bound arguments: bodies that call other ops or
    have side effects are not modelled.  Objects are immutable values: sharing
    of mutable objects between the user and the caches is not modelled.  Serialization
    round trips are trusted. *)
From stdpp Require Import base strings gmap list.
From Verif Require Import Base PyDict Returns DictStore CallStore Commit Refs Args Ident.

(** model.py:252-272 [Call] *)
Record call := Call {
  c_op : op; c_cid : string; c_hid : string;
  c_ins : pydict ref; c_outs : pydict ref;
  c_sem : option string; c_cont : option string;
}.
(** what the call tables record of it *)
Definition cdata_of (c : call) : cdata :=
  CData (op_name (c_op c)) (c_cid c) (c_hid c)
    (map (fun kr => (kr.1, (rcid kr.2, rhid kr.2))) (c_ins c))
    (map (fun kr => (kr.1, (rcid kr.2, rhid kr.2))) (c_outs c)) (c_sem c) (c_cont c).

(** An op with its function: signature (with types for annotations), return annotation and what
    the function returns or raises. *)
Record opdef := OpDef {
  od_op : op; od_sig : list (param arg); od_ret : retann;
  od_fun : pydict (bval arg) -> result (returned arg);
}.

Inductive mode := MRun | MNoop.
Global Instance mode_eq_dec : EqDecision mode.
Proof. solve_decision. Defined.

(** The storage.  [s_alias] is [Storage.call_cache] if it is no longer the object [calls.cache]
    ([clear] replaces the latter, storage_utils.py:780); [s_log] is not part of the code: the
    executions of functions so far. *)
Record st := St {
  s_tabs : tabs pyval ref op;
  s_alias : option mcalls;
  s_allow : bool;
  s_log : list (op * pydict ref);
}.

Definition with_tabs (t : tabs pyval ref op) (s : st) : st := St t (s_alias s) (s_allow s) (s_log s).
Definition on_tabs {X} (m : M (tabs pyval ref op) X) : M st X := fun s =>
  let (r, t) := m (s_tabs s) in (r, with_tabs t s).

(** [self.atoms[k]] etc. *)
Definition get_atom (k : string) : M st pyval := on_tabs (on_atoms (cd_get k)).
Definition get_shape (k : string) : M st ref := on_tabs (on_shapes (cd_get k)).
Definition get_op (k : string) : M st op := on_tabs (on_ops (cd_get k)).
Definition upd {D} (f : D -> D) : M D unit := fun d => (Ok tt, f d).
Definition set_atom (k : string) (v : pyval) : M st unit := on_tabs (on_atoms (upd (cd_set k v))).
Definition set_shape (k : string) (r : ref) : M st unit := on_tabs (on_shapes (upd (cd_set k r))).
Definition set_op (k : string) (o : op) : M st unit := on_tabs (on_ops (upd (cd_set k o))).
Definition has_shape (k : string) (s : st) : bool := cd_exists k (t_shapes (s_tabs s)).
Definition has_op (k : string) (s : st) : bool := cd_exists k (t_ops (s_tabs s)).
Definition has_call (k : string) (s : st) : bool := cc_exists k (t_calls (s_tabs s)).
Definition if_st {X} (b : st -> bool) (m1 m2 : M st X) : M st X := fun s => if b s then m1 s else m2 s.

(** * Refs *)

(** model.py:331-337, 366-372 [shape] *)
Definition shape_list (c h : string) (l : list ref) : ref := RList c h (Some (map detached l)).
Definition shape_dict (c h : string) (l : pydict ref) : ref :=
  RDict c h (Some (map (fun kr => (kr.1, detached kr.2)) l)).

(** storage.py:245-267 *)
Fixpoint save_ref (r : ref) : M st unit :=
  if_st (has_shape (rhid r)) (retM tt)
    (match r with
     | RAtom c h o =>
         (match o with Some v => set_atom c v | None => retM tt end ;;;
          set_shape h (RAtom c h None))
     | RList c h (Some l) => set_shape h (shape_list c h l) ;;; iterM save_ref l
     | RDict c h (Some l) => set_shape h (shape_dict c h l) ;;; iterM (fun kr => save_ref kr.2) l
     | RList _ _ None | RDict _ _ None => raiseM ETypeError
     end)%pym.

(** storage.py:269-293.  The depth of the recursion is bounded by the number of shapes unless
    shapes contain themselves (then Python raises RecursionError). *)
Fixpoint load_ref_ (fuel : nat) (in_mem : bool) (hid : string) : M st ref :=
  match fuel with
  | 0 => raiseM EFuel
  | S fuel =>
      (shape <- get_shape hid ;;
       match shape with
       | RAtom c h o =>
           if in_mem then retM shape
           else v <- get_atom c ;; retM (RAtom c h (Some v))
       | RList c h (Some l) =>
           iterM (fun e => load_ref_ fuel in_mem (rhid e) ;;; retM tt) l ;;;
           retM (RList c h (Some l)) (* 284: [shape.obj], not [obj] *)
       | RDict c h (Some l) =>
           l' <- mapM' (fun kr => r <- load_ref_ fuel in_mem (rhid kr.2) ;; retM (kr.1, r)) l ;;
           retM (RDict c h (Some l'))
       | RList _ _ None => raiseM EAssertion
       | RDict _ _ None => raiseM ETypeError (* AttributeError *)
       end)%pym
  end.
Definition ref_fuel (s : st) : nat :=
  let d := t_shapes (s_tabs s) in S (size (cd_cache d) + length (pd_keys (cd_pers d))).
Definition load_ref (in_mem : bool) (hid : string) : M st ref := fun s =>
  load_ref_ (ref_fuel s) in_mem hid s.

(** storage.py:488-497 *)
Definition unwrap_atom (c h : string) (o : option pyval) : M st pyval :=
  match o with
  | Some v => retM v
  | None =>
      (r <- load_ref false h ;;
       match r with
       | RAtom _ _ (Some v) => set_atom c v ;;; retM v
       | _ => raiseM EUnmodelled (* an atom whose history id has a collection as shape *)
       end)%pym
  end.
(** storage.py:514-522 and model.py:391-405 on refs.  Iterating over a detached list
    raises AssertionError, over a detached dict AttributeError. *)
Fixpoint unwrap_ref (r : ref) : M st pyval :=
  match r with
  | RAtom c h o => unwrap_atom c h o
  | RList _ _ (Some l) => (vs <- mapM' unwrap_ref l ;; retM (VList vs))%pym
  | RDict _ _ (Some l) =>
      (vs <- mapM' (fun kr => v <- unwrap_ref kr.2 ;; retM (kr.1, v)) l ;; retM (VDict (canon vs)))%pym
  | RList _ _ None => raiseM EAssertion
  | RDict _ _ None => raiseM ETypeError
  end.

(** A list (dict) of arguments that are all plain values is a plain value. *)
Definition to_val (a : arg) : option pyval := match a with AVal v => Some v | _ => None end.
Definition mk_list (l : list arg) : arg :=
  match mapM to_val l with Some vs => AVal (VList vs) | None => AList l end.
Definition mk_tuple (l : list arg) : arg :=
  match mapM to_val l with Some vs => AVal (VTuple vs) | None => AList l end.
Definition mk_dict (d : pydict arg) : arg :=
  match mapM (fun ka => v ← to_val ka.2; Some (ka.1, v)) d with
  | Some vs => AVal (VDict (canon vs)) | None => ADict d
  end.

(** storage.py:514-522 on arguments.  (Plain values are unchanged; markers are not looked into.) *)
Fixpoint unwrap (a : arg) : M st arg :=
  match a with
  | AVal v => retM (AVal v)
  | ARef r => (v <- unwrap_ref r ;; retM (AVal v))%pym
  | AIgn b x => retM (AIgn b x)
  | AList l => (l <- mapM' unwrap l ;; retM (mk_list l))%pym
  | ADict d => (d <- mapM' (fun ka => a <- unwrap ka.2 ;; retM (ka.1, a)) d ;; retM (mk_dict d))%pym
  end.

(** model.py:132-140 and storage.py:856-858 *)
Definition unwrap_special_value (a : arg) : arg :=
  match a with AVal (VPtr _ o) => AVal o | AIgn _ x => x | _ => a end.
Definition deref_pointer (a : arg) : arg := match a with AVal (VPtr _ o) => AVal o | _ => a end.

Section storage.
  (** the content hash, and the order in which SQLite returns rows *)
  Context (H : pyval -> string) (sel : list crow -> list crow).

  (** * Calls *)

  (** storage.py:334-350 *)
  Definition save_call (c : call) : M st unit :=
    if_st (has_call (c_hid c)) (retM tt)
      (if_st (has_op (op_name (c_op c))) (retM tt) (set_op (op_name (c_op c)) (c_op c)) ;;;
       iterM save_ref (map snd (c_ins c) ++ map snd (c_outs c)) ;;;
       on_tabs (on_calls (upd (cc_save (cdata_of c)))))%pym.

  (** storage.py:381-398 *)
  Definition load_refs (in_mem : bool) (d : pydict ids) : M st (pydict ref) :=
    mapM' (fun kv => r <- load_ref in_mem kv.2.2 ;; retM (kv.1, r))%pym d.
  Definition call_from_data (d : cdata) (in_mem : bool) : M st call :=
    (o <- get_op (d_op d) ;;
     ins <- load_refs in_mem (d_ins d) ;;
     outs <- load_refs in_mem (d_outs d) ;;
     retM (Call o (d_cid d) (d_hid d) ins outs (d_sem d) (d_cont d)))%pym.

  (** storage.py:352-379; [call_cache] is [calls.cache] unless the cache was cleared *)
  Definition call_cache (s : st) : mcalls := default (cc_cache (t_calls (s_tabs s))) (s_alias s).
  Definition mget_call (hids : list string) (in_mem : bool) : M st (list call) := fun s =>
    match mget_datas sel hids (call_cache s) (cc_pers (t_calls (s_tabs s))) with
    | Ok ds => mapM' (fun d => call_from_data d in_mem) ds s
    | Err e => (Err e, s)
    end.

  (** storage.py:639-695, not versioned *)
  Definition set_hids (hids : string -> result string) (d : pydict ref) : result (pydict ref) :=
    mapR (fun kr => h ← hids kr.1; Ok (kr.1, with_hid h kr.2)) d.
  Definition lookup_call (o : op) (ins : pydict ref) : M st (option call) := fun s =>
    let chid := call_hid H o ins None in
    if cc_exists chid (t_calls (s_tabs s)) then
      (d <- liftR (cc_get sel chid (t_calls (s_tabs s))) ;;
       c <- call_from_data d true ;; retM (Some c))%pym s
    else
      let ccid := call_cid H o ins None in
      if cc_exists_content ccid (t_calls (s_tabs s)) then
        (d <- liftR (cc_get_content ccid (t_calls (s_tabs s))) ;;
         c <- call_from_data d true ;;
         names <- liftR (get_ordered_outputs (op_onames o) (map (fun kv => (kv.1, kv.1)) (d_outs d))) ;;
         outs <- liftR (set_hids (fun k => if decide (k ∈ names) then Ok (output_hid H chid k) else Err EKeyError)
                          (c_outs c)) ;;
         ins' <- liftR (set_hids (fun k => r ← dindex k ins; Ok (rhid r)) (c_ins c)) ;;
         retM (Some (Call (c_op c) (c_cid c) chid ins' outs (c_sem c) (c_cont c))))%pym s
      else (Ok None, s).

  (** * Structural calls: [call_internal] (storage.py:773-936) for the built-in ops.  [f] is the
      function (model.py:408-446), [name] the output name.  The inputs are wrapped already. *)
  Definition struct_call (o : op) (f : pydict ref -> result ref) (name : string) (ins : pydict ref) : M st call :=
    (found <- lookup_call o ins ;;
     match found with
     | Some c => retM c
     | None =>
         if_st s_allow
           (r <- liftR (f ins) ;;
            let chid := call_hid H o ins None in
            retM (Call o (call_cid H o ins None) chid ins [(name, with_hid (output_hid H chid name) r)] None None))
           (raiseM ERuntime)
     end)%pym.

  (** model.py:408-416: [items["elts_i"]] for all [i] *)
  Definition f_make_list (ins : pydict ref) : result ref :=
    elts ← mapR (fun i => dindex ("elts_" +:+ dec i) ins) (seq 0 (length ins)); Ok (make_list H elts).
  Definition f_make_dict (ins : pydict ref) : result ref := Ok (make_dict H ins).
  (** model.py:441-442: [list[i.obj]] *)
  Definition f_list_getitem (ins : pydict ref) : result ref :=
    l ← dindex "list" ins; i ← dindex "i" ins;
    match l, i with
    | RList _ _ (Some l), RAtom _ _ (Some (VInt z)) =>
        if bool_decide (0 <= z)%Z then of_option EIndexError (l !! Z.to_nat z) else Err EUnmodelled
    | RList _ _ None, _ => Err EAssertion
    | _, _ => Err ETypeError
    end.
  (** model.py:444-445 and 345-353 *)
  Definition f_dict_getitem (ins : pydict ref) : result ref :=
    d ← dindex "dict" ins; k ← dindex "key" ins;
    match d, k with
    | RDict _ _ (Some d), RAtom _ _ (Some (VStr k)) => dindex k d
    | RDict _ _ None, _ | _, RAtom _ _ None => Err EAssertion
    | _, _ => Err ETypeError
    end.

  Definition first_output (c : call) : result ref :=
    match c_outs c with [] => Err EIndexError | kr :: _ => Ok kr.2 end.

  (** storage.py:574-591; the calls of the elements come first, then the call that builds the
      collection.  Collections that contain refs where an atom is expected are not modelled. *)
  Fixpoint construct (t : ty) (a : arg) : M st (ref * list call) :=
    match a with
    | ARef r => retM (r, [])
    | _ =>
        match t with
        | TAtom =>
            match a with
            | AVal v => retM (wrap_atom H v None, [])
            | _ => raiseM EUnmodelled
            end
        | TList t =>
            (l <- liftR (list_elems a) ;;
             rs <- mapM' (construct t) l ;;
             c <- struct_call op_make_list f_make_list "list" (imap (fun i rc => ("elts_" +:+ dec i, rc.1)) rs) ;;
             r <- liftR (first_output c) ;;
             retM (r, concat (map snd rs) ++ [c]))%pym
        | TDict _ t =>
            (d <- liftR (dict_items a) ;;
             rs <- mapM' (fun ka => rc <- construct t ka.2 ;; retM (ka.1, rc)) d ;;
             c <- struct_call op_make_dict f_make_dict "dict" (map (fun krc => (krc.1, krc.2.1)) rs) ;;
             r <- liftR (first_output c) ;;
             retM (r, concat (map (fun krc => krc.2.2) rs) ++ [c]))%pym
        | TSet _ | TTuple => raiseM ENotImplemented
        end
    end.

  (** storage.py:593-637 *)
  Fixpoint destruct_ref (t : ty) (r : ref) : M st (ref * list call) :=
    match r with
    | RAtom _ _ _ => retM (r, [])
    | RList c h o =>
        match t with
        | TList t =>
            match o with
            | None => raiseM EAssertion (* iterating over a detached list *)
            | Some l =>
                (es <- mapM' (fun i =>
                    gc <- struct_call op_list_getitem f_list_getitem "list_item"
                            [("list", r); ("i", wrap_atom H (VInt (Z.of_nat i)) None)] ;;
                    e <- liftR (dindex "list_item" (c_outs gc)) ;;
                    ec <- destruct_ref t e ;;
                    retM (ec.1, gc :: ec.2)) (seq 0 (length l)) ;;
                 retM (RList c h (Some (map fst es)), concat (map snd es)))%pym
            end
        | _ => raiseM EAssertion
        end
    | RDict c h o =>
        match t with
        | TDict tk tv =>
            match o with
            | None => raiseM ETypeError
            | Some l =>
                (es <- mapM' (fun kr =>
                    k <- construct tk (AVal (VStr kr.1)) ;;
                    gc <- struct_call op_dict_getitem f_dict_getitem "dict_value" [("dict", r); ("key", k.1)] ;;
                    e <- liftR (dindex "dict_value" (c_outs gc)) ;;
                    ec <- destruct_ref tv e ;;
                    retM (kr.1, ec.1, gc :: ec.2)) l ;;
                 retM (RDict c h (Some (map fst es)), concat (map snd es)))%pym
            end
        | _ => raiseM EAssertion
        end
    end.

  (** * Calling an op *)

  (** storage.py:834-870: prepare the arguments and run the function *)
  Definition run_function (o : opdef) (b : pydict (bval arg)) (keys : list string) (ins : pydict ref)
    : M st (returned arg) :=
    (ak <- liftR (function_args mk_tuple mk_dict (od_sig o) b keys) ;;
     args <- mapM' unwrap ak.1 ;;
     kw <- mapM' (fun ka => a <- unwrap ka.2 ;; retM (ka.1, a)) ak.2 ;;
     env <- liftR (py_call (od_sig o) (map deref_pointer args) (map (fun ka => (ka.1, deref_pointer ka.2)) kw)) ;;
     modM (fun s => St (s_tabs s) (s_alias s) (s_allow s) (s_log s ++ [(od_op o, ins)])) ;;;
     liftR (od_fun o env))%pym.

  (** storage.py:910-925: wrap one output *)
  Definition wrap_output (hid : string) (t : ty) (a : arg) : M st (ref * list call) :=
    match a with
    | ARef r => retM (with_hid hid r, [])
    | _ =>
        match t with
        | TAtom => match a with
                   | AVal v => retM (wrap_atom H v (Some hid), [])
                   | _ => raiseM EUnmodelled
                   end
        | _ => (rc <- construct t a ;; destruct_ref t (with_hid hid rc.1))%pym
        end
    end.

  (** storage.py:773-936 for ops with user-defined functions.  Returns the call and the structural
      calls. *)
  Definition call_internal (o : opdef) (inputs : pydict (arg * ty)) (b : pydict (bval arg)) (keys : list string)
    : M st (call * list call) :=
    (rs <- mapM' (fun kat => rc <- construct kat.2.2 kat.2.1 ;; retM (kat.1, rc)) inputs ;;
     let ins := map (fun krc => (krc.1, krc.2.1)) rs in
     let in_calls := concat (map (fun krc => krc.2.2) rs) in
     found <- lookup_call (od_op o) ins ;;
     match found with
     | Some c => retM (c, in_calls)
     | None =>
         if_st s_allow
           (ret <- run_function o b keys ins ;;
            outs <- liftR (parse_returns (od_ret o) (op_nout (od_op o)) (op_onames (od_op o)) ret) ;;
            let chid := call_hid H (od_op o) ins None in
            ws <- mapM' (fun ka => t <- liftR (dindex ka.1 outs.2) ;;
                                   rc <- wrap_output (output_hid H chid ka.1) t ka.2 ;; retM (ka.1, rc)) outs.1 ;;
            retM (Call (od_op o) (call_cid H (od_op o) ins None) chid ins (map (fun krc => (krc.1, krc.2.1)) ws) None None,
                  in_calls ++ concat (map (fun krc => krc.2.2) ws)))
           (raiseM ERuntime)
     end)%pym.

  (** storage.py:1162-1203 with mode 'run', as called by an op inside a context (model.py:244-249:
      calls are saved).  [keys] enumerates the set of keywords. *)
  Definition call_run (o : opdef) (args : list arg) (kw : pydict arg) (keys : list string) : M st (returned ref) :=
    (bi <- parse_args unwrap (od_sig o) (op_ignore (od_op o)) args kw ;;
     cs <- call_internal o bi.2 bi.1 keys ;;
     iterM save_call (cs.1 :: cs.2) ;;;
     outs <- liftR (get_ordered_outputs (op_onames (od_op o)) (c_outs cs.1)) ;;
     retM (present_outputs outs))%pym.

  (** ... and with mode 'noop' *)
  Definition call_noop (o : opdef) (args : list arg) (kw : pydict arg) : M st (returned arg) :=
    (bi <- parse_args unwrap (od_sig o) (op_ignore (od_op o)) args kw ;;
     ak <- liftR (boundargs_to_args_kwargs (od_sig o) bi.1) ;;
     args <- mapM' unwrap (map unwrap_special_value ak.1) ;;
     kw <- mapM' (fun ka => a <- unwrap (unwrap_special_value ka.2) ;; retM (ka.1, a)) ak.2 ;;
     env <- liftR (py_call (od_sig o) args kw) ;;
     liftR (od_fun o env))%pym.

  (** * Deleting *)

  (** storage.py:403-434.  The call cache is accessed through the alias, the dirty marks are not
      updated. *)
  Definition set_call_cache (m : mcalls) (s : st) : st :=
    match s_alias s with
    | Some _ => St (s_tabs s) (Some m) (s_allow s) (s_log s)
    | None =>
        let t := s_tabs s in
        with_tabs (Tabs (t_atoms t) (t_shapes t) (t_ops t)
                     (CCalls m (cc_dirty (t_calls t)) (cc_pers (t_calls t)))) s
    end.
  Definition drop_cached (hid : string) : M st unit := fun s =>
    if mc_exists hid (call_cache s)
    then let (r, m) := mc_drop hid (call_cache s) in (r, set_call_cache m s)
    else (Ok tt, s).
  Definition drop_persistent (hid : string) : M st unit := fun s =>
    let t := s_tabs s in
    (Ok tt, with_tabs (Tabs (t_atoms t) (t_shapes t) (t_ops t)
                         (CCalls (cc_cache (t_calls t)) (cc_dirty (t_calls t)) (sql_drop hid (cc_pers (t_calls t))))) s).
  (** [order] enumerates the set of hids *)
  Definition to_drop (hids : gset string) (delete_dependents : bool) (s : st) : result (gset string) :=
    if delete_dependents then
      rc ← get_dependents ∅ hids (cc_pers (t_calls (s_tabs s))); Ok (hids ∪ rc.2)
    else Ok hids.
  Definition drop_calls (order : list string) : M st unit :=
    (iterM drop_cached order ;;; iterM drop_persistent order)%pym.

  (** storage.py:464-473 and 475-483 *)
  Definition get_orphans (s : st) : gset string :=
    list_to_set (pd_keys (cd_pers (t_shapes (s_tabs s)))) ∖
    list_to_set (map r_rhid (cc_pers (t_calls (s_tabs s)))).
  Definition get_unreferenced_cids (s : st) : gset string :=
    (list_to_set (pd_keys (cd_pers (t_atoms (s_tabs s)))) ∖
     list_to_set (map r_rcid (cc_pers (t_calls (s_tabs s))))) ∖
    list_to_set (map rcid (pd_values (cd_pers (t_shapes (s_tabs s))))).

  (** storage.py:312-326 *)
  Definition cleanup_refs : M st unit := fun s =>
    let s1 := (iterM (fun hid => on_tabs (on_shapes (upd (cd_drop hid)))) (elements (get_orphans s)) s).2 in
    iterM (fun cid => on_tabs (on_atoms (upd (cd_drop cid)))) (elements (get_unreferenced_cids s1)) s1.

  (** * Caches (storage.py:169-217, Commit.v).  [clear] replaces the object [calls.cache]. *)
  Definition clear_storage (allow_uncommitted : bool) : M st unit := fun s =>
    match clear_cache allow_uncommitted (s_tabs s) with
    | (Ok _, t) => (Ok tt, St t (Some (call_cache s)) (s_allow s) (s_log s))
    | (Err e, t) => (Err e, with_tabs t s)
    end.
  Definition commit_storage (bigA : pyval -> bool) (f : faults) (o : orders) : M st unit :=
    on_tabs (commit_disk bigA (fun _ => false) (fun _ => false) f o).
  Definition reopen (s : st) : st := St (open_db (db_of (s_tabs s))) None true (s_log s).
End storage.
