(** The versioner: deep versions of components, the table of versioned
    calls, and the synchronization of the code, modelled from
    mandala/deps/versioner.py, mandala/deps/deep_versions.py and the parts of
    mandala/deps/model.py they use.

    Simplified:
    - dictionaries are finite maps, iterated in a fixed order; the order can
      only decide which of several errors is raised first;
    - [hash_dict] (mandala/deps/utils.py:189-190) hashes the items in the fixed
      order instead of the sorted one;
    - a component whose recorded kind (function or global variable) differs
      from the kind of a later node keeps its history: the content hash of a
      node is that of its own kind;
    - the "outputs" column of the table is always [None] (versioner.py:118)
      and is left out; the edges of the topology are left out;
    - the code state is an arbitrary map: the crawl that produces it
      (versioner.py:154-178 [guess_code_state]) reads the live Python modules
      and is not modelled;
    - printing is not modelled. *)
From stdpp Require Import base strings gmap list.
From Verif Require Import Base Dag.

(** mandala/deps/utils.py:12 [DepKey]: module and qualified name. *)
Notation depkey := (string * string)%type.

(** mandala/deps/model.py:65-241: the three kinds of nodes.  A traced function
    has no source until [apply_state_hypothesis] sets it
    (model.py:102-115). *)
Inductive node :=
  | NCall (src : option string) (runtime : string)
  | NGlobal (h repr : string)
  | NTerm (dep : depkey) (cv : string).
Global Instance node_eq_dec : EqDecision node.
Proof. solve_decision. Defined.

Definition is_term (n : node) : bool := match n with NTerm _ _ => true | _ => false end.
Definition is_global (n : node) : bool := match n with NGlobal _ _ => true | _ => false end.

(** mandala/deps/deep_versions.py:20-48 [Version], once synced. *)
Record version := Version {
  v_comp : depkey;
  v_direct : gmap depkey string;
  v_memo : gmap depkey (gset string);
  v_cexp : gmap depkey (gset string);
  v_cv : string;
  v_sexp : gmap depkey string;
  v_sv : string;
}.

(** A row of the table of versioned calls (versioner.py:83-89). *)
Record vrow := VRow { r_uid : string; r_sv : string; r_cv : string }.
Global Instance vrow_eq_dec : EqDecision vrow.
Proof. solve_decision. Defined.

(** mandala/deps/versioner.py:49-89 [Versioner.__init__]. *)
Record versioner := Versioner {
  vs_strict : bool;
  vs_topology : gmap depkey node;
  vs_nodes : gmap depkey node;
  vs_dags : gmap depkey (dag content);
  vs_versions : gmap depkey (gmap string version);
  vs_df : list vrow;
}.
Definition new_versioner (strict : bool) : versioner := Versioner strict ∅ ∅ ∅ ∅ [].

(** mandala/deps/versioner.py:29-46 [CodeState]. *)
Notation code_state := (gmap depkey node).

(** A trace: its roots and its nodes (mandala/deps/model.py:243-252). *)
Record trace := Trace { t_roots : gset depkey; t_nodes : gmap depkey node }.

Section versioner.
Variable H : pyval -> string.
Local Open Scope pym_scope.

(** mandala/deps/model.py:150-162,214-224: [content] and [content_hash]. *)
Definition node_content (n : node) : result content :=
  match n with
  | NCall (Some s) _ => Ok (CCode s)
  | NCall None _ => Err EAssertion
  | NGlobal h r => Ok (CGlobal h r)
  | NTerm _ _ => Err ENotImplemented
  end.
Definition node_hash (n : node) : result string :=
  match node_content n with Ok c => Ok (chash H c) | Err e => Err e end.

(** mandala/deps/utils.py:189-190 [hash_dict]. *)
Definition vkey (k : depkey) : pyval := VTuple [VStr k.1; VStr k.2].
Definition hash_strs (m : gmap depkey string) : string :=
  H (VList ((fun kv => VTuple [vkey kv.1; VStr kv.2]) <$> map_to_list m)).
Definition hash_sets (m : gmap depkey (gset string)) : string :=
  H (VList ((fun kv => VTuple [vkey kv.1; VTuple (VStr <$> elements kv.2)]) <$> map_to_list m)).

(** mandala/deps/shallow_versions.py:292-312 [DAG.sync] on a component. *)
Definition csync := sync (chash H) cpresent.

(** mandala/deps/deep_versions.py:54-76 [Version.from_trace]: the direct
    dependencies with their content hashes, and the versions of the memoized
    calls. *)
Definition from_trace_direct (nodes : gmap depkey node) : result (gmap depkey string) :=
  foldr (fun (kn : depkey * node) acc =>
    m ← acc;
    match kn.2 with
    | NTerm _ _ => Ok m
    | n => h ← node_hash n; Ok (<[kn.1 := h]> m)
    end) (Ok ∅) (map_to_list nodes).
Definition from_trace_memo (nodes : gmap depkey node) : gmap depkey (gset string) :=
  foldr (fun (kn : depkey * node) m =>
    match kn.2 with
    | NTerm d cv => <[d := {[cv]} ∪ default ∅ (m !! d)]> m
    | _ => m
    end) ∅ (map_to_list nodes).

(** The referenced versions, in iteration order
    (deep_versions.py:84-93,113-120). *)
Definition memo_refs (memo : gmap depkey (gset string)) : list (depkey * string) :=
  dk ← map_to_list memo; (fun cv => (dk.1, cv)) <$> elements dk.2.

Definition get_version (versions : gmap depkey (gmap string version)) (k : depkey) (cv : string)
    : result version :=
  match versions !! k with
  | None => Err EKeyError
  | Some m => of_option EKeyError (m !! cv)
  end.

(** mandala/deps/deep_versions.py:81-95 [_set_content_expansion]. *)
Definition add_exp (m m' : gmap depkey (gset string)) : gmap depkey (gset string) :=
  union_with (fun a b => Some (a ∪ b)) m m'.
Definition content_expansion (versions : gmap depkey (gmap string version))
    (direct : gmap depkey string) (memo : gmap depkey (gset string))
    : result (gmap depkey (gset string)) :=
  foldl (fun acc kc =>
    m ← acc; v ← get_version versions kc.1 kc.2; Ok (add_exp m (v_cexp v)))
    (Ok ((fun h => {[h]}) <$> direct)) (memo_refs memo).

(** mandala/deps/deep_versions.py:105-134 [_set_semantic_expansion]. *)
Definition direct_semantic (dags : gmap depkey (dag content)) (direct : gmap depkey string)
    : result (gmap depkey string) :=
  foldr (fun (kh : depkey * string) acc =>
    m ← acc;
    match dags !! kh.1 with
    | None => Err EKeyError
    | Some d => match d_commits d !! kh.2 with
                | None => Err EKeyError
                | Some c => Ok (<[kh.1 := c_shash c]> m)
                end
    end) (Ok ∅) (map_to_list direct).
Definition agree_on_overlap (m m' : gmap depkey string) : bool :=
  forallb (fun kv => match m' !! kv.1 with Some s => bool_decide (s = kv.2) | None => true end)
    (map_to_list m).
Definition semantic_expansion (dags : gmap depkey (dag content))
    (versions : gmap depkey (gmap string version))
    (direct : gmap depkey string) (memo : gmap depkey (gset string)) : result (gmap depkey string) :=
  foldl (fun acc kc =>
    m ← acc; v ← get_version versions kc.1 kc.2;
    if agree_on_overlap m (v_sexp v) then Ok (v_sexp v ∪ m) else Err EValueError)
    (direct_semantic dags direct) (memo_refs memo).

(** mandala/deps/deep_versions.py:54-76,97-104,136-150: [Version.from_trace]
    followed by [Version.sync]. *)
Definition make_version (vs : versioner) (comp : depkey) (nodes : gmap depkey node) : result version :=
  direct ← from_trace_direct nodes;
  let memo := from_trace_memo nodes in
  cexp ← content_expansion (vs_versions vs) direct memo;
  sexp ← semantic_expansion (vs_dags vs) (vs_versions vs) direct memo;
  Ok (Version comp direct memo cexp (hash_sets cexp) sexp (hash_strs sexp)).

(** mandala/deps/versioner.py:257-271 [init_component]. *)
Definition init_component (k : depkey) (n : node) : M versioner unit := fun vs =>
  match node_content n with
  | Err e => (Err e, vs)
  | Ok c =>
    match init (chash H) c (empty_dag, User [] []) with
    | (Ok _, (d, _)) =>
      (Ok tt, Versioner (vs_strict vs) (vs_topology vs) (<[k := n]> (vs_nodes vs))
                (<[k := d]> (vs_dags vs)) (<[k := ∅]> (vs_versions vs)) (vs_df vs))
    | (Err e, _) => (Err e, vs)
    end
  end.

(** mandala/deps/versioner.py:344-355 [create_new_components_from_nodes]. *)
Definition create_new_components (nodes : gmap depkey node) : M versioner unit :=
  iterM (fun kn : depkey * node => fun vs =>
    if bool_decide (kn.1 ∈ dom (vs_nodes vs)) || is_term kn.2 then (Ok tt, vs)
    else init_component kn.1 kn.2 vs) (map_to_list nodes).

(** mandala/deps/versioner.py:357-365 [sync_version] (with
    [require_exists=False]). *)
Definition add_version (v : version) : M versioner unit := fun vs =>
  match vs_versions vs !! v_comp v with
  | None => (Err EKeyError, vs)
  | Some m =>
    match m !! v_cv v with
    | Some _ => (Ok tt, vs)
    | None => (Ok tt, Versioner (vs_strict vs) (vs_topology vs) (vs_nodes vs) (vs_dags vs)
                        (<[v_comp v := <[v_cv v := v]> m]> (vs_versions vs)) (vs_df vs))
    end
  end.
Definition sync_version (comp : depkey) (nodes : gmap depkey node) : M versioner version := fun vs =>
  match make_version vs comp nodes with
  | Err e => (Err e, vs)
  | Ok v => (add_version v;;; retM v) vs
  end.

(** mandala/deps/versioner.py:442-470 [_check_semantic_distinguishability]:
    lines 449-460 collect the semantic expansions of the recorded calls. *)
Definition existing_expansions (vs : versioner) (comp : depkey) (uid : string)
    : result (gmap string (gmap depkey string)) :=
  foldl (fun acc r =>
    m ← acc;
    match m !! r_sv r with
    | Some _ => Ok m
    | None => v ← get_version (vs_versions vs) comp (r_cv r); Ok (<[r_sv r := v_sexp v]> m)
    end) (Ok ∅) (filter (fun r => r_uid r = uid) (vs_df vs)).
Definition check_distinguishable (vs : versioner) (comp : depkey) (uid : string) (v : version)
    : result unit :=
  m ← existing_expansions vs comp uid;
  if forallb (fun se => negb (agree_on_overlap se.2 (v_sexp v))) (map_to_list m)
  then Ok tt else Err EValueError.

(** mandala/deps/versioner.py:414-440 [process_trace] with
    mandala/deps/model.py:249-253 [get_trace_state]. *)
Definition process_trace (tr : trace) (uid : string) (is_recompute : bool) : M versioner version := fun vs =>
  match elements (t_roots tr) with
  | [comp] =>
    (create_new_components (t_nodes tr);;;
     v <- sync_version comp (t_nodes tr);;
     (if is_recompute then retM tt
      else fun vs =>
        match check_distinguishable vs comp uid v with
        | Err e => (Err e, vs)
        | Ok _ => (Ok tt, Versioner (vs_strict vs) (vs_topology vs) (vs_nodes vs) (vs_dags vs)
                            (vs_versions vs) (vs_df vs ++ [VRow uid (v_sv v) (v_cv v)]))
        end);;;
     retM v) vs
  | _ => (Err EValueError, vs)
  end.

(** mandala/deps/versioner.py:180-206 [get_codestate_semantic_hashes]. *)
Definition codestate_hashes (vs : versioner) (cs : code_state) : result (option (gmap depkey string)) :=
  if bool_decide (dom (vs_topology vs) ⊆ dom cs) then
    foldr (fun (kn : depkey * node) acc =>
      o ← acc;
      match o with
      | None => Ok None
      | Some m =>
        if bool_decide (kn.1 ∈ dom (vs_topology vs)) then
          h ← node_hash kn.2;
          match vs_dags vs !! kn.1 with
          | None => Err EKeyError
          | Some d => match d_commits d !! h with
                      | None => Ok None
                      | Some c => Ok (Some (<[kn.1 := c_shash c]> m))
                      end
          end
        else Ok (Some m)
      end) (Ok (Some ∅)) (map_to_list cs)
  else Err EValueError.

(** mandala/deps/versioner.py:252-255 [get_semantic_version] on the support of
    a version (deep_versions.py:173-174). *)
Definition restrict_to (m : gmap depkey string) (support : gset depkey) : result (gmap depkey string) :=
  if bool_decide (support ⊆ dom m)
  then Ok (filter (fun kv : depkey * string => kv.1 ∈ support) m)
  else Err EKeyError.

(** mandala/deps/versioner.py:367-412 [lookup_call]. *)
Fixpoint lookup_rows (vs : versioner) (comp : depkey) (hs : gmap depkey string) (rows : list vrow)
    : result (option (string * string)) :=
  match rows with
  | [] => Ok None
  | r :: rows =>
    v ← get_version (vs_versions vs) comp (r_cv r);
    m ← restrict_to hs (dom (v_cexp v));
    if decide (hash_strs m = r_sv r) then Ok (Some (r_cv r, r_sv r))
    else lookup_rows vs comp hs rows
  end.
Definition lookup_call (vs : versioner) (comp : depkey) (uid : string) (cs : code_state)
    : result (option (string * string)) :=
  o ← codestate_hashes vs cs;
  match o with
  | None => Ok None
  | Some hs => lookup_rows vs comp hs (filter (fun r => r_uid r = uid) (vs_df vs))
  end.

(** mandala/deps/versioner.py:322-339
    [get_semantically_compatible_versions]. *)
Definition compatible_versions (vs : versioner) (comp : depkey) (cs : code_state) : result (list version) :=
  o ← codestate_hashes vs cs;
  match o with
  | None => Ok []
  | Some hs =>
    match vs_versions vs !! comp with
    | None => Err EKeyError
    | Some m =>
      foldr (fun v acc =>
        l ← acc;
        if bool_decide (dom (v_sexp v) ⊆ dom hs) then
          if bool_decide (map_Forall (fun k s => hs !! k = Some s) (v_sexp v)) then Ok (v :: l) else Ok l
        else Err EKeyError) (Ok []) ((map_to_list m).*2)
    end
  end.

(** mandala/deps/versioner.py:208-250 [apply_state_hypothesis]: the nodes of
    the trace, compared with the code state and given its sources. *)
Definition hypothesis_node (strict : bool) (cs : code_state) (k : depkey) (n : node) : result (option node) :=
  match n with
  | NTerm _ _ => Ok (Some n)
  | NGlobal h r =>
    match cs !! k with
    | None => Ok (Some n)
    | Some n' =>
      c ← node_content n';
      if decide (c = CGlobal h r) then Ok (Some n) else Err EValueError
    end
  | NCall s rt =>
    match cs !! k with
    | Some (NCall (Some src) rt') =>
      if bool_decide (rt' <> rt) && strict then Err EValueError
      else Ok (Some (NCall (Some src) rt))
    | Some (NCall None rt') =>
      if bool_decide (rt' <> rt) && strict then Err EValueError else Err EAssertion
    | Some _ => Err ETypeError
    | None => if strict then Err EValueError else Ok None
    end
  end.
Definition apply_state_hypothesis (strict : bool) (cs : code_state) (nodes : gmap depkey node)
    : result (gmap depkey node) :=
  foldr (fun (kn : depkey * node) acc =>
    m ← acc; o ← hypothesis_node strict cs kn.1 kn.2;
    Ok (match o with Some n => <[kn.1 := n]> m | None => m end)) (Ok ∅) (map_to_list nodes).

(** mandala/deps/versioner.py:123-132 [update_global_topology] (without the
    edges). *)
Definition update_topology (nodes : gmap depkey node) (vs : versioner) : versioner :=
  Versioner (vs_strict vs)
    (filter (fun kn : depkey * node => is_term kn.2 = false) nodes ∪ vs_topology vs)
    (vs_nodes vs) (vs_dags vs) (vs_versions vs) (vs_df vs).

(** mandala/deps/versioner.py:43-46 [add_globals_from]. *)
Definition add_globals_from (nodes : gmap depkey node) (cs : code_state) : code_state :=
  cs ∪ filter (fun kn : depkey * node => is_global kn.2 = true) nodes.

(** mandala/storage.py:881-899: the end of a versioned call that ran, from the
    trace to the version.  The state is the versioner and the code state. *)
Definition finish_call (tr : trace) (uid : string) : M (versioner * code_state) version := fun '(vs, cs) =>
  match apply_state_hypothesis (vs_strict vs) cs (t_nodes tr) with
  | Err e => (Err e, (vs, cs))
  | Ok nodes =>
    let vs1 := update_topology nodes vs in
    let cs1 := add_globals_from nodes cs in
    let (r, vs2) := process_trace (Trace (t_roots tr) nodes) uid false vs1 in
    (r, (vs2, cs1))
  end.

(** mandala/deps/versioner.py:273-295 [sync_codebase]: [dags] is the deep copy
    of the histories, which replaces them at the end (line 295). *)
Fixpoint sync_dags (cs : code_state) (todo : list depkey)
    : M (gmap depkey (dag content) * user) unit := fun '(dags, u) =>
  match todo with
  | [] => (Ok tt, (dags, u))
  | k :: todo =>
    match cs !! k with
    | None => (Err EKeyError, (dags, u))
    | Some n =>
      match node_content n, dags !! k with
      | Err e, _ => (Err e, (dags, u))
      | _, None => (Err EKeyError, (dags, u))
      | Ok c, Some d =>
        match csync c None (d, u) with
        | (Err e, (d', u')) => (Err e, (<[k := d']> dags, u'))
        | (Ok _, (d', u')) => sync_dags cs todo (<[k := d']> dags, u')
        end
      end
    end
  end.
Definition set_dags (dags : gmap depkey (dag content)) (vs : versioner) : versioner :=
  Versioner (vs_strict vs) (vs_topology vs) (vs_nodes vs) dags (vs_versions vs) (vs_df vs).
Definition sync_codebase (cs : code_state) : M (versioner * user) unit := fun '(vs, u) =>
  match sync_dags cs ((map_to_list (vs_dags vs)).*1) (vs_dags vs, u) with
  | (Err e, (_, u')) => (Err e, (vs, u'))
  | (Ok _, (dags, u')) => (Ok tt, (set_dags dags vs, u'))
  end.

(** mandala/deps/versioner.py:297-311 [sync_component]: the history is changed
    in place. *)
Definition sync_component (k : depkey) (sem : option bool) (cs : code_state) : M (versioner * user) string :=
  fun '(vs, u) =>
  match vs_dags vs !! k, cs !! k with
  | Some d, Some n =>
    match node_content n with
    | Err e => (Err e, (vs, u))
    | Ok c =>
      let '(r, (d', u')) := csync c sem (d, u) in
      (r, (set_dags (<[k := d']> (vs_dags vs)) vs, u'))
    end
  | _, _ => (Err EKeyError, (vs, u))
  end.

(** mandala/deps/versioner.py:91-105 [drop_semantic_version]. *)
Definition drop_semantic_version (sv : string) (vs : versioner) : versioner :=
  Versioner (vs_strict vs) (vs_topology vs) (vs_nodes vs) (vs_dags vs)
    ((fun m => filter (fun kv : string * version => v_sv kv.2 <> sv) m) <$> vs_versions vs)
    (filter (fun r => r_sv r <> sv) (vs_df vs)).
End versioner.
