(** The history of the values of a frame, and the table extracted from it.  Models mandala/cf.py:
    - 1432-1442 [_unify_subobjects], [_is_subobject]
    - 1444-1502 [get_direct_history], 1504-1537 [get_total_history]
    - 1539-1577 [get_history_df], 1579-1680 [get_joint_history_df]
    - 1319-1375 [df] with [values="refs"] and [include_calls=True], up to the conversion of ids to
      objects and the order of the columns

    A table is a list of rows together with its set of columns; a cell is the set of the history ids
    in it, and a column missing in a row is a null.  (The code writes a set with one element as the
    element and larger ones as sorted tuples, cf.py:1564-1570 and 1622-1635; the sets are never empty.)
    The recursion of [get_total_history] is bounded by a fuel parameter.  [pandas.merge] is modelled by
    what it documents: rows match when they agree on all shared columns, null matching null. *)
From stdpp Require Import base strings gmap list.
From Verif Require Import Base PyDict Refs Storage Frame Paths.

(** cf.py:1432-1442 *)
Definition unify (a b : setmap) : setmap := union_with (fun X Y => Some (X ∪ Y)) a b.
Definition is_subobject (a b : setmap) : bool :=
  forallb (fun kX => match b !! kX.1 with Some Y => bool_decide (kX.2 ⊆ Y) | None => false end) (map_to_list a).

(** a [for] loop updating a value *)
Fixpoint loopR {A B} (f : A -> B -> result B) (l : list A) (b : B) : result B :=
  match l with [] => Ok b | a :: l => bindR (f a b) (loopR f l) end.

Section history.
  Context (ord : sset -> list string) (eord : gset edge3 -> list edge3).

  (** cf.py:1486-1499: the input [n] of the creator, seen along the edge from [w] *)
  Definition dh_input (cl : call) (w : string) (F : frame) (n : string) (res : setmap) : result setmap :=
    match dget n (c_ins cl) with
    | None => Ok res
    | Some r => bindR (at_key w (f_vs F)) (fun X => Ok (if decide (rhid r ∈ X) then sm_add w (rhid r) res else res))
    end.
  (** cf.py:1478-1499: one function node containing the creator *)
  Definition dh_func (inc : bool) (c : string) (cl : call) (F : frame) (f : string) (res : setmap) : result setmap :=
    loopR (fun e : edge3 => loopR (dh_input cl e.1.1 F) (reverse_proj cl e.2)) (eord (in_edges f F))
      (if inc then sm_add f c res else res).
  (** cf.py:1468-1501: one ref *)
  Definition dh_ref (inc : bool) (v : string) (F : frame) (h : string) (total : setmap) : result setmap :=
    match f_creator F !! h with
    | None => Ok total
    | Some c =>
        bindR (at_key c (f_calls F)) (fun cl =>
        bindR (at_key c (f_callinv F)) (fun K =>
        bindR (in_neighbors v F) (fun N =>
        bindR (loopR (dh_func inc c cl F) (ord (K ∩ N)) ∅) (fun res => Ok (unify total res)))))
    end.
  (** cf.py:1444-1502 *)
  Definition direct_history (inc : bool) (v : string) (X : sset) (F : frame) : result setmap :=
    if decide (v ∈ vnames F) then loopR (dh_ref inc v F) (ord X) {[v := X]} else Err ENotImplemented.

  (** cf.py:1523-1536: one node of the direct history *)
  Definition th_node (rec : string -> sset -> option setmap -> result setmap) (D : setmap) (F : frame)
      (w : string) (T : setmap) : result setmap :=
    if decide (w ∈ vnames F) then
      bindR (at_key w D) (fun X => bindR (rec w X (Some T)) (fun R => Ok (unify T R)))
    else Ok T.
  (** cf.py:1504-1537 *)
  Fixpoint total_history (fuel : nat) (inc : bool) (F : frame) (v : string) (X : sset) (res : option setmap) : result setmap :=
    match fuel with
    | 0 => Err EFuel
    | S fuel =>
        bindR (direct_history inc v X F) (fun D =>
        match res with
        | Some R => if is_subobject D R then Ok R
                    else loopR (th_node (total_history fuel inc F) D F) (ord (dom D)) D
        | None => loopR (th_node (total_history fuel inc F) D F) (ord (dom D)) D
        end)
    end.

  (** * Tables *)
  Record table := Table { t_cols : sset; t_rows : list setmap }.
  (** [pd.DataFrame(rows)] *)
  Definition table_of (rows : list setmap) : table := Table (⋃ (map (fun r : setmap => dom r) rows)) rows.

  (** cf.py:1547-1577; [self.refs[...]] and [self.calls[...]] raise [KeyError] for unknown ids *)
  Definition known_row (F : frame) (r : setmap) : bool :=
    forallb (fun nX => (bool_decide (nX.1 ∉ vnames F) || bool_decide (nX.2 ⊆ dom (f_refs F))) &&
                       (bool_decide (nX.1 ∉ fnames F) || bool_decide (nX.2 ⊆ dom (f_calls F)))) (map_to_list r).
  Definition history_df (fuel : nat) (inc : bool) (F : frame) (v : string) : result table :=
    bindR (at_key v (f_vs F)) (fun X =>
    bindR (loopR (fun h rows => bindR (total_history fuel inc F v {[h]} None) (fun r =>
             if known_row F r then Ok (rows ++ [r]) else Err EKeyError)) (ord X) []) (fun rows =>
    Ok (table_of rows))).

  (** [pd.merge(a, b, how=..., on=...)] on the shared columns; joining on no column is an error *)
  Definition agree (C : sset) (r s : setmap) : Prop := set_Forall (fun c => r !! c = s !! c) C.
  Definition merge_tables (outer : bool) (a b : table) : result table :=
    let C := t_cols a ∩ t_cols b in
    if decide (C = ∅) then Err EValueError
    else Ok (Table (t_cols a ∪ t_cols b)
      ((r ← t_rows a; s ← t_rows b; if decide (agree C r s) then [r ∪ s] else []) ++
       (if outer then filter (fun r => ~ Exists (agree C r) (t_rows b)) (t_rows a) ++
                      filter (fun s => ~ Exists (fun r => agree C r s) (t_rows a)) (t_rows b)
        else []))).
  (** cf.py:1664-1677, for the variables in a given order ([sort_nodes], cf.py:1267-1271);
      [history_dfs[0]] raises [IndexError] if there are none *)
  Definition joint_history_df (fuel : nat) (inc outer : bool) (F : frame) (vs : list string) : result table :=
    bindR (loopR (fun v ts => bindR (history_df fuel inc F v) (fun t => Ok (ts ++ [t]))) vs []) (fun ts =>
    match ts with
    | [] => Err EIndexError
    | t :: ts => loopR (fun b a => merge_tables outer a b) ts t
    end).

  (** cf.py:1319-1375; [sortn]: [sort_nodes] on the restricted frame.  One node: the values of the
      variable, without their history. *)
  Definition df (sortn : frame -> sset -> list string) (fuel : nat) (outer : bool) (ns : list string) (F : frame) : result table :=
    match ns with
    | [v] => bindR (at_key v (f_vs F)) (fun X =>
        if decide (X ⊆ dom (f_refs F)) then Ok (Table {[v]} (map (fun h => {[v := {[h]}]}) (ord X))) else Err EKeyError)
    | _ =>
        bindR (midstream ord eord fuel true (if decide (ns = []) then ord (f_nodes F) else ns) F) (fun R =>
        bindR (get_sink_elts ord eord R) (fun sinks =>
        joint_history_df fuel true outer R
          (sortn R (filter (fun v => default ∅ (sinks !! v) <> ∅) (vnames R)))))
    end.
End history.
