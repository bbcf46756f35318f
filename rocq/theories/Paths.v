(** Edges on the paths between two nodes, and the part of a frame spanned by some nodes.
    Models mandala/utils.py:435-465 [get_edges_in_paths], mandala/cf.py:1282-1294
    [get_all_edges_on_paths_between] and mandala/cf.py:745-773 [midstream].

    The recursion of [dfs] is bounded by a fuel parameter, which stands for Python's recursion
    limit: running out of fuel is a [RecursionError]. *)
From stdpp Require Import base strings gmap list.
From Verif Require Import Base PyDict Refs Storage Frame.

Notation edge2 := (string * string)%type.
(** the two sets shared by all calls of [dfs]: [visited] and [valid_edges] *)
Notation epst := (gset string * gset (string * string))%type.

Section paths.
  Context (ord : sset -> list string).

  (** utils.py:452-459: the loop over the neighbours of [node] *)
  Fixpoint ep_loop (rec : string -> list edge2 -> epst -> result epst)
      (node : string) (path : list edge2) (l : list string) (st : epst) : result epst :=
    match l with
    | [] => Ok st
    | nb :: l =>
        if decide (nb ∉ st.1) then
          bindR (rec nb (path ++ [(node, nb)]) st) (fun st => ep_loop rec node path l st)
        else if decide ((node, nb) ∉ st.2 /\ (node, nb) ∉ path) then
          bindR (rec nb (path ++ [(node, nb)]) st) (fun st => ep_loop rec node path l st)
        else ep_loop rec node path l st
    end.
  (** utils.py:444-462 *)
  Fixpoint ep_dfs (g : gmap string sset) (stop : string) (fuel : nat)
      (node : string) (path : list edge2) (st : epst) : result epst :=
    match fuel with
    | 0 => Err EFuel
    | S fuel =>
        if decide (node = stop) then Ok (st.1, st.2 ∪ list_to_set path)
        else
          bindR (at_key node g) (fun ns =>
          bindR (ep_loop (ep_dfs g stop fuel) node path (ord ns) ({[node]} ∪ st.1, st.2)) (fun st =>
          Ok (st.1 ∖ {[node]}, st.2)))
    end.
  (** utils.py:464-467 *)
  Definition get_edges_in_paths (fuel : nat) (g : gmap string sset) (start stop : string) : result (gset edge2) :=
    bindR (ep_dfs g stop fuel start [] (∅, ∅)) (fun st => Ok st.2).

  (** cf.py:1282-1294 *)
  Definition graph_of (F : frame) : result (gmap string sset) :=
    if forallb (fun e : edge3 => bool_decide (e.1.1 ∈ f_nodes F)) (edges_list F) then
      Ok (set_to_map (fun n => (n, list_to_set (map (fun e : edge3 => e.1.2)
            (filter (fun e : edge3 => e.1.1 = n) (edges_list F))))) (f_nodes F))
    else Err EKeyError.
  Definition edges_between (fuel : nat) (start stop : string) (F : frame) : result (gset edge2) :=
    bindR (graph_of F) (fun g => get_edges_in_paths fuel g start stop).

  (** cf.py:756-760: over all ordered pairs of different nodes *)
  Definition distinct_pairs (ns : list string) : list (string * string) :=
    s ← ns; d ← ns; if decide (s = d) then [] else [(s, d)].
  Fixpoint edges_between_all (fuel : nat) (ps : list (string * string)) (F : frame) : result (gset edge2) :=
    match ps with
    | [] => Ok ∅
    | p :: ps =>
        bindR (edges_between fuel p.1 p.2 F) (fun X =>
        bindR (edges_between_all fuel ps F) (fun Y => Ok (X ∪ Y)))
    end.
  Definition midstream_nodes (fuel : nat) (ns : list string) (F : frame) : result sset :=
    bindR (edges_between_all fuel (distinct_pairs ns) F) (fun E =>
    Ok (list_to_set (e ← elements E; [e.1; e.2]))).

  Context (eord : gset edge3 -> list edge3).
  (** cf.py:745-773 *)
  Definition midstream (fuel : nat) (strong : bool) (ns : list string) (F : frame) : result frame :=
    bindR (midstream_nodes fuel ns F) (fun keep =>
    bindR (select_nodes eord keep F) (fun R =>
    bindR (get_source_elts ord eord R) (fun src =>
    bindR (get_reachable_elts ord eord (filter (fun kX => kX.1 ∈ ns) src) Forward strong R) (fun view =>
    select_subsets view R)))).
End paths.
