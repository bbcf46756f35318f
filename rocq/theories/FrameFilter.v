(** Filtering a frame by the values of its variables: cf.py:563-588 [get_adj_elts] (with
    direction "both"), 1913-1918 [_add_adj_calls], 1935-1957 [isin] and 1920-1933 [__lt__].
    Model file, no proofs. *)
From stdpp Require Import base strings gmap list.
From Verif Require Import Base PyDict Refs Storage Frame FrameHistory.

Section filter.
  Context (ord : sset -> list string) (eord : gset edge3 -> list edge3).

  (** cf.py:573-578, 581-586: a dict comprehension over the edges, keyed by the node at the other
      end.  An edge to a node that is there already replaces its entry. *)
  Definition adj_dict (key : edge3 -> string) (dr : dir) (X : sset) (F : frame) : list edge3 -> setmap -> result setmap :=
    loopR (fun e m => bindR (adj_elts_edge e X dr F) (fun Y => Ok (<[key e := Y]> m))).
  (** cf.py:563-588 *)
  Definition get_adj_elts (n : string) (X : sset) (F : frame) : result setmap :=
    bindR (adj_dict (fun e => e.1.1) Back X F (eord (in_edges n F)) ∅) (fun m =>
    adj_dict (fun e => e.1.2) Forward X F (eord (out_edges n F)) m).
  (** cf.py:1914-1918; the loop is over the keys of the view it starts with *)
  Definition add_adj_calls (view : setmap) (F : frame) : result setmap :=
    loopR (fun v res =>
      bindR (at_key v res) (fun X =>
      bindR (get_adj_elts v X F) (fun new => Ok (setmap_union res new)))) (ord (dom view)) view.

  (** cf.py:1921-1933, 1941-1957.  [keep] is the test on a ref: its history id, its content id or
      its value is one of the given ones, or the value is below the given one.  Every ref is looked
      up in [refs], which the code does not do for history ids. *)
  Definition kept (keep : ref -> bool) (F : frame) (h : string) : bool :=
    match f_refs F !! h with Some r => keep r | None => false end.
  Definition isin (keep : ref -> bool) (F : frame) : result frame :=
    if decide (union_values (f_vs F) ⊆ dom (f_refs F)) then
      let subsets := (fun X : sset => filter (fun h => kept keep F h = true) X) <$> f_vs F in
      bindR (add_adj_calls subsets F) (fun view => select_subsets view F)
    else Err EKeyError.
End filter.
