(** Graph algorithms on dictionaries of neighbours.

    Models mandala/utils.py:313-370 (find_strongly_connected_components, Tarjan), 372-396 (create_super_graph), 399-417
    (topological_sort), 419-433 (almost_topological_sort) and mandala/cf.py:1233-1265 (topsort_modulo_sccs, with Kahn's algorithm).

    A [Dict[T, Set[T]]] is a list of (node, neighbours), both in iteration order. The Python recursion limit is not
    modelled; recursion uses fuel (EFuel when it runs out, proved not to happen). *)
From stdpp Require Import base list gmap sorting numbers.
From Verif Require Import Base.

Section graph.
  Context {A : Type} `{Countable A}.
  (** [<=] on nodes, used by [sorted] *)
  Context (leA : relation A) `{!RelDecision leA}.

  Definition graph := list (A * list A).

  (** [graph.get(node)] *)
  Fixpoint gget (x : A) (g : graph) : option (list A) :=
    match g with
    | [] => None
    | (y, l) :: g => if decide (x = y) then Some l else gget x g
    end.

  (** ** utils.py:399-417, topological_sort *)
  (** visited, result (in the order of appending) *)
  Definition tstate : Type := gset A * list A.

  (** [dfs], and its loop over the neighbours, lines 403-408 *)
  Fixpoint ts_dfs (g : graph) (fuel : nat) (x : A) (s : tstate) : result tstate :=
    match fuel with
    | O => Err EFuel
    | S fuel =>
        let fix loop (l : list A) (s : tstate) : result tstate :=
          match l with
          | [] => Ok s
          | y :: l => if decide (y ∈ s.1) then loop l s
                      else match ts_dfs g fuel y s with Ok s => loop l s | Err e => Err e end
          end in
        match loop (default [] (gget x g)) ({[x]} ∪ s.1, s.2) with
        | Ok s => Ok (s.1, s.2 ++ [x])
        | Err e => Err e
        end
    end.

  (** lines 413-415 *)
  Fixpoint ts_all (g : graph) (fuel : nat) (l : list A) (s : tstate) : result tstate :=
    match l with
    | [] => Ok s
    | x :: l => if decide (x ∈ s.1) then ts_all g fuel l s
                else match ts_dfs g fuel x s with Ok s => ts_all g fuel l s | Err e => Err e end
    end.

  (** The fuel is one more than the number of entries of the graph. *)
  Definition g_size (g : graph) : nat := S (length g + foldr (fun p n => length p.2 + n) 0 g).

  Definition topological_sort (g : graph) : result (list A) :=
    match ts_all g (g_size g) (merge_sort leA (map fst g)) (∅, []) with
    | Ok s => Ok (reverse s.2)
    | Err e => Err e
    end.

  (** ** utils.py:313-370, Tarjan's algorithm *)
  Record tj := TJ {
    tj_index : nat;
    tj_idx : gmap A nat;        (* indexes *)
    tj_low : gmap A nat;        (* lowlinks *)
    tj_on : gmap A bool;        (* on_stack *)
    tj_stack : list A;          (* top first *)
    tj_sccs : list (list A) }.

  (** [d[x]] *)
  Definition mget {B} (x : A) (m : gmap A B) : result B := of_option EKeyError (m !! x).

  (** lines 325-330 *)
  Definition tj_visit (x : A) (s : tj) : tj :=
    TJ (S (tj_index s)) (<[x := tj_index s]> (tj_idx s)) (<[x := tj_index s]> (tj_low s))
       (<[x := true]> (tj_on s)) (x :: tj_stack s) (tj_sccs s).
  (** lines 335, 337: [lowlinks[node] = min(lowlinks[node], v)] *)
  Definition tj_min (x : A) (v : nat) (s : tj) : result tj :=
    match mget x (tj_low s) with
    | Ok n => Ok (TJ (tj_index s) (tj_idx s) (<[x := n `min` v]> (tj_low s)) (tj_on s) (tj_stack s) (tj_sccs s))
    | Err e => Err e
    end.
  (** lines 342-348: the popped nodes, [on_stack] and what remains *)
  Fixpoint tj_pop (x : A) (stk : list A) (on : gmap A bool) : result (list A * list A * gmap A bool) :=
    match stk with
    | [] => Err EIndexError                                     (* pop from empty list *)
    | w :: stk =>
        let on := <[w := false]> on in
        if decide (w = x) then Ok ([w], stk, on)
        else match tj_pop x stk on with Ok (c, stk, on) => Ok (w :: c, stk, on) | Err e => Err e end
    end.
  (** lines 339-349 *)
  Definition tj_close (x : A) (s : tj) : result tj :=
    match mget x (tj_low s), mget x (tj_idx s) with
    | Ok n, Ok i =>
        if decide (n = i) then
          match tj_pop x (tj_stack s) (tj_on s) with
          | Ok (c, stk, on) => Ok (TJ (tj_index s) (tj_idx s) (tj_low s) on stk (tj_sccs s ++ [c]))
          | Err e => Err e
          end
        else Ok s
    | Err e, _ => Err e
    | _, Err e => Err e
    end.

  (** lines 324-349 *)
  Fixpoint tj_dfs (g : graph) (fuel : nat) (x : A) (s : tj) : result tj :=
    match fuel with
    | O => Err EFuel
    | S fuel =>
        let fix loop (l : list A) (s : tj) : result tj :=
          match l with
          | [] => Ok s
          | y :: l =>
              let r :=
                match tj_idx s !! y with
                | None => match tj_dfs g fuel y s with
                          | Ok s => match mget y (tj_low s) with Ok v => tj_min x v s | Err e => Err e end
                          | Err e => Err e
                          end
                | Some i => match mget y (tj_on s) with
                            | Ok true => tj_min x i s
                            | Ok false => Ok s
                            | Err e => Err e
                            end
                end in
              match r with Ok s => loop l s | Err e => Err e end
          end in
        match gget x g with
        | None => Err EKeyError
        | Some ns => match loop ns (tj_visit x s) with Ok s => tj_close x s | Err e => Err e end
        end
    end.

  (** lines 365-367 *)
  Fixpoint tj_all (g : graph) (fuel : nat) (l : list A) (s : tj) : result tj :=
    match l with
    | [] => Ok s
    | x :: l => match tj_idx s !! x with
                | Some _ => tj_all g fuel l s
                | None => match tj_dfs g fuel x s with Ok s => tj_all g fuel l s | Err e => Err e end
                end
    end.

  (** [<=] on tuples *)
  Fixpoint lexle (l k : list A) : Prop :=
    match l, k with
    | [], _ => True
    | _ :: _, [] => False
    | x :: l, y :: k => if decide (x = y) then lexle l k else leA x y
    end.
  Global Instance lexle_dec : RelDecision lexle.
  Proof.
    intros l. induction l as [|x l IH]; intros [|y k]; cbn; try (left; exact I); try (right; tauto).
    destruct (decide (x = y)); [apply IH|apply decide; apply _].
  Defined.

  Definition find_sccs (g : graph) : result (list (list A)) :=
    match tj_all g (g_size g) (map fst g) (TJ 0 ∅ ∅ ∅ [] []) with
    | Ok s => Ok (merge_sort lexle (map (merge_sort leA) (tj_sccs s)))
    | Err e => Err e
    end.

  (** ** utils.py:372-396, create_super_graph *)
  (** lines 381-384; later assignments win *)
  Definition node_to_scc (sccs : list (list A)) : gmap A nat :=
    fold_left (fun m ic => fold_left (fun m x => <[x := ic.1]> m) ic.2 m) (imap pair sccs) ∅.

  Fixpoint sg_setdefault (i : nat) (g : list (nat * list nat)) : list (nat * list nat) :=
    match g with
    | [] => [(i, [])]
    | (j, l) :: g => if decide (i = j) then (j, l) :: g else (j, l) :: sg_setdefault i g
    end.
  (** [super_graph[i].add(j)] *)
  Definition sg_add (i j : nat) (g : list (nat * list nat)) : list (nat * list nat) :=
    map (fun kl => if decide (kl.1 = i) then (kl.1, if decide (j ∈ kl.2) then kl.2 else kl.2 ++ [j]) else kl) g.

  (** lines 391-394 *)
  Fixpoint sg_edges (m : gmap A nat) (i : nat) (l : list A) (sg : list (nat * list nat)) : result (list (nat * list nat)) :=
    match l with
    | [] => Ok sg
    | y :: l => match mget y m with
                | Ok j => sg_edges m i l (if decide (i = j) then sg else sg_add i j sg)
                | Err e => Err e
                end
    end.
  (** lines 386-394 *)
  Fixpoint sg_nodes (m : gmap A nat) (g : graph) (sg : list (nat * list nat)) : result (list (nat * list nat)) :=
    match g with
    | [] => Ok sg
    | (x, ns) :: g => match mget x m with
                      | Ok i => match sg_edges m i ns (sg_setdefault i sg) with
                                | Ok sg => sg_nodes m g sg
                                | Err e => Err e
                                end
                      | Err e => Err e
                      end
    end.
  Definition create_super_graph (g : graph) (sccs : list (list A)) : result (list (nat * list nat)) :=
    sg_nodes (node_to_scc sccs) g [].
End graph.

Section almost.
  Context {A : Type} `{Countable A} (leA : relation A) `{!RelDecision leA}.

  (** lines 428-431: [result.extend(sccs[super_node])] *)
  Fixpoint extend_all (sccs : list (list A)) (l : list nat) : result (list A) :=
    match l with
    | [] => Ok []
    | i :: l => match sccs !! i with
                | None => Err EIndexError
                | Some c => match extend_all sccs l with Ok r => Ok (c ++ r) | Err e => Err e end
                end
    end.

  (** ** utils.py:419-433, almost_topological_sort *)
  Definition almost_topological_sort (g : graph (A:=A)) : result (list A) :=
    match find_sccs leA g with
    | Err e => Err e
    | Ok sccs =>
        match create_super_graph g sccs with
        | Err e => Err e
        | Ok sg => match topological_sort le sg with Ok l => extend_all sccs l | Err e => Err e end
        end
    end.

  (** ** cf.py:1233-1265, topsort_modulo_sccs
      A frame's graph: its nodes, and [out] as a list of (source, [(label, targets)]). *)
  Context {L : Type}.
  Definition outmap := list (A * list (L * list A)).
  Fixpoint oget (x : A) (o : outmap) : list (L * list A) :=
    match o with
    | [] => []
    | (y, l) :: o => if decide (x = y) then l else oget x o
    end.
  Definition all_dsts (d : list (L * list A)) : list A := mjoin (map snd d).

  (** lines 1243-1246: [in_degrees[dst] += 1] *)
  Fixpoint deg_incr (l : list A) (m : gmap A Z) : result (gmap A Z) :=
    match l with
    | [] => Ok m
    | x :: l => match m !! x with Some n => deg_incr l (<[x := (n + 1)%Z]> m) | None => Err EKeyError end
    end.
  (** lines 1252-1256; [sources] top first *)
  Fixpoint deg_decr (l : list A) (m : gmap A Z) (src : list A) : result (gmap A Z * list A) :=
    match l with
    | [] => Ok (m, src)
    | x :: l => match m !! x with
                | Some n => deg_decr l (<[x := (n - 1)%Z]> m) (if decide (n - 1 = 0)%Z then x :: src else src)
                | None => Err EKeyError
                end
    end.
  (** lines 1249-1256 *)
  Fixpoint kahn (o : outmap) (fuel : nat) (m : gmap A Z) (src res : list A) : result (list A) :=
    match src with
    | [] => Ok res
    | x :: src =>
        match fuel with
        | O => Err EFuel
        | S fuel => match deg_decr (all_dsts (oget x o)) m src with
                    | Ok (m, src) => kahn o fuel m src (res ++ [x])
                    | Err e => Err e
                    end
        end
    end.

  (** [graph[src].add(dst)], cf.py:1262-1263; [self.edges()] (cf.py:331-337) yields (src, dst, label) for all of [out] *)
  Definition fallback_graph (nodes : list A) (o : outmap) : result (graph (A:=A)) :=
    fold_left (fun r e => match r with
                          | Err e => Err e
                          | Ok g => match gget e.1 g with
                                    | None => Err EKeyError
                                    | Some _ => Ok (map (fun xl => if decide (xl.1 = e.1)
                                                                   then (xl.1, if decide (e.2 ∈ xl.2) then xl.2 else xl.2 ++ [e.2])
                                                                   else xl) g)
                                    end
                          end)
      (mjoin (map (fun xd => map (pair xd.1) (all_dsts xd.2)) o)) (Ok (map (fun x => (x, [])) nodes)).

  Definition topsort_modulo_sccs (nodes : list A) (o : outmap) : result (list A) :=
    match deg_incr (mjoin (map (fun xd => all_dsts xd.2) o)) (list_to_map (map (fun x => (x, 0%Z)) nodes)) with
    | Err e => Err e
    | Ok m =>
        (* sources in the order of [in_degrees]; popped from the end *)
        let src := reverse (filter (fun x => m !! x = Some 0%Z) nodes) in
        match kahn o (S (length nodes)) m src [] with
        | Err e => Err e
        | Ok res => if decide (length res = length nodes) then Ok res
                    else match fallback_graph nodes o with Ok g => almost_topological_sort g | Err e => Err e end
        end
    end.
End almost.
