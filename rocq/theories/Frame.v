(** Computation frames.  Models mandala/cf.py:
    - 29-40 the label projections, 86-115 the fields, 117-151 [_check]
    - 186-226 [drop], [drop_node], [rename]; 225-277 variables; 279-307 functions
    - 309-337 edges; 339-418 refs and calls; 420-495 neighbours, sources and sinks
    - 500-561 [get_adj_elts_edge]; 590-688 [select_nodes], [select_subsets]
    - 690-743 reachable nodes, [downstream], [upstream]
    - 780-868 union, intersection, setwise difference
    - 1740-1846 [get_reachable_elts]; 1961-2028 [move_ref], [merge_into], [merge_vars]
    - 2039-2079 [drop_unreachable], [cleanup]; 2084-2136 constructors
    - 2157-2184 generated names
    and the set helpers mandala/utils.py:103-172.

    A frame is a value here: [copy] (cf.py:1715-1728) is the identity.  Python's dicts
    and sets are finite maps and sets; where the code iterates over a set or a dict,
    the order is a parameter ([ord], [eord]) of the model.  [Call] and [Ref] objects
    are those of the storage model. *)
From Coq Require Import Ascii.
From stdpp Require Import base strings gmap list pretty.
From Verif Require Import Base PyDict Refs Storage.

Definition edge3 : Type := string * string * string.   (* source, destination, label *)
Notation sset := (gset string).
Notation setmap := (gmap string (gset string)).
Notation adj := (gmap string (gmap string (gset string))).

(** cf.py:86-115 *)
Record frame := Frame {
  f_inp : adj; f_out : adj;
  f_vs : setmap; f_fs : setmap;
  f_refinv : setmap; f_callinv : setmap;
  f_creator : gmap string string; f_consumers : setmap;
  f_refs : gmap string ref; f_calls : gmap string call;
}.
Definition empty_frame : frame := Frame ∅ ∅ ∅ ∅ ∅ ∅ ∅ ∅ ∅ ∅.

Definition set_inp x F := Frame x (f_out F) (f_vs F) (f_fs F) (f_refinv F) (f_callinv F) (f_creator F) (f_consumers F) (f_refs F) (f_calls F).
Definition set_out x F := Frame (f_inp F) x (f_vs F) (f_fs F) (f_refinv F) (f_callinv F) (f_creator F) (f_consumers F) (f_refs F) (f_calls F).
Definition set_vs x F := Frame (f_inp F) (f_out F) x (f_fs F) (f_refinv F) (f_callinv F) (f_creator F) (f_consumers F) (f_refs F) (f_calls F).
Definition set_fs x F := Frame (f_inp F) (f_out F) (f_vs F) x (f_refinv F) (f_callinv F) (f_creator F) (f_consumers F) (f_refs F) (f_calls F).
Definition set_refinv x F := Frame (f_inp F) (f_out F) (f_vs F) (f_fs F) x (f_callinv F) (f_creator F) (f_consumers F) (f_refs F) (f_calls F).
Definition set_callinv x F := Frame (f_inp F) (f_out F) (f_vs F) (f_fs F) (f_refinv F) x (f_creator F) (f_consumers F) (f_refs F) (f_calls F).
Definition set_creator x F := Frame (f_inp F) (f_out F) (f_vs F) (f_fs F) (f_refinv F) (f_callinv F) x (f_consumers F) (f_refs F) (f_calls F).
Definition set_consumers x F := Frame (f_inp F) (f_out F) (f_vs F) (f_fs F) (f_refinv F) (f_callinv F) (f_creator F) x (f_refs F) (f_calls F).
Definition set_refs x F := Frame (f_inp F) (f_out F) (f_vs F) (f_fs F) (f_refinv F) (f_callinv F) (f_creator F) (f_consumers F) x (f_calls F).
Definition set_calls x F := Frame (f_inp F) (f_out F) (f_vs F) (f_fs F) (f_refinv F) (f_callinv F) (f_creator F) (f_consumers F) (f_refs F) x.

Notation bindR m f := (mbind (M := result) f m).
(** Python's [d[k]], [d[k].remove(x)], [d[k].add(x)] with [d[k]] created if missing *)
Definition at_key {A} (k : string) (m : gmap string A) : result A := of_option EKeyError (m !! k).
Definition sm_remove (k x : string) (m : setmap) : result setmap :=
  X ← at_key k m; if decide (x ∈ X) then Ok (<[k := X ∖ {[x]}]> m) else Err EKeyError.
Definition sm_add (k x : string) (m : setmap) : setmap := <[k := {[x]} ∪ default ∅ (m !! k)]> m.
Definition m_del {A} (k : string) (m : gmap string A) : result (gmap string A) :=
  if decide (is_Some (m !! k)) then Ok (delete k m) else Err EKeyError.

(** cf.py:29-40 [get_name_proj], [get_reverse_proj]; [__make_list__.name] is ["__make_list__"] *)
Definition is_make_list (o : op) : bool := bool_decide (op_name o = "__make_list__").
Definition name_proj (o : op) (x : string) : string :=
  if is_make_list o && String.prefix "elts_" x then "elts" else x.
Definition reverse_proj (c : call) (l : string) : list string :=
  if is_make_list (c_op c) && bool_decide (l = "elts") then map fst (c_ins c) else [l].

(** [set.union] over the values of a dict; utils.py:139-140 *)
Definition union_values (m : setmap) : sset := ⋃ (map snd (map_to_list m)).

Definition vnames (F : frame) : sset := dom (f_vs F).
Definition fnames (F : frame) : sset := dom (f_fs F).
Definition f_nodes (F : frame) : sset := vnames F ∪ fnames F.
(** cf.py:1682-1684 [sets] *)
Definition f_sets (F : frame) : setmap := f_fs F ∪ f_vs F.

(** cf.py:331-337 [edges], as a set *)
Definition edges_list (F : frame) : list edge3 :=
  sm ← map_to_list (f_out F); ld ← map_to_list sm.2; map (fun d => (sm.1, d, ld.1)) (elements ld.2).
Definition edges (F : frame) : gset edge3 := list_to_set (edges_list F).
(** cf.py:435-447 *)
Definition in_edges (n : string) (F : frame) : gset edge3 := filter (fun e => e.1.2 = n) (edges F).
Definition out_edges (n : string) (F : frame) : gset edge3 := filter (fun e => e.1.1 = n) (edges F).
(** cf.py:420-430 *)
Definition in_neighbors (n : string) (F : frame) : result sset := m ← at_key n (f_inp F); Ok (union_values m).
Definition out_neighbors (n : string) (F : frame) : result sset := m ← at_key n (f_out F); Ok (union_values m).

(** The label-by-label sets of an adjacency: [a[n].get(l, set())] *)
Definition adj_get (n l : string) (a : adj) : sset := default ∅ (default ∅ (a !! n) !! l).

(** cf.py:117-151 [_check]; [false] if an assertion fails or a key is missing *)
Definition check_io (side : call -> pydict ref) (a : adj) (F : frame) : bool :=
  forallb (fun fX =>
    forallb (fun h =>
      match f_calls F !! h with
      | None => false
      | Some c =>
          forallb (fun nr =>
            match a !! fX.1 with
            | None => false
            | Some m =>
                forallb (fun v =>
                  bool_decide (rhid nr.2 ∈ default ∅ (f_vs F !! v)) &&
                  bool_decide (v ∈ default ∅ (f_refinv F !! rhid nr.2)))
                (elements (default ∅ (m !! name_proj (c_op c) nr.1)))
            end) (side c)
      end) (elements fX.2)) (map_to_list (f_fs F)).

Definition check (F : frame) : bool :=
  bool_decide (union_values (f_vs F) = dom (f_refs F)) &&
  bool_decide (union_values (f_fs F) = dom (f_calls F)) &&
  bool_decide (union_values (f_refinv F) ⊆ dom (f_vs F)) &&
  bool_decide (union_values (f_callinv F) ⊆ dom (f_fs F)) &&
  bool_decide (dom (f_creator F) ⊆ dom (f_refs F)) &&
  bool_decide (list_to_set (map snd (map_to_list (f_creator F))) ⊆ (dom (f_calls F) : sset)) &&
  bool_decide (dom (f_consumers F) ⊆ dom (f_refs F)) &&
  bool_decide (union_values (f_consumers F) ⊆ dom (f_calls F)) &&
  forallb (fun e => bool_decide (e.1.1 ∈ f_nodes F) && bool_decide (e.1.2 ∈ f_nodes F)) (edges_list F) &&
  check_io c_ins (f_inp F) F && check_io c_outs (f_out F) F &&
  forallb (fun kr => bool_decide (kr.1 = rhid kr.2)) (map_to_list (f_refs F)) &&
  forallb (fun kc => bool_decide (kc.1 = c_hid kc.2)) (map_to_list (f_calls F)).

(** * Names: cf.py:2157-2184 *)

(** [s.split('_')]; only ASCII characters are modelled *)
Fixpoint split_us (s : string) : string * list string :=
  match s with
  | EmptyString => (EmptyString, [])
  | String c s =>
      let '(w, ws) := split_us s in
      if Ascii.eqb c "_"%char then (EmptyString, w :: ws) else (String c w, ws)
  end.
Definition is_digit (c : Ascii.ascii) : bool :=
  let n := Ascii.nat_of_ascii c in Nat.leb 48 n && Nat.leb n 57.
Fixpoint all_digits (s : string) : bool :=
  match s with EmptyString => true | String c s => is_digit c && all_digits s end.
(** [s.isdigit()] *)
Definition isdigit (s : string) : bool := negb (String.eqb s "") && all_digits s.
(** [int(s)] *)
Fixpoint int_of (acc : N) (s : string) : N :=
  match s with
  | EmptyString => acc
  | String c s => int_of (10 * acc + N.of_nat (Ascii.nat_of_ascii c - 48)) s
  end.

Definition numbered (v : string) (i : N) : string := v +:+ "_" +:+ pretty i.
(** the loops [while f"{v}_{i}" in self.vs: i += 1] *)
Fixpoint next_free (used : sset) (v : string) (fuel : nat) (i : N) : result string :=
  match fuel with
  | 0 => Err EFuel
  | S fuel => if decide (numbered v i ∈ used) then next_free used v fuel (N.succ i) else Ok (numbered v i)
  end.
Definition next_free_name (used : sset) (v : string) (i : N) : result string :=
  next_free used v (S (size used)) i.

Definition get_new_vname (hint : string) (F : frame) : result string :=
  let '(w, ws) := split_us hint in
  match last ws with
  | Some d =>
      if isdigit d then
        if String.eqb w "output" then next_free_name (dom (f_vs F)) "var" 0
        else next_free_name (dom (f_vs F)) w (int_of 0 d)
      else if decide (hint ∈ dom (f_vs F)) then next_free_name (dom (f_vs F)) hint 0 else Ok hint
  | None => if decide (hint ∈ dom (f_vs F)) then next_free_name (dom (f_vs F)) hint 0 else Ok hint
  end.
Definition get_new_fname (hint : string) (F : frame) : result string :=
  if decide (hint ∈ dom (f_fs F)) then next_free_name (dom (f_fs F)) hint 0 else Ok hint.

(** * Adding and dropping: methods that modify the frame in place *)
Local Open Scope pym_scope.

(** cf.py:225-235 *)
Definition add_var (v : string) : M frame unit :=
  modM (fun F => set_out (<[v := ∅]> (f_out F)) (set_inp (<[v := ∅]> (f_inp F)) (set_vs (<[v := ∅]> (f_vs F)) F))).
(** cf.py:279-294 *)
Definition add_func (f : string) : M frame unit :=
  modM (fun F => set_out (<[f := ∅]> (f_out F)) (set_inp (<[f := ∅]> (f_inp F)) (set_fs (<[f := ∅]> (f_fs F)) F))).

(** [a[n][l].add(x)], creating the label *)
Definition adj_add (n l x : string) (a : adj) : result adj := bindR (at_key n a) (fun m => Ok (<[n := sm_add l x m]> a)).
Definition adj_remove (n l x : string) (a : adj) : result adj :=
  bindR (at_key n a) (fun m => bindR (sm_remove l x m) (fun m' => Ok (<[n := m']> a))).

(** cf.py:309-322 *)
Definition add_edge (allow_existing : bool) (s d l : string) : M frame unit :=
  F <- getM ;;
  if decide ((s, d, l) ∈ edges F) then if allow_existing then retM tt else raiseM EValueError
  else
    o <- liftR (adj_add s l d (f_out F)) ;;
    modM (set_out o) ;;;
    F <- getM ;;
    i <- liftR (adj_add d l s (f_inp F)) ;;
    modM (set_inp i).
(** cf.py:324-329 *)
Definition drop_edge (e : edge3) : M frame unit :=
  let '(s, d, l) := e in
  F <- getM ;;
  o <- liftR (adj_remove s l d (f_out F)) ;;
  modM (set_out o) ;;;
  F <- getM ;;
  i <- liftR (adj_remove d l s (f_inp F)) ;;
  modM (set_inp i).

(** cf.py:339-348 *)
Definition add_ref (allow_existing : bool) (v : string) (r : ref) : M frame unit :=
  F <- getM ;;
  X <- liftR (at_key v (f_vs F)) ;;
  if decide (rhid r ∈ X) then if allow_existing then retM tt else raiseM EValueError
  else
    modM (fun F => set_refinv (sm_add (rhid r) v (f_refinv F))
                   (set_vs (sm_add v (rhid r) (f_vs F)) (set_refs (<[rhid r := r]> (f_refs F)) F))).

(** cf.py:350-364 *)
Definition drop_ref (v h : string) : M frame unit :=
  F <- getM ;;
  vs <- liftR (sm_remove v h (f_vs F)) ;;
  modM (set_vs vs) ;;;
  F <- getM ;;
  X <- liftR (at_key h (f_refinv F)) ;;
  if decide (size X = 1) then
    rs <- liftR (m_del h (f_refs F)) ;;
    modM (fun F => set_consumers (delete h (f_consumers F)) (set_creator (delete h (f_creator F))
                   (set_refinv (delete h (f_refinv F)) (set_refs rs F))))
  else modM (fun F => set_refinv (<[h := X ∖ {[v]}]> (f_refinv F)) F).

Section ordered.
  (** the orders in which sets and dicts are iterated over *)
  Context (ord : sset -> list string) (eord : gset edge3 -> list edge3).

  (** cf.py:376-387, 388-397: the refs on one side of a call *)
  Definition add_input (f : string) (c : call) (nr : string * ref) : M frame unit :=
    F <- getM ;;
    m <- liftR (at_key f (f_inp F)) ;;
    match m !! name_proj (c_op c) nr.1 with
    | None => retM tt
    | Some vars =>
        modM (fun F => set_consumers (sm_add (rhid nr.2) (c_hid c) (f_consumers F)) F) ;;;
        iterM (fun v => add_ref true v nr.2) (ord vars)
    end.
  Definition add_output (f : string) (c : call) (nr : string * ref) : M frame unit :=
    F <- getM ;;
    m <- liftR (at_key f (f_out F)) ;;
    match m !! name_proj (c_op c) nr.1 with
    | None => retM tt
    | Some vars =>
        modM (fun F => set_creator (<[rhid nr.2 := c_hid c]> (f_creator F)) F) ;;;
        iterM (fun v => add_ref true v nr.2) (ord vars)
    end.
  (** cf.py:365-397 *)
  Definition add_call (with_refs allow_existing : bool) (f : string) (c : call) : M frame unit :=
    F <- getM ;;
    X <- liftR (at_key f (f_fs F)) ;;
    if decide (c_hid c ∈ X) then if allow_existing then retM tt else raiseM EValueError
    else
      modM (fun F => set_callinv (sm_add (c_hid c) f (f_callinv F))
                     (set_fs (sm_add f (c_hid c) (f_fs F)) (set_calls (<[c_hid c := c]> (f_calls F)) F))) ;;;
      if with_refs then iterM (add_input f c) (c_ins c) ;;; iterM (add_output f c) (c_outs c) else retM tt.

  (** cf.py:399-418 *)
  Definition unlink_output (r : ref) : M frame unit :=
    F <- getM ;; k <- liftR (m_del (rhid r) (f_creator F)) ;; modM (set_creator k).
  Definition unlink_input (h : string) (r : ref) : M frame unit :=
    F <- getM ;;
    match f_consumers F !! rhid r with
    | None => retM tt
    | Some _ =>
        k <- liftR (sm_remove (rhid r) h (f_consumers F)) ;;
        modM (fun F => set_consumers (if decide (k !! rhid r = Some ∅) then delete (rhid r) k else k) F)
    end.
  Definition drop_call (f h : string) : M frame unit :=
    F <- getM ;;
    X <- liftR (at_key h (f_callinv F)) ;;
    if decide (size X = 1) then
      c <- liftR (at_key h (f_calls F)) ;;
      modM (fun F => set_callinv (delete h (f_callinv F)) (set_calls (delete h (f_calls F)) F)) ;;;
      iterM (fun nr => unlink_output nr.2) (c_outs c) ;;;
      iterM (fun nr => unlink_input h nr.2) (c_ins c)
    else
      k <- liftR (sm_remove h f (f_callinv F)) ;; modM (set_callinv k).

  Definition adjacent (n : string) (F : frame) : gset edge3 := filter (fun e => e.1.1 = n \/ e.1.2 = n) (edges F).
  (** the two [del]s at the end of cf.py:237-254 and 296-307 *)
  Definition del_adj (n : string) : M frame unit :=
    F <- getM ;; i <- liftR (m_del n (f_inp F)) ;; modM (set_inp i) ;;;
    F <- getM ;; o <- liftR (m_del n (f_out F)) ;; modM (set_out o).

  (** cf.py:237-254 *)
  Definition drop_var (v : string) : M frame unit :=
    F <- getM ;;
    iterM drop_edge (eord (adjacent v F)) ;;;
    F <- getM ;;
    X <- liftR (at_key v (f_vs F)) ;;
    iterM (drop_ref v) (ord X) ;;;
    modM (fun F => set_vs (delete v (f_vs F)) F) ;;;
    del_adj v.
  (** cf.py:296-307 *)
  Definition drop_func (f : string) : M frame unit :=
    F <- getM ;;
    iterM drop_edge (eord (adjacent f F)) ;;;
    F <- getM ;;
    X <- liftR (at_key f (f_fs F)) ;;
    iterM (drop_call f) (ord X) ;;;
    modM (fun F => set_fs (delete f (f_fs F)) F) ;;;
    del_adj f.
  (** cf.py:199-209, 186-197 *)
  Definition drop_node (n : string) : M frame unit :=
    F <- getM ;;
    if decide (n ∈ dom (f_vs F)) then drop_var n
    else if decide (n ∈ dom (f_fs F)) then drop_func n
    else raiseM EValueError.
  Definition drop_nodes (ns : list string) : M frame unit := iterM drop_node ns.

  (** cf.py:256-277: [remove] then [add] on every neighbour set containing [v]; every key of
      [inp] and [out] is a node *)
  Definition swap (v w : string) (X : sset) : sset := if decide (v ∈ X) then {[w]} ∪ (X ∖ {[v]}) else X.
  Definition swap_adj (v w : string) (a : adj) : adj := (fun m : setmap => swap v w <$> m) <$> a.
  Definition rename_ref (v w h : string) : M frame unit :=
    F <- getM ;; k <- liftR (sm_remove h v (f_refinv F)) ;; modM (set_refinv (sm_add h w k)).
  Definition rename_var (v w : string) : M frame unit :=
    F <- getM ;;
    X <- liftR (at_key v (f_vs F)) ;;
    modM (set_vs (<[w := X]> (f_vs F))) ;;;
    i <- liftR (at_key v (f_inp F)) ;;
    modM (set_inp (<[w := i]> (f_inp F))) ;;;
    o <- liftR (at_key v (f_out F)) ;;
    modM (set_out (<[w := o]> (f_out F))) ;;;
    modM (fun F => set_out (delete v (f_out F)) (set_inp (delete v (f_inp F)) (set_vs (delete v (f_vs F)) F))) ;;;
    F <- getM ;;
    if decide (f_nodes F ⊆ dom (f_inp F) ∩ dom (f_out F)) then
      modM (fun F => set_out (swap_adj v w (f_out F)) (set_inp (swap_adj v w (f_inp F)) F)) ;;;
      F <- getM ;;
      X <- liftR (at_key w (f_vs F)) ;;
      iterM (rename_ref v w) (ord X)
    else raiseM EKeyError.
  (** cf.py:211-223 *)
  Definition rename (l : list (string * string)) : M frame unit := iterM (fun p => rename_var p.1 p.2) l.

  (** * Merging: cf.py:1961-2028 *)
  (** with [inplace=True]; the two sets and the index belong to the same frame *)
  Definition move_ref (v w h : string) : M frame unit :=
    F <- getM ;;
    X <- liftR (at_key v (f_vs F)) ;;
    if decide (h ∈ X) then
      modM (set_vs (<[v := X ∖ {[h]}]> (f_vs F))) ;;;
      F <- getM ;;
      Y <- liftR (at_key w (f_vs F)) ;;
      modM (set_vs (<[w := {[h]} ∪ Y]> (f_vs F))) ;;;
      F <- getM ;;
      k <- liftR (sm_remove h v (f_refinv F)) ;;
      modM (set_refinv (sm_add h w k))
    else raiseM EValueError.
  Definition redirect_in (w : string) (e : edge3) : M frame unit :=
    drop_edge e ;;; add_edge true e.1.1 w e.2.
  Definition redirect_out (w : string) (e : edge3) : M frame unit :=
    drop_edge e ;;; add_edge true w e.1.2 e.2.
  (** cf.py:1994-2000 *)
  Definition merge_graph (v w : string) : M frame unit :=
    F <- getM ;;
    iterM (redirect_in w) (eord (in_edges v F)) ;;;
    F <- getM ;;
    iterM (redirect_out w) (eord (out_edges v F)) ;;;
    drop_node v.
  (** cf.py:1976-2001 with [inplace=True] *)
  Definition merge_into (v w : string) : M frame unit :=
    F <- getM ;;
    X <- liftR (at_key v (f_sets F)) ;;
    Y <- liftR (at_key w (f_sets F)) ;;
    iterM (move_ref v w) (ord (X ∖ Y)) ;;;
    merge_graph v w.
  (** cf.py:1976-2001 with [inplace=False]: the moves are done on [self] (the state), the
      rest on its copy (the result) *)
  Definition merge_into_copy (v w : string) : M frame frame := fun self =>
    let res := self in
    match at_key v (f_sets res), at_key w (f_sets res) with
    | Ok X, Ok Y =>
        match iterM (move_ref v w) (ord (X ∖ Y)) self with
        | (Ok _, self') =>
            match merge_graph v w res with
            | (Ok _, res') => (Ok res', self')
            | (Err e, _) => (Err e, self')
            end
        | (Err e, self') => (Err e, self')
        end
    | Err e, _ | _, Err e => (Err e, self)
    end.
  (** a method called without [inplace=True] works on a copy *)
  Definition on_copy (m : M frame unit) : M frame frame := fun self =>
    match m self with (Ok _, res) => (Ok res, self) | (Err e, _) => (Err e, self) end.

  (** cf.py:2003-2028: the first pair (in the order of iteration) to merge *)
  Definition strictly_below (F : frame) (v w : string) : bool :=
    let X := default ∅ (f_vs F !! v) in let Y := default ∅ (f_vs F !! w) in
    negb (String.eqb v w) && bool_decide (X ⊆ Y) && bool_decide (size X < size Y).
  Definition find_pair (F : frame) : option (string * string) :=
    let l := ord (dom (f_vs F)) in
    head (v ← l; w ← l; if strictly_below F v w then [(v, w)] else []).
  Fixpoint merge_loop (fuel : nat) : M frame unit :=
    match fuel with
    | 0 => raiseM EFuel
    | S fuel =>
        F <- getM ;;
        match find_pair F with
        | Some vw => merge_into vw.1 vw.2
        | None => retM tt
        end ;;;
        F' <- getM ;;
        if decide (size (f_vs F') = size (f_vs F)) then retM tt else merge_loop fuel
    end.
  Definition merge_vars : M frame unit := fun F => merge_loop (S (size (f_vs F))) F.

  (** cf.py:2072-2079 [cleanup], with either value of [inplace]: [drop_node] is called without
      [inplace], so what it returns is lost *)
  Definition cleanup : M frame unit :=
    F <- getM ;;
    iterM (fun n => if decide (default ∅ (f_sets F !! n) = ∅) then (_ <- on_copy (drop_node n) ;; retM tt) else retM tt)
      (ord (f_nodes F)).

  (** * Selection *)
  (** utils.py:147-172 [get_adj_from_edges] *)
  Definition adj_of (key val : edge3 -> string) (es : list edge3) : adj :=
    foldr (fun e a => <[key e := sm_add e.2 (val e) (default ∅ (a !! key e))]> a) ∅ es.
  Definition pad_adj (ns : sset) (a : adj) : adj := a ∪ set_to_map (fun n => (n, ∅)) ns.

  (** cf.py:590-645 *)
  Definition select_nodes (ns : sset) (F : frame) : result frame :=
    if decide (ns ⊆ f_nodes F) then
      let es := eord (filter (fun e => e.1.1 ∈ ns /\ e.1.2 ∈ ns) (edges F)) in
      let vs := filter (fun kX => kX.1 ∈ ns) (f_vs F) in
      let fs := filter (fun kX => kX.1 ∈ ns) (f_fs F) in
      let rh := union_values vs in
      let ch := union_values fs in
      Ok (Frame
        (pad_adj ns (adj_of (fun e => e.1.2) (fun e => e.1.1) es))
        (pad_adj ns (adj_of (fun e => e.1.1) (fun e => e.1.2) es))
        vs fs
        (fmap (fun X => X ∩ ns) (filter (fun kX => kX.1 ∈ rh) (f_refinv F)))
        (fmap (fun X => X ∩ ns) (filter (fun kX => kX.1 ∈ ch) (f_callinv F)))
        (filter (fun hc => hc.1 ∈ rh /\ hc.2 ∈ ch) (f_creator F))
        (fmap (fun X => X ∩ ch) (filter (fun kX => kX.1 ∈ rh) (f_consumers F)))
        (filter (fun kr => kr.1 ∈ rh) (f_refs F))
        (filter (fun kc => kc.1 ∈ ch) (f_calls F)))
    else Err EValueError.

  (** cf.py:647-688.  [refinv] and [callinv] are those of the whole frame. *)
  Definition select_subsets (elts : setmap) (F : frame) : result frame :=
    if decide (dom elts = f_nodes F) then
      if decide (map_Forall (fun n X => X ⊆ default ∅ (f_sets F !! n)) elts) then
        let vs := filter (fun kX => kX.1 ∈ vnames F) elts in
        let fs := filter (fun kX => kX.1 ∈ fnames F) elts in
        let rh := union_values vs in
        let ch := union_values fs in
        if decide (rh ⊆ dom (f_refs F) ∩ dom (f_refinv F) /\ ch ⊆ dom (f_calls F) ∩ dom (f_callinv F)) then
          Ok (Frame (f_inp F) (f_out F) vs fs
            (filter (fun kX => kX.1 ∈ rh) (f_refinv F))
            (filter (fun kX => kX.1 ∈ ch) (f_callinv F))
            (filter (fun hc => hc.1 ∈ rh /\ hc.2 ∈ ch) (f_creator F))
            (fmap (fun X => X ∩ ch) (filter (fun kX => kX.1 ∈ rh) (f_consumers F)))
            (filter (fun kr => kr.1 ∈ rh) (f_refs F))
            (filter (fun kc => kc.1 ∈ ch) (f_calls F)))
        else Err EKeyError
      else Err EAssertion
    else Err EAssertion.

  (** * Union and intersection: utils.py:103-137, cf.py:780-846 *)
  Definition setmap_union (a b : setmap) : setmap := union_with (fun X Y => Some (X ∪ Y)) a b.
  Definition setmap_inter (a b : setmap) : setmap := intersection_with (fun X Y => Some (X ∩ Y)) a b.
  Definition adj_union (a b : adj) : adj := union_with (fun m n => Some (setmap_union m n)) a b.
  Definition adj_inter (a b : adj) : adj := intersection_with (fun m n => Some (setmap_inter m n)) a b.

  Definition union_data (a b : frame) : frame :=
    Frame (adj_union (f_inp a) (f_inp b)) (adj_union (f_out a) (f_out b))
      (setmap_union (f_vs a) (f_vs b)) (setmap_union (f_fs a) (f_fs b))
      (setmap_union (f_refinv a) (f_refinv b)) (setmap_union (f_callinv a) (f_callinv b))
      (f_creator a ∪ f_creator b) (setmap_union (f_consumers a) (f_consumers b))
      (f_refs a ∪ f_refs b) (f_calls a ∪ f_calls b).
  Definition frame_union (a b : frame) : result frame :=
    let r := union_data a b in if check r then Ok r else Err EAssertion.
  Definition frame_inter (a b : frame) : frame :=
    Frame (adj_inter (f_inp a) (f_inp b)) (adj_inter (f_out a) (f_out b))
      (setmap_inter (f_vs a) (f_vs b)) (setmap_inter (f_fs a) (f_fs b))
      (setmap_inter (f_refinv a) (f_refinv b)) (setmap_inter (f_callinv a) (f_callinv b))
      (f_creator a ∩ f_creator b) (setmap_inter (f_consumers a) (f_consumers b))
      (f_refs a ∩ f_refs b) (f_calls a ∩ f_calls b).

  (** * Elements: cf.py:500-561 [get_adj_elts_edge] *)
  Inductive dir := Back | Forward.
  Definition get_calls (F : frame) (X : sset) : result (list call) := mapR (fun h => at_key h (f_calls F)) (elements X).
  (** the hids at the given names *)
  Definition hids_at (d : pydict ref) (ns : list string) : list string := omap (fun n => rhid <$> dget n d) ns.
  Definition adj_elts_edge (e : edge3) (X : sset) (dr : dir) (F : frame) : result sset :=
    let '(s, d, l) := e in
    match dr with
    | Back =>
        match f_vs F !! d with
        | Some Y =>
            if decide (X ⊆ Y) then
              bindR (at_key s (f_fs F)) (fun Z => Ok (list_to_set (omap (fun h => f_creator F !! h) (elements X)) ∩ Z))
            else Err EAssertion
        | None =>
            bindR (at_key d (f_fs F)) (fun Y =>
            if decide (X ⊆ Y) then
              bindR (at_key s (f_vs F)) (fun Z =>
              bindR (get_calls F X) (fun cs =>
              Ok (Z ∩ list_to_set (mjoin (map (fun c => hids_at (c_ins c) (reverse_proj c l)) cs)))))
            else Err EAssertion)
        end
    | Forward =>
        match f_vs F !! s with
        | Some Y =>
            if decide (X ⊆ Y) then
              bindR (at_key d (f_fs F)) (fun Z =>
              bindR (get_calls F Z) (fun cs =>
              Ok (list_to_set (map c_hid (filter (fun c => Exists (fun h => h ∈ X) (hids_at (c_ins c) (reverse_proj c l))) cs)))))
            else Err EAssertion
        | None =>
            bindR (at_key s (f_fs F)) (fun Y =>
            if decide (X ⊆ Y) then
              bindR (get_calls F X) (fun cs =>
              bindR (at_key d (f_vs F)) (fun Z =>
              Ok (list_to_set (mjoin (map (fun c => hids_at (c_outs c) (reverse_proj c l)) cs)) ∩ Z)))
            else Err EAssertion)
        end
    end.

  (** the union over some edges, each from the elements [st] has at its other end:
      cf.py:470-473, 490-493 and the inner [get_adj_elts] 1768-1780 *)
  Fixpoint adj_elts_edges (es : list edge3) (st : setmap) (dr : dir) (F : frame) : result sset :=
    match es with
    | [] => Ok ∅
    | e :: es =>
        let other := match dr with Forward => e.1.1 | Back => e.1.2 end in
        bindR (adj_elts_edge e (default ∅ (st !! other)) dr F) (fun X =>
        bindR (adj_elts_edges es st dr F) (fun Y => Ok (X ∪ Y)))
    end.

  (** cf.py:453-475 [get_source_elts], 481-495 [get_sink_elts] *)
  Definition boundary_elts (dr : dir) (F : frame) : result setmap :=
    kvs ← mapR (fun n =>
      let es := match dr with Forward => in_edges n F | Back => out_edges n F end in
      bindR (adj_elts_edges (eord es) (f_sets F) dr F) (fun X => Ok (n, default ∅ (f_sets F !! n) ∖ X)))
      (ord (f_nodes F));
    Ok (list_to_map kvs).
  Definition get_source_elts := boundary_elts Forward.
  Definition get_sink_elts := boundary_elts Back.

  (** * Reachability *)
  (** cf.py:690-704: [dfs] and the loop over its neighbours *)
  Fixpoint rn_dfs (dr : dir) (F : frame) (fuel : nat) (n : string) (vis : sset) : result sset :=
    match fuel with
    | 0 => Err EFuel
    | S fuel =>
        bindR (match dr with Back => in_neighbors n F | Forward => out_neighbors n F end) (fun ns =>
        (fix loop (l : list string) (vis : sset) : result sset :=
          match l with
          | [] => Ok vis
          | m :: l =>
              if decide (m ∈ vis) then loop l vis
              else bindR (rn_dfs dr F fuel m vis) (fun vis => loop l vis)
          end) (ord ns) ({[n]} ∪ vis))
    end.
  Fixpoint rn_all (dr : dir) (F : frame) (l : list string) (vis : sset) : result sset :=
    match l with
    | [] => Ok vis
    | n :: l => bindR (rn_dfs dr F (S (size (f_nodes F))) n vis) (fun vis => rn_all dr F l vis)
    end.
  Definition get_reachable_nodes (dr : dir) (ns : sset) (F : frame) : result sset := rn_all dr F (ord ns) ∅.

  (** cf.py:1740-1846 [get_reachable_elts] *)
  (** 1786-1825 [is_strongly_reachable_call] *)
  Definition strongly_reachable (F : frame) (st : setmap) (dr : dir) (es : list edge3) (f : string) (c : call) : bool :=
    let io := match dr with Forward => c_ins c | Back => c_outs c end in
    let labels := map snd es in
    let names := filter (fun nr => name_proj (c_op c) nr.1 ∈ labels) io in
    let found (nr : string * ref) := existsb (fun e =>
        bool_decide (e.2 = name_proj (c_op c) nr.1) &&
        bool_decide (rhid nr.2 ∈ default ∅ (st !! match dr with Forward => e.1.1 | Back => e.1.2 end))) es in
    match names with
    | [] => bool_decide (c_hid c ∈ default ∅ (st !! f))
    | _ => forallb found names
    end.
  (** one step of the loop 1834-1841 *)
  Definition reach_node (strong : bool) (dr : dir) (F : frame) (st : setmap) (n : string) : result setmap :=
    let es := eord (match dr with Forward => in_edges n F | Back => out_edges n F end) in
    let old := default ∅ (st !! n) in
    new ← (if strong && negb (bool_decide (n ∈ vnames F)) then
             Z ← at_key n (f_fs F);
             cs ← get_calls F (Z ∖ old);
             Ok (list_to_set (map c_hid (filter (fun c => strongly_reachable F st dr es n c = true) cs)))
           else adj_elts_edges es st dr F);
    Ok (<[n := new ∪ old]> st).
  Fixpoint reach_pass (strong : bool) (dr : dir) (F : frame) (ns : list string) (st : setmap) : result setmap :=
    match ns with
    | [] => Ok st
    | n :: ns => bindR (reach_node strong dr F st n) (fun st => reach_pass strong dr F ns st)
    end.
  Definition total_size (st : setmap) : nat := sum_list (map (fun kX => size kX.2) (map_to_list st)).
  Fixpoint reach_loop (strong : bool) (dr : dir) (F : frame) (fuel : nat) (st : setmap) : result setmap :=
    match fuel with
    | 0 => Err EFuel
    | S fuel =>
        bindR (reach_pass strong dr F (ord (f_nodes F)) st) (fun st' =>
        if decide (total_size st' = total_size st) then Ok st' else reach_loop strong dr F fuel st')
    end.
  Definition get_reachable_elts (init : setmap) (dr : dir) (strong : bool) (F : frame) : result setmap :=
    st ← reach_loop strong dr F (S (total_size (f_sets F))) init;
    Ok (st ∪ set_to_map (fun n => (n, ∅)) (f_nodes F)).

  (** cf.py:706-743 *)
  Definition stream (dr : dir) (strong : bool) (ns : sset) (F : frame) : result frame :=
    keep ← get_reachable_nodes dr ns F;
    R ← select_nodes keep F;
    view ← get_reachable_elts (filter (fun kX => kX.1 ∈ ns) (f_sets R)) dr strong R;
    select_subsets view R.
  Definition downstream := stream Forward.
  Definition upstream := stream Back.

  (** cf.py:2039-2054 *)
  Definition drop_unreachable (dr : dir) (strong : bool) (F : frame) : result frame :=
    init ← (match dr with Forward => get_source_elts F | Back => get_sink_elts F end);
    keep ← get_reachable_elts init dr strong F;
    select_subsets keep F.

  (** cf.py:848-868 [_binary_setwise_difference]; its [cleanup] has no effect *)
  Definition frame_diff (a b : frame) : result frame :=
    R ← select_subsets (difference_with (fun X Y => Some (X ∖ Y)) (f_sets a) (f_sets b)) a;
    drop_unreachable Forward true R.

  (** * Constructors: cf.py:2084-2136 *)
  Definition new_var (label : string) : M frame string :=
    F <- getM ;; v <- liftR (get_new_vname label F) ;; add_var v ;;; retM v.
  (** [cs] are the recorded calls of the op [o]; [sorted] is replaced by [ord] *)
  Definition from_op_body (o : op) (cs : list call) : M frame unit :=
    F <- getM ;;
    f <- liftR (get_new_fname (op_name o) F) ;;
    add_func f ;;;
    iterM (fun n => v <- new_var (name_proj o n) ;; add_edge false v (op_name o) (name_proj o n))
      (ord (list_to_set (mjoin (map (fun c => map fst (c_ins c)) cs)))) ;;;
    iterM (fun n => v <- new_var (name_proj o n) ;; add_edge false (op_name o) v (name_proj o n))
      (ord (list_to_set (mjoin (map (fun c => map fst (c_outs c)) cs)))) ;;;
    iterM (fun c => add_call true false (op_name o) c) cs.
  Definition from_op (o : op) (cs : list call) : result frame :=
    match from_op_body o cs empty_frame with (Ok _, F) => Ok F | (Err e, _) => Err e end.
  Definition from_refs (rs : list ref) : result frame :=
    match (v <- new_var "v" ;; iterM (add_ref false v) rs) empty_frame with (Ok _, F) => Ok F | (Err e, _) => Err e end.
  Definition from_vars (vars : list (string * list ref)) : result frame :=
    match iterM (fun vr => add_var vr.1 ;;; iterM (add_ref false vr.1) vr.2) vars empty_frame with
    | (Ok _, F) => Ok F | (Err e, _) => Err e end.
End ordered.
