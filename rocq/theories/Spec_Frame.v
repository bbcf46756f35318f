(** What a consistent computation frame is, independently of the code that checks it, and the
    notions used to state the properties of frames. *)
From stdpp Require Import base strings gmap list relations.
From Verif Require Import Base PyDict Refs Storage Frame.

(** [x] is in the set at [k] of a dict of sets *)
Definition smrel (m : setmap) (k x : string) : Prop := exists X, m !! k = Some X /\ x ∈ X.

(** The orders in which sets are iterated over: any. *)
Definition orders (ord : sset -> list string) (eord : gset edge3 -> list edge3) : Prop :=
  (forall X, ord X ≡ₚ elements X) /\ (forall X, eord X ≡ₚ elements X).

(** ref [h] is in variable [v]; call [c] is in function [f] *)
Definition in_var (F : frame) (v h : string) : Prop := exists X, f_vs F !! v = Some X /\ h ∈ X.
Definition in_func (F : frame) (f c : string) : Prop := exists X, f_fs F !! f = Some X /\ c ∈ X.
(** element of a node *)
Definition in_node (F : frame) (n h : string) : Prop := in_var F n h \/ in_func F n h.
(** there is an edge from [s] to [d] with label [l], as recorded by the source / the destination *)
Definition has_edge (F : frame) (s d l : string) : Prop :=
  exists m X, f_out F !! s = Some m /\ m !! l = Some X /\ d ∈ X.
Definition has_in_edge (F : frame) (s d l : string) : Prop :=
  exists m X, f_inp F !! d = Some m /\ m !! l = Some X /\ s ∈ X.
(** some edge, whatever the label *)
Definition gstep (F : frame) (s d : string) : Prop := exists l, has_edge F s d l.

(** the call consumes / creates the ref with history id [h], under a name shown as label [l] *)
Definition call_input (c : call) (l h : string) : Prop :=
  exists n r, (n, r) ∈ c_ins c /\ name_proj (c_op c) n = l /\ rhid r = h.
Definition call_output (c : call) (l h : string) : Prop :=
  exists n r, (n, r) ∈ c_outs c /\ name_proj (c_op c) n = l /\ rhid r = h.

(** The calls recorded in a storage: named by their history ids, every ref is created by at most
    one of them (its history id is a hash of the call's). *)
Record world (U : gmap string call) : Prop := World {
  w_key : forall h c, U !! h = Some c -> c_hid c = h;
  w_creator : forall h1 h2 c1 c2 l1 l2 h, U !! h1 = Some c1 -> U !! h2 = Some c2 ->
    call_output c1 l1 h -> call_output c2 l2 h -> h1 = h2;
  w_names : forall h c, U !! h = Some c -> NoDup (map fst (c_ins c)) /\ NoDup (map fst (c_outs c));
}.

Record consistent (U : gmap string call) (F : frame) : Prop := Consistent {
  (* the graph *)
  k_inp : dom (f_inp F) = f_nodes F;
  k_out : dom (f_out F) = f_nodes F;
  k_disj : vnames F ## fnames F;
  k_mirror : forall s d l, has_edge F s d l <-> has_in_edge F s d l;
  k_edge : forall s d l, has_edge F s d l ->
    (s ∈ vnames F /\ d ∈ fnames F) \/ (s ∈ fnames F /\ d ∈ vnames F);
  (* the refs are those of the variables, the calls those of the functions *)
  k_refs : forall h, h ∈ dom (f_refs F) <-> exists v, in_var F v h;
  k_calls : forall c, c ∈ dom (f_calls F) <-> exists f, in_func F f c;
  k_refkey : forall h r, f_refs F !! h = Some r -> rhid r = h;
  k_world : f_calls F ⊆ U;
  (* the inverse indexes are exact *)
  k_refinv_dom : dom (f_refinv F) = dom (f_refs F);
  k_refinv : forall h v, (exists X, f_refinv F !! h = Some X /\ v ∈ X) <-> in_var F v h;
  k_callinv_dom : dom (f_callinv F) = dom (f_calls F);
  k_callinv : forall c f, (exists X, f_callinv F !! c = Some X /\ f ∈ X) <-> in_func F f c;
  (* the refs on the edges of a function are in the variables at the other ends *)
  k_ins : forall f c cl l h v, in_func F f c -> f_calls F !! c = Some cl ->
    call_input cl l h -> has_edge F v f l -> in_var F v h;
  k_outs : forall f c cl l h v, in_func F f c -> f_calls F !! c = Some cl ->
    call_output cl l h -> has_edge F f v l -> in_var F v h;
  (* creators and consumers are right ... *)
  k_creator : forall h c, f_creator F !! h = Some c ->
    h ∈ dom (f_refs F) /\ exists cl l, f_calls F !! c = Some cl /\ call_output cl l h;
  k_consumers : forall h X, f_consumers F !! h = Some X ->
    h ∈ dom (f_refs F) /\ forall c, c ∈ X -> exists cl l, f_calls F !! c = Some cl /\ call_input cl l h;
  (* ... and complete along the edges *)
  k_creator' : forall f c cl l h v, in_func F f c -> f_calls F !! c = Some cl ->
    call_output cl l h -> has_edge F f v l -> f_creator F !! h = Some c;
  k_consumers' : forall f c cl l h v, in_func F f c -> f_calls F !! c = Some cl ->
    call_input cl l h -> has_edge F v f l -> exists X, f_consumers F !! h = Some X /\ c ∈ X;
}.

(** * Operations on a frame, and when they make sense *)
Inductive fop :=
  | OpAddVar (v : string)
  | OpAddFunc (f : string)
  | OpAddEdge (s d l : string)
  | OpAddRef (v : string) (r : ref) (allow_existing : bool)
  | OpAddCall (f : string) (c : call) (allow_existing : bool)
  | OpDropVar (v : string)
  | OpDropFunc (f : string)
  | OpDrop (ns : list string)
  | OpRename (v w : string)
  | OpMergeInto (v w : string)
  | OpMergeVars
  | OpCleanup.

Section fops.
  Context (ord : sset -> list string) (eord : gset edge3 -> list edge3).
  Definition run_fop (o : fop) : M frame unit :=
    match o with
    | OpAddVar v => add_var v
    | OpAddFunc f => add_func f
    | OpAddEdge s d l => add_edge true s d l
    | OpAddRef v r a => add_ref a v r
    | OpAddCall f c a => add_call ord true a f c
    | OpDropVar v => drop_var ord eord v
    | OpDropFunc f => drop_func ord eord f
    | OpDrop ns => drop_nodes ord eord ns
    | OpRename v w => rename_var ord v w
    | OpMergeInto v w => merge_into ord eord v w
    | OpMergeVars => merge_vars ord eord
    | OpCleanup => cleanup ord eord
    end.
End fops.

(** New names are fresh; edges are added to functions without calls; a call is one of the recorded
    ones, and each of its labels that the function node knows leads to some variable; a variable
    is not merged into itself. *)
Definition sane (U : gmap string call) (F : frame) (o : fop) : Prop :=
  match o with
  | OpAddVar v => v ∉ f_nodes F
  | OpAddFunc f => f ∉ f_nodes F
  | OpAddEdge s d l =>
      (s ∈ vnames F /\ f_fs F !! d = Some ∅) \/ (d ∈ vnames F /\ f_fs F !! s = Some ∅)
  | OpAddRef _ _ _ => True
  | OpAddCall f c _ =>
      U !! c_hid c = Some c /\
      (forall l h, call_input c l h -> default ∅ (f_inp F !! f) !! l <> Some ∅) /\
      (forall l h, call_output c l h -> default ∅ (f_out F !! f) !! l <> Some ∅)
  | OpDropVar _ | OpDropFunc _ | OpDrop _ => True
  | OpRename v w => w ∉ f_nodes F
  | OpMergeInto v w => v ∈ vnames F /\ w ∈ vnames F /\ v <> w
  | OpMergeVars => True
  | OpCleanup => True
  end.

(** * Reachability of elements *)

(** The op that builds lists is special: its inputs [elts_0], [elts_1], ... share the label ["elts"].
    [tidy]: the calls of that op have only such inputs and no such outputs, and their edges are
    labelled accordingly. *)
Definition tidy (F : frame) : Prop := forall f c cl, in_func F f c -> f_calls F !! c = Some cl -> is_make_list (c_op cl) = true ->
  (forall n r, (n, r) ∈ c_ins cl -> String.prefix "elts_" n = true) /\
  (forall n r, (n, r) ∈ c_outs cl -> String.prefix "elts_" n = false /\ n <> "elts") /\
  (forall v l, has_edge F v f l \/ has_edge F f v l -> String.prefix "elts_" l = false).

(** Some / all tracked inputs of the call are in [P] at some variable they come from.  A tracked
    input is one whose label is on some edge into the function. *)
Definition some_input (F : frame) (P : string -> string -> Prop) (f : string) (cl : call) : Prop :=
  exists l h v, call_input cl l h /\ has_edge F v f l /\ P v h.
Definition all_inputs (F : frame) (P : string -> string -> Prop) (f : string) (cl : call) : Prop :=
  (exists l h v, call_input cl l h /\ has_edge F v f l) /\
  forall l h v, call_input cl l h -> has_edge F v f l -> exists v', has_edge F v' f l /\ P v' h.
Definition all_outputs (F : frame) (P : string -> string -> Prop) (f : string) (cl : call) : Prop :=
  (exists l h v, call_output cl l h /\ has_edge F f v l) /\
  forall l h v, call_output cl l h -> has_edge F f v l -> exists v', has_edge F f v' l /\ P v' h.

(** closed under the rules, going forward / back, weakly / strongly *)
Definition closed (F : frame) (dr : dir) (strong : bool) (P : string -> string -> Prop) : Prop :=
  match dr with
  | Forward =>
      (forall f v l c cl h, P f c -> in_func F f c -> f_calls F !! c = Some cl -> has_edge F f v l ->
         call_output cl l h -> in_var F v h -> P v h) /\
      (forall f c cl, in_func F f c -> f_calls F !! c = Some cl ->
         (if strong then all_inputs F P f cl else some_input F P f cl) -> P f c)
  | Back =>
      (forall f v l c cl h, P f c -> in_func F f c -> f_calls F !! c = Some cl -> has_edge F v f l ->
         call_input cl l h -> in_var F v h -> P v h) /\
      (forall f c cl, in_func F f c -> f_calls F !! c = Some cl ->
         (if strong then all_outputs F P f cl
          else exists v l h, has_edge F f v l /\ P v h /\ f_creator F !! h = Some c) -> P f c)
  end.
(** the least set closed under the rules that contains [init] *)
Definition reach (F : frame) (dr : dir) (strong : bool) (init : string -> string -> Prop) (n h : string) : Prop :=
  forall P : string -> string -> Prop, (forall n h, init n h -> P n h) -> closed F dr strong P -> P n h.

(** [n] reaches [m] along (Forward) or against (Back) the edges *)
Definition nstep (F : frame) (dr : dir) (n m : string) : Prop :=
  match dr with Forward => gstep F n m | Back => gstep F m n end.

(** Whether the element [x] of the node at the end of an edge (seen in direction [dr]) is adjacent,
    along the edge, to an element in [Q] of the node at the start. *)
Definition other (dr : dir) (e : edge3) : string := match dr with Forward => e.1.1 | Back => e.1.2 end.
Definition link (F : frame) (dr : dir) (e : edge3) (Q : string -> Prop) (x : string) : Prop :=
  let '(s, d, l) := e in
    match dr with
    | Forward =>
        (in_func F d x /\ exists cl h, f_calls F !! x = Some cl /\ call_input cl l h /\ Q h) \/
        (in_var F d x /\ exists c cl, Q c /\ in_func F s c /\ f_calls F !! c = Some cl /\ call_output cl l x)
    | Back =>
        (d ∈ vnames F /\ in_func F s x /\ exists h, Q h /\ f_creator F !! h = Some x) \/
        (in_var F s x /\ exists c cl, Q c /\ in_func F d c /\ f_calls F !! c = Some cl /\ call_input cl l x)
    end.

(** * Sequences of operations: each one makes sense where it is done, and returns *)
Inductive fruns (ord : sset -> list string) (eord : gset edge3 -> list edge3) (U : gmap string call) : frame -> list fop -> frame -> Prop :=
  | fruns_nil F : fruns ord eord U F [] F
  | fruns_cons F o F1 ops F2 : sane U F o -> run_fop ord eord o F = (Ok tt, F1) -> fruns ord eord U F1 ops F2 ->
      fruns ord eord U F (o :: ops) F2.

(** The elements a restriction is given are closed along the edges: with a call, the refs it reads
    or writes along an edge are kept in the variable at the other end. *)
Definition edge_closed (F : frame) (P : string -> string -> Prop) : Prop :=
  forall f c cl l h v, in_func F f c -> P f c -> f_calls F !! c = Some cl ->
    (call_input cl l h -> has_edge F v f l -> P v h) /\
    (call_output cl l h -> has_edge F f v l -> P v h).

(** * Two frames *)
(** two maps that agree on common keys *)
Definition agree {A} (a b : gmap string A) : Prop := forall k x y, a !! k = Some x -> b !! k = Some y -> x = y.
(** the same name is not a variable of one frame and a function of the other, and the frames agree
    on the edges of the functions they share *)
Record compatible (F G : frame) : Prop := Compatible {
  cm_vf : vnames F ## fnames G;
  cm_fv : fnames F ## vnames G;
  cm_edges : forall f, f ∈ fnames F -> f ∈ fnames G -> forall v l,
    (has_edge F v f l <-> has_edge G v f l) /\ (has_edge F f v l <-> has_edge G f v l);
}.

(** what the frames have in common they have in a common node *)
Definition aligned (F G : frame) : Prop :=
  (forall h v w, in_var F v h -> in_var G w h -> exists u, in_var F u h /\ in_var G u h) /\
  (forall c f g, in_func F f c -> in_func G g c -> exists u, in_func F u c /\ in_func G u c).
