(** C09: outputs come back in order and complete. *)
From stdpp Require Import base strings list.
From Verif Require Import Base PyDict Returns Spec_Returns Returns_proofs.

(** Full statement.  The function returned the values [vs]; the op's output
    names fit; [d] are the named outputs; each is turned into a ref by [g]
    and stored; the rows come back in an arbitrary order [rows].  Then the
    names are distinct, there is one output per value, and the refs presented to the
    user are those of the values, in order. *)
Theorem C09_outputs_in_order_and_complete :
  forall (A B : Type) ann n names (r : returned A) (vs : list A) d anns
         (g : string -> A -> B) (rows : pydict B),
    returned_values n r vs ->
    names_fit names (length vs) ->
    parse_returns ann n names r = Ok (d, anns) ->
    rows ≡ₚ map (fun kv => (kv.1, g kv.1 kv.2)) d ->
    NoDup (map fst d) /\ length d = length vs /\
    exists outs, get_ordered_outputs names rows = Ok outs /\
      outs = zip_with g (map fst d) vs /\ presents outs (present_outputs outs).
Proof.
  intros A B ann n names r vs d anns g rows Hr Hn Hp Hd.
  destruct (outputs_roundtrip _ _ _ _ _ _ _ g rows Hr Hn Hp Hd) as (H1 & H2 & H3).
  split; [done|]. split; [done|]. eexists. split; [exact H3|]. split; [done|].
  by destruct (zip_with _ _ _) as [|x [|y l]].
Qed.
Print Assumptions C09_outputs_in_order_and_complete.

(** Without a return annotation the parsing never fails. *)
Theorem C09_parse_returns_total :
  forall (A : Type) n names (r : returned A) (vs : list A),
    returned_values n r vs ->
    exists d anns, parse_returns RAnnNone n names r = Ok (d, anns).
Proof. exact @parse_returns_total. Qed.
Print Assumptions C09_parse_returns_total.

(** A return value that [nout] does not allow (a tuple of another length, or no tuple) is
    refused. *)
Theorem C09_wrong_shape_refused :
  forall (A : Type) ann n names (r : returned A),
    (forall vs, ~ returned_values n r vs) ->
    exists e, parse_returns ann n names r = Err e.
Proof.
  intros A ann n names r Hr. unfold parse_returns.
  enough (exists e, returns_tuple n r = Err e) as [e ->] by by exists e.
  destruct n, r as [l|a]; simpl in *; try (by eexists); try (exfalso; eapply Hr; eauto; done).
  case_decide as Hl; [|by eexists]. exfalso. apply (Hr l). subst. auto.
Qed.
Print Assumptions C09_wrong_shape_refused.
Example C09_wrong_shape_example :
  (forall vs : list nat, ~ returned_values (NoutInt 3) (RTuple [1; 2]) vs) /\
  parse_returns RAnnNone (NoutInt 3) None (RTuple [1; 2]) = Err EAssertion.
Proof. split; [|reflexivity]. intros vs (_ & [[=]|[[=]|[=]]]). Qed.

(** Eleven generic outputs, rows sorted as strings ("output_10" before "output_2"). *)
Example C09_example :
  let vs := seq 100 12 in
  exists d anns rows,
    returned_values NoutAuto (RTuple vs) vs /\ names_fit None (length vs) /\
    parse_returns RAnnNone NoutAuto None (RTuple vs) = Ok (d, anns) /\
    rows = reverse (map (fun kv => (kv.1, kv.2)) d) /\
    rows ≡ₚ map (fun kv => (kv.1, kv.2)) d /\
    get_ordered_outputs None rows = Ok vs.
Proof.
  eexists _, _, _. split; [simpl; auto|]. split; [done|]. split; [reflexivity|].
  split; [reflexivity|]. split; [apply reverse_Permutation|vm_compute; reflexivity].
Qed.

(** The side condition on the names is needed: with fewer custom names than
    values the code silently drops outputs, with more it raises KeyError after
    the function has run, and duplicates collapse. *)
Theorem C09_unfit_names_refuted :
  (exists d anns, parse_returns RAnnNone NoutAuto (Some ["a"]) (RTuple [1; 2]) = Ok (d, anns) /\
     get_ordered_outputs (Some ["a"]) d = Ok [1]) /\
  (exists d anns, parse_returns RAnnNone NoutAuto (Some ["a"; "b"; "c"]) (RTuple [1; 2]) = Ok (d, anns) /\
     get_ordered_outputs (Some ["a"; "b"; "c"]) d = Err EKeyError) /\
  (exists d anns, parse_returns RAnnNone NoutAuto (Some ["a"; "a"]) (RTuple [1; 2]) = Ok (d, anns) /\
     get_ordered_outputs (Some ["a"; "a"]) d = Ok [2; 2]).
Proof. split_and!; eexists _, _; split; vm_compute; reflexivity. Qed.
Print Assumptions C09_unfit_names_refuted.
