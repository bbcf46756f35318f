(** Parsing the return value of a function into named outputs and putting
    the outputs back into order.  Models
    - mandala/utils.py:92-100 [dump_output_name], [parse_output_name]
    - mandala/utils.py:218-275 [parse_returns]
    - mandala/model.py:223-232 [Op.get_ordered_outputs]
    - mandala/storage.py:1199-1203 the end of [Storage.call]. *)
From stdpp Require Import base strings list.
From Coq Require Import Ascii DecimalString.
From Verif Require Import Base PyDict.

(** Types of annotations after [Type.from_annotation] (mandala/tps.py:34-73).
    Sets and tuples ([MSet], [MTuple]) are parsed by the code but not
    supported by [Storage.get_struct_builder] (storage.py:535-542). *)
Inductive ty := TAtom | TList (t : ty) | TDict (k v : ty) | TSet (t : ty) | TTuple.

(** [f"{i}"] for a natural number. *)
Definition dec (i : nat) : string := NilZero.string_of_uint (Nat.to_uint i).

(** [int(s)] for the strings the code passes: a non-empty string of ASCII
    digits.  (Python also accepts signs, blanks and Unicode digits: not modelled,
    treated as ValueError.) *)
Definition parse_int (s : string) : result nat :=
  match s with
  | EmptyString => Err EValueError
  | _ => match NilZero.uint_of_string s with
         | Some d => Ok (Nat.of_uint d)
         | None => Err EValueError
         end
  end.

(** utils.py:92-96 *)
Definition dump_output_name (i : nat) (names : option (list string)) : string :=
  match names with
  | Some ns => match ns !! i with
               | Some n => n
               | None => "output_" +:+ dec i
               end
  | None => "output_" +:+ dec i
  end.

(** [name.split("_")[-1]]: what follows the last underscore. *)
Fixpoint after_last_underscore (s : string) : option string :=
  match s with
  | EmptyString => None
  | String c s' =>
      match after_last_underscore s' with
      | Some r => Some r
      | None => if bool_decide (c = "_"%char) then Some s' else None
      end
  end.
Definition split_last (s : string) : string := default s (after_last_underscore s).

(** utils.py:99-100 *)
Definition parse_output_name (s : string) : result nat := parse_int (split_last s).

(** The [nout] option of an op. *)
Inductive nout := NoutAuto | NoutVar | NoutInt (n : nat).

(** What the function returned: a tuple, or anything else. *)
Inductive returned (A : Type) := RTuple (l : list A) | ROther (a : A).
Global Arguments RTuple {_} _.
Global Arguments ROther {_} _.

(** [sig.return_annotation]: absent, [Tuple[t, ...]], [Tuple[t1,..,tn]], other. *)
Inductive retann := RAnnNone | RAnnTupleEllipsis (t : ty) | RAnnTuple (ts : list ty) | RAnnOther (t : ty).

(** utils.py:229-245: the tuple of returned values *)
Definition returns_tuple {A} (n : nout) (r : returned A) : result (list A) :=
  match n, r with
  | NoutAuto, RTuple l => Ok l
  | NoutAuto, ROther a => Ok [a]
  | NoutVar, RTuple l => Ok l
  | NoutVar, ROther _ => Err EAssertion
  | NoutInt k, RTuple l => if decide (length l = k) then Ok l else Err EAssertion
  | NoutInt k, ROther _ => Err EAssertion
  end.

(** utils.py:250-274: annotations, by output name *)
Definition ret_annotations (ann : retann) (keys : list string) (n : nat)
  : result (pydict ty) :=
  match ann with
  | RAnnNone => Ok (map (fun k => (k, TAtom)) keys)
  | RAnnTupleEllipsis t => Ok (map (fun k => (k, t)) keys)
  | RAnnTuple ts =>
      mapR (fun ik => t ← of_option EIndexError (ts !! (ik.1 : nat)); Ok (ik.2, t))
           (imap (fun i k => (i, k)) keys)
  | RAnnOther t => if decide (n = 1) then Ok (map (fun k => (k, t)) keys) else Err EAssertion
  end.

(** utils.py:218-275 *)
Definition parse_returns {A} (ann : retann) (n : nout)
    (names : option (list string)) (r : returned A)
  : result (pydict A * pydict ty) :=
  vs ← returns_tuple n r;
  let d := dict_of (imap (fun i v => (dump_output_name i names, v)) vs) in
  anns ← ret_annotations ann (map fst d) (length vs);
  Ok (d, anns).

(** [{i: v for ...}[k]]: a later duplicate of the same integer key wins *)
Fixpoint assoc_last {A} (k : nat) (l : list (nat * A)) : option A :=
  match l with
  | [] => None
  | (i, v) :: l =>
      match assoc_last k l with
      | Some w => Some w
      | None => if decide (i = k) then Some v else None
      end
  end.

(** model.py:223-232.  Without custom names the names must be generic;
    the comprehension over [range(len(output_dict))] raises KeyError at a gap. *)
Definition get_ordered_outputs {A} (names : option (list string)) (d : pydict A)
  : result (list A) :=
  match names with
  | None =>
      ints ← mapR (fun kv => i ← parse_output_name kv.1; Ok (i, kv.2)) d;
      mapR (fun i => of_option EKeyError (assoc_last i ints)) (seq 0 (length d))
  | Some ns => mapR (fun k => dindex k d) ns
  end.

(** storage.py:1199-1203: a single output is returned as such, otherwise a tuple. *)
Definition present_outputs {A} (l : list A) : returned A :=
  match l with
  | [a] => ROther a
  | _ => RTuple l
  end.
