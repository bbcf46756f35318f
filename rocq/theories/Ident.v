(** The identifiers of a call as a function of its storage inputs.  Models the
    part of [Storage.construct] (mandala/storage.py:574-591) and
    [Storage.call_internal] (storage.py:793-800, 880-886) that determines
    identifiers; Storage.v models these functions with their effects. *)
From stdpp Require Import base strings gmap list.
From Verif Require Import Base PyDict Returns Refs Args.

(** [enumerate(val)], storage.py:548.  Strings and dictionaries can be iterated
    over in Python; they are not modelled as list-typed values. *)
Definition list_elems (a : arg) : result (list arg) :=
  match a with
  | AVal (VList l) | AVal (VTuple l) => Ok (map AVal l)
  | AList l => Ok l
  | AVal (VStr _) | AVal (VDict _) | ADict _ => Err EUnmodelled
  | _ => Err ETypeError
  end.
(** storage.py:549-553 ([val.keys()] on something else raises AttributeError) *)
Definition dict_items (a : arg) : result (pydict arg) :=
  match a with
  | AVal (VDict l) => Ok (map (fun kv => (kv.1, AVal kv.2)) l)
  | ADict l => Ok l
  | _ => Err ETypeError
  end.

Section ident.
  Context (H : pyval -> string).

  (** A ref of which only the identifiers matter *)
  Definition idref (ch : string * string) : ref := RAtom ch.1 ch.2 None.

  (** storage.py:574-591: the content id and history id of the ref for a value of a type.
      Lists with refs inside where an atom is expected are not modelled. *)
  Fixpoint ident (t : ty) (a : arg) : result (string * string) :=
    match a with
    | ARef r => Ok (rcid r, rhid r)
    | _ =>
        match t with
        | TAtom =>
            match a with
            | AVal v => let r := wrap_atom H v None in Ok (rcid r, rhid r)
            | _ => Err EUnmodelled
            end
        | TList t =>
            l ← list_elems a;
            ids ← mapR (ident t) l;
            let refs := map idref ids in
            let chid := call_hid H op_make_list (imap (fun i r => ("elts_" +:+ dec i, r)) refs) None in
            Ok (rcid (make_list H refs), output_hid H chid "list")
        | TDict _ t =>
            d ← dict_items a;
            ids ← mapR (fun kv => x ← ident t kv.2; Ok (kv.1, idref x)) d;
            let chid := call_hid H op_make_dict ids None in
            Ok (rcid (make_dict H ids), output_hid H chid "dict")
        | TSet _ | TTuple => Err ENotImplemented
        end
    end.

  (** storage.py:793-796: the refs of the inputs of a call *)
  Definition input_ids (inputs : pydict (arg * ty)) : result (pydict ref) :=
    mapR (fun kat => x ← ident kat.2.2 kat.2.1; Ok (kat.1, idref x)) inputs.
End ident.
