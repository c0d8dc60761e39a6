(** Specification of the errors of the signature parser, on the vocabulary of
    DbusSpec.v. *)
From Coq Require Import Ascii.
From Verif Require Import Base DbusSpec.
From Verif Require DbusElement DbusSigModel.
Import DbusSigModel(Error(..)). Import DbusElement(Element(..)).
Local Open Scope N_scope.
Local Open Scope char_scope.

(** [rejected blame s e]: the signature text [s] must be rejected with the
    error [e].  [blame f fs] is the first index of a mispairing, reported when
    a closing character meets the innermost open container [f], itself inside
    the open containers [fs]. *)
Inductive rejected (blame : frame -> list frame -> N) (s : list N) : Error -> Prop :=
(* nothing at all *)
| rej_empty : s = [] -> rejected blame s SignatureEmpty
(* a complete type with something behind it *)
| rej_sequence t rest :
    s = print t ++ rest -> rest <> [] -> rejected blame s (SignatureSequence (size (print t)))
(* it ends with an open container: the innermost one is reported *)
| rej_incomplete f fs :
    s = prefix (f :: fs) -> rejected blame s (SignatureIncomplete (size (prefix fs)))
(* a byte that is not ASCII, or not an element, where a type or the end of a
   container could follow *)
| rej_invalid fs c rest :
    s = prefix fs ++ c :: rest -> 128 <= c -> rejected blame s (ElementInvalid (size (prefix fs)) c)
| rej_unknown fs c rest :
    s = prefix fs ++ c :: rest -> c < 128 -> ~ In c codes ->
    rejected blame s (ElementUnknown (size (prefix fs)) c)
(* a closing character with no container open *)
| rej_unpaired c rest :
    s = c :: rest -> is_closing c -> rejected blame s (ElementUnpaired 0)
(* a closing character that does not close the innermost open container *)
| rej_mispaired f fs c e rest :
    s = prefix (f :: fs) ++ c :: rest ->
    (c = chr ")" /\ e = EStructOpen \/ c = chr "}" /\ e = EDictOpen) -> ~ closes c f ->
    rejected blame s (ElementMispaired (blame f fs) (size (prefix (f :: fs))) (Some e))
(* a dict entry that is not a basic type followed by one complete type *)
| rej_dict ms fs rest :
    s = prefix (FDict ms :: fs) ++ chr "}" :: rest ->
    ~ (exists k v, ms = [TBasic k; v]) ->
    rejected blame s (DictInvalid (size (prefix fs))).

(** The index of the container's own opening element. *)
Definition opener (f : frame) (fs : list frame) : N := size (prefix fs).
(** What the code reports: the closing index less the distance of the container
    from the container it is in (0 if it is in none). *)
Definition reported (f : frame) (fs : list frame) : N :=
  size (prefix (f :: fs)) -
  match fs with [] => 0 | _ :: fs' => size (prefix fs) - size (prefix fs') end.
