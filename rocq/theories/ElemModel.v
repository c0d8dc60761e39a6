(** Model of the methods of [Element] in lib/tmp/src/fmt/dbus/element.rs that the
    signature parser does not use. *)
From Verif Require Import Base DbusElement DbusFlagBits.
Local Open Scope N_scope.

(** element.rs:398-404 from_id, a transmute: undefined behaviour ([None]) for a
    number that is no discriminant of the enumeration at 121-145. *)
Definition e_from_id (id : N) : option Element :=
  match id with
  | 1 => Some EU8 | 2 => Some EU16 | 3 => Some EI16 | 4 => Some EU32 | 5 => Some EI32
  | 6 => Some EU64 | 7 => Some EI64 | 8 => Some EF64 | 9 => Some EBool | 10 => Some EString
  | 11 => Some EObject | 12 => Some ESignature | 13 => Some EHandle | 14 => Some EVariant
  | 15 => Some EArray | 16 => Some EMaybe | 17 => Some EStructOpen | 18 => Some EStructClose
  | 19 => Some EDictOpen | 20 => Some EDictClose
  | _ => None
  end.
(** element.rs:452-455 char: the code point. *)
Definition e_char (e : Element) : N := e_code e.
(** element.rs:457-467 str: the bytes of the string. *)
Definition e_str (e : Element) : list N := [e_code e].
(** element.rs:475-477 flags: the word. *)
Definition e_word (e : Element) : N := pack (e_flags e).
(** element.rs:480-482 all. *)
Definition e_all (e : Element) (flags : N) : bool := fs_all (e_word e) flags.
(** element.rs:485-487 any. *)
Definition e_any (e : Element) (flags : N) : bool := fs_any (e_word e) flags.
(** element.rs:490-492 dvar_alignment_exp. *)
Definition e_dvar_alignment_exp (e : Element) : N := fs_dvar_alignment_exp (e_word e).
(** element.rs:495-497 gvar_alignment_exp. *)
Definition e_gvar_alignment_exp (e : Element) : N := fs_gvar_alignment_exp (e_word e).
