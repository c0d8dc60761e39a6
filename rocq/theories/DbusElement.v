(** Model of lib/tmp/src/fmt/dbus/element.rs. *)
From Verif Require Import Base.
Local Open Scope N_scope.

(** element.rs:121-145 Element. *)
Inductive Element :=
| EU8 | EU16 | EI16 | EU32 | EI32 | EU64 | EI64 | EF64 | EBool
| EString | EObject | ESignature | EHandle | EVariant | EArray | EMaybe
| EStructOpen | EStructClose | EDictOpen | EDictClose.

(** element.rs:435-437 id: the discriminants, counting from 1. *)
Definition e_id (e : Element) : N :=
  match e with
  | EU8 => 1 | EU16 => 2 | EI16 => 3 | EU32 => 4 | EI32 => 5 | EU64 => 6 | EI64 => 7
  | EF64 => 8 | EBool => 9 | EString => 10 | EObject => 11 | ESignature => 12
  | EHandle => 13 | EVariant => 14 | EArray => 15 | EMaybe => 16
  | EStructOpen => 17 | EStructClose => 18 | EDictOpen => 19 | EDictClose => 20
  end.

(** element.rs:407-431 from_code. *)
Definition from_code (code : N) : option Element :=
  match code with
  | 121 => Some EU8 | 113 => Some EU16 | 110 => Some EI16 | 117 => Some EU32
  | 105 => Some EI32 | 116 => Some EU64 | 120 => Some EI64 | 100 => Some EF64
  | 98 => Some EBool | 115 => Some EString | 111 => Some EObject
  | 103 => Some ESignature | 104 => Some EHandle | 118 => Some EVariant
  | 97 => Some EArray | 109 => Some EMaybe
  | 40 => Some EStructOpen | 41 => Some EStructClose
  | 123 => Some EDictOpen | 125 => Some EDictClose
  | _ => None
  end.

(** element.rs:99 FlagSet.  The code packs these fields into disjoint bit
    ranges of a u32 (element.rs:48-88); here they are the fields of a record.
    DbusFlagBits.v models the packed form and proves that each operation used
    on it corresponds to the operation on the record. *)
Record FlagSet := Flags {
  f_element : Element;
  f_node : N;
  f_dvar_alignment_exp : N;
  f_gvar_alignment_exp : N;
  f_prefix : bool;
  f_open : bool;
  f_close : bool;
  f_basic : bool;
  f_dynamic : bool;
  f_variant : bool;
  f_handle : bool;
  f_dict : bool;
  f_dvar_unsupported : bool;
  f_dvar_misaligned : bool;
}.

(** element.rs:351-363 set_node. *)
Definition set_node (f : FlagSet) (v : N) : FlagSet :=
  let '(Flags e _ a b c d g h i j k l m n) := f in Flags e v a b c d g h i j k l m n.
(** element.rs:376-388 set_gvar_alignment_exp. *)
Definition set_gvar_alignment_exp (f : FlagSet) (v : N) : FlagSet :=
  let '(Flags e w a _ c d g h i j k l m n) := f in Flags e w a v c d g h i j k l m n.
(** element.rs:315-335 set and clear for FLAG_DICT (element.rs:82), as used at
    signature.rs:560, 637. *)
Definition put_dict (f : FlagSet) (v : bool) : FlagSet :=
  let '(Flags e w a b c d g h i j k _ m n) := f in Flags e w a b c d g h i j k v m n.
(** element.rs:315-322 set for FLAG_DVAR_UNSUPPORTED (element.rs:84), as used
    at signature.rs:554. *)
Definition put_unsupported (f : FlagSet) (v : bool) : FlagSet :=
  let '(Flags e w a b c d g h i j k l _ n) := f in Flags e w a b c d g h i j k l v n.
(** element.rs:315-335 set and clear for FLAG_DVAR_MISALIGNED (element.rs:88),
    as used at signature.rs:606, 612. *)
Definition put_misaligned (f : FlagSet) (v : bool) : FlagSet :=
  let '(Flags e w a b c d g h i j k l m _) := f in Flags e w a b c d g h i j k l m v.
(** signature.rs:621-627: [up.flags.set(this.flags.get() & (DYNAMIC | HANDLE |
    DVAR_UNSUPPORTED | DVAR_MISALIGNED))]. *)
Definition propagate_flags (up this : FlagSet) : FlagSet :=
  let '(Flags e w a b c d g h i j k l m n) := up in
  Flags e w a b c d g h (i || f_dynamic this) j (k || f_handle this) l
        (m || f_dvar_unsupported this) (n || f_dvar_misaligned this).

(** element.rs:151-157 ElementMeta: code, pair, flags (with the alignment
    exponents), dvar_size, gvar_size. *)
Record ElementMeta := Meta {
  m_code : N; m_pair : option Element; m_flags : FlagSet; m_dvar_size : N; m_gvar_size : N
}.
(** element.rs:160-177, the const function `element` that fills an entry of
    ELEMENTS; the flags are given one by one. *)
Definition element (code : N) (e : Element) (pair : option Element) (dva dsz gva gsz : N)
    (prefix open close basic dynamic variant handle dict unsupported misaligned : bool) :=
  Meta code pair
    (Flags e 0 dva gva prefix open close basic dynamic variant handle dict unsupported misaligned)
    dsz gsz.
Local Notation T := true.
Local Notation F := false.
(** element.rs:179-240 ELEMENTS, indexed as in element.rs:443-445 meta. *)
Definition meta (e : Element) : ElementMeta :=
  match e with
  (*                               code   element  pair        dva ds gva gs  pre op cl bas dyn var han dic uns mis *)
  | EU8 => element 121 EU8 None 0 1 0 1                                       T  F  F  T   F   F   F   F   F   F
  | EU16 => element 113 EU16 None 1 2 1 2                                     T  F  F  T   F   F   F   F   F   F
  | EI16 => element 110 EI16 None 1 2 1 2                                     T  F  F  T   F   F   F   F   F   F
  | EU32 => element 117 EU32 None 2 4 2 4                                     T  F  F  T   F   F   F   F   F   F
  | EI32 => element 105 EI32 None 2 4 2 4                                     T  F  F  T   F   F   F   F   F   F
  | EU64 => element 116 EU64 None 3 8 3 8                                     T  F  F  T   F   F   F   F   F   F
  | EI64 => element 120 EI64 None 3 8 3 8                                     T  F  F  T   F   F   F   F   F   F
  | EF64 => element 100 EF64 None 3 8 3 8                                     T  F  F  T   F   F   F   F   F   F
  | EBool => element 98 EBool None 2 4 0 1                                    T  F  F  T   F   F   F   F   F   F
  | EString => element 115 EString None 2 0 0 0                               T  F  F  T   T   F   F   F   F   F
  | EObject => element 111 EObject None 2 0 0 0                               T  F  F  T   T   F   F   F   F   F
  | ESignature => element 103 ESignature None 0 0 0 0                         T  F  F  T   T   F   F   F   F   F
  | EHandle => element 104 EHandle None 2 4 2 4                               T  F  F  T   F   F   T   F   F   F
  | EVariant => element 118 EVariant None 0 0 3 0                             T  F  F  F   T   T   F   F   F   T
  | EArray => element 97 EArray None 2 0 0 0                                  T  T  F  F   T   F   F   F   F   F
  | EMaybe => element 109 EMaybe None 2 0 0 0                                 T  T  F  F   T   F   F   F   T   F
  | EStructOpen => element 40 EStructOpen (Some EStructClose) 3 0 0 0         T  T  F  F   F   F   F   T   F   F
  | EStructClose => element 41 EStructClose (Some EStructOpen) 0 0 0 0        F  F  T  F   F   F   F   F   F   F
  | EDictOpen => element 123 EDictOpen (Some EDictClose) 3 0 0 0              T  T  F  F   F   F   F   T   F   F
  | EDictClose => element 125 EDictClose (Some EDictOpen) 0 0 0 0             F  F  T  F   F   F   F   F   F   F
  end.

(** element.rs:448-450 code. *)
Definition e_code (e : Element) : N := m_code (meta e).
(** element.rs:470-472 pair. *)
Definition e_pair (e : Element) : option Element := m_pair (meta e).
(** element.rs:475-477 flags. *)
Definition e_flags (e : Element) : FlagSet := m_flags (meta e).
(** element.rs:500-502 dvar_size. *)
Definition e_dvar_size (e : Element) : N := m_dvar_size (meta e).
(** element.rs:505-507 gvar_size. *)
Definition e_gvar_size (e : Element) : N := m_gvar_size (meta e).
