(** Model of how foreign-function types are shown: [Display] and [Debug] of the
    endian wrappers, [Integer], [Pointer] and [Packed] (lib/osi/src/ffi). *)
From Coq Require Import String DecimalString.
From Verif Require Import Base FfiSpec LayModel FfiModel WrapModel.

(** Rust semantics: [Display] and [Debug] of a primitive integer, also of a
    [NonZero] one, without flags.  Called at lib/osi/src/ffi/endian.rs:244 and 379,
    and for the field at 222 and 357. *)
Definition decimal (z : Z) : string := NilZero.string_of_int (Z.to_int z).
(** Rust semantics: [fmt.debug_tuple(name).field(..).finish()] with one field and
    no flags, as at lib/osi/src/ffi/endian.rs:222. *)
Definition debug_tuple (name field : string) : string := name ++ "(" ++ field ++ ")".

Section Host.
(** Byte order of the host, the primitive type, and its alignment there. *)
Context (h : order) (t : raw) (al : nat).

(** [Display]: lib/osi/src/ffi/endian.rs 243-245 and 378-380,
    lib/osi/src/ffi/integer.rs 217-219, lib/osi/src/ffi/pointer.rs 493-495. *)
Fixpoint nest_display (s : nest) (m : mem) : option string :=
  match s with
  | Value w => option_map decimal (value h w t m)
  | IntegerOf s a => nest_display s (integer_get (layout t al s) a m)
  | PointerOf s => nest_display s m
  end.

(** [Debug]: lib/osi/src/ffi/endian.rs 221-223 and 356-358 (the field is the raw
    value), lib/osi/src/ffi/integer.rs 195-197, lib/osi/src/ffi/pointer.rs 482-484.
    *)
Fixpoint nest_debug (s : nest) (m : mem) : option string :=
  match s with
  | Value w =>
      let field := option_map decimal (load h t (to_raw (width (int t)) m)) in
      match w with
      | Native => field
      | BigEndian => option_map (debug_tuple "BigEndian") field
      | LittleEndian => option_map (debug_tuple "LittleEndian") field
      end
  | IntegerOf s a => option_map (debug_tuple "Integer") (nest_debug s (integer_get (layout t al s) a m))
  | PointerOf s => option_map (debug_tuple "Pointer") (nest_debug s m)
  end.

(** lib/osi/src/ffi/packed.rs 120-122, [Display] of [Packed]. *)
Definition packed_display (s : nest) (m : mem) : option string :=
  nest_display s (packed_get (layout t al s) m).
(** lib/osi/src/ffi/packed.rs 110-112, [Debug] of [Packed]. *)
Definition packed_debug (s : nest) (m : mem) : option string :=
  option_map (debug_tuple "Packed") (nest_debug s (packed_get (layout t al s) m)).
End Host.
