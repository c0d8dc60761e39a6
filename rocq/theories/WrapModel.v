(** Model of nested foreign-function types: [Integer] and [Pointer] around each
    other and around the endian wrappers (lib/osi/src/ffi/integer.rs,
    lib/osi/src/ffi/pointer.rs). *)
From Verif Require Import Base FfiSpec LayModel FfiModel.

(** [Integer<inner, AlignAs<align>>] (lib/osi/src/ffi/integer.rs 29-33),
    [Pointer<inner, _>] (lib/osi/src/ffi/pointer.rs 137-141), or an endian
    wrapper ([Native]: the primitive itself). *)
Inductive nest := Value (w : wrapper) | IntegerOf (inner : nest) (align : nat) | PointerOf (inner : nest).

Section Host.
(** Byte order of the host, the primitive type, and its alignment there. *)
Context (h : order) (t : raw) (al : nat).
Let n := width (int t).

(** lib/osi/src/ffi/integer.rs 29-33, lib/osi/src/ffi/pointer.rs 137-141
    ([#[repr(transparent)]]; the marker of the target takes no space). *)
Fixpoint layout (s : nest) : ty :=
  match s with
  | Value _ => wrapper_ty n al
  | IntegerOf s a => integer_ty (layout s) a
  | PointerOf s => Transparent (layout s)
  end.

(** [NEEDS_SWAP]: lib/osi/src/ffi/integer.rs 312-319, lib/osi/src/ffi/pointer.rs
    577-584. *)
Fixpoint swaps (s : nest) : bool :=
  match s with
  | Value w => needs_swap h w
  | IntegerOf s _ => swaps s
  | PointerOf s => swaps s
  end.

(** [from_native] of any of the types (lib/osi/src/ffi/integer.rs 145-152,
    lib/osi/src/ffi/pointer.rs 439-446): lib/osi/src/ffi/endian.rs 118-126 with
    the whole type as [Endian]. *)
Definition nest_make (s : nest) (z : Z) : option mem :=
  let r := store h t z in
  let size := size_of (layout s) in
  if swaps s
  then match bswap_copy h r with Some b => Some (from_raw size b) | None => None end
  else Some (from_raw size r).

(** [to_native] (lib/osi/src/ffi/integer.rs 158-165, lib/osi/src/ffi/pointer.rs
    454-461): lib/osi/src/ffi/endian.rs 133-141. *)
Definition nest_value (s : nest) (m : mem) : option Z :=
  let r := to_raw n m in
  match (if swaps s then bswap_copy h r else Some r) with
  | Some r => load h t r
  | None => None
  end.

(** Wrapping one type at a time: [Integer::new(..)] (lib/osi/src/ffi/integer.rs
    41-46), [Pointer::new(..)] (lib/osi/src/ffi/pointer.rs 218-223). *)
Fixpoint wrap (s : nest) (z : Z) : option mem :=
  match s with
  | Value w => make h w t n z
  | IntegerOf s a => match wrap s z with Some m => Some (integer_new (layout s) a m) | None => None end
  | PointerOf s => wrap s z
  end.

(** Unwrapping one at a time: [Integer::get()] (lib/osi/src/ffi/integer.rs
    103-105), [Pointer::get()] and [address()] (lib/osi/src/ffi/pointer.rs
    277-279 and 244-246). *)
Fixpoint unwrap (s : nest) (m : mem) : option Z :=
  match s with
  | Value w => value h w t m
  | IntegerOf s a => unwrap s (integer_get (layout s) a m)
  | PointerOf s => unwrap s m
  end.

(** [PartialEq]: lib/osi/src/ffi/integer.rs 256-264, lib/osi/src/ffi/pointer.rs
    532-540. *)
Fixpoint nest_eq (s : nest) (x y : mem) : option bool :=
  match s with
  | Value w => end_eq h w t x y
  | IntegerOf s a => nest_eq s (integer_get (layout s) a x) (integer_get (layout s) a y)
  | PointerOf s => nest_eq s x y
  end.
(** [Ord] and [PartialOrd]: lib/osi/src/ffi/integer.rs 245-253 and 267-275,
    lib/osi/src/ffi/pointer.rs 521-529 and 543-551. *)
Fixpoint nest_cmp (s : nest) (x y : mem) : option comparison :=
  match s with
  | Value w => end_cmp h w t x y
  | IntegerOf s a => nest_cmp s (integer_get (layout s) a x) (integer_get (layout s) a y)
  | PointerOf s => nest_cmp s x y
  end.
(** [Hash]: lib/osi/src/ffi/integer.rs 228-239, lib/osi/src/ffi/pointer.rs
    504-515. *)
Fixpoint nest_hash {S : Type} (hash : Z -> S -> S) (s : nest) (m : mem) (st : S) : option S :=
  match s with
  | Value w => end_hash hash h w t m st
  | IntegerOf s a => nest_hash hash s (integer_get (layout s) a m) st
  | PointerOf s => nest_hash hash s m st
  end.

(** [to_usize] of [NativeAddress] (lib/osi/src/ffi/integer.rs 287-305, lib/osi/src/ffi/pointer.rs
    554-571): only for the primitives, not for the endian wrappers; [usize_] is
    the size of [usize].  The address of a primitive that has no value is never
    asked for. *)
Fixpoint nest_to_usize (usize_ : nat) (s : nest) (m : mem) : option (res Z) :=
  match s with
  | Value Native => match value h Native t m with Some z => Some (to_usize usize_ t z) | None => None end
  | Value _ => None
  | IntegerOf s a => nest_to_usize usize_ s (integer_get (layout s) a m)
  | PointerOf s => nest_to_usize usize_ s m
  end.
(** [from_usize_unchecked] of [NativeAddress] (lib/osi/src/ffi/integer.rs
    287-305, lib/osi/src/ffi/pointer.rs 554-571), as before. *)
Fixpoint nest_from_usize (usize_ : nat) (s : nest) (v : Z) : option (res mem) :=
  match s with
  | Value Native =>
      match from_usize_unchecked usize_ t v with
      | Ok z => match make h Native t n z with Some m => Some (Ok m) | None => None end
      | Panic => Some Panic
      | NoFuel => Some NoFuel
      end
  | Value _ => None
  | IntegerOf s a =>
      match nest_from_usize usize_ s v with
      | Some (Ok m) => Some (Ok (integer_new (layout s) a m))
      | r => r
      end
  | PointerOf s => nest_from_usize usize_ s v
  end.
End Host.
