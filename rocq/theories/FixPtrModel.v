(** Model of [ffi::Pointer] as a pointer (lib/osi/src/ffi/pointer.rs): where it
    comes from, what it points to, and how it is changed.  Its objects are those of
    WrapModel.v: a [PointerOf] around any nesting of foreign-function types. *)
From Verif Require Import Base FfiSpec LayModel FfiModel WrapModel.

Section Host.
(** Byte order of the host, the primitive type, its alignment there, and the
    size of [usize]. *)
Context (h : order) (t : raw) (al usize_ : nat).

(** lib/osi/src/ffi/pointer.rs 302-308, [from_usize_unchecked]. *)
Definition pointer_unchecked (s : nest) (v : Z) : option (res mem) :=
  nest_from_usize h t al usize_ (PointerOf s) v.
(** lib/osi/src/ffi/pointer.rs 314-316, by the default at 32-43: [from_usize].
    The [TryFrom]s of integers (587-597), [*const] (625-635) and [*mut] (638-648)
    are this, with an error for [None]. *)
Definition pointer_from_usize (s : nest) (v : Z) : option (res (option mem)) :=
  if (v =? 0)%Z then Some (Ok None)
  else match pointer_unchecked s v with
       | Some (Ok m) => Some (Ok (Some m))
       | Some Panic => Some Panic
       | Some NoFuel => Some NoFuel
       | None => None
       end.
(** lib/osi/src/ffi/pointer.rs 600-610 and 613-623, the [From]s of references,
    given by their addresses. *)
Definition pointer_from_reference (s : nest) (a : Z) : option (res mem) := pointer_unchecked s a.
(** lib/osi/src/ffi/pointer.rs 338-343, by the default at 65-75: [dangling], for
    a target of the given alignment. *)
Definition pointer_dangling (s : nest) (align : nat) : option (res mem) := pointer_unchecked s (Z.of_nat align).

(** lib/osi/src/ffi/pointer.rs 321-323 and 328-330, [to_usize], [into_usize]; and
    349-354 and 360-365, [as_ptr] and [as_mut_ptr], by the defaults at 79-96. *)
Definition pointer_address (s : nest) (m : mem) : option (res Z) := nest_to_usize h t al usize_ (PointerOf s) m.
(** lib/osi/src/ffi/pointer.rs 377-383 and 395-401, [as_ref] and [as_mut], by the
    defaults at 107-132: the object at the address, of those that exist. *)
Definition pointer_target {V} (heap : Z -> option V) (s : nest) (m : mem) : option (res (option V)) :=
  match pointer_address s m with
  | Some (Ok a) => Some (Ok (heap a))
  | Some Panic => Some Panic
  | Some NoFuel => Some NoFuel
  | None => None
  end.
End Host.

(** Calls on a pointer that give another one: lib/osi/src/ffi/pointer.rs 264-271
    [cast_into], 284-288 [cast], 465-470 [clone] (of an address that is [Copy]),
    and 218-223 [new] of 228-240 [into_inner]. *)
Inductive again := CastInto | Cast | Clone | Rewrap.

(** lib/osi/src/ffi/pointer.rs 218-223, [new]; the type is transparent (135-141),
    so the object is that of the address. *)
Definition pointer_new (address : mem) : mem := address.
(** lib/osi/src/ffi/pointer.rs 244-246 [address], 228-240 [into_inner] and 277-279
    [get]: likewise. *)
Definition pointer_inner (m : mem) : mem := m.
(** lib/osi/src/ffi/pointer.rs 264-271, 284-288, 465-470 and 228-240: all of these
    move or copy the address into a new object. *)
Definition pointer_again (m : mem) (a : again) : mem :=
  match a with
  | CastInto => pointer_new (pointer_inner m)
  | Cast => pointer_new (pointer_inner m)
  | Clone => pointer_new (pointer_inner m)
  | Rewrap => pointer_new (pointer_inner m)
  end.

(** lib/osi/src/ffi/pointer.rs 251-253, [set]: assigns, and drops the old
    address; 257-260, [replace]: swaps, and returns what it was given.  There is no
    [take]: it is [core::mem::take] of the whole, which needs a default. *)
Definition pointer_use (m : mem) (u : use mem) : used :=
  match u with
  | USet x => (pointer_new x, None, Some (pointer_inner m))
  | UReplace x | UTake x => let '(address, v) := (x, pointer_inner m) in (pointer_new address, Some v, None)
  end.
