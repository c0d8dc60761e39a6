(** Model of [osi::ffi] (endian.rs, integer.rs, packed.rs, pointer.rs) and of
    the parts of [osi::mem] they use.

    Objects are the bytes of memory they occupy (LayModel.v); the host byte
    order is a parameter.  A [None] result stands for undefined behaviour: a
    read of uninitialised memory, or of a zero where the type excludes it. *)
From Verif Require Import Base FfiSpec LayModel.

(* ------------------------------------------------------------------ *)
(** ** Primitive integers in memory *)

(** Rust semantics, not code in /repo: an integer occupies its size in bytes,
    in two's complement and in the byte order of the host. Rust semantics (the
    little-endian bytes of an integer), needed for lib/osi/src/mem.rs:148-160,
    where integers are reinterpreted as bytes. *)
Fixpoint le (n : nat) (v : N) : list N :=
  match n with
  | 0 => []
  | S n => (v mod 256)%N :: le n (v / 256)%N
  end.

(** Rust semantics (the integer with these little-endian bytes), needed for
    lib/osi/src/mem.rs:148-160. *)
Fixpoint of_le (l : list N) : N :=
  match l with
  | [] => 0%N
  | b :: l => (b + 256 * of_le l)%N
  end.

(** Rust semantics (an integer in memory), needed for
    lib/osi/src/mem.rs:148-160 and lib/osi/src/ffi/endian.rs:98-141. *)
Definition host_bytes (h : order) (n : nat) (v : N) : list N :=
  match h with LittleFirst => le n v | BigFirst => rev (le n v) end.

(** Rust semantics (the integer in memory), needed for
    lib/osi/src/mem.rs:148-160 and lib/osi/src/ffi/endian.rs:98-141. *)
Definition of_host (h : order) (l : list N) : N :=
  match h with LittleFirst => of_le l | BigFirst => of_le (rev l) end.

(** All bytes of an object, if they are initialised. Used where the code reads
    an object: lib/osi/src/mem.rs:148-160. *)
Fixpoint init (m : mem) : option (list N) :=
  match m with
  | [] => Some []
  | Some b :: m => match init m with Some l => Some (b :: l) | None => None end
  | None :: _ => None
  end.

(** Rust primitive type: an integer type, possibly one of the [NonZero] ones.
    The [Raw] parameter of lib/osi/src/ffi/endian.rs:29; the 24 types are
    listed in 143-166. *)
Record raw := { int : int_type; nonzero : bool }.

(** The object a value of primitive type is. Rust semantics; the argument of
    [from_native] (lib/osi/src/ffi/endian.rs:118) as an object. *)
Definition store (h : order) (t : raw) (z : Z) : mem :=
  map Some (host_bytes h (width (int t))
              (Z.to_N (z mod 2 ^ (8 * Z.of_nat (width (int t)))))).

(** Rust semantics: two's complement, for the signed types of
    lib/osi/src/ffi/endian.rs:143-166. *)
Definition signed_value (t : int_type) (v : N) : Z :=
  if signed t && (2 ^ (8 * Z.of_nat (width t) - 1) <=? Z.of_N v)%Z
  then (Z.of_N v - 2 ^ (8 * Z.of_nat (width t)))%Z
  else Z.of_N v.

(** The value an object of primitive type has. Rust semantics; the result of
    [to_native] (lib/osi/src/ffi/endian.rs:133) as a number. *)
Definition load (h : order) (t : raw) (m : mem) : option Z :=
  match init m with
  | Some l =>
      let z := signed_value (int t) (of_host h l) in
      if nonzero t && (z =? 0)%Z then None else Some z
  | None => None
  end.

(* ------------------------------------------------------------------ *)
(** ** osi::mem *)

(** lib/osi/src/mem.rs 81-110, [transmute_copy_uninit]: copy the bytes,
    truncating or leaving the rest uninitialised. *)
Definition transmute_copy_uninit (dst_size : nat) (src : mem) : mem :=
  if length src <? dst_size
  then splice (repeat None dst_size) 0 src
  else firstn dst_size src.

(** lib/osi/src/mem.rs 117-135, [bswap_slow]: [while i < size_of::<T>()], byte
    [size - i - 1] of the source becomes byte [i] of the destination.
    [src.add(..)] stays in bounds: [nth] is never used past the end. *)
Fixpoint bswap_loop (k i : nat) (src dst : mem) : mem :=
  match k with
  | 0 => dst
  | S k => bswap_loop k (S i) src (upd dst i (nth (length src - i - 1) src None))
  end.

(** lib/osi/src/mem.rs:117-135, the whole function. *)
Definition bswap_slow (v : mem) : mem :=
  bswap_loop (length v) 0 v (repeat None (length v)).

(** [uN::swap_bytes()] of the standard library. Called in
    lib/osi/src/mem.rs:152-159. *)
Definition swap_bytes (n : nat) (v : N) : N := of_le (rev (le n v)).

(** [transmute_copy(&uN::swap_bytes(transmute_copy(v)))]: read the object as
    an unsigned integer of the host, swap it, write it back.
    lib/osi/src/mem.rs:152-159, one arm of the [match]. *)
Definition bswap_uint (h : order) (n : nat) (v : mem) : option mem :=
  let u := {| int := {| signed := false; width := n |}; nonzero := false |} in
  match load h u v with
  | Some z => Some (store h u (Z.of_N (swap_bytes n (Z.to_N z))))
  | None => None
  end.

(** lib/osi/src/mem.rs 148-160, [bswap_copy]. *)
Definition bswap_copy (h : order) (v : mem) : option mem :=
  match length v with
  | 1 => Some v
  | 2 => bswap_uint h 2 v
  | 4 => bswap_uint h 4 v
  | 8 => bswap_uint h 8 v
  | 16 => bswap_uint h 16 v
  | _ => Some (bswap_slow v)
  end.

(* ------------------------------------------------------------------ *)
(** ** Endianness *)

(** lib/osi/src/ffi/endian.rs 29-66 (the primitive types themselves, 143-166)
    and 77, 88 ([BigEndian], [LittleEndian]). *)
Inductive wrapper := Native | BigEndian | LittleEndian.

(** lib/osi/src/ffi/endian.rs 32 (default), 438-490 (big-endian hosts) and
    492-545 (little-endian hosts): [NEEDS_SWAP].  The tables have the same
    entry for all 24 integer types, so the type is not an argument here. *)
Definition needs_swap (h : order) (w : wrapper) : bool :=
  match h, w with
  | _, Native => false
  | BigFirst, BigEndian => false
  | BigFirst, LittleEndian => true
  | LittleFirst, BigEndian => true
  | LittleFirst, LittleEndian => false
  end.

(** lib/osi/src/ffi/endian.rs 98-102, [from_raw].  [size] is the size of the
    target type: that of [Raw] for the wrappers, possibly more for
    [Integer]. *)
Definition from_raw (size : nat) (r : mem) : mem := transmute_copy_uninit size r.

(** lib/osi/src/ffi/endian.rs 108-112, [to_raw]. *)
Definition to_raw (raw_size : nat) (e : mem) : mem := transmute_copy_uninit raw_size e.

(** lib/osi/src/ffi/endian.rs 118-126, [from_native]. *)
Definition from_native (h : order) (w : wrapper) (size : nat) (r : mem) : option mem :=
  if needs_swap h w
  then match bswap_copy h r with
       | Some b => Some (from_raw size b)
       | None => None
       end
  else Some (from_raw size r).

(** lib/osi/src/ffi/endian.rs 133-141, [to_native]. *)
Definition to_native (h : order) (w : wrapper) (raw_size : nat) (e : mem) : option mem :=
  if needs_swap h w
  then bswap_copy h (to_raw raw_size e)
  else Some (to_raw raw_size e).

(** The same with the native value as a number.
    lib/osi/src/ffi/endian.rs:118-126. *)
Definition make (h : order) (w : wrapper) (t : raw) (size : nat) (z : Z) : option mem :=
  from_native h w size (store h t z).

(** lib/osi/src/ffi/endian.rs:133-141, with the native value as a number. *)
Definition value (h : order) (w : wrapper) (t : raw) (e : mem) : option Z :=
  match to_native h w (width (int t)) e with
  | Some r => load h t r
  | None => None
  end.

(** lib/osi/src/ffi/endian.rs 283-292 and 417-426, [PartialEq]. *)
Definition end_eq (h : order) (w : wrapper) (t : raw) (a b : mem) : option bool :=
  match value h w t a, value h w t b with
  | Some x, Some y => Some (x =? y)%Z
  | _, _ => None
  end.

(** lib/osi/src/ffi/endian.rs 272-281, 294-303 and 406-437, [Ord] and
    [PartialOrd]. *)
Definition end_cmp (h : order) (w : wrapper) (t : raw) (a b : mem) : option comparison :=
  match value h w t a, value h w t b with
  | Some x, Some y => Some (x ?= y)%Z
  | _, _ => None
  end.

(** lib/osi/src/ffi/endian.rs 258-270 and 392-404, [Hash], for a hasher whose
    effect of hashing a native value is [hash]. *)
Definition end_hash {S : Type} (hash : Z -> S -> S)
    (h : order) (w : wrapper) (t : raw) (a : mem) (s : S) : option S :=
  match value h w t a with
  | Some x => Some (hash x s)
  | None => None
  end.

(** lib/osi/src/ffi/endian.rs 228-236 and 362-370, [Default]: the default of
    the integer types is 0; the [NonZero] types have none. *)
Definition end_default (h : order) (w : wrapper) (t : raw) : option mem :=
  make h w t (width (int t)) 0.

(* ------------------------------------------------------------------ *)
(** ** Packed and Integer *)

(** lib/osi/src/ffi/packed.rs 13-15: [#[repr(C, packed)] struct Packed(Value)]. *)
Definition packed_ty (v : ty) : ty := Struct true 1 [v].

(** lib/osi/src/align.rs 43-95: [#[repr(C, align(N))] struct AlignN {}]. *)
Definition marker_ty (a : nat) : ty := Struct false a [].

(** lib/osi/src/ffi/integer.rs 29-33: [#[repr(C)] struct Integer { value:
    Packed<Value>, alignment: [Alignment::Align; 0] }]. *)
Definition integer_ty (v : ty) (a : nat) : ty :=
  Struct false 1 [packed_ty v; Array 0 (marker_ty a)].

(** lib/osi/src/ffi/endian.rs 77, 88: [#[repr(transparent)]]. *)
Definition wrapper_ty (n align : nat) : ty := Transparent (Prim n align).

(** lib/osi/src/ffi/packed.rs 20-22, [new]. *)
Definition packed_new (v : ty) (m : mem) : mem := build (packed_ty v) [m].

(** lib/osi/src/ffi/packed.rs 84-86, [get], and 42-52, [into_inner], which
    reads the value and forgets the object; also what is dropped with the
    object. *)
Definition packed_get (v : ty) (m : mem) : mem := field (packed_ty v) 0 m.

(** lib/osi/src/ffi/packed.rs 58-60, [set]: assign the field.  Together with
    the value that is dropped by the assignment. *)
Definition packed_set (v : ty) (m x : mem) : mem * mem :=
  (splice m (nth 0 (offsets_of (packed_ty v)) 0) x, packed_get v m).

(** lib/osi/src/ffi/packed.rs 27-29 and 35-37, [as_ptr] and [as_mut_ptr]: the
    offset of the value in the object. *)
Definition packed_ptr (v : ty) : nat := nth 0 (offsets_of (packed_ty v)) 0.

(** lib/osi/src/ffi/packed.rs 64-76, [replace]: read the value through the
    pointer, then write the new one without dropping the old one.  Together
    with the value that is returned. *)
Definition packed_replace (v : ty) (m x : mem) : mem * mem :=
  let r := slice m (packed_ptr v) (packed_ptr v + size_of v) in
  (splice m (packed_ptr v) x, r).

(** lib/osi/src/ffi/integer.rs 41-46, [new]. *)
Definition integer_new (v : ty) (a : nat) (m : mem) : mem :=
  build (integer_ty v a) [packed_new v m; []].

(** lib/osi/src/ffi/integer.rs 103-105, [get], and 66-78, [into_inner]. *)
Definition integer_get (v : ty) (a : nat) (m : mem) : mem :=
  packed_get v (field (integer_ty v a) 0 m).

(** lib/osi/src/ffi/integer.rs 86-88, [set], which is that of the packed
    field, and leaves the rest of the object alone.  The object; what is
    dropped is [integer_dropped]. *)
Definition integer_set (v : ty) (a : nat) (m x : mem) : mem :=
  splice m (nth 0 (offsets_of (integer_ty v a)) 0)
    (fst (packed_set v (field (integer_ty v a) 0 m) x)).

(** lib/osi/src/ffi/integer.rs 86-88, [set]: the value that is dropped. *)
Definition integer_dropped (v : ty) (a : nat) (m x : mem) : mem :=
  snd (packed_set v (field (integer_ty v a) 0 m) x).

(** lib/osi/src/ffi/integer.rs 92-94, [replace]. *)
Definition integer_replace (v : ty) (a : nat) (m x : mem) : mem * mem :=
  let (p, r) := packed_replace v (field (integer_ty v a) 0 m) x in
  (splice m (nth 0 (offsets_of (integer_ty v a)) 0) p, r).

(** The object afterwards, what the call returned, and what it dropped; for
    lib/osi/src/ffi/packed.rs 58-94 and lib/osi/src/ffi/integer.rs 86-113. *)
Definition used := (mem * option mem * option mem)%type.

(** lib/osi/src/ffi/packed.rs 58-60, 64-76 and 92-94. *)
Definition packed_use (v : ty) (m : mem) (u : use mem) : used :=
  match u with
  | USet x => let (m', old) := packed_set v m x in (m', None, Some old)
  | UReplace x | UTake x => let (m', old) := packed_replace v m x in (m', Some old, None)
  end.

(** lib/osi/src/ffi/integer.rs 86-88, 92-94 and 111-113. *)
Definition integer_use (v : ty) (a : nat) (m : mem) (u : use mem) : used :=
  match u with
  | USet x => (integer_set v a m x, None, Some (integer_dropped v a m x))
  | UReplace x | UTake x => let (m', old) := integer_replace v a m x in (m', Some old, None)
  end.

(** A sequence of calls of lib/osi/src/ffi/packed.rs 58-94 or of
    lib/osi/src/ffi/integer.rs 86-113: the final object, and what each call
    returned and dropped. *)
Fixpoint uses (step : mem -> use mem -> used) (m : mem) (us : list (use mem)) :
    mem * list (option mem * option mem) :=
  match us with
  | [] => (m, [])
  | u :: us =>
      let '(m', returned, dropped) := step m u in
      let (m'', log) := uses step m' us in
      (m'', (returned, dropped) :: log)
  end.

(* ------------------------------------------------------------------ *)
(** ** Pointers *)

(** lib/osi/src/ffi/pointer.rs 144-161 and 164-184,
    [implement_native_address!]: [v as _] between unsigned types truncates to
    the target size.  [usize_] is the size of [usize]; the address is kept as
    its number. *)
Definition from_usize_unchecked (usize_ : nat) (t : raw) (v : Z) : res Z :=
  if usize_ <=? width (int t)
  then Ok (v mod 2 ^ (8 * Z.of_nat (width (int t))))%Z
  else Panic.

(** lib/osi/src/ffi/pointer.rs 154-158 and 176-180, [to_usize] of the same
    macros. *)
Definition to_usize (usize_ : nat) (t : raw) (v : Z) : res Z :=
  if width (int t) <=? usize_
  then Ok (v mod 2 ^ (8 * Z.of_nat usize_))%Z
  else Panic.

(** lib/osi/src/ffi/pointer.rs 32-43, [from_usize]. *)
Definition from_usize (usize_ : nat) (t : raw) (v : Z) : res (option Z) :=
  if (v =? 0)%Z then Ok None
  else match from_usize_unchecked usize_ t v with
       | Ok a => Ok (Some a)
       | Panic => Panic
       | NoFuel => NoFuel
       end.

(** lib/osi/src/ffi/pointer.rs 65-75, [dangling]: the alignment of the target
    as an address. *)
Definition dangling (usize_ : nat) (t : raw) (align : nat) : res Z :=
  from_usize_unchecked usize_ t (Z.of_nat align).
