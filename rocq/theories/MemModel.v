(** Model of lib/osi/src/mem.rs on memory with addresses.

    A [None] result stands for undefined behaviour: access outside of what is
    allocated, an aligned access to an address that is not, or a reference to
    bytes that were never written. *)
From Verif Require Import Base FfiSpec MemSpec.
From Verif Require FfiModel.

(* ------------------------------------------------------------------ *)
(** ** Memory access: [core::ptr], Rust semantics *)

(** Undefined behaviour ends the execution; used for every access of
    lib/osi/src/mem.rs:50-296. *)
Definition bind {A B} (x : option A) (f : A -> option B) : option B :=
  match x with Some a => f a | None => None end.
Notation "'let?' x := e 'in' f" := (bind e (fun x => f)) (at level 200, x pattern, f at level 200).
(** An obligation of the standard library's callers, for
    lib/osi/src/mem.rs:104-107. *)
Definition require (b : bool) {A} (x : option A) : option A := if b then x else None.

(** The contents of [n] addresses from [a] on. Rust semantics of the reads at
    lib/osi/src/mem.rs:57, 106, 108 and 125. *)
Fixpoint bytes_at (w : memory) (a n : nat) : option (list cell) :=
  match n with
  | 0 => Some []
  | S n => let? c := w a in let? cs := bytes_at w (S a) n in Some (c :: cs)
  end.
(** Rust semantics of storing one byte, for lib/osi/src/mem.rs:57 and 125. *)
Definition set (w : memory) (a : nat) (c : cell) : memory :=
  fun x => if x =? a then Some c else w x.
(** Overwrites, and nothing else; all addresses must be allocated. Rust
    semantics of the stores at lib/osi/src/mem.rs:57 and 125. *)
Fixpoint overwrite (w : memory) (a : nat) (cs : list cell) : option memory :=
  match cs with
  | [] => Some w
  | c :: cs => let? _ := w a in overwrite (set w a c) (S a) cs
  end.
(** [core::ptr::copy] of [n] values of type [u8]: like [memmove]. Called at
    lib/osi/src/mem.rs:57 and 125. *)
Definition ptr_copy (w : memory) (src dst n : nat) : option memory :=
  let? cs := bytes_at w src n in overwrite w dst cs.
(** [core::ptr::read] and [core::ptr::read_unaligned] of a type [t]. Called at
    lib/osi/src/mem.rs:106 and 108. *)
Definition ptr_read (w : memory) (t : layout) (a : nat) : option (list cell) :=
  require (a mod align t =? 0) (bytes_at w a (size t)).
(** [core::ptr::read_unaligned], called at lib/osi/src/mem.rs:106. *)
Definition ptr_read_unaligned (w : memory) (t : layout) (a : nat) : option (list cell) :=
  bytes_at w a (size t).
(** A local variable of [n] bytes at address [a], not initialised. As at
    lib/osi/src/mem.rs:89 and 118. *)
Fixpoint place (w : memory) (a n : nat) : memory :=
  match n with 0 => w | S n => place (set w a Uninit) (S a) n end.

(** [core::mem::transmute_copy] of the standard library. Called at
    lib/osi/src/mem.rs:153-157. *)
Definition transmute_copy (w : memory) (src dst : layout) (a : nat) : option (list cell) :=
  require (size dst <=? size src)
    (if align src <? align dst then ptr_read_unaligned w dst a else ptr_read w dst a).

(* ------------------------------------------------------------------ *)
(** ** osi::mem *)

(** lib/osi/src/mem.rs 50-63, [copy_unaligned]. *)
Definition copy_unaligned (w : memory) (t : layout) (src dst count : nat) : option memory :=
  ptr_copy w src dst (count * size t).

(** lib/osi/src/mem.rs 81-110, [transmute_copy_uninit]: the value, and memory
    afterwards.  The compiler has local variables of a type [t] at [local t]. *)
Definition transmute_copy_uninit (local : layout -> nat) (w : memory) (src dst : layout) (a : nat)
  : option (list cell * memory) :=
  if size src <? size dst then
    let d := local dst in
    let w := place w d (size dst) in
    let? w := copy_unaligned w src a d 1 in
    let? v := ptr_read w dst d in Some (v, w)
  else
    let? v := if align src <? align dst then ptr_read_unaligned w dst a else ptr_read w dst a in
    Some (v, w).

(** lib/osi/src/mem.rs 117-135, [bswap_slow]. *)
Fixpoint bswap_loop (k i : nat) (w : memory) (t : layout) (src dst : nat) : option memory :=
  match k with
  | 0 => Some w
  | S k =>
      let? w := ptr_copy w (src + (size t - i - 1)) (dst + i) 1 in
      bswap_loop k (S i) w t src dst
  end.
(** lib/osi/src/mem.rs:117-135, the whole function. *)
Definition bswap_slow (local : layout -> nat) (w : memory) (t : layout) (a : nat) : option (list cell * memory) :=
  let d := local t in
  let w := place w d (size t) in
  let? w := bswap_loop (size t) 0 w t a d in
  let? v := ptr_read w t d in Some (v, w).

(** A value of an unsigned integer type has all its bytes. Rust semantics, for
    lib/osi/src/mem.rs:154-157 and the slices of 245-278. *)
Fixpoint initialized (cs : list cell) : option (list N) :=
  match cs with
  | [] => Some []
  | Byte b :: cs => let? l := initialized cs in Some (b :: l)
  | Uninit :: _ => None
  end.
(** [transmute_copy(&uN::swap_bytes(transmute_copy(v)))]; [u] is the layout of
    [uN]. The swapped integer is a temporary. lib/osi/src/mem.rs:154-157, one
    arm of the [match]. *)
Definition bswap_uint (h : order) (local : layout -> nat) (u : layout) (w : memory) (t : layout) (a : nat)
  : option (list cell * memory) :=
  let? cs := transmute_copy w t u a in
  let? l := initialized cs in
  let d := local u in
  let n := size u in
  let? w := overwrite (place w d n) d
              (map Byte (FfiModel.host_bytes h n (FfiModel.swap_bytes n (FfiModel.of_host h l)))) in
  let? v := transmute_copy w u t d in Some (v, w).

(** lib/osi/src/mem.rs 148-160, [bswap_copy]; [al] are the alignments of the
    unsigned integers of the host. *)
Definition bswap_copy (h : order) (al : nat -> nat) (local : layout -> nat) (w : memory) (t : layout) (a : nat)
  : option (list cell * memory) :=
  let uint n := {| size := n; align := al n |} in
  match size t with
  | 1 => let? v := transmute_copy w t t a in Some (v, w)
  | 2 => bswap_uint h local (uint 2) w t a
  | 4 => bswap_uint h local (uint 4) w t a
  | 8 => bswap_uint h local (uint 8) w t a
  | 16 => bswap_uint h local (uint 16) w t a
  | _ => bswap_slow local w t a
  end.

(** A slice of bytes: address and length. [core::slice::from_raw_parts] makes
    one only of bytes that have been written. The results at
    lib/osi/src/mem.rs:245 and 270. *)
Definition slice_of := (nat * nat)%type.
(** Called at lib/osi/src/mem.rs:245-278. *)
Definition from_raw_parts (w : memory) (a n : nat) : option slice_of :=
  let? cs := bytes_at w a n in let? _ := initialized cs in Some (a, n).
(** [s[i]], and [s[i] = b]; out of bounds panics, which is [None] here too.
    What a caller does with the slice of lib/osi/src/mem.rs:245. *)
Definition index (w : memory) (s : slice_of) (i : nat) : option N :=
  require (i <? snd s) (match w (fst s + i) with Some (Byte b) => Some b | _ => None end).
(** What a caller does with the slice of lib/osi/src/mem.rs:270. *)
Definition assign (w : memory) (s : slice_of) (i : nat) (b : N) : option memory :=
  require (i <? snd s) (overwrite w (fst s + i) [Byte b]).

(** lib/osi/src/mem.rs 245-253, [as_bytes], and 270-278, [as_bytes_mut]. *)
Definition as_bytes (w : memory) (t : layout) (a : nat) : option slice_of := from_raw_parts w a (size t).
(** lib/osi/src/mem.rs:270-278. *)
Definition as_bytes_mut (w : memory) (t : layout) (a : nat) : option slice_of := from_raw_parts w a (size t).

(** lib/osi/src/mem.rs 293-296, [eq]: comparison of slices compares lengths and
    then all bytes. *)
Definition contents (w : memory) (s : slice_of) : option (list N) :=
  let? cs := bytes_at w (fst s) (snd s) in initialized cs.
(** lib/osi/src/mem.rs:293-296, the whole function. *)
Definition mem_eq (w : memory) (ta tb : layout) (a b : nat) : option bool :=
  let? x := as_bytes w ta a in let? y := as_bytes w tb b in
  let? l := contents w x in let? r := contents w y in
  Some (if list_eq_dec N.eq_dec l r then true else false).
