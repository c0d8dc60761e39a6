(** Model of the member references of [osi::meta] (lib/osi/src/meta.rs).

    The pointer arithmetic is that of PtrModel.v.  A reference is an address
    with the shape of what it refers to; making one from a pointer that a
    reference must not have is [None]. *)
From Verif Require Import Base FieldSpec LayModel PtrModel.
Local Open Scope N_scope.

(** Rust semantics: [&*p] and [&mut *p] at lib/osi/src/meta.rs:106 and 127, for
    a pointer derived from a borrow of [size] bytes at [base].  The pointer must
    not be null, be aligned, and all bytes must lie within the borrow. *)
Definition deref (base size : N) (s : shape) (p : N) : option N :=
  if (p =? 0) || negb (p mod align s =? 0) || (p <? base) || (base + size <? p + bytes s)
  then None else Some p.

(** lib/osi/src/meta.rs 97-107, [field_of]: the address of the reference. *)
Definition field_of (w offset : N) (f c : shape) (v : N) : option N :=
  deref v (bytes c) f (field_of_ptr w offset v).

(** lib/osi/src/meta.rs 118-128, [field_of_mut]: the address of the
    reference. *)
Definition field_of_mut (w offset : N) (f c : shape) (v : N) : option N :=
  deref v (bytes c) f (field_of_ptr w offset v).

(** Rust semantics: the value behind a reference, as read at
    lib/osi/src/meta.rs:177. *)
Definition load (m : memory) (s : shape) (r : N) : list (option N) :=
  map (fun i => m (r + N.of_nat i)) (seq 0 (N.to_nat (bytes s))).

(** Rust semantics: an assignment through the result of
    lib/osi/src/meta.rs:118, [*field_of_mut(c) = v]. *)
Fixpoint assign (m : memory) (r : N) (v : list (option N)) : memory :=
  match v with
  | [] => m
  | b :: v => assign (fun x => if x =? r then b else m x) (r + 1) v
  end.

(** Rust semantics: size and alignment of a [repr(C)] type, as the test of
    lib/osi/src/meta.rs:157-162 has them. *)
Definition shape_of (t : ty) : shape :=
  mkShape (N.of_nat (size_of t)) (N.of_nat (align_of t)).

(** Rust semantics: a [repr(C)] structure with its members, the offsets being
    what [typed_offset_of!] gives (lib/osi/src/mem.rs:11-21). *)
Definition structure_of (t : ty) : structure :=
  mkStructure (shape_of t)
    (combine (map N.of_nat (offsets_of t)) (map shape_of (fields_of t))).
