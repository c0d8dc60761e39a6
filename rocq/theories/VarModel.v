(** Model of the types of pointers (lib/osi/src/ptr.rs, lib/osi/src/ffi/pointer.rs,
    lib/osi/src/mown.rs), as far as subtyping goes: which types their fields have.
    The language of types is that of BrandSpec.v. *)
From Coq Require Import String.
From Verif Require Import Base BrandSpec.
Local Open Scope string_scope.

(** Rust semantics: [core::ptr::NonNull] has a field of type [*const T].  Used at
    lib/osi/src/ptr.rs:33, 45 and 74. *)
Definition NonNull (t : ty) : ty := Adt "NonNull" (ConstPtr t).
(** lib/osi/src/ptr.rs:30-34. *)
Definition NonNull4 (t : ty) : ty := Adt "NonNull4" (NonNull t).
(** lib/osi/src/ptr.rs:43-48. *)
Definition Ptr (a : life) (t : ty) : ty :=
  Adt "Ptr" (Pair (NonNull t) (Pair (PhantomData (Ref a t)) (PhantomData (RefMut a t)))).
(** lib/osi/src/ptr.rs:71-77. *)
Definition OnceRef (a : life) (t : ty) : ty :=
  Adt "OnceRef" (Pair (NonNull t) (Pair (PhantomData (Ref a t)) (PhantomData (RefMut a t)))).
(** lib/osi/src/ffi/pointer.rs:137-141. *)
Definition Pointer (address target : ty) : ty :=
  Adt "Pointer" (Pair address (PhantomData (ConstPtr target))).
(** lib/osi/src/mown.rs:19-22: an enumeration is a subtype if the fields of all its
    variants are. *)
Definition Mown (a : life) (b o : ty) : ty := Adt "Mown" (Pair (Ref a b) o).
