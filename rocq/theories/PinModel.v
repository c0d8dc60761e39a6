(** Model of the functions of [osi::pin] and [osi::ptr] that turn pinned pointers
    into raw pointers or other pinned pointers.  A pin is transparent: a pinned
    pointer is the [pointer] within it. *)
From Verif Require Import Base.
From Verif Require Import OwnSpec OwnModel.

(** lib/osi/src/pin.rs 51-59, [map_unchecked]. *)
Definition map_unchecked {T U} (p : T) (f : T -> U) : U := f p.

(** lib/osi/src/pin.rs 24-30, [as_ptr].  The pin is taken by value and the pointer
    within it is a temporary: it is dropped when the function returns, after the
    address of its target was taken. Results in the memory afterwards, what the
    drop did, and the address. *)
Definition pin_as_ptr (h : heap) (p : pointer) : option (heap * event addr * addr) :=
  let a := deref p in
  match drop_pointer h p with
  | Some (h, e) => Some (h, e, a)
  | None => None
  end.

(** lib/osi/src/pin.rs 33-39, [as_mut_ptr]: likewise, through [DerefMut]. There is
    no [DerefMut] of a shared pointer: the caller does not compile, [None]. *)
Definition pin_as_mut_ptr (h : heap) (p : pointer) : option (heap * event addr * addr) :=
  match p with
  | PMut _ | PBox _ =>
      let a := deref p in
      match drop_pointer h p with
      | Some (h, e) => Some (h, e, a)
      | None => None
      end
  | PRef _ | PRc _ | PArc _ => None
  end.

(** [NonNull::new_unchecked] of the standard library, called at
    lib/osi/src/ptr.rs:107 and 120: undefined behaviour ([None]) for null. *)
Definition nonnull_new_unchecked (a : addr) : option addr := if (a =? 0)%N then None else Some a.

(** lib/osi/src/ptr.rs 102-108, [nonnull_from_pin_ref]. *)
Definition nonnull_from_pin_ref (h : heap) (p : pointer) : option (heap * event addr * addr) :=
  match pin_as_ptr h p with
  | Some (h, e, a) => match nonnull_new_unchecked a with Some a => Some (h, e, a) | None => None end
  | None => None
  end.
(** lib/osi/src/ptr.rs 115-121, [nonnull_from_pin_mut]. *)
Definition nonnull_from_pin_mut (h : heap) (p : pointer) : option (heap * event addr * addr) :=
  match pin_as_mut_ptr h p with
  | Some (h, e, a) => match nonnull_new_unchecked a with Some a => Some (h, e, a) | None => None end
  | None => None
  end.

(** lib/osi/src/ptr.rs 446-450, [pin_from_ref]; the conversion at 553-557 is this. *)
Definition pin_from_ref (p : addr) : once := map_unchecked p from_ref.
(** lib/osi/src/ptr.rs 453-457, [pin_from_mut]; the conversion at 559-563 is this. *)
Definition pin_from_mut (p : addr) : once := map_unchecked p from_mut.

(** lib/osi/src/ptr.rs 465-467, [into_ptr]; the conversions at 565-581 are this and
    [into_nonnull].  The wrapper is consumed; it has no destructor. *)
Definition once_into_ptr (h : heap) (o : once) : option (heap * event addr * addr) := Some (h, Silent, into_nonnull o).
