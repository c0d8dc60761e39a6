(** Specification of thread safety: which threads may have which pointers to an
    object.  Written from the documentation of [Send] and [Sync] in the Rust
    standard library and that of [osi::ptr] and [osi::convert]. *)
From Verif Require Import Base.

(** What is pointed to: may it be handed to another thread ([Send]), and may
    several threads have access to it at the same time ([Sync])?  All four
    combinations exist: an integer, a [Cell], a [MutexGuard], an [Rc]. *)
Record payload := { sendable : bool; shareable : bool }.

(** Pointers of the language and the standard library. *)
Inductive kind := Ref | Mut | Box | Rc | Arc.

(** The types of the pointers a program has: a plain pointer, a [OnceRef] made
    from one, or a [Ptr] made from one.  The types [OnceRef] and [Ptr] do not
    tell what they were made from; that is for the record only. *)
Inductive ty := Plain (k : kind) | Once (k : kind) | Raw (k : kind).

(** A pointer: the object it leads to, its type, whether it is only known
    through a shared reference to it, the thread that has it, and the variable
    it borrows from. *)
Record pointer := { object : nat; type : ty; lent : bool; thread : nat; parent : option nat }.

(** An object: what it is, and the thread that created it. *)
Record thing := { what : payload; home : nat }.

Record world := { vars : list (option pointer); things : list thing }.
Definition start : world := {| vars := []; things := [] |}.

Definition var (w : world) (i : nat) : option pointer :=
  match nth_error (vars w) i with Some (Some x) => Some x | _ => None end.

(** With such a pointer a thread can change the object, replace it by another
    one, or destroy it. *)
Definition exclusive (x : pointer) : bool :=
  negb (lent x) && match type x with Plain Ref | Once Ref | Raw Ref => false | _ => true end.

(** Objects that cannot be shared are never within reach of two threads. *)
Definition shared_safely (w : world) : Prop :=
  forall i j x y t, var w i = Some x -> var w j = Some y -> object x = object y ->
    nth_error (things w) (object x) = Some t -> shareable (what t) = false -> thread x = thread y.

(** Objects that cannot be sent stay where they are: no other thread has a
    pointer with which it could take or destroy them. *)
Definition kept_home (w : world) : Prop :=
  forall i x t, var w i = Some x -> exclusive x = true ->
    nth_error (things w) (object x) = Some t -> sendable (what t) = false -> thread x = home t.

(** The counter of an [Rc] is not protected against concurrent use: all [Rc] to
    the same object are on the same thread. *)
Definition counted_safely (w : world) : Prop :=
  forall i j x y, var w i = Some x -> var w j = Some y -> object x = object y ->
    type x = Plain Rc -> type y = Plain Rc -> lent x = false -> lent y = false -> thread x = thread y.
