(** Subtyping of Rust, as far as brands and variance markers need it.

    The rules are those of the Rust reference, chapter "Subtyping and Variance". *)
From Coq Require Import String.
From Verif Require Import Base.

(** Lifetimes, as the borrow checker sees them in the body of a closure: the
    static one, those that stand for any lifetime (bound by the [for<'a>] of a
    closure, numbered), and those of scopes within the body (by depth). *)
Inductive life := Static | Bound (n : nat) | Scope (depth : nat).

(** What is known about which lifetime outlives which. *)
Inductive outlives : life -> life -> Prop :=
| outlives_same a : outlives a a
| outlives_static a : outlives Static a
| outlives_body n d : outlives (Bound n) (Scope d)
| outlives_inner d e : d <= e -> outlives (Scope d) (Scope e).

(** Types.  [ForAll] is [for<'a> ..]; [Adt] is a structure with a name and a
    single field, whose type has the parameters in it; several fields are a pair. *)
Inductive ty :=
| Int
| Unit
| Ref (a : life) (t : ty)
| RefMut (a : life) (t : ty)
| Fn (arg ret : ty)
| ForAll (f : life -> ty)
| ConstPtr (t : ty)
| MutPtr (t : ty)
| PhantomData (t : ty)
| Array (n : nat) (t : ty)
| Pair (t u : ty)
| Adt (name : string) (field : ty).

(** Subtypes: a value of the first type may be used where one of the second is
    needed. *)
Inductive sub : ty -> ty -> Prop :=
| sub_int : sub Int Int
| sub_unit : sub Unit Unit
| sub_ref a b t u : outlives a b -> sub t u -> sub (Ref a t) (Ref b u)
| sub_ref_mut a b t u : outlives a b -> sub t u -> sub u t -> sub (RefMut a t) (RefMut b u)
| sub_fn a r a' r' : sub a' a -> sub r r' -> sub (Fn a r) (Fn a' r')
| sub_instance f l u : sub (f l) u -> sub (ForAll f) u
| sub_general t f : (forall l, sub t (f l)) -> sub t (ForAll f)
| sub_const_ptr t u : sub t u -> sub (ConstPtr t) (ConstPtr u)
| sub_mut_ptr t u : sub t u -> sub u t -> sub (MutPtr t) (MutPtr u)
| sub_phantom t u : sub t u -> sub (PhantomData t) (PhantomData u)
| sub_array n t u : sub t u -> sub (Array n t) (Array n u)
| sub_pair t u t' u' : sub t t' -> sub u u' -> sub (Pair t u) (Pair t' u')
| sub_adt name t u : sub t u -> sub (Adt name t) (Adt name u).

(** How a type follows its parameter. *)
Definition covariant (F : ty -> ty) : Prop := forall t u, sub (F t) (F u) <-> sub t u.
Definition contravariant (F : ty -> ty) : Prop := forall t u, sub (F t) (F u) <-> sub u t.
Definition invariant (F : ty -> ty) : Prop := forall t u, sub (F t) (F u) <-> sub t u /\ sub u t.
