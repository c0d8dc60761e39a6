(** C107: how pointers follow their lifetimes and targets. *)
From Coq Require Import String.
From Verif Require Import Base BrandSpec BrandModel BrandProofs BrandProps VarModel.

Lemma pair_inv t u t' u' : sub (Pair t u) (Pair t' u') -> sub t t' /\ sub u u'.
Proof. intros H. now inversion H. Qed.
Lemma ref_mut_inv a b t u : sub (RefMut a t) (RefMut b u) -> outlives a b /\ sub t u /\ sub u t.
Proof. intros H. now inversion H. Qed.

(** Follows its lifetime like a reference, and its target exactly, as a mutable
    reference does. *)
Definition like_mutable_reference (F : life -> ty -> ty) : Prop :=
  forall a b t u, sub (F a t) (F b u) <-> sub (RefMut a t) (RefMut b u).

(** C107: [OnceRef] and [Ptr] can be used for a shorter lifetime but not for
    another target, just as mutable references. *)
Theorem pointer_variance : like_mutable_reference OnceRef /\ like_mutable_reference Ptr.
Proof.
  split; intros a b t u; split.
  1,3: intros [_ H]%adt_inv; apply pair_inv in H as [_ H]; apply pair_inv in H as [_ H];
    now apply phantom_inv in H.
  all: intros (O & T & U)%ref_mut_inv; now repeat constructor.
Qed.
Print Assumptions pointer_variance.

(** C107: so what is stored through a coerced one is of the type that its owner
    expects, and no lifetime grows. *)
Theorem pointer_store : forall a b t u, sub (OnceRef a t) (OnceRef b u) \/ sub (Ptr a t) (Ptr b u) ->
  outlives a b /\ forall v, sub v u <-> sub v t.
Proof.
  intros a b t u H. assert (R : sub (RefMut a t) (RefMut b u)).
  { destruct pointer_variance as [O P]. destruct H as [H|H]; [now apply O in H|now apply P in H]. }
  apply ref_mut_inv in R as (O & T & U). split; [exact O|].
  intros v. split; intros V; eapply sub_trans; eassumption.
Qed.
Print Assumptions pointer_store.

(** C107: [NonNull4] follows its target like [NonNull]; [ffi::Pointer] also follows
    its address; a [Mown] follows its lifetime, and both of its types. *)
Theorem pointer_covariance :
  covariant NonNull4
  /\ (forall x y t u, sub (Pointer x t) (Pointer y u) <-> sub x y /\ sub t u)
  /\ (forall a b t u o p, sub (Mown a t o) (Mown b u p) <-> outlives a b /\ sub t u /\ sub o p).
Proof.
  split; [|split].
  - intros t u. split; [intros [_ H]%adt_inv; apply adt_inv in H as [_ H]; now apply const_inv in H|].
    intros H. now repeat constructor.
  - intros x y t u. split.
    + intros [_ H]%adt_inv. apply pair_inv in H as [A H]. now apply phantom_inv, const_inv in H.
    + intros [A B]. now repeat constructor.
  - intros a b t u o p. split.
    + intros [_ H]%adt_inv. apply pair_inv in H as [A H]. apply ref_inv in A. tauto.
    + intros (A & B & C). now repeat constructor.
Qed.
Print Assumptions pointer_covariance.

(** An object that lives statically, behind a pointer that lives in the program:
    [OnceRef] gives up its own lifetime but not that of the object; a shared
    reference gives up both. *)
Example pointer_variance_case :
  let static := Ref Static Int in let local := Ref (Scope 1) Int in
  sub static local /\ ~ sub local static /\
  sub (OnceRef (Scope 0) static) (OnceRef (Scope 1) static) /\
  ~ sub (OnceRef (Scope 1) static) (OnceRef (Scope 0) static) /\
  ~ sub (OnceRef (Scope 0) static) (OnceRef (Scope 0) local) /\
  ~ sub (Ptr (Scope 0) local) (Ptr (Scope 0) static) /\
  sub (Ref (Scope 0) static) (Ref (Scope 0) local) /\
  sub (Pointer Int static) (Pointer Int local) /\
  sub (Mown Static static (OnceRef (Scope 0) Int)) (Mown (Scope 0) local (OnceRef (Scope 1) Int)).
Proof.
  cbv zeta.
  assert (A : sub (Ref Static Int) (Ref (Scope 1) Int)) by now repeat constructor.
  assert (B : ~ sub (Ref (Scope 1) Int) (Ref Static Int)).
  { intros H. apply ref_inv in H as [H _]. inversion H. }
  destruct pointer_variance as [O P]. unfold like_mutable_reference in O, P.
  destruct pointer_covariance as (_ & Q & M).
  rewrite !O, !P, Q, M, O. repeat split; auto using sub_refl; try (constructor; auto using sub_refl).
  - constructor. lia.
  - intros (H & _)%ref_mut_inv. inversion H. lia.
  - intros (_ & _ & H)%ref_mut_inv. easy.
  - intros (_ & H & _)%ref_mut_inv. easy.
  - constructor.
  - constructor. lia.
Qed.
