(** Model of the values of the variance markers (lib/osi/src/marker.rs) and of
    brands (lib/osi/src/brand.rs), alone and as fields of other structures. *)
From Coq Require Import String.
From Verif Require Import Base.

(** Objects of structures with derived traits: other data, the marker
    [PhantomInvariant] (lib/osi/src/marker.rs:34-36), and structures around
    them. *)
Inductive obj (X : Type) :=
| Data (x : X)
| Invariant
| Fields (fs : list (obj X)).
Arguments Data {X}. Arguments Invariant {X}. Arguments Fields {X}.

Section Obj.
Context {X H : Type} (xeq : X -> X -> bool) (xcmp : X -> X -> comparison)
  (xpartial : X -> X -> option comparison) (xhash : X -> H -> H).

(** marker.rs:58-61 new. *)
Definition invariant_new : obj X := Invariant.
(** marker.rs:84-88 default. *)
Definition invariant_default : obj X := invariant_new.
(** marker.rs:64-68 clone. *)
Definition invariant_clone (v : obj X) : obj X := v.
(** marker.rs:104-108 eq. *)
Definition invariant_eq : bool := true.
(** marker.rs:98-102 cmp. *)
Definition invariant_cmp : comparison := Eq.
(** marker.rs:110-114 partial_cmp. *)
Definition invariant_partial_cmp : option comparison := Some invariant_cmp.
(** marker.rs:93-96 hash. *)
Definition invariant_hash (s : H) : H := s.

(** Rust semantics: a derived [PartialEq], as at marker.rs:51 and brand.rs:22
    and 36. *)
Fixpoint obj_eq (a b : obj X) {struct a} : bool :=
  match a, b with
  | Data x, Data y => xeq x y
  | Invariant, Invariant => invariant_eq
  | Fields fs, Fields gs =>
    (fix go (fs gs : list (obj X)) {struct fs} : bool :=
      match fs, gs with
      | [], [] => true
      | f :: fs, g :: gs => obj_eq f g && go fs gs
      | _, _ => false
      end) fs gs
  | _, _ => false
  end.
(** Rust semantics: a derived [Ord], as at marker.rs:51 and brand.rs:22 and 36. *)
Fixpoint obj_cmp (a b : obj X) {struct a} : comparison :=
  match a, b with
  | Data x, Data y => xcmp x y
  | Invariant, Invariant => invariant_cmp
  | Fields fs, Fields gs =>
    (fix go (fs gs : list (obj X)) {struct fs} : comparison :=
      match fs, gs with
      | f :: fs, g :: gs => match obj_cmp f g with Eq => go fs gs | c => c end
      | _, _ => Eq
      end) fs gs
  | _, _ => Eq
  end.
(** Rust semantics: a derived [PartialOrd], as at marker.rs:51 and brand.rs:22
    and 36. *)
Fixpoint obj_partial_cmp (a b : obj X) {struct a} : option comparison :=
  match a, b with
  | Data x, Data y => xpartial x y
  | Invariant, Invariant => invariant_partial_cmp
  | Fields fs, Fields gs =>
    (fix go (fs gs : list (obj X)) {struct fs} : option comparison :=
      match fs, gs with
      | f :: fs, g :: gs => match obj_partial_cmp f g with Some Eq => go fs gs | c => c end
      | _, _ => Some Eq
      end) fs gs
  | _, _ => None
  end.
(** Rust semantics: a derived [Hash], as at marker.rs:51 and brand.rs:22. *)
Fixpoint obj_hash (a : obj X) (s : H) {struct a} : H :=
  match a with
  | Data x => xhash x s
  | Invariant => invariant_hash s
  | Fields fs =>
    (fix go (fs : list (obj X)) (s : H) {struct fs} : H :=
      match fs with [] => s | f :: fs => go fs (obj_hash f s) end) fs s
  end.

(** marker.rs:116-121 new, and the derived default at 51. *)
Definition lifetime_new : obj X := Fields [invariant_new].
(** brand.rs:46-52 unique: the brand that is passed to the closure, and the [Id]
    in it, which is what brand.rs:60-64 from gives. *)
Definition brand_id : obj X := Fields [Fields [invariant_default]].
(** The same, with the structure around it (brand.rs:37-39). *)
Definition brand_unique : obj X := Fields [brand_id].
End Obj.

(** marker.rs:73-82 fmt of [PhantomInvariant], for the name of its type. *)
Definition invariant_debug (type_name : string) : string := "PhantomInvariant<" ++ type_name ++ ">".
(** marker.rs:123-127 fmt of [PhantomInvariantLifetime]. *)
Definition lifetime_debug : string := "PhantomInvariantLifetime".
(** brand.rs:54-58 fmt of [Id], without formatting flags: a tuple of no
    fields. *)
Definition id_debug : string := "Id<#[unique] '_>".
(** brand.rs:66-70 fmt of [Unique], without formatting flags. *)
Definition unique_debug : string := "Unique { id: " ++ id_debug ++ " }".
