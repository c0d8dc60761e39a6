(** Model of lib/osi/src/brand.rs, lib/osi/src/marker.rs and the types of
    lib/osi/src/test.rs: their types, their layout, and who can have a brand. *)
From Coq Require Import String.
From Verif Require Import Base BrandSpec.
From Verif Require LayModel.
Local Open Scope string_scope.

(* ------------------------------------------------------------------ *)
(** ** Types *)

(** lib/osi/src/marker.rs:33-36. *)
Definition PhantomInvariant (t : ty) : ty := Adt "PhantomInvariant" (PhantomData (Fn t t)).
(** lib/osi/src/marker.rs:51-55. *)
Definition PhantomInvariantLifetime (a : life) : ty :=
  Adt "PhantomInvariantLifetime" (PhantomInvariant (Ref a Unit)).

(** lib/osi/src/brand.rs:22-26. *)
Definition Id (a : life) : ty := Adt "Id" (PhantomInvariantLifetime a).
(** lib/osi/src/brand.rs:36-39. *)
Definition Unique (a : life) : ty := Adt "Unique" (Id a).

(** lib/osi/src/test.rs:9. *)
Definition SuperType : ty := Fn (Ref Static Int) (Ref Static Int).
(** lib/osi/src/test.rs:19. *)
Definition SubType : ty := ForAll (fun a => Fn (Ref a Int) (Ref a Int)).

(** lib/osi/src/test.rs:37-40. *)
Definition CovariantType (t : ty) : ty := Adt "CovariantType" (Array 0 (ConstPtr t)).
(** lib/osi/src/test.rs:58-61. *)
Definition ContravariantType (t : ty) : ty := Adt "ContravariantType" (Array 0 (Fn t Unit)).
(** lib/osi/src/test.rs:79-82. *)
Definition InvariantType (t : ty) : ty := Adt "InvariantType" (Array 0 (MutPtr t)).

(** Structures named [Id] are those of lib/osi/src/brand.rs 22-26. *)
Fixpoint well_formed (t : ty) : Prop :=
  match t with
  | Int | Unit => True
  | Ref _ t | RefMut _ t | ConstPtr t | MutPtr t | PhantomData t | Array _ t => well_formed t
  | Pair t u => well_formed t /\ well_formed u
  | Fn a r => well_formed a /\ well_formed r
  | ForAll f => forall l, well_formed (f l)
  | Adt name t => well_formed t /\ (name = "Id" -> exists a, t = PhantomInvariantLifetime a)
  end.

(** A value of this type can give its holder the brand [n]: there is an [Id]
    in it, or behind its pointers, or returned by it. Not in the code: what a
    type mentions of lib/osi/src/brand.rs:22-26. *)
Fixpoint gives (n : nat) (t : ty) : Prop :=
  match t with
  | Int | Unit => False
  | Ref _ t | RefMut _ t | ConstPtr t | MutPtr t | PhantomData t | Array _ t => gives n t
  | Pair t u => gives n t \/ gives n u
  | Fn _ r => gives n r
  | ForAll f => forall l, gives n (f l)
  | Adt name t => Adt name t = Id (Bound n) \/ gives n t
  end.

(* ------------------------------------------------------------------ *)
(** ** Layout *)

(** How a structure is declared: transparent, packed as in C, or without any
    representation (then its single field is taken to be laid out as in C).
    The attributes at lib/osi/src/marker.rs:33 and 52, lib/osi/src/brand.rs:23
    and lib/osi/src/test.rs:37, 58 and 79; lib/osi/src/brand.rs:36 has none. *)
Inductive repr := Transparent | Packed | Plain.
(** lib/osi/src/marker.rs:33-55, lib/osi/src/brand.rs:22-39 and
    lib/osi/src/test.rs:37-82. Other structures are not of interest. *)
Definition repr_of (name : string) : repr :=
  if existsb (String.eqb name) ["PhantomInvariant"; "PhantomInvariantLifetime"; "Id"] then Transparent
  else if existsb (String.eqb name) ["CovariantType"; "ContravariantType"; "InvariantType"] then Packed
  else Plain.

Section Layout.
(** Size and alignment of pointers to data (which depend on the type pointed
    to), of pointers to functions and of integers. *)
Context (data : ty -> nat * nat) (code int : nat * nat).
Let prim (p : nat * nat) := LayModel.Prim (fst p) (snd p).

(** Rust semantics: the layout of a type, for the fields of
    lib/osi/src/marker.rs:33-55, lib/osi/src/brand.rs:22-39 and
    lib/osi/src/test.rs:37-82. Higher-ranked types are those of functions. *)
Fixpoint lay (t : ty) : LayModel.ty :=
  match t with
  | Int => prim int
  | Unit => LayModel.Struct false 1 []
  | Ref _ t | RefMut _ t | ConstPtr t | MutPtr t => prim (data t)
  | Fn _ _ | ForAll _ => prim code
  | PhantomData _ => LayModel.Prim 0 1
  | Array n t => LayModel.Array n (lay t)
  | Pair t u => LayModel.Struct false 1 [lay t; lay u]
  | Adt name t =>
      match repr_of name with
      | Transparent => LayModel.Transparent (lay t)
      | Packed => LayModel.Struct true 1 [lay t]
      | Plain => LayModel.Struct false 1 [lay t]
      end
  end.
End Layout.

(* ------------------------------------------------------------------ *)
(** ** Values *)

(** Values with a brand. Brands do not exist at runtime; each call of
    [unique()] has one of its own. The two types of
    lib/osi/src/brand.rs:22-39. *)
Inductive value := VUnique (brand : nat) | VId (brand : nat).

(** Variables of a program ([None]: moved out or dropped) and the brands used
    so far. Not in the code: a program that uses
    lib/osi/src/brand.rs:46-64. *)
Record state := { vars : list (option value); brands : nat }.
(** Not in the code: a program that uses lib/osi/src/brand.rs:46-64,
    before its first step. *)
Definition start : state := {| vars := []; brands := 0 |}.

(** What safe code outside of the module can do: the fields are private, [Id]
    is [Copy] and [Unique] is not. The functions of lib/osi/src/brand.rs:46-64
    and Rust's moves and drops. *)
Inductive op :=
| CallUnique               (* lib/osi/src/brand.rs 46-52: enter the closure *)
| Into (i : nat)           (* lib/osi/src/brand.rs 60-64: [Id::from(v)] moves [v] *)
| Move (i : nat)           (* [let y = x;] *)
| Drop (i : nat).

(** Binding a new variable: Rust semantics of the results of
    lib/osi/src/brand.rs:46-64. *)
Definition put (s : state) (v : value) : state := {| vars := vars s ++ [Some v]; brands := brands s |}.
(** Moving a variable out: Rust semantics of the argument of
    lib/osi/src/brand.rs:60-64. *)
Definition take (s : state) (i : nat) : state :=
  {| vars := firstn i (vars s) ++ None :: skipn (S i) (vars s); brands := brands s |}.

(** The compiler rejects programs that use a variable that was moved.
    lib/osi/src/brand.rs:46-64: one step of a program. *)
Definition step (s : state) (o : op) : option state :=
  match o with
  | CallUnique => Some (put {| vars := vars s; brands := S (brands s) |} (VUnique (brands s)))
  | Into i =>
      match nth_error (vars s) i with
      | Some (Some (VUnique b)) => Some (put (take s i) (VId b))
      | _ => None
      end
  | Move i =>
      match nth_error (vars s) i with
      | Some (Some (VUnique b)) => Some (put (take s i) (VUnique b))
      | Some (Some (VId b)) => Some (put s (VId b))
      | _ => None
      end
  | Drop i =>
      match nth_error (vars s) i with
      | Some (Some _) => Some (take s i)
      | _ => None
      end
  end.
(** A program: a sequence of calls of lib/osi/src/brand.rs:46-64, moves and
    drops. *)
Fixpoint run (s : state) (l : list op) : option state :=
  match l with
  | [] => Some s
  | o :: l => match step s o with Some s => run s l | None => None end
  end.
