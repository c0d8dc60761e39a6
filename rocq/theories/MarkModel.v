(** Model of the values of alignment markers (lib/osi/src/align.rs): how they are
    compared, hashed, copied, made and shown.  Their layout is in EtcModel.v. *)
From Coq Require Import String.
From Verif Require Import Base EtcSpec EtcModel.

(** The types of markers: lib/osi/src/align.rs:43-95 [Align1] to [Align128],
    119-123 [AlignAs] and 126-130 [AlignOf].  [AlignAny] (138) is [Fixed 1],
    [AlignNative] (146) is [AlignOf Size]. *)
Inductive marker := Fixed (n : nat) | AlignAs (n : nat) | AlignOf (t : aligned).

(** lib/osi/src/align.rs:154-187 [Aligned::Align], as a type. *)
Fixpoint assoc (h : host) (t : aligned) : marker :=
  match t with
  | Number c n => AlignAs (number_align h c n)
  | Size => AlignAs (number_align h Integer (address h))
  | Unit => AlignAs 1
  | Str => AlignAs (number_align h Integer 1)
  | ArrayOf _ t => assoc h t
  | SliceOf t => assoc h t
  | Reference | RawPointer => AlignOf Size
  | As n => Fixed n
  end.
(** lib/osi/src/align.rs:43-95, 121 and 128: the only field of a marker. *)
Definition inner (h : host) (m : marker) : option marker :=
  match m with
  | Fixed _ => None
  | AlignAs n => Some (assoc h (As n))
  | AlignOf t => Some (assoc h t)
  end.

(** A value: a structure with no fields (lib/osi/src/align.rs:46) or with one
    (120-122 and 127-129). *)
Inductive value := Empty | Tuple (v : value).
(** Rust semantics: the values of a type, for lib/osi/src/align.rs:43-130. *)
Inductive has_type (h : host) : marker -> value -> Prop :=
| TEmpty m : inner h m = None -> has_type h m Empty
| TTuple m i v : inner h m = Some i -> has_type h i v -> has_type h m (Tuple v).

(** lib/osi/src/align.rs:199-201 and 288-290 [clone] of [AlignAs] and [AlignOf],
    and the derived one at 43. *)
Definition clone (v : value) : value := v.
(** lib/osi/src/align.rs:268-270 and 357-359 [eq]; derived at 44: all fields are
    equal.  Both arguments are of one type. *)
Fixpoint eq (a b : value) : bool :=
  match a, b with
  | Empty, Empty => true
  | Tuple a, Tuple b => eq a b
  | _, _ => false
  end.
(** lib/osi/src/align.rs:258-260 and 347-349 [cmp]; derived at 44: the first field
    that differs. *)
Fixpoint cmp (a b : value) : comparison :=
  match a, b with
  | Empty, Empty => Eq
  | Tuple a, Tuple b => cmp a b
  | Empty, Tuple _ => Lt
  | Tuple _, Empty => Gt
  end.
(** lib/osi/src/align.rs:278-280 and 367-369 [partial_cmp]; derived at 44. *)
Fixpoint partial_cmp (a b : value) : option comparison :=
  match a, b with
  | Empty, Empty => Some Eq
  | Tuple a, Tuple b => partial_cmp a b
  | _, _ => None
  end.
(** lib/osi/src/align.rs:238-243 and 327-332 [hash]; derived at 43.  A hasher is a
    state that takes bytes. *)
Fixpoint hash {S} (write : S -> list N -> S) (v : value) (state : S) : S :=
  match v with
  | Empty => state
  | Tuple v => hash write v state
  end.
(** lib/osi/src/align.rs:43 and 228-230, [default] of [Fixed] and [AlignAs]. *)
Definition default_as : value := Tuple Empty.
(** lib/osi/src/align.rs:317-319 and 228-230, the [default] of [Aligned::Align].
    *)
Fixpoint default_assoc (t : aligned) : value :=
  match t with
  | Number _ _ | Size | Unit | Str => default_as
  | ArrayOf _ t => default_assoc t
  | SliceOf t => default_assoc t
  | Reference | RawPointer => Tuple default_as
  | As _ => Empty
  end.
(** lib/osi/src/align.rs:43, 228-230 and 317-319 [default]. *)
Definition default (m : marker) : value :=
  match m with
  | Fixed _ => Empty
  | AlignAs _ => default_as
  | AlignOf t => Tuple (default_assoc t)
  end.

(** Rust semantics: the name of a type (others do not exist), for the derived [Debug] at
    lib/osi/src/align.rs:43-95. *)
Definition name_fixed (n : nat) : string :=
  match n with
  | 1 => "Align1" | 2 => "Align2" | 4 => "Align4" | 8 => "Align8"
  | 16 => "Align16" | 32 => "Align32" | 64 => "Align64" | 128 => "Align128"
  | _ => ""
  end.
(** Rust semantics: [fmt.debug_tuple(name).field(..).finish()] with one field and
    no flags, as at lib/osi/src/align.rs:217-219 and 306-308. *)
Definition debug_tuple (name field : string) : string := name ++ "(" ++ field ++ ")".
(** lib/osi/src/align.rs:216-220 [fmt] of [AlignAs]. *)
Definition debug_as (n : nat) : string := debug_tuple "AlignAs" (name_fixed n).
(** lib/osi/src/align.rs:305-309 [fmt] of [AlignOf], given the text of its field.
    *)
Definition debug_of (field : string) : string := debug_tuple "AlignAs" field.
(** The text of a value of [Aligned::Align] (lib/osi/src/align.rs:154-187), by
    216-220 and 305-309. *)
Fixpoint debug_assoc (h : host) (t : aligned) : string :=
  match t with
  | Number c n => debug_as (number_align h c n)
  | Size => debug_as (number_align h Integer (address h))
  | Unit => debug_as 1
  | Str => debug_as (number_align h Integer 1)
  | ArrayOf _ t => debug_assoc h t
  | SliceOf t => debug_assoc h t
  | Reference | RawPointer => debug_of (debug_as (number_align h Integer (address h)))
  | As n => name_fixed n
  end.
(** lib/osi/src/align.rs:43, 216-220 and 305-309: [Debug] of a marker. *)
Definition debug (h : host) (m : marker) : string :=
  match m with
  | Fixed n => name_fixed n
  | AlignAs n => debug_as n
  | AlignOf t => debug_of (debug_assoc h t)
  end.

(** Rust semantics: a structure that derives [PartialEq], [Ord] and [Hash], with
    markers among its fields ([inr]) and others ([inl]): the users of
    lib/osi/src/align.rs:119-130, for instance lib/osi/src/ffi/integer.rs:29-33
    (which does not derive them). *)
Definition struct_eq {X} (xeq : X -> X -> bool) : list (X + value) -> list (X + value) -> bool :=
  fix go a b := match a, b with
  | [], [] => true
  | inl x :: a, inl y :: b => xeq x y && go a b
  | inr x :: a, inr y :: b => eq x y && go a b
  | _, _ => false
  end.
(** Rust semantics: derived [Ord], as above, for users of
    lib/osi/src/align.rs:119-130. *)
Definition struct_cmp {X} (xcmp : X -> X -> comparison) : list (X + value) -> list (X + value) -> comparison :=
  fix go a b := match a, b with
  | [], [] => Eq
  | inl x :: a, inl y :: b => match xcmp x y with Eq => go a b | c => c end
  | inr x :: a, inr y :: b => match cmp x y with Eq => go a b | c => c end
  | [], _ => Lt
  | _, _ => Gt
  end.
(** Rust semantics: derived [Hash], as above, for users of
    lib/osi/src/align.rs:119-130. *)
Definition struct_hash {X S} (xhash : X -> S -> S) (write : S -> list N -> S) : list (X + value) -> S -> S :=
  fix go a s := match a with
  | [] => s
  | inl x :: a => go a (xhash x s)
  | inr v :: a => go a (hash write v s)
  end.
