(** Type layout as Rust computes it for [repr(C)] types.

    This models the part of the language the foreign-function types rely on,
    not code in /repo: size, alignment and field offsets of primitives, arrays,
    [repr(C)] structures with optional [packed] and [align(N)] modifiers, and
    [repr(transparent)] wrappers.  The rules are those of the Rust reference,
    chapter "Type layout". *)
From Verif Require Import Base.

(** The structures in /repo use primitives of a host dependent alignment, byte
    arrays, zero sized alignment markers and each other. For example
    lib/osi/src/ffi/integer.rs:29-33, lib/osi/src/ffi/packed.rs:13-14,
    lib/osi/src/ffi/pointer.rs:137-141, lib/osi/src/align.rs:43-130. *)
Inductive ty :=
| Prim (size align : nat)
| Array (n : nat) (t : ty)
| Struct (packed : bool) (min_align : nat) (fields : list ty)
| Transparent (t : ty).

(** Rust semantics: the next multiple of [a], for the layout of
    lib/osi/src/ffi/integer.rs:29-33. *)
Definition round_up (n a : nat) : nat := ((n + a - 1) / a) * a.

(** Alignment of a type. [packed] lowers the alignment of every field to 1;
    [align(N)] raises that of the structure. Rust semantics, for [packed] at
    lib/osi/src/ffi/packed.rs:13 and [align(N)] at lib/osi/src/align.rs:43-95.
    *)
Fixpoint align_of (t : ty) : nat :=
  match t with
  | Prim _ a => a
  | Array _ t => align_of t
  | Struct pk m fs =>
      fold_right Nat.max (Nat.max 1 m)
        (map (fun f => if pk then 1 else align_of f) fs)
  | Transparent t => align_of t
  end.

(** Size of a type. Fields are placed in order, each at the next multiple of
    its alignment; the size is rounded up to the alignment of the whole. Rust
    semantics, for instance of lib/osi/src/ffi/integer.rs:29-33. *)
Fixpoint size_of (t : ty) : nat :=
  match t with
  | Prim s _ => s
  | Array n t => n * size_of t
  | Struct pk m fs =>
      let fix end_of (off : nat) (fs : list ty) : nat :=
        match fs with
        | [] => off
        | f :: fs => end_of (round_up off (if pk then 1 else align_of f) + size_of f) fs
        end in
      round_up (end_of 0 fs) (align_of (Struct pk m fs))
  | Transparent t => size_of t
  end.

(** Where each field of a structure starts. Rust semantics, for instance of
    lib/osi/src/ffi/integer.rs:29-33. *)
Fixpoint offsets (pk : bool) (off : nat) (fs : list ty) : list nat :=
  match fs with
  | [] => []
  | f :: fs =>
      let at_ := round_up off (if pk then 1 else align_of f) in
      at_ :: offsets pk (at_ + size_of f) fs
  end.

(** Rust semantics: the same for a type, for instance
    lib/osi/src/ffi/integer.rs:29-33. *)
Definition offsets_of (t : ty) : list nat :=
  match t with Struct pk _ fs => offsets pk 0 fs | _ => [] end.

(** The types of the fields, for instance lib/osi/src/ffi/integer.rs:31-32. *)
Definition fields_of (t : ty) : list ty :=
  match t with Struct _ _ fs => fs | _ => [] end.

(** The contents of memory: a byte, or [None] where nothing was written. Rust
    semantics; [None] is an uninitialised byte as at lib/osi/src/mem.rs:89. *)
Definition mem := list (option N).

(** Read field [i] of an object of type [t] ([object.field]). Rust semantics,
    as at lib/osi/src/ffi/integer.rs:104 and lib/osi/src/ffi/packed.rs:85. *)
Definition field (t : ty) (i : nat) (m : mem) : mem :=
  slice m (nth i (offsets_of t) 0)
    (nth i (offsets_of t) 0 + size_of (nth i (fields_of t) (Prim 0 1))).

(** Build an object from its fields ([T { field: .., .. }]): each is copied to
    its offset, the gaps stay uninitialised. Rust semantics, as at
    lib/osi/src/ffi/integer.rs:42-45. *)
Fixpoint fill (offs : list nat) (ms : list mem) (m : mem) : mem :=
  match offs, ms with
  | o :: offs, f :: ms => fill offs ms (splice m o f)
  | _, _ => m
  end.

(** Rust semantics: the whole structure expression, as at
    lib/osi/src/ffi/integer.rs:42-45. *)
Definition build (t : ty) (ms : list mem) : mem :=
  fill (offsets_of t) ms (repeat None (size_of t)).
