(** Model of [osi::ffi::Packed] (lib/osi/src/ffi/packed.rs) as objects in memory:
    an array of them at any address.  Addresses do not wrap, which Rust
    guarantees for every allocation. *)
From Coq Require Import String.
From Verif Require Import Base LayModel FfiModel PackSpec.

Section Packed.
(** [t] is the layout of the wrapped type, [encode] and [decode] its
    representation; the trait implementations of the wrapped type are [o]. *)
Context {V H : Type} (t : ty) (encode : V -> list N) (decode : list N -> V) (o : ops V H) (h0 : H).

(** Rust semantics: an access of the wrapped type through a pointer of known
    alignment [al]: it is undefined behaviour ([None]) unless the address is a
    multiple; for lib/osi/src/ffi/packed.rs:48, 71 and 85. *)
Definition read_at (al : nat) (m : N -> N) (p : N) : option V :=
  if (p mod N.of_nat al =? 0)%N
  then Some (decode (map (fun k => m (p + N.of_nat k)%N) (seq 0 (size_of t))))
  else None.

(** Rust semantics: storing bytes, for lib/osi/src/ffi/packed.rs:59 and 72. *)
Fixpoint store (m : N -> N) (p : N) (bs : list N) : N -> N :=
  match bs with
  | [] => m
  | b :: bs => store (fun x => if (x =? p)%N then b else m x) (p + 1)%N bs
  end.
(** The same through a pointer of known alignment, for
    lib/osi/src/ffi/packed.rs:59 and 72. *)
Definition write_at (al : nat) (m : N -> N) (p : N) (v : V) : option (N -> N) :=
  if (p mod N.of_nat al =? 0)%N then Some (store m p (encode v)) else None.

(** lib/osi/src/ffi/packed.rs:27-37 as_ptr and as_mut_ptr: [addr_of!(self.0)],
    which makes no reference. *)
Definition as_ptr (p : N) : N := (p + N.of_nat (nth 0%nat (offsets_of (packed_ty t)) 0%nat))%N.
(** The alignment the compiler knows of the place [self.0]: that of the packed
    structure, lib/osi/src/ffi/packed.rs:13-14. *)
Definition place : nat := align_of (packed_ty t).

(** packed.rs:84-86 get: a copy of the place. *)
Definition get (m : N -> N) (p : N) : option V := read_at place m (as_ptr p).
(** packed.rs:42-52 into_inner: read_unaligned. *)
Definition into_inner (m : N -> N) (p : N) : option V := read_at 1 m (as_ptr p).
(** packed.rs:58-60 set. *)
Definition set (m : N -> N) (p : N) (v : V) : option (N -> N) := write_at place m (as_ptr p) v.
(** packed.rs:64-76 replace. *)
Definition replace (m : N -> N) (p : N) (v : V) : option ((N -> N) * V) :=
  match read_at 1 m (as_ptr p) with
  | None => None
  | Some r => match write_at 1 m (as_ptr p) v with Some m' => Some (m', r) | None => None end
  end.
(** packed.rs:92-94 take. *)
Definition take (m : N -> N) (p : N) : option ((N -> N) * V) := replace m p (default o).
(** packed.rs:20-22 new: the object, as the bytes of its only field. *)
Definition new (v : V) : list N := encode v.
(** packed.rs:176-180 from. *)
Definition from (v : V) : list N := new v.
(** packed.rs:98-103 clone: a copy of the whole object. *)
Definition clone (m : N -> N) (p : N) : option (list N) :=
  if (p mod N.of_nat (align_of (packed_ty t)) =? 0)%N
  then Some (map (fun k => m (p + N.of_nat k)%N) (seq 0 (size_of (packed_ty t))))
  else None.
(** Rust semantics: assignment of a whole object of packed.rs:15. *)
Definition assign (m : N -> N) (p : N) (bs : list N) : option (N -> N) :=
  if (p mod N.of_nat (align_of (packed_ty t)) =? 0)%N then Some (store m p bs) else None.

(** packed.rs:155-157 eq. *)
Definition packed_eq (m : N -> N) (p q : N) : option bool :=
  match get m p, get m q with Some a, Some b => Some (eq o a b) | _, _ => None end.
(** packed.rs:145-147 cmp. *)
Definition packed_cmp (m : N -> N) (p q : N) : option comparison :=
  match get m p, get m q with Some a, Some b => Some (cmp o a b) | _, _ => None end.
(** packed.rs:165-167 partial_cmp. *)
Definition packed_partial_cmp (m : N -> N) (p q : N) : option (option comparison) :=
  match get m p, get m q with Some a, Some b => Some (partial_cmp o a b) | _, _ => None end.
(** packed.rs:132-137 hash. *)
Definition packed_hash (m : N -> N) (p : N) : option H :=
  match get m p with Some a => Some (hash o a h0) | None => None end.
(** packed.rs:110-112 fmt, without formatting flags. *)
Definition packed_debug (m : N -> N) (p : N) : option string :=
  match get m p with Some a => Some ("Packed(" ++ debug o a ++ ")")%string | None => None end.
(** packed.rs:120-122 fmt. *)
Definition packed_display (m : N -> N) (p : N) : option string :=
  match get m p with Some a => Some (display o a) | None => None end.

(** Rust semantics: the elements of [[Packed; n]], with packed.rs:13-15. *)
Definition element (base : N) (i : nat) : N := (base + N.of_nat (i * size_of (packed_ty t)))%N.

(** A call on an element of an array of the objects of packed.rs:15: the memory
    afterwards and what it gives back; [None] if it is undefined. *)
Definition step (base : N) (m : N -> N) (c : call V) : option ((N -> N) * result V H) :=
  let same {A} (f : A -> result V H) (r : option A) := option_map (fun x => (m, f x)) r in
  let done (r : option (N -> N)) := option_map (fun m' => (m', RUnit)) r in
  let old (r : option ((N -> N) * V)) := option_map (fun x => (fst x, RValue (snd x))) r in
  let e := element base in
  match c with
  | CGet i => same RValue (get m (e i))
  | CInner i => same RValue (into_inner m (e i))
  | CSet i v => done (set m (e i) v)
  | CReplace i v => old (replace m (e i) v)
  | CTake i => old (take m (e i))
  | CFrom i v => done (assign m (e i) (from v))
  | CClone i j => match clone m (e j) with Some bs => done (assign m (e i) bs) | None => None end
  | CEq i j => same RBool (packed_eq m (e i) (e j))
  | CCmp i j => same ROrder (packed_cmp m (e i) (e j))
  | CPartialCmp i j => same RPartial (packed_partial_cmp m (e i) (e j))
  | CHash i => same RHash (packed_hash m (e i))
  | CDebug i => same RText (packed_debug m (e i))
  | CDisplay i => same RText (packed_display m (e i))
  end.

(** A sequence of calls of packed.rs:20-180. *)
Fixpoint steps (base : N) (m : N -> N) (cs : list (call V)) : option ((N -> N) * list (result V H)) :=
  match cs with
  | [] => Some (m, [])
  | c :: cs =>
    match step base m c with
    | Some (m', r) =>
      match steps base m' cs with Some (m'', rs) => Some (m'', r :: rs) | None => None end
    | None => None
    end
  end.
End Packed.
