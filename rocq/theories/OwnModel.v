(** Model of [osi::convert] ([IntoDeref], [FromDeref]), of the pointers of
    [osi::ptr] and [osi::pin] it is built on, and of the comparisons of
    [osi::cmp], [osi::ptr] and [osi::mown]. *)
From Verif Require Import Base.
From Verif Require Import OwnSpec.

(* ------------------------------------------------------------------ *)
(** ** Heap and smart pointers

    Rust semantics, not code in /repo.  Addresses are numbers.  A reference
    counted object lies behind a header of [header] bytes in its allocation;
    [into_raw] gives the address of the object, [from_raw] finds the header.
    Accesses to memory that is not allocated are undefined behaviour, here
    [None].  There are no weak pointers, counts do not overflow. *)

(** Rust semantics: an address, as in [NonNull] at lib/osi/src/ptr.rs:74. *)
Definition addr := N.
(** Rust semantics: one allocation, made by a caller of
    lib/osi/src/convert.rs:160-198. *)
Record cell := { base : addr; counted : bool; strong : nat; val : Z; live : bool }.
(** Rust semantics: all allocations of the callers of
    lib/osi/src/convert.rs:132-199. *)
Definition heap := list cell.

(** Rust semantics: what lies in front of the object of an [Rc] or [Arc], see
    lib/osi/src/convert.rs:177 and 190. *)
Definition header : N := 16.

(** What is assumed of the allocator: it never hands out memory that is in
    use, so a new allocation is more than a header away from every other. Rust
    semantics, for the callers of lib/osi/src/convert.rs:132-199. *)
Definition far (a b : addr) : Prop := (a + header < b \/ b + header < a)%N.
(** Rust semantics: the allocator behind lib/osi/src/convert.rs:132-199. *)
Definition fits (place : heap -> addr) : Prop :=
  forall h c, In c h -> live c = true -> far (place h) (base c).

(** Rust values. The five types of lib/osi/src/convert.rs:136-198. *)
Inductive pointer :=
| PRef (p : addr)
| PMut (p : addr)
| PBox (p : addr)
| PRc (p : addr)      (* address of the header *)
| PArc (p : addr).

(** The standard library's, called at lib/osi/src/convert.rs:163. *)
Definition box_into_raw (p : addr) : addr := p.
(** The standard library's, called at lib/osi/src/convert.rs:170. *)
Definition box_from_raw (p : addr) : addr := p.
(** The standard library's, called at lib/osi/src/convert.rs:177 and 190. *)
Definition rc_into_raw (p : addr) : addr := (p + header)%N.
(** The standard library's, called at lib/osi/src/convert.rs:184 and 196. *)
Definition rc_from_raw (p : addr) : addr := (p - header)%N.

(** [&raw const *p]: the address of the target. As at lib/osi/src/cmp.rs:25.
    *)
Definition deref (p : pointer) : addr :=
  match p with PRef p | PMut p | PBox p => p | PRc p | PArc p => (p + header)%N end.

(** Rust semantics: where the object of an allocation is; see
    lib/osi/src/convert.rs:177 and 190. *)
Definition data (c : cell) : addr := if counted c then (base c + header)%N else base c.

(** The allocation whose object is at an address. Rust semantics: reading
    through a pointer of lib/osi/src/convert.rs:132-199. *)
Fixpoint at_data (h : heap) (p : addr) : option cell :=
  match h with
  | [] => None
  | c :: h => if live c && (data c =? p)%N then Some c else at_data h p
  end.

(** Change the allocation that starts at an address. Rust semantics: the
    allocator and the counts behind lib/osi/src/convert.rs:160-198. *)
Fixpoint at_base (h : heap) (p : addr) (f : cell -> option (cell * event addr)) : option (heap * event addr) :=
  match h with
  | [] => None
  | c :: h =>
      if live c && (base c =? p)%N
      then match f c with Some (c, e) => Some (c :: h, e) | None => None end
      else match at_base h p f with Some (h, e) => Some (c :: h, e) | None => None end
  end.

(** Rust semantics: freeing an allocation, for the pointers of
    lib/osi/src/convert.rs:160-198. *)
Definition dead (c : cell) : cell :=
  {| base := base c; counted := counted c; strong := 0; val := val c; live := false |}.
(** Rust semantics: the count of an [Rc] or [Arc],
    lib/osi/src/convert.rs:174-198. *)
Definition count (c : cell) (n : nat) : cell :=
  {| base := base c; counted := counted c; strong := n; val := val c; live := live c |}.

(** [drop] of a pointer. Rust semantics, for the pointers of
    lib/osi/src/convert.rs:136-198. *)
Definition drop_pointer (h : heap) (p : pointer) : option (heap * event addr) :=
  match p with
  | PRef _ | PMut _ => Some (h, Silent)
  | PBox p => at_base h p (fun c => if counted c then None else Some (dead c, Destroyed (val c)))
  | PRc p | PArc p =>
      at_base h p (fun c =>
        if negb (counted c) then None
        else match strong c with
             | 0 => None
             | 1 => Some (dead c, Destroyed (val c))
             | S n => Some (count c n, Silent)
             end)
  end.

(** [clone] of a pointer that has it. Rust semantics, for the pointers of
    lib/osi/src/convert.rs:136-198. *)
Definition clone_pointer (h : heap) (p : pointer) : option (heap * pointer) :=
  match p with
  | PRef a => Some (h, PRef a)
  | PMut _ | PBox _ => None
  | PRc a | PArc a =>
      match at_base h a (fun c => if counted c then Some (count c (S (strong c)), Silent) else None) with
      | Some (h, _) => Some (h, p)
      | None => None
      end
  end.

(* ------------------------------------------------------------------ *)
(** ** OnceRef *)

(** lib/osi/src/ptr.rs 73-77: a pointer that is not null. *)
Definition once := addr.

(** lib/osi/src/ptr.rs 85-88, [nonnull_from_ref]. *)
Definition nonnull_from_ref (p : addr) : addr := p.
(** lib/osi/src/ptr.rs 96-99, [nonnull_from_mut]. *)
Definition nonnull_from_mut (p : addr) : addr := p.

(** lib/osi/src/ptr.rs 417-423, [from_nonnull]. *)
Definition from_nonnull (p : addr) : once := p.
(** lib/osi/src/ptr.rs 431-433, [from_ptr]. *)
Definition from_ptr (p : addr) : once := from_nonnull p.
(** lib/osi/src/ptr.rs 436-438, [from_ref]. *)
Definition from_ref (p : addr) : once := from_nonnull (nonnull_from_ref p).
(** lib/osi/src/ptr.rs 441-443, [from_mut]. *)
Definition from_mut (p : addr) : once := from_nonnull (nonnull_from_mut p).

(** lib/osi/src/ptr.rs 460-462, [into_nonnull]. *)
Definition into_nonnull (o : once) : addr := o.
(** lib/osi/src/ptr.rs 470-474, [into_ref]. *)
Definition into_ref (o : once) : pointer := PRef (into_nonnull o).
(** lib/osi/src/ptr.rs 499-501, [as_ptr]. *)
Definition as_ptr (o : once) : addr := o.
(** lib/osi/src/ptr.rs 504-506, [as_ref]. *)
Definition as_ref (o : once) : addr := o.

(* ------------------------------------------------------------------ *)
(** ** Conversions *)

(** lib/osi/src/convert.rs 137-197, [into_deref].  The pinned form
    ([pin_into_deref], 61-70, with pin.rs 51-59) is the same function applied to
    the pointer within the pin, which is transparent. *)
Definition into_deref (p : pointer) : once :=
  match p with
  | PRef a => from_ref a
  | PMut a => from_mut a
  | PBox a => from_ptr (box_into_raw a)
  | PRc a => from_ptr (rc_into_raw a)
  | PArc a => from_ptr (rc_into_raw a)
  end.

(** lib/osi/src/convert.rs 142-197, [from_deref] of the type named by [k];
    [pin_from_deref] (124-129) likewise. *)
Definition from_deref (k : kind) (o : once) : pointer :=
  match k with
  | Ref => PRef (into_nonnull o)
  | Mut => PMut (into_nonnull o)
  | Box => PBox (box_from_raw (into_nonnull o))
  | Rc => PRc (rc_from_raw (into_nonnull o))
  | Arc => PArc (rc_from_raw (into_nonnull o))
  end.

(* ------------------------------------------------------------------ *)
(** ** Comparisons by address *)

(** lib/osi/src/cmp.rs 35-39: [Identity] of pointers with targets at these
    addresses. The target has a size, so its address is its identity. *)
Definition identity_eq (p q : addr) : bool := (p =? q)%N.
(** lib/osi/src/cmp.rs 29-33. *)
Definition identity_cmp (p q : addr) : comparison := (p ?= q)%N.
(** lib/osi/src/cmp.rs 20-27. *)
Definition identity_hash (p : addr) : addr := p.
(** lib/osi/src/cmp.rs 41-45. *)
Definition identity_partial_cmp (p q : addr) : option comparison := Some (identity_cmp p q).

(** lib/osi/src/ptr.rs 372-377, [eq] of [Ptr]. *)
Definition ptr_eq (p q : addr) : bool := (p =? q)%N.
(** lib/osi/src/ptr.rs 365-370, [cmp] of [Ptr]; [partial_cmp] (379-384)
    likewise. *)
Definition ptr_cmp (p q : addr) : comparison := (p ?= q)%N.
(** lib/osi/src/ptr.rs 356-363, [hash] of [Ptr]. *)
Definition ptr_hash (p : addr) : addr := p.
(** lib/osi/src/ptr.rs 338-342, [clone] of [Ptr]: a copy. *)
Definition ptr_clone (p : addr) : addr := p.

(** lib/osi/src/ptr.rs 71, derived for [OnceRef]: field by field, that is of the pointer. *)
Definition once_eq (p q : once) : bool := (p =? q)%N.

(* ------------------------------------------------------------------ *)
(** ** Programs

    Rust semantics: variables are moved, [OnceRef] has no [Drop]
    implementation.  [place h] is where the allocator puts a new
    allocation when the heap is [h]. *)

(** What a caller has: a pointer of lib/osi/src/convert.rs:136-198 or an
    [OnceRef] (lib/osi/src/ptr.rs:73-77). *)
Inductive variable := Pointer (p : pointer) | Once (o : once).
(** Rust semantics: a caller of lib/osi/src/convert.rs:132-199. *)
Record machine := { locals : list (option variable); mem : heap }.
(** Rust semantics: a caller of lib/osi/src/convert.rs:132-199 before its
    first step. *)
Definition boot : machine := {| locals := []; mem := [] |}.

(** Rust semantics: a variable that was not moved, in a caller of
    lib/osi/src/convert.rs:132-199. *)
Definition local (m : machine) (i : nat) : option variable :=
  match nth_error (locals m) i with Some (Some v) => Some v | _ => None end.
(** Rust semantics: assigning or moving a variable, in a caller of
    lib/osi/src/convert.rs:132-199. *)
Definition assign (m : machine) (i : nat) (v : option variable) (h : heap) : machine :=
  {| locals := upd (locals m) i v; mem := h |}.

(** Rust semantics: [Box::new], [Rc::new], [Arc::new] of the standard library,
    or a reference; the types of lib/osi/src/convert.rs:136-198. *)
Definition new_pointer (k : kind) (a : addr) : pointer :=
  match k with Ref => PRef a | Mut => PMut a | Box => PBox a | Rc => PRc a | Arc => PArc a end.
(** [Rc] and [Arc], lib/osi/src/convert.rs:174-198. *)
Definition is_counted (k : kind) : bool := match k with Rc | Arc => true | _ => false end.

(** Where a variable points, by [deref] or by [as_ptr]
    (lib/osi/src/ptr.rs:499). *)
Definition target (v : variable) : addr :=
  match v with Pointer p => deref p | Once o => as_ptr o end.

(** What a variable refers to, by [deref] of a pointer or of an [OnceRef]
    (lib/osi/src/ptr.rs:533-535, which is [as_ref]). *)
Definition referent (v : variable) : addr :=
  match v with Pointer p => deref p | Once o => as_ref o end.

(** One step of a caller of lib/osi/src/convert.rs:136-198,
    lib/osi/src/ptr.rs:470 and lib/osi/src/cmp.rs:36. *)
Definition exec (place : heap -> addr) (m : machine) (p : op) : option (machine * event addr) :=
  match p with
  | New k v =>
      let a := place (mem m) in
      Some ({| locals := locals m ++ [Some (Pointer (new_pointer k a))];
               mem := mem m ++ [{| base := a; counted := is_counted k; strong := 1; val := v; live := true |}] |},
            Silent)
  | Clone i =>
      match local m i with
      | Some (Pointer q) =>
          match clone_pointer (mem m) q with
          | Some (h, q) => Some ({| locals := locals m ++ [Some (Pointer q)]; mem := h |}, Silent)
          | None => None
          end
      | _ => None
      end
  | Drop i =>
      match local m i with
      | Some (Pointer q) =>
          match drop_pointer (mem m) q with
          | Some (h, e) => Some (assign m i None h, e)
          | None => None
          end
      | Some (Once _) => Some (assign m i None (mem m), Silent)
      | None => None
      end
  | Into i =>
      match local m i with
      | Some (Pointer q) => Some (assign m i (Some (Once (into_deref q))) (mem m), Silent)
      | _ => None
      end
  | From i k =>
      match local m i with
      | Some (Once o) => Some (assign m i (Some (Pointer (from_deref k o))) (mem m), Silent)
      | _ => None
      end
  | Unwrap i =>
      match local m i with
      | Some (Once o) => Some (assign m i (Some (Pointer (into_ref o))) (mem m), Silent)
      | _ => None
      end
  | Read i =>
      match local m i with
      | Some v => match at_data (mem m) (referent v) with Some c => Some (m, Value (val c)) | None => None end
      | None => None
      end
  | Where i =>
      match local m i with
      | Some v => Some (m, At (target v))
      | None => None
      end
  | Same i j =>
      match local m i, local m j with
      | Some v, Some u => Some (m, Answer (identity_eq (target v) (target u)))
      | _, _ => None
      end
  end.

(** The steps of a caller of lib/osi/src/convert.rs:132-199. *)
Fixpoint execs (place : heap -> addr) (m : machine) (ps : list op) : option (machine * list (event addr)) :=
  match ps with
  | [] => Some (m, [])
  | p :: ps =>
      match exec place m p with
      | Some (m, e) => match execs place m ps with Some (m, es) => Some (m, e :: es) | None => None end
      | None => None
      end
  end.

(* ------------------------------------------------------------------ *)
(** ** Mown *)

(** lib/osi/src/mown.rs 19-22.  [B] is what is borrowed, [O] what is owned;
    a reference to a [B] is seen as the [B]. *)
Inductive mown (B O : Type) := MBorrowed (v : B) | MOwned (v : O).
Arguments MBorrowed {B O} v. Arguments MOwned {B O} v.

Section Mown.
Context {B O : Type} (borrow : O -> B).

(** lib/osi/src/mown.rs 29-31, [new_borrowed]. *)
Definition new_borrowed (v : B) : mown B O := MBorrowed v.
(** lib/osi/src/mown.rs 34-36, [new_owned]. *)
Definition new_owned (v : O) : mown B O := MOwned v.
(** lib/osi/src/mown.rs 39-44, [is_borrowed]. *)
Definition is_borrowed (m : mown B O) : bool := match m with MBorrowed _ => true | MOwned _ => false end.
(** lib/osi/src/mown.rs 47-49, [is_owned]. *)
Definition is_owned (m : mown B O) : bool := negb (is_borrowed m).

(** lib/osi/src/mown.rs 58-63 and 120-122, [deref]. *)
Definition mderef (m : mown B O) : B := match m with MBorrowed v => v | MOwned v => borrow v end.
(** lib/osi/src/mown.rs 72-74, [as_ref] of a [T] within [B]. *)
Definition mas_ref {T} (as_ref : B -> T) (m : mown B O) : T := as_ref (mderef m).

(** lib/osi/src/mown.rs 82-87, [clone]. *)
Definition mclone (clone : O -> O) (m : mown B O) : mown B O :=
  match m with MBorrowed v => MBorrowed v | MOwned v => MOwned (clone v) end.
(** lib/osi/src/mown.rs 108-110, [default]. *)
Definition mdefault (default : O) : mown B O := new_owned default.
(** lib/osi/src/mown.rs 136-138, [from]. *)
Definition mfrom (v : B) : mown B O := new_borrowed v.

(** lib/osi/src/mown.rs 146-151, [hash]. *)
Definition mhash {S} (hash : B -> S -> S) (m : mown B O) (s : S) : S := hash (mderef m) s.
(** lib/osi/src/mown.rs 159-161, [cmp]. *)
Definition mcmp (cmp : B -> B -> comparison) (m n : mown B O) : comparison := cmp (mderef m) (mderef n).
(** lib/osi/src/mown.rs 169-171, [eq]. *)
Definition meq (eq : B -> B -> bool) (m n : mown B O) : bool := eq (mderef m) (mderef n).
(** lib/osi/src/mown.rs 179-181, [partial_cmp]. *)
Definition mpartial_cmp (cmp : B -> B -> option comparison) (m n : mown B O) : option comparison :=
  cmp (mderef m) (mderef n).
End Mown.
