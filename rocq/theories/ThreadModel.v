(** Model of the thread-safety markers of lib/osi/src/ptr.rs, with what safe
    code, and unsafe code that meets the documented requirements, can do with
    the pointers of lib/osi/src/ptr.rs and lib/osi/src/convert.rs.

    Lifetimes are modelled as the borrow checker enforces them: a variable is
    not moved, converted or dropped as long as something borrows from it. *)
From Verif Require Import Base ThreadSpec.

(** Rust semantics: [Send] for the pointers of the standard library;
    lib/osi/src/ptr.rs 524-526 for [OnceRef] and 330-332 for [Ptr]. *)
Definition send (t : ty) (p : payload) : bool :=
  match t with
  | Plain Ref => shareable p
  | Plain Mut => sendable p
  | Plain Box => sendable p
  | Plain Rc => false
  | Plain Arc => sendable p && shareable p
  | Once _ => sendable p && shareable p
  | Raw _ => sendable p && shareable p
  end.

(** Rust semantics: [Sync] for the pointers of the standard library;
    lib/osi/src/ptr.rs 528-531 for [OnceRef] and 334-336 for [Ptr]. *)
Definition sync (t : ty) (p : payload) : bool :=
  match t with
  | Plain Ref => shareable p
  | Plain Mut => shareable p
  | Plain Box => shareable p
  | Plain Rc => false
  | Plain Arc => sendable p && shareable p
  | Once _ => shareable p
  | Raw _ => shareable p
  end.

(** lib/osi/src/ptr.rs 337-345, [Clone] and [Copy] of [Ptr]; 69-70, [OnceRef]
    has neither.  The rest is the standard library. *)
Definition copyable (t : ty) : bool :=
  match t with
  | Plain Ref | Plain Rc | Plain Arc | Raw _ => true
  | _ => false
  end.

(** What a program does.  [Move] and [Lend] say of what type the pointer is.
    The calls of lib/osi/src/ptr.rs 246-345 and 470-538 and of
    lib/osi/src/convert.rs 135-206, beside the language's own operations. *)
Inductive op :=
| New (th : nat) (k : kind) (p : payload)   (* create an object and a pointer to it *)
| Move (t : ty) (i : nat) (th : nat)        (* hand a pointer to another thread *)
| Lend (t : ty) (i : nat) (th : nat)        (* hand a reference to a pointer to a thread *)
| Copy (i : nat)                            (* copy or clone a pointer *)
| Deref (i : nat)                           (* make a reference to the object *)
| Into (i : nat)                            (* [into_deref] *)
| From (i : nat) (k : kind)                 (* [from_deref] *)
| Unwrap (i : nat)                          (* [OnceRef::into_ref] *)
| Point (i : nat)                           (* [Ptr::from_ref], [Ptr::new] *)
| Take (i : nat)                            (* [Ptr::into_mut] *)
| Drop (i : nat).

(** Two pointers are of the same type; for lib/osi/src/convert.rs 112, where a
    value goes back to what it was made from. *)
Definition same_kind (a b : kind) : bool :=
  match a, b with
  | Ref, Ref | Mut, Mut | Box, Box | Rc, Rc | Arc, Arc => true
  | _, _ => false
  end.

(** As above, for all types of lib/osi/src/ptr.rs:330-531. *)
Definition same_type (a b : ty) : bool :=
  match a, b with
  | Plain k, Plain l | Once k, Once l | Raw k, Raw l => same_kind k l
  | _, _ => false
  end.

(** Rust semantics: a value borrows from the variable.  For the lifetimes of
    lib/osi/src/ptr.rs 246-345 and 470-538. *)
Definition borrows (i : nat) (v : option pointer) : bool :=
  match v with
  | Some x => match parent x with Some j => j =? i | None => false end
  | None => false
  end.

(** Rust semantics: nothing borrows from the variable.  For functions that
    consume a value, such as lib/osi/src/ptr.rs 470-474. *)
Definition unborrowed (w : world) (i : nat) : bool := negb (existsb (borrows i) (vars w)).

(** Assignment to a variable; for functions that consume a value and return
    another, such as lib/osi/src/convert.rs 135-206. *)
Definition set (w : world) (i : nat) (v : option pointer) : world :=
  {| vars := upd (vars w) i v; things := things w |}.

(** A new variable; for functions that return a value without consuming one,
    such as lib/osi/src/ptr.rs 337-345. *)
Definition add (w : world) (x : pointer) : world :=
  {| vars := vars w ++ [Some x]; things := things w |}.

(** Rust semantics: what a pointer can be sent by: itself, or, if there is only
    a reference to it, that reference, which needs the pointer to be [Sync].
    Where lib/osi/src/ptr.rs 330-336 and 524-531 take effect. *)
Definition movable (w : world) (x : pointer) : bool :=
  match nth_error (things w) (object x) with
  | Some t => if lent x then sync (type x) (what t) else send (type x) (what t)
  | None => false
  end.

(** Rust semantics: a reference to it can be sent.  Where
    lib/osi/src/ptr.rs 334-336 and 528-531 take effect. *)
Definition lendable (w : world) (x : pointer) : bool :=
  match nth_error (things w) (object x) with
  | Some t => sync (type x) (what t)
  | None => false
  end.

(** The same pointer as another type, as by lib/osi/src/convert.rs 135-206. *)
Definition with_type (x : pointer) (t : ty) : pointer :=
  {| object := object x; type := t; lent := lent x; thread := thread x; parent := parent x |}.

(** The same pointer on another thread, as lib/osi/src/ptr.rs 330-332 and
    524-526 allow. *)
Definition on_thread (x : pointer) (th : nat) : pointer :=
  {| object := object x; type := type x; lent := lent x; thread := th; parent := parent x |}.

(** A reference to the object of [x], which is variable [i].  What is reached
    through a reference lives as long as that reference; from anything else
    it borrows.  lib/osi/src/ptr.rs 504-506 and 535-538. *)
Definition reference (x : pointer) (i : nat) : pointer :=
  {| object := object x; type := Plain Ref; lent := false; thread := thread x;
     parent := if lent x then parent x
               else match type x with Plain Ref => parent x | _ => Some i end |}.

(** A copy of the pointer [x], or of the one that [x] is a reference to.  It
    borrows what the original borrows.  lib/osi/src/ptr.rs 337-345. *)
Definition copy_of (w : world) (x : pointer) : pointer :=
  {| object := object x; type := type x; lent := false; thread := thread x;
     parent := if lent x
               then match parent x with
                    | Some j => match var w j with Some y => parent y | None => None end
                    | None => None
                    end
               else parent x |}.

(** Nothing else leads to the object of variable [i]: the requirement of
    lib/osi/src/ptr.rs 291-299. *)
Definition alone (w : world) (i o : nat) : bool :=
  forallb (fun j => (j =? i) || match var w j with Some y => negb (object y =? o) | None => true end)
    (seq 0 (length (vars w))).

(** One step; [None] if the compiler rejects it or the documentation of an
    unsafe function forbids it.
    [Move] and [Lend] are what [std::thread::spawn] and [scope] do.
    [Into], [From]: lib/osi/src/convert.rs 135-206; [From] is allowed on
    everything made by [Into], as documented at lib/osi/src/convert.rs 112.
    [Unwrap], [Deref]: lib/osi/src/ptr.rs 470-474 and 504-506, 535-538.
    [Point]: lib/osi/src/ptr.rs 265-269 and 387-389 for references, which
    are copied; 246-252 with a mutable reference.
    [Take]: lib/osi/src/ptr.rs 291-299; its requirement, that mutable
    references are not aliased, is that there is nothing else. *)
Definition step (w : world) (p : op) : option world :=
  match p with
  | New th k p =>
      Some {| vars := vars w ++ [Some {| object := length (things w); type := Plain k; lent := false;
                                         thread := th; parent := None |}];
              things := things w ++ [{| what := p; home := th |}] |}
  | Move t i th =>
      match var w i with
      | Some x =>
          if same_type (type x) t && movable w x && unborrowed w i
          then Some (set w i (Some (on_thread x th))) else None
      | None => None
      end
  | Lend t i th =>
      match var w i with
      | Some x =>
          if same_type (type x) t && lendable w x
          then Some (add w {| object := object x; type := type x; lent := true; thread := th;
                              parent := if lent x then parent x else Some i |})
          else None
      | None => None
      end
  | Copy i =>
      match var w i with
      | Some x => if copyable (type x) then Some (add w (copy_of w x)) else None
      | None => None
      end
  | Deref i =>
      match var w i with
      | Some x => match type x with Raw _ => None | _ => Some (add w (reference x i)) end
      | None => None
      end
  | Into i =>
      match var w i with
      | Some x =>
          match type x with
          | Plain k => if negb (lent x) && unborrowed w i then Some (set w i (Some (with_type x (Once k)))) else None
          | _ => None
          end
      | None => None
      end
  | From i k =>
      match var w i with
      | Some x =>
          if same_type (type x) (Once k) && negb (lent x) && unborrowed w i
          then Some (set w i (Some (with_type x (Plain k)))) else None
      | None => None
      end
  | Unwrap i =>
      match var w i with
      | Some x =>
          match type x with
          | Once _ => if negb (lent x) && unborrowed w i then Some (set w i (Some (with_type x (Plain Ref)))) else None
          | _ => None
          end
      | None => None
      end
  | Point i =>
      match var w i with
      | Some x =>
          match type x with
          | Plain Ref => if lent x then None else Some (add w (with_type x (Raw Ref)))
          | Plain Mut => if negb (lent x) && unborrowed w i then Some (set w i (Some (with_type x (Raw Mut)))) else None
          | _ => None
          end
      | None => None
      end
  | Take i =>
      match var w i with
      | Some x =>
          match type x with
          | Raw Mut => if negb (lent x) && alone w i (object x) then Some (set w i (Some (with_type x (Plain Mut)))) else None
          | _ => None
          end
      | None => None
      end
  | Drop i =>
      match var w i with
      | Some _ => if unborrowed w i then Some (set w i None) else None
      | None => None
      end
  end.

(** A program over the calls of lib/osi/src/ptr.rs and
    lib/osi/src/convert.rs:132-199; the steps of all threads in one order. *)
Fixpoint run (w : world) (l : list op) : option world :=
  match l with
  | [] => Some w
  | p :: l => match step w p with Some w' => run w' l | None => None end
  end.
