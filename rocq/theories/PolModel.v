(** Model of lib/osi/src/polonius.rs: the macro [coerce_unsafe!], which coerces a
    value in builds with Polonius and transmutes it in others. *)
From Verif Require Import Base CfgSpec CfgModel.
Local Open Scope N_scope.

(** Rust semantics: types, without their lifetimes, as given to the macro at
    lib/osi/src/polonius.rs:15. References and pointers tell whether they are
    mutable. *)
Inductive pty :=
| Number
| Reference (m : bool) (t : pty)
| Pointer (m : bool) (t : pty)
| Boxed (t : pty)
| Array (n : N) (t : pty)
| Slice (t : pty).

(** Rust semantics: the address of an object, and the length with it for a
    slice, in words: the values of lib/osi/src/polonius.rs:18. *)
Definition words_to (t : pty) : nat := match t with Slice _ => 2 | _ => 1 end.
(** Rust semantics: the size in words of a value that refers to others; other
    types are not given to the macro here (lib/osi/src/polonius.rs:15). *)
Definition words_of (t : pty) : option nat :=
  match t with
  | Reference _ t | Pointer _ t | Boxed t => Some (words_to t)
  | _ => None
  end.

(** Rust semantics: one coercion, as the compiler inserts it at
    lib/osi/src/polonius.rs:21. Lifetimes leave no trace. *)
Inductive coercion :=
| Share              (* a mutable reference or pointer becomes a shared one *)
| ToPointer          (* a reference becomes a pointer *)
| Deref (target : pty)  (* a reference to what refers to [target] becomes a reference to [target] *)
| Unsize (n : N).    (* an array of [n] becomes a slice *)

(** Rust semantics: which coercions there are, from which type to which
    (lib/osi/src/polonius.rs:21). *)
Inductive coerces1 : pty -> coercion -> pty -> Prop :=
| co_share t : coerces1 (Reference true t) Share (Reference false t)
| co_share_ptr t : coerces1 (Pointer true t) Share (Pointer false t)
| co_ptr m t : coerces1 (Reference m t) ToPointer (Pointer m t)
| co_deref_box m t : coerces1 (Reference m (Boxed t)) (Deref t) (Reference m t)
| co_deref_ref m t : coerces1 (Reference m (Reference false t)) (Deref t) (Reference false t)
| co_deref_mut m t : coerces1 (Reference m (Reference true t)) (Deref t) (Reference m t)
| co_unsize m n t : coerces1 (Reference m (Array n t)) (Unsize n) (Reference m (Slice t))
| co_unsize_ptr m n t : coerces1 (Pointer m (Array n t)) (Unsize n) (Pointer m (Slice t))
| co_unsize_box n t : coerces1 (Boxed (Array n t)) (Unsize n) (Boxed (Slice t)).
(** Rust semantics: coercions one after the other
    (lib/osi/src/polonius.rs:21). *)
Inductive coerces : pty -> list coercion -> pty -> Prop :=
| cos_nil t : coerces t [] t
| cos_cons t1 t2 t3 c cs : coerces1 t1 c t2 -> coerces t2 cs t3 -> coerces t1 (c :: cs) t3.

(** Rust semantics: what a coercion does to a value (lib/osi/src/polonius.rs:21).
    Dereferencing reads what is stored where the value points to. *)
Definition coerce1 (memory : N -> N) (c : coercion) (v : list N) : list N :=
  match c with
  | Share | ToPointer => v
  | Deref t => map (fun i => memory (hd 0 v + N.of_nat i)) (seq 0 (words_to t))
  | Unsize n => v ++ [n]
  end.
(** Rust semantics: all of them (lib/osi/src/polonius.rs:21). *)
Definition coerce (memory : N -> N) (cs : list coercion) (v : list N) : list N :=
  fold_left (fun v c => coerce1 memory c v) cs v.

(** The two blocks at lib/osi/src/polonius.rs:21-22. *)
Inductive block := From | Transmute.
(** lib/osi/src/polonius.rs:20-23: the block that is compiled. [on] tells which
    options are set, [polonius] is the number of the one. *)
Definition chosen (on : nat -> bool) (polonius : nat) : list block :=
  match cond [(CfgSpec.Option polonius, [From])] (Some [Transmute]) with
  | Some items => compiled on items
  | None => []
  end.

(** lib/osi/src/polonius.rs:12-27, [coerce_unsafe!(from, to, v)], where the
    compiler has found the coercions [cs] from [from] to [to] if it needs them;
    [None] if it does not compile. A transmute compiles for types of the same
    size and keeps the bits. *)
Definition coerce_unsafe (on : nat -> bool) (polonius : nat) (memory : N -> N) (from to : pty) (cs : list coercion) (v : list N)
  : option (list N) :=
  match chosen on polonius with
  | [From] => Some (coerce memory cs v)
  | [Transmute] =>
      match words_of from, words_of to with
      | Some a, Some b => if Nat.eqb a b then Some v else None
      | _, _ => None
      end
  | _ => None
  end.
