(** Vocabulary for raw memory. *)
From Verif Require Import Base.

(** Memory: an address is not allocated, or has a byte, or one that was never
    written. *)
Inductive cell := Uninit | Byte (b : N).
Definition memory := nat -> option cell.

(** The object at address [a] has the contents [cs]. *)
Definition holds (w : memory) (a : nat) (cs : list cell) : Prop :=
  forall i, i < length cs -> w (a + i) = nth_error cs i.

(** Layout of a type; alignments are powers of two. *)
Record layout := { size : nat; align : nat }.
Definition proper (t : layout) : Prop := exists k, align t = 2 ^ k.
(** What a reference to an object of type [t] guarantees. *)
Definition reference (w : memory) (t : layout) (a : nat) (cs : list cell) : Prop :=
  length cs = size t /\ holds w a cs /\ Nat.divide (align t) a.

(** A free address for a variable of type [t]. *)
Definition free (w : memory) (t : layout) (a : nat) : Prop :=
  Nat.divide (align t) a /\ forall i, i < size t -> w (a + i) = None.

(** Everything that was allocated has its contents still. *)
Definition preserved (w w' : memory) : Prop := forall a c, w a = Some c -> w' a = Some c.
(** Only the addresses from [a] on, [n] of them, may differ. *)
Definition elsewhere (w w' : memory) (a n : nat) : Prop :=
  forall x, ~ (a <= x < a + n) -> w' x = w x.
