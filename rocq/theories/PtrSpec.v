(** Specification of tagged pointers ([osi::ptr::NonNull4]): an address and two
    flags that are updated independently. *)
From Verif Require Import Base.

Record tagged := { address : N; tag0 : bool; tag1 : bool }.

(** What a caller can do with a tagged pointer. *)
Inductive op :=
| SetPtr (a : N)
| SetMeta (m : N)
| SetBit (i : N) (flag : bool)
| Set0 (flag : bool)
| Set1 (flag : bool).

(** Bits of the metadata beyond the two tags are ignored. *)
Definition apply (t : tagged) (o : op) : tagged :=
  match o with
  | SetPtr a => {| address := a; tag0 := tag0 t; tag1 := tag1 t |}
  | SetMeta m => {| address := address t; tag0 := N.testbit m 0; tag1 := N.testbit m 1 |}
  | SetBit 0 f | Set0 f => {| address := address t; tag0 := f; tag1 := tag1 t |}
  | SetBit 1 f | Set1 f => {| address := address t; tag0 := tag0 t; tag1 := f |}
  | SetBit _ _ => t
  end.

(** Addresses a pointer can be set to: 4-byte aligned, not null, and within an
    address space of [w] bits. *)
Definition pointer (w a : N) : Prop := (a <> 0 /\ a mod 4 = 0 /\ a < 2 ^ w)%N.

(** What the documentation asks of a caller: pointers are aligned, and bits
    exist in a [usize]. *)
Definition allowed (w : N) (o : op) : Prop :=
  match o with
  | SetPtr a => pointer w a
  | SetMeta m => (m < 2 ^ w)%N
  | SetBit i _ => (i < w)%N
  | _ => True
  end.

Definition bit (b : bool) : N := if b then 1 else 0.
