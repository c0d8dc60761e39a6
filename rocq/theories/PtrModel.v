(** Model of [osi::ptr::NonNull4] and of the pointer arithmetic of [osi::meta].

    A pointer is its address; [w] is the number of bits of [usize]. *)
From Verif Require Import Base PtrSpec.
Local Open Scope N_scope.

(** Bitwise negation of a [usize]. Rust semantics, as at
    lib/osi/src/ptr.rs:125 and 224. *)
Definition not_ (w v : N) : N := N.lxor v (N.ones w).

(** [1usize << bit] and [(flag as usize) << bit]: shifting by the number of
    bits or more is an overflow, which panics with debug assertions. As at
    lib/osi/src/ptr.rs:180 and 224. *)
Definition shl (w v i : N) : res N :=
  if i <? w then Ok (N.shiftl v i mod 2 ^ w) else Panic.

(** lib/osi/src/ptr.rs 124. *)
Definition MASK_META : N := 0x3.
(** lib/osi/src/ptr.rs 125. *)
Definition MASK_ADDR (w : N) : N := not_ w MASK_META.

(** lib/osi/src/ptr.rs 145-153, [new]; [new_unchecked] (133-137) keeps the
    address as it is. *)
Definition new (v : N) : option N :=
  if N.land v MASK_META =? 0 then Some v else None.

(** lib/osi/src/ptr.rs 159-165, [ptr]. *)
Definition ptr (w s : N) : N := N.land s (MASK_ADDR w).

(** lib/osi/src/ptr.rs 171-173, [meta]. *)
Definition meta (s : N) : N := N.land s MASK_META.

Local Open Scope res_scope.

(** lib/osi/src/ptr.rs 179-181, [meta_bit]. *)
Definition meta_bit (w s i : N) : res bool :=
  do one <- shl w 1 i;
  do one' <- shl w 1 i;
  Ok (N.land (meta s) one =? one').

(** lib/osi/src/ptr.rs 184-186, [get0]. *)
Definition get0 (w s : N) : res bool := meta_bit w s 0.
(** lib/osi/src/ptr.rs 189-191, [get1]. *)
Definition get1 (w s : N) : res bool := meta_bit w s 1.

(** lib/osi/src/ptr.rs 198-206, [set_ptr_unchecked]. *)
Definition set_ptr_unchecked (w s p : N) : N :=
  N.lor (N.land p (MASK_ADDR w)) (meta s).

(** lib/osi/src/ptr.rs 211-219, [set_meta]. *)
Definition set_meta (w s m : N) : N :=
  N.lor (N.land s (MASK_ADDR w)) (N.land m MASK_META).

(** lib/osi/src/ptr.rs 222-226, [set_meta_bit]. *)
Definition set_meta_bit (w s i : N) (flag : bool) : res N :=
  do one <- shl w 1 i;
  do f <- shl w (if flag then 1 else 0) i;
  Ok (set_meta w s (N.lor (N.land (meta s) (not_ w one)) f)).

(** lib/osi/src/ptr.rs 229-231, [set0]. *)
Definition set0 (w s : N) (flag : bool) : res N := set_meta_bit w s 0 flag.
(** lib/osi/src/ptr.rs 234-236, [set1]. *)
Definition set1 (w s : N) (flag : bool) : res N := set_meta_bit w s 1 flag.

(** A caller's sequence of updates. One of lib/osi/src/ptr.rs:198-236. *)
Definition step (w s : N) (o : op) : res N :=
  match o with
  | SetPtr a => Ok (set_ptr_unchecked w s a)
  | SetMeta m => Ok (set_meta w s m)
  | SetBit i f => set_meta_bit w s i f
  | Set0 f => set0 w s f
  | Set1 f => set1 w s f
  end.

(** A caller's calls of lib/osi/src/ptr.rs:198-236, one after the other. *)
Fixpoint run (w s : N) (os : list op) : res N :=
  match os with
  | [] => Ok s
  | o :: os => do s' <- step w s o; run w s' os
  end.

(** lib/osi/src/ptr.rs 30, the derived [Ord]: that of the pointer. *)
Definition cmp (a b : N) : comparison := N.compare a b.

(* ------------------------------------------------------------------ *)
(** ** osi::meta

    Pointers wrap around at [2^w]; [OFFSET as isize] is the same pattern. *)

(** [-x] for an [isize] given as its pattern: overflows for the smallest one.
    Rust semantics, as at lib/osi/src/meta.rs:149. *)
Definition neg (w x : N) : res N :=
  if x =? 2 ^ (w - 1) then Panic else Ok ((2 ^ w - x) mod 2 ^ w)%N.

(** lib/osi/src/meta.rs 82-87, [field_of_ptr]. *)
Definition field_of_ptr (w offset v : N) : N := (v + offset) mod 2 ^ w.

(** lib/osi/src/meta.rs 144-150, [container_of_ptr]. *)
Definition container_of_ptr (w offset v : N) : res N :=
  do o <- neg w offset;
  Ok ((v + o) mod 2 ^ w)%N.
