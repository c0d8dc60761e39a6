(** C52 and C69: tagged pointers and container arithmetic. *)
From Verif Require Import Base PtrSpec PtrModel PtrProofs.
Local Open Scope N_scope.

(** A pointer is accepted exactly if it is 4-byte aligned. *)
Theorem tagged_new v : new v = (if v mod 4 =? 0 then Some v else None).
Proof. unfold new. change (N.land v MASK_META) with (meta v). now rewrite meta_mod. Qed.
Print Assumptions tagged_new.

(** After any sequence of updates the pointer, the metadata and each of its
    bits are those last set; the updates never panic and the representation is
    never null. *)
Theorem tagged_history w a os : 2 <= w -> pointer w a -> Forall (allowed w) os ->
  let t := fold_left apply os {| address := a; tag0 := false; tag1 := false |} in
  exists s0 s, new a = Some s0 /\ run w s0 os = Ok s /\ s <> 0 /\ s < 2 ^ w
  /\ ptr w s = address t
  /\ meta s = bit (tag0 t) + 2 * bit (tag1 t)
  /\ get0 w s = Ok (tag0 t) /\ get1 w s = Ok (tag1 t)
  /\ forall i, i < w ->
     meta_bit w s i = Ok (if i =? 0 then tag0 t else if i =? 1 then tag1 t else false).
Proof.
  intros W P F t.
  assert (R : repr w {| address := a; tag0 := false; tag1 := false |} a).
  { split; [easy|]. cbn. lia. }
  destruct (run_repr w os W _ _ R F) as (s & E & R'). fold t in R'.
  exists a, s. destruct (repr_parts w t s W R') as (M & A & B & NZ).
  split. { rewrite tagged_new. destruct P as (_ & -> & _). easy. }
  repeat (split; [easy|]). split.
  { unfold ptr. now rewrite mask_addr. }
  split. { now rewrite meta_mod. }
  split. { unfold get0. now rewrite (meta_bit_repr w t s 0) by (easy || lia). }
  split. { unfold get1. now rewrite (meta_bit_repr w t s 1) by (easy || lia). }
  intros i I. now apply meta_bit_repr.
Qed.
Print Assumptions tagged_history.

(** A valid address stays valid: so does every address in the history. *)
Theorem tagged_aligned w a os : pointer w a -> Forall (allowed w) os ->
  pointer w (address (fold_left apply os {| address := a; tag0 := false; tag1 := false |})).
Proof.
  intros P F. set (t := {| address := a; tag0 := false; tag1 := false |}).
  assert (Q : pointer w (address t)) by exact P. clearbody t. clear P. revert t Q.
  induction F as [|o os A F IH]; intros t Q; [easy|]. cbn [fold_left]. apply IH.
  destruct o as [p|m|[|[q|q|]] f|f|f]; cbn in *; easy.
Qed.
Print Assumptions tagged_aligned.

(** Tagged pointers are ordered by address first, then by metadata; they are
    equal exactly if both are. *)
Theorem tagged_order w a b : 2 <= w -> a < 2 ^ w -> b < 2 ^ w ->
  cmp a b = match ptr w a ?= ptr w b with
            | Eq => meta a ?= meta b
            | c => c
            end.
Proof.
  intros W A B. unfold cmp, ptr. rewrite !mask_addr, !meta_mod by easy.
  pose proof (N.div_mod' a 4) as Da. pose proof (N.div_mod' b 4) as Db.
  pose proof (N.mod_upper_bound a 4 ltac:(lia)). pose proof (N.mod_upper_bound b 4 ltac:(lia)).
  set (qa := a / 4) in *. set (qb := b / 4) in *. set (ra := a mod 4) in *. set (rb := b mod 4) in *.
  destruct (N.compare_spec (4 * qa) (4 * qb)) as [E|E|E].
  - destruct (N.compare_spec ra rb).
    + apply N.compare_eq_iff. lia.
    + apply N.compare_lt_iff. lia.
    + apply N.compare_gt_iff. lia.
  - apply N.compare_lt_iff. lia.
  - apply N.compare_gt_iff. lia.
Qed.
Print Assumptions tagged_order.

(** Bits that do not exist in a [usize] are refused. *)
Theorem tagged_bit_range w s i f : w <= i ->
  meta_bit w s i = Panic /\ set_meta_bit w s i f = Panic.
Proof.
  intros I. unfold meta_bit, set_meta_bit, shl.
  replace (i <? w) with false by (symmetry; now apply N.ltb_ge). easy.
Qed.
Print Assumptions tagged_bit_range.

Example tagged_example :
  let os := [SetMeta 7; SetPtr 0x2000; SetBit 0 false; SetBit 5 true] in
  pointer 64 0x1000 /\ Forall (allowed 64) os
  /\ (exists s, run 64 0x1000 os = Ok s /\ ptr 64 s = 0x2000 /\ meta s = 2).
Proof.
  cbn zeta. split; [repeat split; easy|]. split.
  - repeat constructor; cbn; easy.
  - exists 0x2002. easy.
Qed.

(** C69: going from a container to a field and back is the identity for every
    address and every field offset below half the address space, which is as
    large as an object can be. *)
Theorem container_of_field w offset v : 1 <= w -> offset < 2 ^ (w - 1) -> v < 2 ^ w ->
  container_of_ptr w offset (field_of_ptr w offset v) = Ok v
  /\ exists f, container_of_ptr w offset v = Ok f /\ field_of_ptr w offset f = v.
Proof.
  intros W O V.
  assert (P : 2 ^ w = 2 * 2 ^ (w - 1)).
  { rewrite <- N.pow_succ_r'. f_equal. lia. }
  unfold container_of_ptr, neg, field_of_ptr.
  replace (offset =? 2 ^ (w - 1)) with false by (symmetry; apply N.eqb_neq; lia).
  cbn [bind]. set (A := 2 ^ w) in *. assert (0 < A) by lia.
  assert (G : forall x y, (x + y mod A) mod A = (x + y) mod A)
    by (intros; now rewrite N.add_mod_idemp_r by lia).
  assert (G' : forall x y, (x mod A + y) mod A = (x + y) mod A)
    by (intros; now rewrite N.add_mod_idemp_l by lia).
  split.
  - rewrite G, G'. replace (v + offset + (A - offset)) with (v + 1 * A) by lia.
    rewrite N.mod_add, N.mod_small by lia. easy.
  - eexists. split; [reflexivity|]. rewrite G, G'.
    replace (v + (A - offset) + offset) with (v + 1 * A) by lia.
    rewrite N.mod_add, N.mod_small by lia. easy.
Qed.
Print Assumptions container_of_field.
(** The one offset that cannot be subtracted is half the address space. *)
Theorem container_of_panics w offset v : container_of_ptr w offset v = Panic <-> offset = 2 ^ (w - 1).
Proof.
  unfold container_of_ptr, neg. destruct (N.eqb_spec offset (2 ^ (w - 1))) as [E|E]; cbn [bind]; split; intros H; try easy.
Qed.
Print Assumptions container_of_panics.

Example container_example :
  field_of_ptr 64 24 0xfffffffffffffff0 = 8
  /\ container_of_ptr 64 24 8 = Ok 0xfffffffffffffff0.
Proof. easy. Qed.
