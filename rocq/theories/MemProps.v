(** C85, C86: raw memory. *)
From Coq Require Import Arith Lia.
From Verif Require Import Base FfiSpec MemSpec MemModel MemProofs.

(** Memory with one object. *)
Definition overwrite_from (a : nat) (cs : list cell) : memory :=
  fun x => if x <? a then None else nth_error cs (x - a).

Lemma one_object a cs : holds (overwrite_from a cs) a cs.
Proof.
  intros i H. unfold overwrite_from. destruct (a + i <? a) eqn:E.
  - apply Nat.ltb_lt in E. lia.
  - f_equal. lia.
Qed.

(** C85: a copy as another type never reads outside of the object, nor at an
    address that the type does not allow; it has the bytes of the object, cut
    off or followed by bytes without a value, and nothing else changes. *)
Theorem mem_copy_as_other_type : forall local w src dst a cs, proper src -> proper dst ->
  reference w src a cs -> free w dst (local dst) ->
  exists w', transmute_copy_uninit local w src dst a
             = Some (firstn (size dst) cs ++ repeat Uninit (size dst - size src), w')
    /\ preserved w w'.
Proof. exact transmute_copy_uninit_spec. Qed.
Print Assumptions mem_copy_as_other_type.

(** Three bytes at an odd address, copied as an eight byte type that must be
    aligned, and an eight byte type cut down to four. *)
Example mem_copy_as_other_type_case :
  let w := overwrite_from 9 [Byte 1%N; Uninit; Byte 3%N] in
  let src := {| size := 3; align := 1 |} in let dst := {| size := 8; align := 8 |} in
  proper src /\ proper dst /\ reference w src 9 [Byte 1%N; Uninit; Byte 3%N] /\ free w dst 16
  /\ option_map fst (transmute_copy_uninit (fun _ => 16) w src dst 9)
     = Some [Byte 1%N; Uninit; Byte 3%N; Uninit; Uninit; Uninit; Uninit; Uninit].
Proof.
  cbn zeta. split; [now exists 0|]. split; [now exists 3|]. split; [|split].
  - split; [easy|]. split; [apply one_object|now exists 9].
  - split; [now exists 2|]. intros i H. unfold overwrite_from.
    destruct (16 + i <? 9) eqn:E; [easy|]. apply nth_error_None. cbn. lia.
  - easy.
Qed.

(** C85: the bytes of an object seen as a slice are those of the object, in
    order, and no others. *)
Theorem mem_bytes_view : forall w t a l, reference w t a (map Byte l) ->
  exists s, as_bytes w t a = Some s /\ forall i, index w s i = nth_error l i.
Proof.
  intros w t a l (L & H & _). rewrite map_length in L. exists (a, length l). split.
  - unfold as_bytes. rewrite <- L. now apply slice_bytes with l.
  - intros i. now apply index_bytes.
Qed.
Print Assumptions mem_bytes_view.

(** C85: a write to such a slice changes that byte of the object, and nothing
    else in memory; none outside of it is possible. *)
Theorem mem_bytes_write : forall w t a l b r, reference w t a (map Byte (l ++ b :: r)) ->
  exists s, as_bytes_mut w t a = Some s
    /\ (forall c, exists w', assign w s (length l) c = Some w'
          /\ reference w' t a (map Byte (l ++ c :: r)) /\ elsewhere w w' (a + length l) 1)
    /\ forall i c, size t <= i -> assign w s i c = None.
Proof.
  intros w t a l b r (L & H & D). rewrite map_length in L. exists (a, length (l ++ b :: r)). split; [|split].
  - unfold as_bytes_mut. rewrite <- L. now apply slice_bytes with (l ++ b :: r).
  - intros c. destruct (assign_bytes w a l (length l) b r H eq_refl c) as (w' & E & G & F).
    exists w'. split; [easy|]. split; [|easy]. split; [|split]; [|easy|easy].
    rewrite map_length, <- L, !app_length. easy.
  - intros i c O. apply assign_out. lia.
Qed.
Print Assumptions mem_bytes_write.

Example mem_bytes_write_case :
  reference (overwrite_from 4 [Byte 1%N; Byte 2%N; Byte 3%N; Byte 4%N]) {| size := 4; align := 4 |} 4
    (map Byte ([1; 2] ++ 3 :: [4])%N).
Proof. split; [easy|]. split; [apply one_object|now exists 1]. Qed.

(** C85: comparison says whether both have the same bytes, and as many; the
    objects may overlap. *)
Theorem mem_compare : forall w ta tb a b l r,
  reference w ta a (map Byte l) -> reference w tb b (map Byte r) ->
  exists x, mem_eq w ta tb a b = Some x /\ (x = true <-> l = r).
Proof.
  intros w ta tb a b l r A B. rewrite (mem_eq_spec w ta tb a b l r A B). eexists. split; [easy|].
  now destruct (list_eq_dec N.eq_dec l r).
Qed.
Print Assumptions mem_compare.

(** Overlapping objects of the same bytes. *)
Example mem_compare_case :
  let w := overwrite_from 4 [Byte 1%N; Byte 1%N; Byte 1%N] in
  mem_eq w {| size := 2; align := 1 |} {| size := 2; align := 1 |} 4 5 = Some true
  /\ mem_eq w {| size := 2; align := 1 |} {| size := 1; align := 1 |} 4 5 = Some false.
Proof. easy. Qed.

(** C86: for every type whose bytes are all initialised, of any size and
    alignment, on hosts of either byte order. *)
Theorem mem_bswap_partial : forall h al local w t a l, (forall n, exists k, al n = 2 ^ k) ->
  proper t -> bytes l -> reference w t a (map Byte l) -> (forall u, proper u -> free w u (local u)) ->
  exists w', bswap_copy h al local w t a = Some (map Byte (rev l), w') /\ preserved w w'.
Proof. exact bswap_copy_spec. Qed.
Print Assumptions mem_bswap_partial.

(** An object of eight bytes that need not be aligned. *)
Example mem_bswap_partial_case :
  let l := [1; 2; 3; 4; 5; 6; 7; 8]%N in let w := overwrite_from 3 (map Byte l) in
  let t := {| size := 8; align := 1 |} in let local u := 16 * align u in
  (forall n : nat, exists k, (fun _ : nat => 8) n = 2 ^ k) /\ proper t /\ bytes l /\ reference w t 3 (map Byte l)
  /\ forall u, proper u -> free w u (local u).
Proof.
  cbn zeta. split; [intros _; now exists 3|]. split; [now exists 0|].
  split; [repeat (constructor; [easy|]); constructor|]. split.
  - split; [easy|]. split; [apply one_object|now exists 3].
  - intros u [k K]. split; [now exists 16|]. intros i H. unfold overwrite_from.
    destruct (16 * align u + i <? 3) eqn:E; [easy|]. apply nth_error_None.
    assert (1 <= 2 ^ k) by (apply Nat.neq_0_lt_0, Nat.pow_nonzero; lia). rewrite K. cbn [length map]. lia.
Qed.

(** C86: bytes without a value are reversed like others, except in objects of
    2, 4, 8 or 16 bytes. *)
Theorem mem_bswap_uninit_partial : forall h al local w t a cs, ~ In (size t) [2; 4; 8; 16] ->
  proper t -> reference w t a cs -> free w t (local t) ->
  exists w', bswap_copy h al local w t a = Some (rev cs, w') /\ preserved w w'.
Proof. exact bswap_copy_any. Qed.
Print Assumptions mem_bswap_uninit_partial.
(** Three bytes, the second without a value. *)
Example mem_bswap_uninit_partial_case :
  let cs := [Byte 1%N; Uninit; Byte 3%N] in let w := overwrite_from 9 cs in let t := {| size := 3; align := 1 |} in
  ~ In (size t) [2; 4; 8; 16] /\ proper t /\ reference w t 9 cs /\ free w t 16
  /\ option_map fst (bswap_copy BigFirst (fun n => n) (fun _ => 16) w t 9) = Some [Byte 3%N; Uninit; Byte 1%N].
Proof.
  cbn zeta. split; [intros [|[|[|[|[]]]]]; discriminate|]. split; [now exists 0|].
  split; [split; [easy|split; [apply one_object|now exists 9]]|].
  split; [split; [now exists 16|intros [|[|[|i]]] H; cbn in *; try easy; lia]|]. reflexivity.
Qed.

(** C86 is false in general: an object of two bytes, one of which has no value,
    is read as an integer, which is undefined behaviour, although the reversed
    object is as good as the original. *)
Theorem mem_bswap_refuted : exists t w a cs, proper t /\ reference w t a cs
  /\ forall h al local, bswap_copy h al local w t a = None.
Proof.
  exists {| size := 2; align := 1 |}, (overwrite_from 8 [Byte 1%N; Uninit]), 8, [Byte 1%N; Uninit].
  split; [now exists 0|]. split; [split; [easy|split]|].
  - intros [|[|i]] H; cbn in *; try easy; lia.
  - exists 8. easy.
  - intros h al local. unfold bswap_copy. cbn [size]. unfold bswap_uint, transmute_copy. cbn [size align].
    unfold ptr_read, ptr_read_unaligned. cbn [size align].
    destruct (1 <? al 2) eqn:E; [easy|].
    apply Nat.ltb_ge in E. destruct (al 2) as [|[|n]]; [easy|easy|lia].
Qed.
Print Assumptions mem_bswap_refuted.
