(** C51, C65, C66, C67: endian wrappers, aligned integers and addresses. *)
From Coq Require Import Permutation.
From Verif Require Import Base FfiSpec LayModel FfiModel FfiProofs.

(* ------------------------------------------------------------------ *)
(** ** C51: endian wrappers store the declared byte order *)

(** On a host of either byte order, the object made from a value holds exactly
    the declared representation of that value. *)
Theorem endian_image h t z :
  let n := width (int t) in
  (exists bs, make h BigEndian t n z = Some (map Some bs)
              /\ stored BigFirst n (pattern (int t) z) bs)
  /\ (exists bs, make h LittleEndian t n z = Some (map Some bs)
                 /\ stored LittleFirst n (pattern (int t) z) bs)
  /\ (exists bs, make h Native t n z = Some (map Some bs)
                 /\ stored h n (pattern (int t) z) bs).
Proof.
  cbn zeta.
  assert (G : forall w, exists bs, make h w t (width (int t)) z = Some (map Some bs)
              /\ stored (declared h w) (width (int t)) (pattern (int t) z) bs).
  { intros w. exists (image h w t z). split; [|apply host_stored].
    rewrite make_image, Nat.sub_diag by lia. cbn. now rewrite app_nil_r. }
  repeat split; [apply (G BigEndian)|apply (G LittleEndian)|apply (G Native)].
Qed.
Print Assumptions endian_image.

(** So both kinds of host agree on every byte of a wrapped value. *)
Theorem endian_hosts w t z : w <> Native ->
  make BigFirst w t (width (int t)) z = make LittleFirst w t (width (int t)) z.
Proof.
  intros W. rewrite !make_image by lia. destruct w; easy.
Qed.
Print Assumptions endian_hosts.

(** The wrapped value reads back. *)
Theorem endian_value h w t z : 0 < width (int t) -> in_range (int t) z ->
  (nonzero t = true -> z <> 0%Z) ->
  exists e, make h w t (width (int t)) z = Some e /\ value h w t e = Some z.
Proof.
  intros W R NZ. exists (map Some (image h w t z) ++ []). split.
  - rewrite make_image, Nat.sub_diag by lia. easy.
  - now apply value_make.
Qed.
Print Assumptions endian_value.

(** Conversely every object of the right size, for instance one copied out of
    a file, has a value of the type and is the object made from that value.
    The only exception is an all-zero object of a non-zero type. *)
Theorem endian_objects h w t bs : 0 < width (int t) ->
  length bs = width (int t) -> bytes bs ->
  (exists z, value h w t (map Some bs) = Some z /\ in_range (int t) z
             /\ (nonzero t = true -> z <> 0%Z)
             /\ make h w t (width (int t)) z = Some (map Some bs))
  \/ (nonzero t = true /\ Forall (fun b => b = 0%N) bs
      /\ value h w t (map Some bs) = None).
Proof.
  intros W L B. assert (E : map Some bs = map Some bs ++ []) by now rewrite app_nil_r.
  destruct (value h w t (map Some bs)) as [z|] eqn:V.
  - left. exists z. rewrite E in V. apply make_value in V as (R & NZ & I); try easy.
    repeat split; try easy.
    rewrite make_image, Nat.sub_diag, I by lia. cbn. now rewrite app_nil_r.
  - right. rewrite E in V. apply value_zero in V as [NZ Z]; easy.
Qed.
Print Assumptions endian_objects.

(** Wrapped values compare, order and hash like the values. *)
Theorem endian_compare h w t x y a b : 0 < width (int t) ->
  in_range (int t) x -> in_range (int t) y ->
  (nonzero t = true -> x <> 0%Z /\ y <> 0%Z) ->
  make h w t (width (int t)) x = Some a ->
  make h w t (width (int t)) y = Some b ->
  end_eq h w t a b = Some (x =? y)%Z
  /\ end_cmp h w t a b = Some (x ?= y)%Z
  /\ (forall S (hash : Z -> S -> S) s, end_hash hash h w t a s = Some (hash x s)).
Proof.
  intros W X Y NZ A B.
  destruct (endian_value h w t x W X) as (a' & A' & Va); [intros C; now apply NZ|].
  destruct (endian_value h w t y W Y) as (b' & B' & Vb); [intros C; now apply NZ|].
  rewrite A in A'. injection A' as <-. rewrite B in B'. injection B' as <-.
  unfold end_eq, end_cmp, end_hash. rewrite Va, Vb. easy.
Qed.
Print Assumptions endian_compare.

(** Objects with a value are equal exactly if their bytes are. *)
Theorem endian_same h w t a b x y : 0 < width (int t) ->
  length a = width (int t) -> length b = width (int t) -> bytes a -> bytes b ->
  value h w t (map Some a) = Some x -> value h w t (map Some b) = Some y ->
  (end_eq h w t (map Some a) (map Some b) = Some true <-> a = b).
Proof.
  intros W La Lb Ba Bb Va Vb. unfold end_eq. rewrite Va, Vb. split.
  - intros E. injection E as E. apply Z.eqb_eq in E. subst y.
    rewrite <- (app_nil_r (map Some a)) in Va. rewrite <- (app_nil_r (map Some b)) in Vb.
    apply make_value in Va as (_ & _ & Ia); try easy.
    apply make_value in Vb as (_ & _ & Ib); try easy. congruence.
  - intros ->. rewrite Va in Vb. injection Vb as ->. now rewrite Z.eqb_refl.
Qed.
Print Assumptions endian_same.

(** The raw accessors return what they were given. *)
Theorem endian_raw size r : length r <= size ->
  to_raw (length r) (from_raw size r) = r.
Proof.
  intros S. unfold to_raw, from_raw. rewrite (transmute_grow r) by easy. apply transmute_shrink.
Qed.
Print Assumptions endian_raw.

(** Swapping reverses the bytes of an object of any size, and undoes itself. *)
Theorem endian_swap h bs : bytes bs ->
  bswap_copy h (map Some bs) = Some (map Some (rev bs))
  /\ bswap_copy h (map Some (rev bs)) = Some (map Some bs).
Proof.
  intros B. split; [now apply bswap_copy_rev|].
  rewrite bswap_copy_rev by now apply bytes_rev. now rewrite rev_involutive.
Qed.
Print Assumptions endian_swap.

(** The default is zero. *)
Theorem endian_default h w t : 0 < width (int t) -> nonzero t = false ->
  exists e, end_default h w t = Some e /\ value h w t e = Some 0%Z.
Proof.
  intros W NZ. apply endian_value; [easy| |congruence].
  assert (0 < 2 ^ (8 * Z.of_nat (width (int t)) - 1))%Z by (apply Z.pow_pos_nonneg; lia).
  assert (0 < 2 ^ (8 * Z.of_nat (width (int t))))%Z by (apply Z.pow_pos_nonneg; lia).
  unfold in_range. destruct (signed (int t)); lia.
Qed.
Print Assumptions endian_default.

(** -2 as a big-endian [i32] on a little-endian host. *)
Example endian_example :
  let t := {| int := {| signed := true; width := 4 |}; nonzero := true |} in
  make LittleFirst BigEndian t 4 (-2) = Some [Some 255; Some 255; Some 255; Some 254]%N
  /\ value LittleFirst BigEndian t [Some 255; Some 255; Some 255; Some 254]%N = Some (-2)%Z
  /\ value LittleFirst BigEndian t [Some 0; Some 0; Some 0; Some 0]%N = None
  /\ in_range (int t) (-2) /\ (-2 <> 0)%Z.
Proof. repeat split; cbn; lia || easy. Qed.

(* ------------------------------------------------------------------ *)
(** ** C65: aligned integers have the declared layout *)

(** The alignment is exactly the requested one and the size is the size of the
    value rounded up to it, whatever alignment the value has on the host.
    The value is at the start. *)
Theorem integer_layout v a : 0 < a ->
  align_of (integer_ty v a) = a
  /\ least_multiple a (size_of v) (size_of (integer_ty v a))
  /\ offsets_of (integer_ty v a) = [0; size_of (integer_ty v a)]
  /\ (Nat.divide a (size_of v) -> size_of (integer_ty v a) = size_of v).
Proof.
  intros A. pose proof (round_up_least (size_of v) a A) as M.
  split; [now apply integer_align|]. rewrite integer_size by easy.
  split; [easy|]. split.
  - change (offsets_of (integer_ty v a)) with
      [round_up 0 1; round_up (round_up 0 1 + size_of (packed_ty v)) (align_of (marker_ty a))].
    rewrite !round_up_1, packed_size.
    replace (align_of (marker_ty a)) with a by (destruct a; [lia|]; cbn; lia). easy.
  - intros D. destruct M as (L & _ & U). apply Nat.le_antisymm; [now apply U|easy].
Qed.
Print Assumptions integer_layout.

Theorem integer_hosts n a align align' :
  size_of (integer_ty (wrapper_ty n align) a) = size_of (integer_ty (wrapper_ty n align') a)
  /\ align_of (integer_ty (wrapper_ty n align) a) = align_of (integer_ty (wrapper_ty n align') a).
Proof. easy. Qed.
Print Assumptions integer_hosts.

(** The bytes of an aligned integer: the declared representation first, then
    padding that is never read. *)
Theorem integer_image h t a align z : 0 < a ->
  let n := width (int t) in
  let size := size_of (integer_ty (wrapper_ty n align) a) in
  (exists bs, make h BigEndian t size z = Some (map Some bs ++ repeat None (size - n))
              /\ stored BigFirst n (pattern (int t) z) bs)
  /\ (exists bs, make h LittleEndian t size z = Some (map Some bs ++ repeat None (size - n))
                 /\ stored LittleFirst n (pattern (int t) z) bs).
Proof.
  intros A n size.
  assert (S : n <= size) by (unfold size; rewrite integer_size by easy; now apply round_up_le).
  assert (G : forall w, exists bs, make h w t size z = Some (map Some bs ++ repeat None (size - n))
              /\ stored (declared h w) n (pattern (int t) z) bs).
  { intros w. exists (image h w t z). split; [now apply make_image|apply host_stored]. }
  split; [apply (G BigEndian)|apply (G LittleEndian)].
Qed.
Print Assumptions integer_image.

Theorem integer_value h w t a align z : 0 < a -> 0 < width (int t) -> in_range (int t) z ->
  (nonzero t = true -> z <> 0%Z) ->
  exists e, make h w t (size_of (integer_ty (wrapper_ty (width (int t)) align) a)) z = Some e
            /\ value h w t e = Some z.
Proof.
  intros A W R NZ. eexists. split.
  - apply make_image. rewrite integer_size by easy. now apply round_up_le.
  - now apply value_make.
Qed.
Print Assumptions integer_value.

(** A 2 byte value aligned to 8 bytes, and an 8 byte value aligned to 4. *)
Example integer_example :
  size_of (integer_ty (wrapper_ty 2 2) 8) = 8 /\ align_of (integer_ty (wrapper_ty 2 2) 8) = 8
  /\ size_of (integer_ty (wrapper_ty 8 8) 4) = 8 /\ align_of (integer_ty (wrapper_ty 8 8) 4) = 4
  /\ make LittleFirst BigEndian {| int := {| signed := false; width := 2 |}; nonzero := false |}
       (size_of (integer_ty (wrapper_ty 2 2) 4)) 0x1234
     = Some [Some 0x12; Some 0x34; None; None]%N.
Proof. repeat split. Qed.

(* ------------------------------------------------------------------ *)
(** ** C66: aligned integers and packed objects are cells *)

(** After any sequence of [set], [replace] and [take] an integer behaves as the
    cell of the specification: it holds the last value stored, each [replace]
    and [take] has returned the value stored before, each [set] has dropped
    it, and the object has kept its size. *)
Theorem integer_cell v a x us : 0 < a -> length x = size_of v ->
  Forall (fun u => length (put u) = size_of v) us ->
  exists c log z, uses (integer_use v a) (integer_new v a x) us = (c, log)
    /\ cell x us log z /\ integer_get v a c = z
    /\ z = last (map put us) x
    /\ length c = size_of (integer_ty v a).
Proof.
  intros A X F. rewrite integer_new_image by easy.
  destruct (uses_cell (integer_use v a) (size_of v) (repeat None (size_of (integer_ty v a) - size_of v))
    (fun m u L U => integer_use_image v a m _ u L U) us x X F) as (z & log & -> & C & L).
  eexists _, log, z. split; [easy|]. split; [easy|]. split; [now apply integer_get_image|].
  split; [now apply cell_last in C|].
  assert (S : size_of v <= size_of (integer_ty v a))
    by (rewrite integer_size by easy; now apply round_up_le).
  rewrite app_length, repeat_length, L. lia.
Qed.
Print Assumptions integer_cell.

(** The same for packed objects. *)
Theorem packed_cell v x us : length x = size_of v ->
  Forall (fun u => length (put u) = size_of v) us ->
  exists c log z, uses (packed_use v) (packed_new v x) us = (c, log)
    /\ cell x us log z /\ packed_get v c = z
    /\ z = last (map put us) x
    /\ length c = size_of v.
Proof.
  intros X F. rewrite packed_new_image by easy.
  destruct (uses_cell (packed_use v) (size_of v) []
    (fun m u L U => eq_trans (f_equal (fun k => packed_use v k u) (app_nil_r m))
       (eq_trans (packed_use_image v m u L U) (f_equal (fun k => (k, _, _)) (eq_sym (app_nil_r (put u)))))) us x X F)
    as (z & log & E & C & L).
  rewrite !app_nil_r in E. rewrite E.
  exists z, log, z. split; [easy|]. split; [easy|]. split; [now apply packed_get_image|].
  split; [now apply cell_last in C|easy].
Qed.
Print Assumptions packed_cell.

(** No value is lost and none is destroyed or returned twice: the values put
    into a cell are those returned, those destroyed, and the one in it. *)
Theorem cell_conserves V (x : V) us log z : cell x us log z ->
  Permutation (x :: map put us) (z :: given_back log ++ destroyed log).
Proof. apply cell_keeps. Qed.
Print Assumptions cell_conserves.

(** The specification leaves no choice. *)
Theorem cell_unique V (x : V) us log z log' z' :
  cell x us log z -> cell x us log' z' -> log = log' /\ z = z'.
Proof. intros C D. exact (cell_fun x us log z C log' z' D). Qed.
Print Assumptions cell_unique.

Example integer_cell_example :
  let v := wrapper_ty 2 2 in
  uses (integer_use v 4) (integer_new v 4 [Some 1; Some 2]%N)
    [USet [Some 3; Some 4]%N; UReplace [Some 5; Some 6]%N; UTake [Some 0; Some 0]%N]
  = ([Some 0; Some 0; None; None]%N,
     [(None, Some [Some 1; Some 2]%N); (Some [Some 3; Some 4]%N, None); (Some [Some 5; Some 6]%N, None)]).
Proof. easy. Qed.

(* ------------------------------------------------------------------ *)
(** ** C67: addresses convert to and from usize *)

(** For an address type of the size of [usize] the conversions never panic,
    are inverse to each other, and only 0 is refused. *)
Theorem address_usize usize_ t v : width (int t) = usize_ ->
  (0 <= v < 2 ^ (8 * Z.of_nat usize_))%Z ->
  (v = 0%Z -> from_usize usize_ t v = Ok None)
  /\ (v <> 0%Z -> from_usize usize_ t v = Ok (Some v))
  /\ to_usize usize_ t v = Ok v.
Proof.
  intros W R. unfold from_usize, from_usize_unchecked, to_usize. rewrite W, Nat.leb_refl.
  rewrite Z.mod_small by easy. repeat split.
  - intros ->. easy.
  - intros NZ. now replace (v =? 0)%Z with false by (symmetry; apply Z.eqb_neq; easy).
Qed.
Print Assumptions address_usize.

(** For address types of other sizes: a conversion yields the same address or
    panics, so addresses are never truncated.  It panics if some value of the
    source does not fit the target. *)
Theorem address_never_truncated usize_ t v :
  ((0 <= v < 2 ^ (8 * Z.of_nat usize_))%Z ->
    (usize_ <= width (int t) -> from_usize_unchecked usize_ t v = Ok v) /\
    (width (int t) < usize_ -> from_usize_unchecked usize_ t v = Panic) /\
    (width (int t) < usize_ -> v <> 0%Z -> from_usize usize_ t v = Panic) /\
    (usize_ <= width (int t) -> v <> 0%Z -> from_usize usize_ t v = Ok (Some v)))
  /\ ((0 <= v < 2 ^ (8 * Z.of_nat (width (int t))))%Z ->
    (width (int t) <= usize_ -> to_usize usize_ t v = Ok v) /\
    (usize_ < width (int t) -> to_usize usize_ t v = Panic)).
Proof.
  assert (M : forall a b, a <= b -> (2 ^ (8 * Z.of_nat a) <= 2 ^ (8 * Z.of_nat b))%Z)
    by (intros a b L; apply Z.pow_le_mono_r; lia).
  unfold from_usize, from_usize_unchecked, to_usize. split; intros R.
  1: split; [intros L|split; [intros L|split; intros L NZ]].
  5: split; intros L.
  - rewrite (proj2 (Nat.leb_le _ _) L), Z.mod_small; [easy|]. pose proof (M _ _ L). lia.
  - now rewrite (proj2 (Nat.leb_gt _ _) L).
  - apply Z.eqb_neq in NZ. now rewrite NZ, (proj2 (Nat.leb_gt _ _) L).
  - apply Z.eqb_neq in NZ. rewrite NZ, (proj2 (Nat.leb_le _ _) L), Z.mod_small; [easy|]. pose proof (M _ _ L). lia.
  - rewrite (proj2 (Nat.leb_le _ _) L), Z.mod_small; [easy|]. pose proof (M _ _ L). lia.
  - now rewrite (proj2 (Nat.leb_gt _ _) L).
Qed.
Print Assumptions address_never_truncated.

(** A dangling address is not 0 and suitably aligned. *)
Theorem address_dangling usize_ t align : width (int t) = usize_ -> 0 < align ->
  (Z.of_nat align < 2 ^ (8 * Z.of_nat usize_))%Z ->
  exists v, dangling usize_ t align = Ok v /\ (v <> 0)%Z /\ (Z.of_nat align | v)%Z.
Proof.
  intros W A R. exists (Z.of_nat align).
  unfold dangling, from_usize_unchecked. rewrite W, Nat.leb_refl, Z.mod_small by lia.
  repeat split; [lia|apply Z.divide_refl].
Qed.
Print Assumptions address_dangling.

Example address_example :
  let t := {| int := {| signed := false; width := 8 |}; nonzero := true |} in
  from_usize 8 t 0 = Ok None /\ from_usize 8 t 0x7fff12345678 = Ok (Some 0x7fff12345678%Z)
  /\ to_usize 8 t 0x7fff12345678 = Ok 0x7fff12345678%Z /\ dangling 8 t 16 = Ok 16%Z.
Proof. easy. Qed.
