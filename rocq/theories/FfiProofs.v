(** Proofs about the foreign-function types (FfiModel.v). *)
From Coq Require Import Permutation.
From Verif Require Import Base FfiSpec LayModel FfiModel.

(* ------------------------------------------------------------------ *)
(** ** Little-endian digits *)

Lemma le_length n v : length (le n v) = n.
Proof. revert v; induction n as [|n IH]; intros v; cbn; [easy|now rewrite IH]. Qed.

Lemma le_bytes n v : bytes (le n v).
Proof.
  revert v; induction n as [|n IH]; intros v; constructor.
  - unfold is_byte. apply N.mod_upper_bound. lia.
  - apply IH.
Qed.

Lemma of_le_le n v : of_le (le n v) = (v mod 256 ^ N.of_nat n)%N.
Proof.
  revert v; induction n as [|n IH]; intros v.
  - cbn. now rewrite N.mod_1_r.
  - cbn [le of_le]. rewrite IH, Nat2N.inj_succ, N.pow_succ_r'.
    rewrite N.mod_mul_r; [reflexivity|lia|]. apply N.pow_nonzero. lia.
Qed.

Lemma of_le_bound l : bytes l -> (of_le l < 256 ^ N.of_nat (length l))%N.
Proof.
  induction 1 as [|b l B F IH]; [cbn; lia|].
  cbn [of_le length]. rewrite Nat2N.inj_succ, N.pow_succ_r'. unfold is_byte in B. nia.
Qed.

Lemma le_of_le l : bytes l -> le (length l) (of_le l) = l.
Proof.
  induction 1 as [|b l B F IH]; [easy|].
  cbn [of_le length le]. unfold is_byte in B.
  replace (b + 256 * of_le l)%N with (of_le l * 256 + b)%N by lia.
  rewrite N.add_comm, N.mod_add, N.mod_small by lia. f_equal.
  replace ((b + of_le l * 256) / 256)%N with (of_le l); [exact IH|].
  rewrite N.div_add, N.div_small by lia. lia.
Qed.

Lemma le_inj l l' : bytes l -> bytes l' -> length l = length l' -> of_le l = of_le l' -> l = l'.
Proof. intros B B' L E. rewrite <- (le_of_le l B), <- (le_of_le l' B'), L, E. easy. Qed.

Lemma le_nth n v i : i < n -> nth_error (le n v) i = Some ((v / 256 ^ N.of_nat i) mod 256)%N.
Proof.
  revert v i; induction n as [|n IH]; intros v i H; [lia|].
  destruct i as [|i]; cbn [le nth_error].
  - cbn. now rewrite N.div_1_r.
  - rewrite IH by lia. rewrite Nat2N.inj_succ, N.pow_succ_r', N.div_div;
      [reflexivity|lia|]. apply N.pow_nonzero. lia.
Qed.

Lemma nth_error_rev {A} (l : list A) i :
  i < length l -> nth_error (rev l) i = nth_error l (length l - 1 - i).
Proof.
  intros H. destruct l as [|d l']; [cbn in H; lia|]. set (l := d :: l') in *.
  rewrite (nth_error_nth' (rev l) d) by (rewrite rev_length; lia).
  rewrite (nth_error_nth' l d) by lia. f_equal.
  rewrite rev_nth by lia. f_equal. lia.
Qed.

Lemma host_length h n v : length (host_bytes h n v) = n.
Proof. destruct h; cbn; rewrite ?rev_length; apply le_length. Qed.

Lemma bytes_rev l : bytes l -> bytes (rev l).
Proof. apply Forall_rev. Qed.

Lemma host_is_bytes h n v : bytes (host_bytes h n v).
Proof. destruct h; cbn; [apply bytes_rev|]; apply le_bytes. Qed.

Lemma of_host_bytes h n v : of_host h (host_bytes h n v) = (v mod 256 ^ N.of_nat n)%N.
Proof. destruct h; cbn; rewrite ?rev_involutive; apply of_le_le. Qed.

Lemma host_of_host h l : bytes l -> host_bytes h (length l) (of_host h l) = l.
Proof.
  intros B. destruct h; cbn.
  - rewrite <- (rev_length l), le_of_le by now apply bytes_rev. apply rev_involutive.
  - now apply le_of_le.
Qed.

Lemma of_host_bound h l : bytes l -> (of_host h l < 256 ^ N.of_nat (length l))%N.
Proof.
  intros B. destruct h; cbn; [rewrite <- rev_length|]; apply of_le_bound;
    [now apply bytes_rev|easy].
Qed.

Lemma host_stored h n v : stored h n v (host_bytes h n v).
Proof.
  split; [apply host_length|]. intros i H. unfold byte_of. destruct h; cbn.
  - rewrite nth_error_rev by (rewrite le_length; lia). rewrite le_length.
    apply le_nth. lia.
  - now apply le_nth.
Qed.

Lemma stored_unique o n v bs bs' : stored o n v bs -> stored o n v bs' -> bs = bs'.
Proof.
  intros [L H] [L' H'].
  assert (G : forall (a b : list N), length a = length b ->
              (forall i, i < length a -> nth_error a i = nth_error b i) -> a = b).
  { clear. induction a as [|x a IH]; intros [|y b] L E; cbn in *; try lia; [easy|].
    assert (E0 := E 0 ltac:(lia)). cbn in E0. injection E0 as ->. f_equal.
    apply IH; [lia|]. intros i Hi. exact (E (S i) ltac:(lia)). }
  apply G; [lia|]. intros i Hi. rewrite H, H' by lia. easy.
Qed.

(* ------------------------------------------------------------------ *)
(** ** Objects *)

Lemma init_some l : init (map Some l) = Some l.
Proof. induction l as [|b l IH]; cbn; [easy|now rewrite IH]. Qed.

Lemma init_inv m l : init m = Some l -> m = map Some l.
Proof.
  revert l; induction m as [|[b|] m IH]; intros l H; cbn in H; try easy.
  - now injection H as <-.
  - destruct (init m) as [r|] eqn:E; [|easy]. injection H as <-. cbn. now rewrite (IH r).
Qed.

Lemma firstn_exact {A} (l r : list A) : firstn (length l) (l ++ r) = l.
Proof. rewrite firstn_app, Nat.sub_diag, firstn_all, firstn_O, app_nil_r. easy. Qed.

Lemma transmute_grow l n : length l <= n ->
  transmute_copy_uninit n l = l ++ repeat None (n - length l).
Proof.
  intros H. unfold transmute_copy_uninit. destruct (length l <? n) eqn:C.
  - unfold splice. cbn [firstn app]. rewrite Nat.add_0_l. f_equal.
    assert (G : forall a k, skipn a (@repeat (option N) None k) = repeat None (k - a)).
    { induction a as [|a IH]; intros [|k]; cbn; auto. }
    apply G.
  - apply Nat.ltb_ge in C. replace n with (length l) by lia.
    rewrite firstn_all, Nat.sub_diag. cbn. now rewrite app_nil_r.
Qed.

Lemma transmute_shrink l r : transmute_copy_uninit (length l) (l ++ r) = l.
Proof.
  unfold transmute_copy_uninit. rewrite app_length.
  replace (length l + length r <? length l) with false by (symmetry; apply Nat.ltb_ge; lia).
  apply firstn_exact.
Qed.

(* ------------------------------------------------------------------ *)
(** ** Byte swapping *)

Lemma bswap_loop_spec k : forall i src dst,
  i + k = length src -> length dst = length src ->
  firstn i dst = firstn i (rev src) ->
  bswap_loop k i src dst = rev src.
Proof.
  induction k as [|k IH]; intros i src dst L D P; cbn [bswap_loop].
  - rewrite Nat.add_0_r in L. subst i. rewrite <- D in P at 1.
    rewrite firstn_all in P. rewrite P. rewrite <- rev_length. apply firstn_all.
  - apply IH; [lia| |].
    + now rewrite upd_length by lia.
    + unfold upd. rewrite P.
      assert (Li : length (firstn i (rev src)) = i).
      { rewrite firstn_length, rev_length. lia. }
      remember (firstn (S i) (rev src)) as W eqn:EW.
      rewrite firstn_app, Li. replace (S i - i) with 1 by lia.
      rewrite firstn_all2 by lia. cbn [firstn]. subst W.
      assert (E : nth_error (rev src) i = Some (nth (length src - i - 1) src None)).
      { rewrite nth_error_rev by lia. replace (length src - 1 - i) with (length src - i - 1) by lia.
        apply nth_error_nth'. lia. }
      apply nth_error_split in E as (a & b & R & La).
      rewrite R. subst i. rewrite firstn_exact.
      replace (S (length a)) with (length a + 1) by lia. rewrite firstn_app_2. easy.
Qed.

Lemma bswap_slow_rev m : bswap_slow m = rev m.
Proof.
  unfold bswap_slow. apply bswap_loop_spec; cbn; try easy. apply repeat_length.
Qed.

Lemma pow_bytes n : (2 ^ (8 * Z.of_nat n) = Z.of_N (256 ^ N.of_nat n))%Z.
Proof.
  rewrite N2Z.inj_pow. rewrite nat_N_Z. change (Z.of_N 256) with (2 ^ 8)%Z.
  rewrite <- Z.pow_mul_r by lia. easy.
Qed.

Lemma bswap_uint_rev h n l : bytes l -> length l = n ->
  bswap_uint h n (map Some l) = Some (map Some (rev l)).
Proof.
  intros B L. unfold bswap_uint, load. rewrite init_some. cbn [int nonzero].
  unfold signed_value. cbn [signed width andb]. rewrite N2Z.id.
  unfold store. cbn [int width]. rewrite pow_bytes.
  assert (S : (swap_bytes n (of_host h l) < 256 ^ N.of_nat n)%N).
  { unfold swap_bytes.
    replace n with (length (rev (le n (of_host h l)))) at 2
      by (rewrite rev_length; apply le_length).
    apply of_le_bound, bytes_rev, le_bytes. }
  rewrite Z.mod_small by lia. rewrite N2Z.id. do 2 f_equal.
  unfold swap_bytes. subst n. destruct h; cbn.
  - rewrite <- (rev_length l), le_of_le by now apply bytes_rev.
    rewrite rev_involutive, rev_length, le_of_le by easy. easy.
  - rewrite le_of_le by easy. rewrite <- (rev_length l), le_of_le by now apply bytes_rev. easy.
Qed.

Theorem bswap_copy_rev h l : bytes l ->
  bswap_copy h (map Some l) = Some (map Some (rev l)).
Proof.
  intros B. unfold bswap_copy. rewrite map_length.
  assert (S : bswap_slow (map Some l) = map Some (rev l)).
  { now rewrite bswap_slow_rev, map_rev. }
  assert (E1 : length l = 1 -> rev l = l).
  { destruct l as [|a [|b l]]; cbn; [easy|easy|lia]. }
  assert (U : forall n, length l = n -> bswap_uint h n (map Some l) = Some (map Some (rev l))).
  { intros n. now apply bswap_uint_rev. }
  rewrite S.
  destruct (length l) as [|[|[|[|[|[|[|[|[|[|[|[|[|[|[|[|[|n]]]]]]]]]]]]]]]]];
    try easy; try (apply U; easy).
  now rewrite E1.
Qed.

Lemma bswap_copy_twice h l : bytes l ->
  exists m, bswap_copy h (map Some l) = Some m /\ bswap_copy h m = Some (map Some l).
Proof.
  intros B. exists (map Some (rev l)). split; [now apply bswap_copy_rev|].
  rewrite bswap_copy_rev by now apply bytes_rev. now rewrite rev_involutive.
Qed.

(* ------------------------------------------------------------------ *)
(** ** Two's complement *)

Lemma pattern_bound t z : (pattern t z < 256 ^ N.of_nat (width t))%N.
Proof.
  unfold pattern. rewrite pow_bytes.
  pose proof (Z.mod_pos_bound z (Z.of_N (256 ^ N.of_nat (width t)))) as M.
  assert (0 < 256 ^ N.of_nat (width t))%N by (apply N.neq_0_lt_0, N.pow_nonzero; lia).
  lia.
Qed.

Lemma half t : (0 < width t) ->
  (2 ^ (8 * Z.of_nat (width t)) = 2 * 2 ^ (8 * Z.of_nat (width t) - 1))%Z.
Proof.
  intros W. rewrite <- Z.pow_succ_r by lia. f_equal. lia.
Qed.

Lemma signed_pattern t z : 0 < width t -> in_range t z -> signed_value t (pattern t z) = z.
Proof.
  intros W R. unfold signed_value, pattern, in_range in *. pose proof (half t W) as H.
  assert (P : (0 < 2 ^ (8 * Z.of_nat (width t) - 1))%Z) by (apply Z.pow_pos_nonneg; lia).
  set (A := (2 ^ (8 * Z.of_nat (width t)))%Z) in *.
  set (B := (2 ^ (8 * Z.of_nat (width t) - 1))%Z) in *.
  pose proof (Z.mod_pos_bound z A ltac:(lia)) as M.
  rewrite Z2N.id by lia.
  destruct (signed t); cbn [andb].
  - destruct (Z.neg_nonneg_cases z) as [Neg|Pos].
    + assert (E : (z mod A = z + A)%Z).
      { rewrite <- (Z_mod_plus_full z 1 A). rewrite Z.mod_small; lia. }
      rewrite E. replace (B <=? z + A)%Z with true by (symmetry; apply Z.leb_le; lia). lia.
    + rewrite Z.mod_small by lia.
      replace (B <=? z)%Z with false by (symmetry; apply Z.leb_gt; lia). easy.
  - now rewrite Z.mod_small by lia.
Qed.

Lemma pattern_signed t v : 0 < width t -> (v < 256 ^ N.of_nat (width t))%N ->
  in_range t (signed_value t v) /\ pattern t (signed_value t v) = v.
Proof.
  intros W V. unfold signed_value, pattern, in_range. pose proof (half t W) as H.
  assert (P : (0 < 2 ^ (8 * Z.of_nat (width t) - 1))%Z) by (apply Z.pow_pos_nonneg; lia).
  assert (V' : (Z.of_N v < 2 ^ (8 * Z.of_nat (width t)))%Z) by (rewrite pow_bytes; lia).
  set (A := (2 ^ (8 * Z.of_nat (width t)))%Z) in *.
  set (B := (2 ^ (8 * Z.of_nat (width t) - 1))%Z) in *.
  destruct (signed t); cbn [andb].
  - destruct (B <=? Z.of_N v)%Z eqn:C.
    + apply Z.leb_le in C. split; [lia|].
      rewrite <- (Z_mod_plus_full _ 1 A), Z.mod_small by lia. lia.
    + apply Z.leb_gt in C. split; [lia|]. rewrite Z.mod_small by lia. lia.
  - split; [lia|]. rewrite Z.mod_small by lia. lia.
Qed.

Lemma pattern_inj t x y : 0 < width t -> in_range t x -> in_range t y ->
  pattern t x = pattern t y -> x = y.
Proof.
  intros W X Y E. rewrite <- (signed_pattern t x), <- (signed_pattern t y), E by easy. easy.
Qed.

(* ------------------------------------------------------------------ *)
(** ** Endianness *)

(** The byte order a wrapper declares. *)
Definition declared (h : order) (w : wrapper) : order :=
  match w with Native => h | BigEndian => BigFirst | LittleEndian => LittleFirst end.

Definition image (h : order) (w : wrapper) (t : raw) (z : Z) : list N :=
  host_bytes (declared h w) (width (int t)) (pattern (int t) z).

Lemma make_image h w t size z : width (int t) <= size ->
  make h w t size z =
    Some (map Some (image h w t z) ++ repeat None (size - width (int t))).
Proof.
  intros S. unfold make, from_native, store, image, from_raw. fold (pattern (int t) z).
  assert (G : forall l, length l = width (int t) ->
    transmute_copy_uninit size (map Some l)
      = map Some l ++ repeat None (size - width (int t))).
  { intros l L. rewrite transmute_grow; rewrite map_length, L; easy. }
  destruct (needs_swap h w) eqn:E.
  - rewrite bswap_copy_rev by apply host_is_bytes.
    rewrite G by (rewrite rev_length; apply host_length). do 3 f_equal.
    destruct h, w; cbn in *; try easy. apply rev_involutive.
  - rewrite G by apply host_length. do 3 f_equal. destruct h, w; easy.
Qed.

Lemma value_object h w t l r : length l = width (int t) -> bytes l ->
  value h w t (map Some l ++ r) =
    let z := signed_value (int t) (of_host (declared h w) l) in
    if nonzero t && (z =? 0)%Z then None else Some z.
Proof.
  intros L B. unfold value, to_native, to_raw.
  rewrite <- L, <- (map_length Some l), transmute_shrink.
  destruct (needs_swap h w) eqn:E.
  - rewrite bswap_copy_rev by easy. unfold load. rewrite init_some.
    replace (of_host h (rev l)) with (of_host (declared h w) l); [easy|].
    destruct h, w; cbn in *; try easy. now rewrite rev_involutive.
  - unfold load. rewrite init_some.
    replace (of_host h l) with (of_host (declared h w) l); [easy|].
    destruct h, w; cbn in *; easy.
Qed.

Lemma image_length h w t z : length (image h w t z) = width (int t).
Proof. apply host_length. Qed.

Lemma image_bytes h w t z : bytes (image h w t z).
Proof. apply host_is_bytes. Qed.

Lemma value_make h w t z r : 0 < width (int t) -> in_range (int t) z ->
  (nonzero t = true -> z <> 0%Z) ->
  value h w t (map Some (image h w t z) ++ r) = Some z.
Proof.
  intros W R NZ. rewrite value_object by (apply image_length || apply image_bytes).
  unfold image. rewrite of_host_bytes, N.mod_small by apply pattern_bound.
  rewrite signed_pattern by easy. cbn zeta.
  destruct (nonzero t); cbn [andb]; [|easy].
  now replace (z =? 0)%Z with false by (symmetry; apply Z.eqb_neq; auto).
Qed.

Lemma make_value h w t l r z : 0 < width (int t) ->
  length l = width (int t) -> bytes l ->
  value h w t (map Some l ++ r) = Some z ->
  in_range (int t) z /\ (nonzero t = true -> z <> 0%Z) /\ image h w t z = l.
Proof.
  intros W L B V. rewrite value_object in V by easy. cbn zeta in V.
  pose proof (of_host_bound (declared h w) l B) as Bd. rewrite L in Bd.
  destruct (pattern_signed (int t) _ W Bd) as [R P].
  set (s := signed_value (int t) (of_host (declared h w) l)) in *.
  destruct (nonzero t && (s =? 0)%Z) eqn:E; [easy|]. injection V as <-.
  repeat split; try easy.
  - intros NZ. rewrite NZ in E. cbn in E. now apply Z.eqb_neq.
  - unfold image. rewrite P, <- L. now apply host_of_host.
Qed.

Lemma value_zero h w t l r : 0 < width (int t) -> length l = width (int t) -> bytes l ->
  value h w t (map Some l ++ r) = None <->
  nonzero t = true /\ Forall (fun b => b = 0%N) l.
Proof.
  intros W L B. rewrite value_object by easy. cbn zeta.
  pose proof (of_host_bound (declared h w) l B) as Bd. rewrite L in Bd.
  destruct (pattern_signed (int t) _ W Bd) as [R P].
  set (s := signed_value (int t) (of_host (declared h w) l)) in *.
  assert (Z0 : of_host (declared h w) l = 0%N <-> Forall (fun b => b = 0%N) l).
  { assert (G : forall k, of_le k = 0%N <-> Forall (fun b => b = 0%N) k).
    { induction k as [|b k IH]; cbn [of_le]; [split; [constructor|easy]|].
      rewrite Forall_cons_iff, <- IH. lia. }
    destruct (declared h w); cbn; rewrite G; [|easy].
    split; intros F; [rewrite <- (rev_involutive l)|]; now apply Forall_rev. }
  assert (S0 : s = 0%Z <-> of_host (declared h w) l = 0%N).
  { split; intros E.
    - rewrite <- P, E. unfold pattern. now rewrite Zmod_0_l.
    - unfold s. rewrite E. unfold signed_value.
      assert (0 < 2 ^ (8 * Z.of_nat (width (int t)) - 1))%Z by (apply Z.pow_pos_nonneg; lia).
      replace (_ <=? Z.of_N 0)%Z with false by (symmetry; apply Z.leb_gt; lia).
      rewrite andb_false_r. easy. }
  rewrite <- Z0, <- S0. destruct (nonzero t); cbn [andb].
  - destruct (s =? 0)%Z eqn:E; split; try easy.
    + intros _. split; [easy|now apply Z.eqb_eq].
    + intros [_ C]. apply Z.eqb_neq in E. easy.
  - split; [easy|intros [C _]; easy].
Qed.

(* ------------------------------------------------------------------ *)
(** ** Layout of packed and aligned integers *)

Lemma round_up_1 n : round_up n 1 = n.
Proof. unfold round_up. rewrite Nat.add_sub, Nat.div_1_r. lia. Qed.

Lemma round_up_0 a : 0 < a -> round_up 0 a = 0.
Proof. intros A. unfold round_up. rewrite Nat.div_small by lia. easy. Qed.

Lemma round_up_le n a : 0 < a -> n <= round_up n a.
Proof.
  intros A. unfold round_up. pose proof (Nat.div_mod_eq (n + a - 1) a) as E.
  pose proof (Nat.mod_upper_bound (n + a - 1) a ltac:(lia)). nia.
Qed.

Lemma round_up_least n a : 0 < a -> least_multiple a n (round_up n a).
Proof.
  intros A. split; [now apply round_up_le|]. split.
  - exists ((n + a - 1) / a). reflexivity.
  - intros q Q [k ->]. unfold round_up. apply Nat.mul_le_mono_r.
    assert ((n + a - 1) / a < S k); [|lia]. apply Nat.div_lt_upper_bound; nia.
Qed.

Lemma packed_align v : align_of (packed_ty v) = 1.
Proof. easy. Qed.

Lemma packed_size v : size_of (packed_ty v) = size_of v.
Proof.
  change (size_of (packed_ty v)) with (round_up (round_up 0 1 + size_of v) 1).
  now rewrite !round_up_1.
Qed.

Lemma integer_align v a : 0 < a -> align_of (integer_ty v a) = a.
Proof. intros A. destruct a; [lia|]. cbn. lia. Qed.

Lemma integer_size v a : 0 < a -> size_of (integer_ty v a) = round_up (size_of v) a.
Proof.
  intros A. unfold integer_ty.
  change (size_of (Struct false 1 [packed_ty v; Array 0 (marker_ty a)]))
    with (round_up (round_up (round_up 0 1 + size_of (packed_ty v)) (align_of (marker_ty a)) + 0)
            (align_of (integer_ty v a))).
  rewrite integer_align, packed_size, round_up_1, Nat.add_0_r, Nat.add_0_l by easy.
  assert (E : align_of (marker_ty a) = a) by (destruct a; [lia|]; cbn; lia). rewrite E.
  destruct (round_up_least (size_of v) a A) as (_ & D & _).
  destruct (round_up_least (round_up (size_of v) a) a A) as (L & _ & M).
  apply Nat.le_antisymm; [now apply M|easy].
Qed.

Lemma integer_offsets v a : nth 0 (offsets_of (integer_ty v a)) 0 = 0.
Proof. apply round_up_1. Qed.

Lemma packed_offsets v : nth 0 (offsets_of (packed_ty v)) 0 = 0.
Proof. apply round_up_1. Qed.

Lemma splice_0 {A} (m x : list A) : splice m 0 x = x ++ skipn (length x) m.
Proof. easy. Qed.

Lemma skipn_repeat {A} (x : A) a k : skipn a (repeat x k) = repeat x (k - a).
Proof. revert k; induction a as [|a IH]; intros [|k]; cbn; auto. Qed.

Lemma integer_new_image v a (m : mem) : 0 < a -> length m = size_of v ->
  integer_new v a m = m ++ repeat None (size_of (integer_ty v a) - size_of v).
Proof.
  intros A L. unfold integer_new, packed_new, build.
  assert (P : fill (offsets_of (packed_ty v)) [m] (repeat None (size_of (packed_ty v))) = m).
  { change (offsets_of (packed_ty v)) with [round_up 0 1]. cbn [fill].
    rewrite round_up_1, splice_0, skipn_repeat, packed_size, L, Nat.sub_diag. apply app_nil_r. }
  rewrite P.
  change (offsets_of (integer_ty v a)) with
    [round_up 0 1; round_up (round_up 0 1 + size_of (packed_ty v)) (align_of (marker_ty a))].
  cbn [fill]. rewrite round_up_1.
  rewrite splice_0, skipn_repeat, L. unfold splice. rewrite Nat.add_0_r. cbn [app length].
  now rewrite firstn_skipn.
Qed.

Lemma integer_get_image v a (m r : mem) : length m = size_of v -> integer_get v a (m ++ r) = m.
Proof.
  intros L. unfold integer_get, packed_get, field. rewrite integer_offsets, packed_offsets.
  cbn [fields_of integer_ty packed_ty nth Nat.add].
  change (Struct true 1 [v]) with (packed_ty v). rewrite packed_size, <- L.
  unfold slice. rewrite Nat.sub_0_r. cbn [skipn]. rewrite firstn_exact. apply firstn_all.
Qed.

Lemma integer_set_image v a (m r x : mem) : length m = size_of v -> length x = size_of v ->
  integer_set v a (m ++ r) x = x ++ r.
Proof.
  intros L X. unfold integer_set, packed_set. cbn [fst]. rewrite integer_offsets, packed_offsets.
  assert (F : field (integer_ty v a) 0 (m ++ r) = m).
  { unfold field. rewrite integer_offsets. cbn [fields_of integer_ty nth Nat.add].
    rewrite packed_size, <- L. unfold slice. rewrite Nat.sub_0_r. cbn [skipn]. apply firstn_exact. }
  rewrite F. rewrite (splice_0 m), skipn_all2 by lia. rewrite app_nil_r.
  rewrite splice_0, X, <- L. f_equal.
  rewrite skipn_app, skipn_all, Nat.sub_diag. easy.
Qed.

Lemma integer_field_image v a (m r : mem) : length m = size_of v -> field (integer_ty v a) 0 (m ++ r) = m.
Proof.
  intros L. unfold field. rewrite integer_offsets. cbn [fields_of integer_ty nth Nat.add].
  rewrite packed_size, <- L. unfold slice. rewrite Nat.sub_0_r. cbn [skipn]. apply firstn_exact.
Qed.

Lemma packed_new_image v (m : mem) : length m = size_of v -> packed_new v m = m.
Proof.
  intros L. unfold packed_new, build. change (offsets_of (packed_ty v)) with [round_up 0 1]. cbn [fill].
  rewrite round_up_1, splice_0, skipn_repeat, packed_size, L, Nat.sub_diag. apply app_nil_r.
Qed.

Lemma packed_get_image v (m : mem) : length m = size_of v -> packed_get v m = m.
Proof.
  intros L. unfold packed_get, field. rewrite packed_offsets. cbn [fields_of packed_ty nth Nat.add].
  unfold slice. rewrite Nat.sub_0_r. cbn [skipn]. rewrite <- L. apply firstn_all.
Qed.

Lemma packed_use_image v (m : mem) u : length m = size_of v -> length (put u) = size_of v ->
  packed_use v m u = (put u, match u with USet _ => None | _ => Some m end, match u with USet _ => Some m | _ => None end).
Proof.
  intros L X.
  assert (S : splice m 0 (put u) = put u).
  { rewrite splice_0, skipn_all2 by lia. apply app_nil_r. }
  assert (R : slice m 0 (0 + size_of v) = m).
  { unfold slice. rewrite Nat.sub_0_r. cbn [skipn Nat.add]. rewrite <- L. apply firstn_all. }
  destruct u; cbn [packed_use packed_set packed_replace put] in *; unfold packed_set, packed_replace, packed_ptr;
    rewrite packed_offsets, S, ?R, ?packed_get_image; easy.
Qed.

Lemma integer_use_image v a (m r : mem) u : length m = size_of v -> length (put u) = size_of v ->
  integer_use v a (m ++ r) u
  = (put u ++ r, match u with USet _ => None | _ => Some m end, match u with USet _ => Some m | _ => None end).
Proof.
  intros L X. pose proof (packed_use_image v m u L X) as P.
  assert (S : splice (m ++ r) 0 (put u) = put u ++ r).
  { rewrite splice_0, X, <- L. f_equal. rewrite skipn_app, skipn_all, Nat.sub_diag. easy. }
  destruct u; cbn [packed_use integer_use put] in *; unfold integer_set, integer_dropped, integer_replace;
    rewrite integer_offsets, integer_field_image by easy.
  - destruct (packed_set v m x) as [p o]. inversion P; subst. cbn [fst snd]. now rewrite S.
  - destruct (packed_replace v m x) as [p o]. inversion P; subst. now rewrite S.
  - destruct (packed_replace v m d) as [p o]. inversion P; subst. now rewrite S.
Qed.

(** A step that acts on a value in front of a fixed rest behaves as a cell. *)
Lemma uses_cell (step : mem -> use mem -> used) (n : nat) (r : mem) :
  (forall m u, length m = n -> length (put u) = n ->
    step (m ++ r) u
    = (put u ++ r, match u with USet _ => None | _ => Some m end, match u with USet _ => Some m | _ => None end)) ->
  forall us m, length m = n -> Forall (fun u => length (put u) = n) us ->
  exists z log, uses step (m ++ r) us = (z ++ r, log) /\ cell m us log z /\ length z = n.
Proof.
  intros S. induction us as [|u us IH]; intros m L F.
  - exists m, []. repeat split; [constructor|easy].
  - inversion F as [|u0 us0 U US]; subst u0 us0. cbn [uses]. rewrite S by easy.
    destruct (IH (put u) U US) as (z & log & -> & C & Z).
    eexists z, _. repeat split; [|easy]. destruct u; now constructor.
Qed.

Lemma cell_keeps {V} (x : V) us log z : cell x us log z ->
  Permutation (x :: map put us) (z :: given_back log ++ destroyed log).
Proof.
  intros C. induction C as [x|x y us log z C IH|x y us log z C IH|x d us log z C IH];
    cbn [map put given_back destroyed flat_map fst snd app] in *; fold (@given_back V) (@destroyed V) in *.
  - apply Permutation_refl.
  - rewrite IH. rewrite app_comm_cons. etransitivity; [apply Permutation_middle|]. easy.
  - rewrite IH. constructor.
  - rewrite IH. constructor.
Qed.

Lemma cell_fun {V} (x : V) us log z : cell x us log z -> forall log' z', cell x us log' z' -> log = log' /\ z = z'.
Proof.
  induction 1 as [x|x y us log z C IH|x y us log z C IH|x d us log z C IH]; intros log' z' D; inversion D; subst;
    try easy; match goal with H : cell _ _ _ _ |- _ => destruct (IH _ _ H) as [-> ->]; easy end.
Qed.

Lemma cell_last {V} (x : V) us log z : cell x us log z -> z = last (map put us) x.
Proof.
  assert (E : forall (l : list V) a b, last (a :: l) b = last l a).
  { clear. induction l as [|y l IH]; intros a b; [easy|]. change (last (a :: y :: l) b) with (last (y :: l) b).
    now rewrite !IH. }
  induction 1; cbn [map put]; rewrite ?E; easy.
Qed.
