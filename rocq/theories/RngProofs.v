(** Proofs about Mix64 and SplitMix64. *)
From Coq Require Import Znumtheory.
From Verif Require Import Base RngModel RngSpec.
Local Open Scope N_scope.

Lemma W64_pos : 0 < W64. Proof. reflexivity. Qed.
Lemma W64_nz : W64 <> 0. Proof. discriminate. Qed.

(** ** Bounds through bits *)
Lemma lt_bits n k : (forall i, k <= i -> N.testbit n i = false) -> n < 2 ^ k.
Proof.
  intros H. destruct (N.eq_dec n 0) as [->|Hn]; [apply N.neq_0_lt_0, N.pow_nonzero; lia|].
  apply N.log2_lt_pow2; [lia|].
  destruct (N.lt_ge_cases (N.log2 n) k) as [|Hk]; [assumption|].
  pose proof (N.bit_log2 n Hn) as B. rewrite (H _ Hk) in B. discriminate.
Qed.
Lemma bits_lt n k i : n < 2 ^ k -> k <= i -> N.testbit n i = false.
Proof.
  intros H Hi. destruct (N.eq_dec n 0) as [->|Hn]; [apply N.bits_0|].
  apply N.bits_above_log2. apply N.log2_lt_pow2 in H; lia.
Qed.
Lemma lxor_lt a b k : a < 2 ^ k -> b < 2 ^ k -> N.lxor a b < 2 ^ k.
Proof.
  intros Ha Hb. apply lt_bits. intros i Hi.
  rewrite N.lxor_spec, (bits_lt a k i), (bits_lt b k i) by assumption. reflexivity.
Qed.
Lemma lor_lt a b k : a < 2 ^ k -> b < 2 ^ k -> N.lor a b < 2 ^ k.
Proof.
  intros Ha Hb. apply lt_bits. intros i Hi.
  rewrite N.lor_spec, (bits_lt a k i), (bits_lt b k i) by assumption. reflexivity.
Qed.
Lemma shiftr_lt a n k : a < 2 ^ k -> N.shiftr a n < 2 ^ k.
Proof.
  intros Ha. apply lt_bits. intros i Hi.
  rewrite N.shiftr_spec by lia. apply (bits_lt a k); [assumption|lia].
Qed.

(** ** The mixing functions are permutations *)
(** Inverse of `v ^ (v >> k)` on 64 bits, for 3 k >= 64. *)
Definition unxsr (k v : N) : N := N.lxor (N.lxor v (N.shiftr v k)) (N.shiftr v (2 * k)).
Definition xsr (k v : N) : N := N.lxor v (N.shiftr v k).
Lemma xsr_lt k v : v < W64 -> xsr k v < W64.
Proof. intros H. apply (lxor_lt _ _ 64); [exact H|apply shiftr_lt; exact H]. Qed.
Lemma unxsr_lt k v : v < W64 -> unxsr k v < W64.
Proof.
  intros H. apply (lxor_lt _ _ 64); [apply xsr_lt; exact H|apply shiftr_lt; exact H].
Qed.
Lemma xsr_unxsr k v : 64 <= 3 * k -> v < W64 -> xsr k (unxsr k v) = v.
Proof.
  intros Hk Hv. apply N.bits_inj. intros i. unfold xsr, unxsr.
  rewrite !N.lxor_spec, !N.shiftr_spec, !N.lxor_spec, !N.shiftr_spec by lia.
  replace (i + k + 2 * k) with (i + 3 * k) by lia. replace (i + k + k) with (i + 2 * k) by lia.
  rewrite (bits_lt v 64 (i + 3 * k) Hv) by lia.
  destruct (N.testbit v i), (N.testbit v (i + k)), (N.testbit v (i + 2 * k)); reflexivity.
Qed.
Lemma unxsr_xsr k v : 64 <= 3 * k -> v < W64 -> unxsr k (xsr k v) = v.
Proof.
  intros Hk Hv. apply N.bits_inj. intros i. unfold xsr, unxsr.
  rewrite !N.lxor_spec, !N.shiftr_spec, !N.lxor_spec, !N.shiftr_spec by lia.
  replace (i + 2 * k + k) with (i + 3 * k) by lia. replace (i + k + k) with (i + 2 * k) by lia.
  rewrite (bits_lt v 64 (i + 3 * k) Hv) by lia.
  destruct (N.testbit v i), (N.testbit v (i + k)), (N.testbit v (i + 2 * k)); reflexivity.
Qed.

Lemma wmul_lt a b : wmul a b < W64. Proof. apply N.mod_upper_bound, W64_nz. Qed.
Lemma wadd_lt a b : wadd a b < W64. Proof. apply N.mod_upper_bound, W64_nz. Qed.
Lemma wmul_inv a c c' : (c * c') mod W64 = 1 -> a < W64 -> wmul (wmul a c) c' = a.
Proof.
  intros H Ha. unfold wmul. rewrite N.mul_mod_idemp_l by apply W64_nz.
  rewrite <- N.mul_assoc, <- N.mul_mod_idemp_r, H, N.mul_1_r by apply W64_nz.
  apply N.mod_small, Ha.
Qed.

Definition unmix64 (v : N) : N :=
  unxsr 30 (wmul (unxsr 27 (wmul (unxsr 31 v) 0x319642b2d24d8ec3)) 0x96de1b173f119089).
Lemma mix64_eq v : mix64 v =
  xsr 31 (wmul (xsr 27 (wmul (xsr 30 v) 0xbf58476d1ce4e5b9)) 0x94d049bb133111eb).
Proof. reflexivity. Qed.
Lemma mix64_lt v : mix64 v < W64.
Proof. rewrite mix64_eq. apply xsr_lt, wmul_lt. Qed.
Lemma unmix64_lt v : unmix64 v < W64.
Proof. unfold unmix64. apply unxsr_lt, wmul_lt. Qed.
Lemma unmix64_mix64 v : v < W64 -> unmix64 (mix64 v) = v.
Proof.
  intros H. rewrite mix64_eq. unfold unmix64.
  rewrite unxsr_xsr by (lia || apply wmul_lt).
  rewrite wmul_inv by (reflexivity || apply xsr_lt, wmul_lt).
  rewrite unxsr_xsr by (lia || apply wmul_lt).
  rewrite wmul_inv by (reflexivity || apply xsr_lt, H).
  apply unxsr_xsr; [lia|exact H].
Qed.
Lemma mix64_unmix64 v : v < W64 -> mix64 (unmix64 v) = v.
Proof.
  intros H. rewrite mix64_eq. unfold unmix64.
  rewrite xsr_unxsr by (lia || apply wmul_lt).
  rewrite wmul_inv by (reflexivity || apply unxsr_lt, wmul_lt).
  rewrite xsr_unxsr by (lia || apply wmul_lt).
  rewrite wmul_inv by (reflexivity || apply unxsr_lt, H).
  apply xsr_unxsr; [lia|exact H].
Qed.

(** ** The stream of a generator *)
Lemma iter_succ {A} (f : A -> A) n x : N.iter (N.succ n) f x = f (N.iter n f x).
Proof. apply N.iter_succ. Qed.
Lemma iter_add {A} (f : A -> A) n m x : N.iter (n + m) f x = N.iter n f (N.iter m f x).
Proof. apply N.iter_add. Qed.

Lemma skip_iter s i : mix s < W64 ->
  N.iter i sm_skip s = {| mix := (mix s + i * gamma s) mod W64; gamma := gamma s |}.
Proof.
  intros Hs. induction i as [|i IH] using N.peano_ind.
  - cbn [N.iter]. rewrite N.mul_0_l, N.add_0_r, N.mod_small by exact Hs. destruct s; reflexivity.
  - rewrite iter_succ, IH. unfold sm_skip, sm_next64, mix_step, wadd. cbn [snd mix gamma].
    f_equal. rewrite N.add_mod_idemp_l by apply W64_nz. f_equal. lia.
Qed.

Lemma out64_eq s i : mix s < W64 ->
  sm_out64 s i = mix64 ((mix s + (i + 1) * gamma s) mod W64).
Proof.
  intros Hs. unfold sm_out64. rewrite skip_iter by exact Hs.
  unfold sm_next64, mix_step, wadd. cbn [fst mix gamma]. f_equal.
  rewrite N.add_mod_idemp_l by apply W64_nz. f_equal. lia.
Qed.

Lemma mod_eq_divide a b m : m <> 0 -> a <= b -> a mod m = b mod m -> (m | b - a).
Proof.
  intros Hm Hab H. exists (b / m - a / m).
  pose proof (N.div_mod a m Hm). pose proof (N.div_mod b m Hm).
  pose proof (N.div_le_mono a b m Hm Hab).
  rewrite N.mul_sub_distr_r. nia.
Qed.

Lemma odd_coprime g k : N.odd g = true -> N.gcd (2 ^ k) g = 1.
Proof.
  intros Hg. induction k as [|k IH] using N.peano_ind.
  - rewrite N.pow_0_r. apply N.gcd_1_l.
  - rewrite N.pow_succ_r'.
    destruct (N.eq_dec (N.gcd (2 * 2 ^ k) g) 1) as [|Hn]; [assumption|].
    exfalso. set (d := N.gcd (2 * 2 ^ k) g) in *.
    assert (D1 : (d | 2 * 2 ^ k)) by apply N.gcd_divide_l.
    assert (D2 : (d | g)) by apply N.gcd_divide_r.
    assert (Hd2 : N.gcd d 2 = 1).
    { destruct (N.eq_dec (N.gcd d 2) 1) as [|H2]; [assumption|]. exfalso.
      assert (D3 : (N.gcd d 2 | 2)) by apply N.gcd_divide_r.
      apply N.divide_pos_le in D3 as L; [|lia].
      assert (N.gcd d 2 = 2). { destruct D3 as [q Hq]. assert (N.gcd d 2 <> 0) by (intros Z; rewrite Z in Hq; lia). lia. }
      assert (D4 : (2 | g)). { eapply N.divide_trans; [|exact D2]. rewrite <- H. apply N.gcd_divide_l. }
      destruct D4 as [q Hq]. rewrite Hq in Hg. rewrite N.mul_comm, N.odd_mul in Hg. discriminate. }
    apply N.gauss in D1; [|exact Hd2].
    assert (D5 : (d | N.gcd (2 ^ k) g)) by (apply N.gcd_greatest; assumption).
    rewrite IH in D5. apply N.divide_1_r in D5. contradiction.
Qed.

Lemma inj_states m g i j : m < W64 -> N.odd g = true -> i < W64 -> j < W64 ->
  (m + (i + 1) * g) mod W64 = (m + (j + 1) * g) mod W64 -> i = j.
Proof.
  assert (G : forall i j, i <= j -> m < W64 -> N.odd g = true -> i < W64 -> j < W64 ->
    (m + (i + 1) * g) mod W64 = (m + (j + 1) * g) mod W64 -> i = j).
  { clear i j. intros i j Hij Hm Hg Hi Hj H.
    apply mod_eq_divide in H; [|apply W64_nz|nia].
    replace (m + (j + 1) * g - (m + (i + 1) * g)) with (g * (j - i)) in H by nia.
    apply N.gauss in H; [|apply odd_coprime, Hg].
    destruct (N.eq_dec (j - i) 0) as [|Hn]; [lia|].
    apply N.divide_pos_le in H; lia. }
  intros Hm Hg Hi Hj H. destruct (N.le_ge_cases i j) as [L|L].
  - apply G; assumption.
  - symmetry. apply G; try assumption. symmetry; exact H.
Qed.

Lemma inverse_mod g : N.odd g = true -> exists h, (g * h) mod W64 = 1.
Proof.
  intros Hg. pose proof (odd_coprime g 64 Hg) as Hc. change (2 ^ 64) with W64 in Hc.
  assert (Hp : 0 < g) by (destruct g; [discriminate|lia]).
  destruct (N.gcd_bezout_pos_pos W64 W64_pos g Hp) as [_ [a [b E]]].
  rewrite Hc in E. exists a. rewrite (N.mul_comm g a), E, N.mod_add by apply W64_nz. reflexivity.
Qed.

(** The position at which the state [t] occurs, for an inverse [h] of gamma. *)
Definition pos_of (m h t : N) : N := ((t + (W64 - m)) * h + (W64 - 1)) mod W64.
Lemma pos_of_ok m g h t : m < W64 -> (g * h) mod W64 = 1 -> t < W64 ->
  pos_of m h t < W64 /\ (m + (pos_of m h t + 1) * g) mod W64 = t.
Proof.
  intros Hm Hh Ht. unfold pos_of. split; [apply N.mod_upper_bound, W64_nz|].
  set (a := (t + (W64 - m)) * h).
  assert (E : (((a + (W64 - 1)) mod W64 + 1) * g) mod W64 = (t + (W64 - m)) mod W64).
  { rewrite <- N.mul_mod_idemp_l, N.add_mod_idemp_l, N.mul_mod_idemp_l by apply W64_nz.
    replace ((a + (W64 - 1) + 1) * g) with ((t + (W64 - m)) * (g * h) + g * W64)
      by (unfold a; pose proof W64_pos; nia).
    rewrite N.mod_add by apply W64_nz.
    rewrite <- N.mul_mod_idemp_r, Hh, N.mul_1_r by apply W64_nz. reflexivity. }
  rewrite <- N.add_mod_idemp_r, E, N.add_mod_idemp_r by apply W64_nz.
  replace (m + (t + (W64 - m))) with (t + 1 * W64)
    by (clear - Hm; rewrite N.mul_1_l; revert Hm; generalize W64; intros; lia).
  rewrite N.mod_add by apply W64_nz. apply N.mod_small, Ht.
Qed.
Lemma surj_states m g t : m < W64 -> N.odd g = true -> t < W64 ->
  exists i, i < W64 /\ (m + (i + 1) * g) mod W64 = t.
Proof.
  intros Hm Hg Ht. destruct (inverse_mod g Hg) as [h Hh].
  exists (pos_of m h t). apply pos_of_ok; assumption.
Qed.

(** A well-formed generator: machine words, odd increment. *)
Definition sm_wf (s : SplitMix64) : Prop :=
  mix s < W64 /\ gamma s < W64 /\ N.odd (gamma s) = true.

Lemma full_period s : sm_wf s ->
  (forall i j, i < 2 ^ 64 -> j < 2 ^ 64 -> sm_out64 s i = sm_out64 s j -> i = j) /\
  (forall v, v < 2 ^ 64 -> exists i, i < 2 ^ 64 /\ sm_out64 s i = v) /\
  (forall i, sm_out64 s (i + 2 ^ 64) = sm_out64 s i) /\
  (forall i, sm_out64 s i < 2 ^ 64).
Proof.
  intros [Hm [Hgl Hg]]. change (2 ^ 64) with W64.
  split; [|split; [|split]].
  - intros i j Hi Hj H. rewrite !out64_eq in H by exact Hm.
    assert (E : (mix s + (i + 1) * gamma s) mod W64 = (mix s + (j + 1) * gamma s) mod W64).
    { rewrite <- (unmix64_mix64 ((mix s + (i + 1) * gamma s) mod W64)), H by apply N.mod_upper_bound, W64_nz.
      apply unmix64_mix64, N.mod_upper_bound, W64_nz. }
    apply (inj_states (mix s) (gamma s)); auto; congruence.
  - intros v Hv. destruct (surj_states (mix s) (gamma s) (unmix64 v) Hm Hg (unmix64_lt v)) as [i [Hi E]].
    exists i. split; [exact Hi|]. rewrite out64_eq, E by exact Hm. apply mix64_unmix64, Hv.
  - intros i. rewrite !out64_eq by exact Hm. f_equal.
    replace (mix s + (i + W64 + 1) * gamma s) with (mix s + (i + 1) * gamma s + gamma s * W64) by lia.
    apply N.mod_add, W64_nz.
  - intros i. unfold sm_out64, sm_next64. cbn [fst]. apply mix64_lt.
Qed.

(** ** Splitting *)
Lemma mixg_ok v : mixg v < W64 /\ N.odd (mixg v) = true.
Proof.
  unfold mixg.
  set (a := wmul (N.lxor v (N.shiftr v 33)) _).
  set (b := wmul (N.lxor a (N.shiftr a 33)) _).
  assert (Hb : N.lxor b (N.shiftr b 33) < W64) by (apply xsr_lt, wmul_lt).
  set (c := N.lor (N.lxor b (N.shiftr b 33)) 1).
  assert (Hc : c < W64) by (apply (lor_lt _ _ 64); [exact Hb|reflexivity]).
  assert (Ho : N.odd c = true).
  { rewrite <- N.bit0_odd. unfold c. rewrite N.lor_spec. cbn [N.testbit]. apply orb_true_r. }
  destruct (_ <? 24).
  - split; [apply (lxor_lt _ _ 64); [exact Hc|reflexivity]|].
    rewrite <- N.bit0_odd, N.lxor_spec, N.bit0_odd, Ho. reflexivity.
  - split; assumption.
Qed.

Lemma split_ok s : sm_wf s ->
  sm_wf (fst (sm_split s)) /\ sm_wf (snd (sm_split s)) /\
  snd (sm_split s) = sm_skip (sm_skip s).
Proof.
  intros [Hm [Hgl Hg]]. unfold sm_split. cbn [fst snd]. split; [|split].
  - unfold sm_wf, sm_with, mix_with_seed. cbn [mix gamma].
    destruct (mixg_ok (mix_step (mix_step (mix s) (gamma s)) (gamma s))) as [G1 G2].
    split; [apply mix64_lt|]. split; assumption.
  - unfold sm_wf. cbn [mix gamma]. split; [apply wadd_lt|]. split; assumption.
  - reflexivity.
Qed.

Lemma reachable_wf s : sm_reachable s -> sm_wf s.
Proof.
  intros R. induction R as [seed H|m H|s R IH|s R IH|s R IH|s R IH|m H].
  - split; [exact H|]. split; reflexivity.
  - split; [exact H|]. split; reflexivity.
  - destruct IH as [H1 [H2 H3]]. split; [apply wadd_lt|]. split; assumption.
  - destruct IH as [H1 [H2 H3]]. split; [apply wadd_lt|]. split; assumption.
  - apply split_ok, IH.
  - apply split_ok, IH.
  - unfold mix_split. cbn [fst]. unfold sm_wf, sm_with, mix_with_seed. cbn [mix gamma].
    destruct (mixg_ok (mix_step (mix_step m GAMMA) GAMMA)) as [G1 G2].
    split; [apply mix64_lt|]. split; assumption.
Qed.

(** Mix64 is SplitMix64 with the fixed increment. *)
Lemma mix_is_splitmix m :
  fst (mix_next64 m) = fst (sm_next64 (sm_from_mix64 m)) /\
  sm_from_mix64 (snd (mix_next64 m)) = snd (sm_next64 (sm_from_mix64 m)) /\
  fst (mix_next32 m) = fst (sm_next32 (sm_from_mix64 m)) /\
  sm_from_mix64 (snd (mix_next32 m)) = snd (sm_next32 (sm_from_mix64 m)) /\
  fst (mix_split m) = fst (sm_split (sm_from_mix64 m)) /\
  sm_from_mix64 (snd (mix_split m)) = snd (sm_split (sm_from_mix64 m)).
Proof. repeat split. Qed.

(** ** 32-bit outputs: every value occurs equally often *)
Definition mix32_full (v : N) : N :=
  wmul (xsr 28 (wmul (xsr 33 v) 0x62a9d9ed799705f5)) 0xcb24d0a5c88c35b3.
Definition unmix32_full (v : N) : N :=
  unxsr 33 (wmul (unxsr 28 (wmul v 0x13a10fc6e8a1817b)) 0x8e7fc80bbd7bbe5d).
Lemma mix32_eq v : mix32 v = N.shiftr (mix32_full v) 32 mod 2 ^ 32.
Proof. reflexivity. Qed.
Lemma mix32_div v : mix32 v = mix32_full v / 2 ^ 32.
Proof.
  rewrite mix32_eq, N.shiftr_div_pow2. apply N.mod_small.
  apply N.div_lt_upper_bound; [discriminate|]. exact (wmul_lt _ _).
Qed.
Lemma unmix32_mix32 v : v < W64 -> unmix32_full (mix32_full v) = v.
Proof.
  intros H. unfold mix32_full, unmix32_full.
  rewrite wmul_inv by (reflexivity || apply xsr_lt, wmul_lt).
  rewrite unxsr_xsr by (lia || apply wmul_lt).
  rewrite wmul_inv by (reflexivity || apply xsr_lt, H).
  apply unxsr_xsr; [lia|exact H].
Qed.
Lemma mix32_unmix32 v : v < W64 -> mix32_full (unmix32_full v) = v.
Proof.
  intros H. unfold mix32_full, unmix32_full.
  rewrite xsr_unxsr by (lia || apply wmul_lt).
  rewrite wmul_inv by (reflexivity || apply unxsr_lt, wmul_lt).
  rewrite xsr_unxsr by (lia || apply wmul_lt).
  apply wmul_inv; [reflexivity|exact H].
Qed.

Lemma out32_eq s i : mix s < W64 ->
  sm_out32 s i = mix32 ((mix s + (i + 1) * gamma s) mod W64).
Proof.
  intros Hs. unfold sm_out32. rewrite skip_iter by exact Hs.
  unfold sm_next32, mix_step, wadd. cbn [fst mix gamma]. f_equal.
  rewrite N.add_mod_idemp_l by apply W64_nz. f_equal. lia.
Qed.

Lemma equidistributed32 s v : sm_wf s -> v < 2 ^ 32 ->
  exists f : N -> N,
    (forall k, k < 2 ^ 32 -> f k < 2 ^ 64 /\ sm_out32 s (f k) = v) /\
    (forall k l, k < 2 ^ 32 -> l < 2 ^ 32 -> f k = f l -> k = l) /\
    (forall i, i < 2 ^ 64 -> sm_out32 s i = v -> exists k, k < 2 ^ 32 /\ i = f k).
Proof.
  intros [Hm [Hgl Hg]] Hv. destruct (inverse_mod (gamma s) Hg) as [h Hh].
  assert (Hb : forall k, k < 2 ^ 32 -> v * 2 ^ 32 + k < W64).
  { intros k Hk. change W64 with (2 ^ 32 * 2 ^ 32). nia. }
  assert (Hu : forall t, unmix32_full t < W64) by (intros; apply unxsr_lt, wmul_lt).
  exists (fun k => pos_of (mix s) h (unmix32_full (v * 2 ^ 32 + k))).
  assert (Hp : forall k, pos_of (mix s) h (unmix32_full (v * 2 ^ 32 + k)) < W64 /\
    (mix s + (pos_of (mix s) h (unmix32_full (v * 2 ^ 32 + k)) + 1) * gamma s) mod W64 = unmix32_full (v * 2 ^ 32 + k)).
  { intros k. apply pos_of_ok; try assumption. apply Hu. }
  split; [|split].
  - intros k Hk. destruct (Hp k) as [P1 P2]. split; [exact P1|].
    rewrite out32_eq, P2, mix32_div, mix32_unmix32 by auto.
    rewrite N.div_add_l by discriminate. rewrite N.div_small by exact Hk. apply N.add_0_r.
  - intros k l Hk Hl E. destruct (Hp k) as [_ P1], (Hp l) as [_ P2].
    rewrite E in P1. rewrite P1 in P2.
    assert (v * 2 ^ 32 + k = v * 2 ^ 32 + l); [|lia].
    rewrite <- (mix32_unmix32 (v * 2 ^ 32 + k)), P2 by auto. apply mix32_unmix32; auto.
  - intros i Hi E. rewrite out32_eq, mix32_div in E by exact Hm.
    set (t := (mix s + (i + 1) * gamma s) mod W64) in *.
    assert (Ht : t < W64) by apply N.mod_upper_bound, W64_nz.
    exists (mix32_full t mod 2 ^ 32). split; [apply N.mod_upper_bound; discriminate|].
    set (k := mix32_full t mod 2 ^ 32).
    assert (Ek : v * 2 ^ 32 + k = mix32_full t).
    { unfold k. rewrite <- E, N.mul_comm. symmetry. apply N.div_mod. discriminate. }
    destruct (Hp k) as [P1 P2]. rewrite Ek, unmix32_mix32 in P2 by exact Ht.
    rewrite Ek in P1 |- *. rewrite unmix32_mix32 in P1 |- * by exact Ht.
    apply (inj_states (mix s) (gamma s)); auto; congruence.
Qed.
