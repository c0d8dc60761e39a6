(** Consequences: one cycle, disjoint jump streams, seeding. *)
From Verif Require Import Base RngModel RngSpec RngProofs XoshiroProofs XoshiroPoly XoshiroPeriod.
Local Open Scope N_scope.

(** An injective map from M numbers into M numbers is onto. *)
Lemma pigeonhole (f : N -> N) (M : N) :
  (forall i, i < M -> 1 <= f i <= M) ->
  (forall i j, i < M -> j < M -> f i = f j -> i = j) ->
  forall t, 1 <= t <= M -> exists i, i < M /\ f i = t.
Proof.
  intros Hr Hi t Ht.
  set (l := map (fun i => N.to_nat (f (N.of_nat i))) (seq 0 (N.to_nat M))).
  assert (ND : NoDup l).
  { unfold l. assert (G : forall n s, (s + n <= N.to_nat M)%nat ->
      NoDup (map (fun i => N.to_nat (f (N.of_nat i))) (seq s n))).
    { induction n as [|n IH]; intros s Hs; cbn [seq map]; constructor.
      - intros Hin. apply in_map_iff in Hin. destruct Hin as [j [E Hj]]. apply in_seq in Hj.
        apply N2Nat.inj in E. apply Hi in E; lia.
      - apply IH. lia. }
    apply G. lia. }
  assert (Inc : incl l (seq 1 (N.to_nat M))).
  { intros x Hx. unfold l in Hx. apply in_map_iff in Hx. destruct Hx as [i [<- Hx]]. apply in_seq in Hx.
    apply in_seq. pose proof (Hr (N.of_nat i) ltac:(lia)). lia. }
  assert (Inc' : incl (seq 1 (N.to_nat M)) l).
  { apply NoDup_length_incl; [exact ND| |exact Inc].
    unfold l. rewrite map_length, !seq_length. lia. }
  assert (Hin : In (N.to_nat t) l) by (apply Inc', in_seq; lia).
  unfold l in Hin. apply in_map_iff in Hin. destruct Hin as [i [E Hx]]. apply in_seq in Hx.
  exists (N.of_nat i). split; [lia|]. apply N2Nat.inj, E.
Qed.

Definition encode (s : Xoshiro) : N := x0 s + 2 ^ 64 * (x1 s + 2 ^ 64 * (x2 s + 2 ^ 64 * x3 s)).
Lemma split_eq B a b a' b' : a < B -> a' < B -> a + B * b = a' + B * b' -> a = a' /\ b = b'.
Proof. intros Ha Ha' E. assert (b = b') by nia. subst. lia. Qed.
Lemma encode_inj s t : x_wf s -> x_wf t -> encode s = encode t -> s = t.
Proof.
  intros [A0 [A1 [A2 A3]]] [B0 [B1 [B2 B3]]] E. unfold encode in E.
  apply split_eq in E; [|assumption..]. destruct E as [E0 E].
  apply split_eq in E; [|assumption..]. destruct E as [E1 E].
  apply split_eq in E; [|assumption..]. destruct E as [E2 E3].
  destruct s as [p q r u], t as [p' q' r' u']; cbn in *; congruence.
Qed.
Lemma encode_range s : x_wf s -> s <> zero -> 1 <= encode s <= 2 ^ 256 - 1.
Proof.
  intros [A0 [A1 [A2 A3]]] Hs.
  assert (Hz : encode s <> 0).
  { intros E. apply Hs. apply encode_inj; [repeat split; assumption|apply wf_zero|exact E]. }
  unfold encode in *. change (2 ^ 256) with (2 ^ 64 * (2 ^ 64 * (2 ^ 64 * 2 ^ 64))).
  revert A0 A1 A2 A3 Hz. generalize (x0 s), (x1 s), (x2 s), (x3 s), (2 ^ 64). intros a b c d B A0 A1 A2 A3 Hz.
  assert (c + B * d + 1 <= B * B) by nia.
  assert (b + B * (c + B * d) + 1 <= B * (B * B)) by nia.
  nia.
Qed.

Lemma iter_zero_inv s e : x_wf s -> s <> zero -> N.iter e stepL s <> zero.
Proof.
  intros W Hs E. apply Hs. apply (iter_inj e); [exact W|apply wf_zero|]. rewrite E.
  symmetry. clear. induction e as [|e IH] using N.peano_ind; [reflexivity|].
  rewrite N.iter_succ, IH. reflexivity.
Qed.

Lemma single_cycle s t : x_wf s -> s <> zero -> x_wf t -> t <> zero ->
  exists k, k < 2 ^ 256 - 1 /\ N.iter k step s = t.
Proof.
  intros Ws Hs Wt Ht.
  destruct (pigeonhole (fun i => encode (N.iter i step s)) (2 ^ 256 - 1)) with (t := encode t) as [k [Hk E]].
  - intros i Hi. rewrite iter_step by exact Ws.
    apply encode_range; [apply wf_iter, Ws|apply iter_zero_inv; assumption].
  - intros i j Hi Hj E. apply encode_inj in E; try (rewrite iter_step by exact Ws; apply wf_iter, Ws).
    exact (proj2 (x_period s Ws Hs) i j Hi Hj E).
  - apply encode_range; assumption.
  - exists k. split; [exact Hk|]. apply encode_inj; [|exact Wt|exact E].
    rewrite iter_step by exact Ws. apply wf_iter, Ws.
Qed.

Lemma iter_mul {A} (f : A -> A) n m x : N.iter n (N.iter m f) x = N.iter (n * m) f x.
Proof.
  induction n as [|n IH] using N.peano_ind; [reflexivity|].
  rewrite N.iter_succ, IH, <- N.iter_add. f_equal. lia.
Qed.
Lemma jumps_ok a s : x_wf s -> x_wf (N.iter a x_jump128 s) /\
  N.iter a x_jump128 s = N.iter (a * 2 ^ 128) step s.
Proof.
  intros W. induction a as [|a IH] using N.peano_ind; [split; [exact W|reflexivity]|].
  rewrite !N.iter_succ. destruct IH as [W' IH].
  assert (E : x_jump128 (N.iter a x_jump128 s) = N.iter (N.succ a * 2 ^ 128) step s).
  { rewrite jump128_ok, IH, <- N.iter_add by exact W'. f_equal. lia. }
  rewrite E. split; [|reflexivity]. rewrite iter_step by exact W. apply wf_iter, W.
Qed.

Lemma disjoint_streams s a b i j : x_wf s -> s <> zero ->
  a < 2 ^ 128 - 1 -> b < 2 ^ 128 - 1 -> i < 2 ^ 128 -> j < 2 ^ 128 ->
  N.iter i step (N.iter a x_jump128 s) = N.iter j step (N.iter b x_jump128 s) -> a = b /\ i = j.
Proof.
  intros W Hs Ha Hb Hi Hj E.
  destruct (jumps_ok a s W) as [_ Ea], (jumps_ok b s W) as [_ Eb].
  rewrite Ea, Eb, <- !N.iter_add in E.
  apply (proj2 (x_period s W Hs)) in E.
  - rewrite !(N.mul_comm _ (2 ^ 128)) in E.
    apply split_eq in E; [|assumption..]. tauto.
  - change (2 ^ 256) with (2 ^ 128 * 2 ^ 128). revert Ha Hi. generalize (2 ^ 128). intros. nia.
  - change (2 ^ 256) with (2 ^ 128 * 2 ^ 128). revert Hb Hj. generalize (2 ^ 128). intros. nia.
Qed.

(** ** Generators reachable through the interface are never all zero *)
Lemma MIX64_0_ok : x_wf MIX64_0 /\ x0 MIX64_0 <> 0 /\ x1 MIX64_0 <> 0 /\ x2 MIX64_0 <> 0 /\ x3 MIX64_0 <> 0.
Proof. split; [|vm_compute; repeat split; discriminate]. repeat split. Qed.
Lemma with_seed_ok s : x_wf s -> x_wf (x_with_seed s) /\ x_with_seed s <> zero.
Proof.
  intros W. unfold x_with_seed. destruct (_ && _) eqn:E.
  - split; [apply MIX64_0_ok|]. intros Z. pose proof MIX64_0_ok as [_ [H _]]. rewrite Z in H. apply H. reflexivity.
  - split; [exact W|]. intros ->. discriminate E.
Qed.
Lemma step_nonzero s e : x_wf s -> s <> zero -> x_wf (N.iter e step s) /\ N.iter e step s <> zero.
Proof. intros W H. rewrite iter_step by exact W. split; [apply wf_iter, W|apply iter_zero_inv; assumption]. Qed.
Lemma x_reachable_ok s : x_reachable s -> x_wf s /\ s <> zero.
Proof.
  intros R. induction R as [s W|m R|s R [W H]|s R [W H]|s R [W H]].
  - apply with_seed_ok, W.
  - cbn [x_from_splitmix64 sm_next64 fst]. apply with_seed_ok.
    repeat split; cbn [x0 x1 x2 x3]; apply mix64_lt.
  - exact (step_nonzero s 1 W H).
  - rewrite jump128_ok by exact W. apply step_nonzero; assumption.
  - rewrite jump192_ok by exact W. apply step_nonzero; assumption.
Qed.

Lemma x_bijective :
  (forall a b, x_wf a -> x_wf b -> step a = step b -> a = b) /\
  (forall t, x_wf t -> exists s, x_wf s /\ step s = t) /\
  step zero = zero.
Proof.
  split; [exact step_inj|]. split; [|reflexivity].
  intros t W. exists (unstep t). split; [apply wf_unstep, W|apply step_unstep, W].
Qed.

Lemma from_splitmix s : mix64 (wadd (mix s) (gamma s)) <> 0 ->
  let v := sm_out64 s 0 in
  x_from_splitmix64 s = (X v v v v, sm_skip s).
Proof.
  intros H. cbv zeta. unfold sm_out64. cbn [N.iter].
  unfold x_from_splitmix64, sm_skip, sm_next64, mix_step. cbn [fst snd].
  unfold x_with_seed. cbn [x0]. rewrite (proj2 (N.eqb_neq _ _) H). reflexivity.
Qed.

(** ** The increments of split generators *)
Fixpoint count_bits (n : nat) (v : N) : N :=
  match n with O => 0 | S n => (if N.odd v then 1 else 0) + count_bits n (N.div2 v) end.
Lemma count_0 n : count_bits n 0 = 0.
Proof. induction n as [|n IH]; [reflexivity|cbn; exact IH]. Qed.
Lemma popcount_count n : forall v, v < 2 ^ N.of_nat n -> popcount v = count_bits n v.
Proof.
  induction n as [|n IH]; intros v Hv.
  - change (v < 1) in Hv. assert (v = 0) by lia. subst. reflexivity.
  - rewrite Nat2N.inj_succ, N.pow_succ_r' in Hv.
    destruct v as [|[p|p|]]; [cbn; symmetry; apply count_0|..]; cbn [count_bits N.odd N.div2].
    + rewrite <- IH by lia. reflexivity.
    + rewrite <- IH by lia. reflexivity.
    + rewrite <- IH by lia. reflexivity.
Qed.
Lemma count_filter n : forall v, count_bits n v =
  N.of_nat (length (filter (fun k => N.testbit v (N.of_nat k)) (seq 0 n))).
Proof.
  induction n as [|n IH]; intros v; [reflexivity|].
  cbn [count_bits seq filter]. rewrite IH, <- seq_shift.
  assert (E : forall l, length (filter (fun k => N.testbit v (N.of_nat k)) (map S l)) =
                        length (filter (fun k => N.testbit (N.div2 v) (N.of_nat k)) l)).
  { induction l as [|a l IHl]; [reflexivity|]. cbn [map filter].
    rewrite Nat2N.inj_succ, N.div2_spec, N.shiftr_spec', N.add_1_r.
    destruct (N.testbit v _); cbn [length]; rewrite IHl; rewrite N.div2_spec; reflexivity. }
  rewrite N.bit0_odd. destruct (N.odd v); cbn [length]; rewrite E; lia.
Qed.
Lemma count_not n : forall v w, (forall k, k < N.of_nat n -> N.testbit w k = negb (N.testbit v k)) ->
  count_bits n v + count_bits n w = N.of_nat n.
Proof.
  induction n as [|n IH]; intros v w H; [reflexivity|].
  cbn [count_bits]. specialize (IH (N.div2 v) (N.div2 w)).
  pose proof (H 0 ltac:(lia)) as H0. rewrite !N.bit0_odd in H0.
  assert (IH' := IH ltac:(intros k Hk; rewrite !N.div2_spec, !N.shiftr_spec'; apply H; lia)).
  rewrite H0. destruct (N.odd v); cbn [negb]; lia.
Qed.
Lemma transitions_pop g : g < W64 -> N.of_nat (bit_transitions g) = popcount (N.lxor g (N.shiftr g 1)).
Proof.
  intros Hg. assert (Hl : N.lxor g (N.shiftr g 1) < W64).
  { apply lxor_lt; [exact Hg|]. rewrite N.shiftr_div_pow2.
    eapply N.le_lt_trans; [apply N.div_le_upper_bound; [discriminate|]|exact Hg]. lia. }
  rewrite (popcount_count 64) by exact Hl. rewrite count_filter.
  unfold bit_transitions. f_equal. f_equal. apply filter_ext. intros k.
  rewrite N.lxor_spec, N.shiftr_spec'. destruct (N.testbit g _), (N.testbit g _); reflexivity.
Qed.
Lemma transitions_not v : v < W64 ->
  popcount (N.lxor v (N.shiftr v 1)) < 24 ->
  24 <= popcount (N.lxor (N.lxor v 0xaaaaaaaaaaaaaaaa) (N.shiftr (N.lxor v 0xaaaaaaaaaaaaaaaa) 1)).
Proof.
  intros Hv H.
  assert (L : forall x, x < W64 -> N.lxor x (N.shiftr x 1) < W64).
  { intros x Hx. apply lxor_lt; [exact Hx|]. rewrite N.shiftr_div_pow2.
    eapply N.le_lt_trans; [apply N.div_le_upper_bound; [discriminate|]|exact Hx]. lia. }
  rewrite (popcount_count 64) in H by (apply L, Hv).
  rewrite (popcount_count 64) by (apply L, lxor_lt; [exact Hv|reflexivity]).
  pose proof (count_not 64 (N.lxor v (N.shiftr v 1))
    (N.lxor (N.lxor v 0xaaaaaaaaaaaaaaaa) (N.shiftr (N.lxor v 0xaaaaaaaaaaaaaaaa) 1))) as C.
  revert H C. generalize (count_bits 64 (N.lxor v (N.shiftr v 1))).
  generalize (count_bits 64 (N.lxor (N.lxor v 0xaaaaaaaaaaaaaaaa) (N.shiftr (N.lxor v 0xaaaaaaaaaaaaaaaa) 1))).
  intros a b H C. enough (b + a = 64) by lia. apply C. clear. intros k Hk.
  rewrite N.shiftr_lxor.
  replace (N.lxor (N.lxor v 0xaaaaaaaaaaaaaaaa) (N.lxor (N.shiftr v 1) (N.shiftr 0xaaaaaaaaaaaaaaaa 1)))
    with (N.lxor (N.lxor v (N.shiftr v 1)) (N.ones 64)).
  - rewrite N.lxor_spec, N.ones_spec_low by exact Hk. apply xorb_true_r.
  - change (N.ones 64) with (N.lxor 0xaaaaaaaaaaaaaaaa (N.shiftr 0xaaaaaaaaaaaaaaaa 1)).
    generalize (N.shiftr 0xaaaaaaaaaaaaaaaa 1), 0xaaaaaaaaaaaaaaaa, (N.shiftr v 1). intros.
    apply N.bits_inj. intros j. rewrite !N.lxor_spec.
    repeat destruct (N.testbit _ j); reflexivity.
Qed.
Lemma mixg_transitions v : (24 <= bit_transitions (mixg v))%nat.
Proof.
  enough (24 <= N.of_nat (bit_transitions (mixg v))) by lia.
  rewrite transitions_pop by apply mixg_ok. unfold mixg.
  set (a := wmul (N.lxor v (N.shiftr v 33)) _).
  set (b := wmul (N.lxor a (N.shiftr a 33)) _). cbv zeta.
  set (c := N.lor (N.lxor b (N.shiftr b 33)) 1).
  assert (Hc : c < W64).
  { apply lor_lt; [|reflexivity]. apply xsr_lt, wmul_lt. }
  destruct (popcount (N.lxor c (N.shiftr c 1)) <? 24) eqn:E.
  - apply transitions_not; [exact Hc|apply N.ltb_lt, E].
  - apply N.ltb_ge, E.
Qed.
Lemma reachable_transitions s : sm_reachable s -> (24 <= bit_transitions (gamma s))%nat.
Proof.
  intros R. induction R as [seed H|m H|s R IH|s R IH|s R IH|s R IH|m H]; try exact IH;
    try (apply mixg_transitions); vm_compute; lia.
Qed.

Lemma from_splitmix_copies s : sm_reachable s ->
  exists v, fst (x_from_splitmix64 s) = X v v v v /\ v <> 0 /\
    (sm_out64 s 0 <> 0 -> v = sm_out64 s 0) /\ snd (x_from_splitmix64 s) = sm_skip s.
Proof.
  intros _. destruct (N.eq_dec (sm_out64 s 0) 0) as [E|E].
  - exists (x0 MIX64_0). split; [|split; [apply MIX64_0_ok|split; [intros F; contradiction|reflexivity]]].
    unfold x_from_splitmix64. change (sm_next64 s) with (fst (sm_next64 s), snd (sm_next64 s)).
    change (fst (sm_next64 s)) with (sm_out64 s 0). rewrite E. reflexivity.
  - exists (sm_out64 s 0). split; [|split; [exact E|split; [reflexivity|reflexivity]]].
    exact (f_equal fst (from_splitmix s E)).
Qed.

Lemma with_seed_spec s :
  (s = zero -> x_with_seed s = fst (x_from_splitmix64 (sm_with_seed 0))) /\
  (s <> zero -> x_with_seed s = s).
Proof.
  split; [intros ->; vm_compute; reflexivity|]. intros H. unfold x_with_seed.
  destruct (_ && _) eqn:E; [|reflexivity]. exfalso. apply H.
  rewrite !andb_true_iff, !N.eqb_eq in E. destruct s as [p q r t]; cbn in E.
  destruct E as [[[-> ->] ->] ->]. reflexivity.
Qed.
