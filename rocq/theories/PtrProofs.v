(** Proofs about tagged pointers (PtrModel.v). *)
From Verif Require Import Base PtrSpec PtrModel.
Local Open Scope N_scope.

Definition repr (w : N) (t : tagged) (s : N) : Prop :=
  pointer w (address t) /\ s = address t + bit (tag0 t) + 2 * bit (tag1 t).

Lemma meta_mod s : meta s = s mod 4.
Proof. unfold meta. change MASK_META with (N.ones 2). now rewrite N.land_ones. Qed.

Lemma mask_addr w s : 2 <= w -> s < 2 ^ w -> N.land s (MASK_ADDR w) = 4 * (s / 4).
Proof.
  intros W S. unfold MASK_ADDR, not_.
  assert (E : N.land s (N.lxor MASK_META (N.ones w)) = N.ldiff s (N.ones 2)).
  { apply N.bits_inj. intros k. rewrite N.land_spec, N.lxor_spec, N.ldiff_spec.
    change MASK_META with (N.ones 2).
    destruct (N.ltb_spec k w) as [K|K].
    - rewrite (N.ones_spec_low w) by lia. now rewrite xorb_true_r.
    - rewrite (N.bits_above_log2 s); [easy|].
      destruct (N.eq_dec s 0) as [->|NZ]; [|apply N.log2_lt_pow2; [lia|]].
      + cbn. lia.
      + eapply N.lt_le_trans; [exact S|]. apply N.pow_le_mono_r; lia. }
  rewrite E, N.ldiff_ones_r, N.shiftr_div_pow2, N.shiftl_mul_pow2.
  change (2 ^ 2) with 4. lia.
Qed.

Lemma lor_low q m : m < 4 -> N.lor (4 * q) m = 4 * q + m.
Proof.
  intros M. assert (Z : N.land (4 * q) m = 0).
  { apply N.bits_inj. intros k. rewrite N.land_spec, N.bits_0.
    destruct (N.ltb_spec k 2) as [K|K].
    - replace (4 * q) with (N.shiftl q 2) by (rewrite N.shiftl_mul_pow2; lia).
      now rewrite N.shiftl_spec_low.
    - rewrite (N.bits_above_log2 m); [apply andb_false_r|].
      destruct (N.eq_dec m 0) as [->|NZ]; [cbn; lia|].
      apply N.log2_lt_pow2; [lia|]. eapply N.lt_le_trans; [exact M|].
      change 4 with (2 ^ 2). apply N.pow_le_mono_r; lia. }
  rewrite <- N.lxor_lor, <- N.add_nocarry_lxor; easy.
Qed.

Lemma bit_bound b : bit b < 2.
Proof. destruct b; cbn; lia. Qed.

Lemma repr_parts w t s : 2 <= w -> repr w t s ->
  s mod 4 = bit (tag0 t) + 2 * bit (tag1 t) /\ 4 * (s / 4) = address t /\ s < 2 ^ w /\ s <> 0.
Proof.
  intros W [(NZ & Al & B) ->].
  pose proof (bit_bound (tag0 t)). pose proof (bit_bound (tag1 t)).
  set (m := bit (tag0 t) + 2 * bit (tag1 t)).
  assert (M : m < 4) by (unfold m; lia).
  pose proof (N.div_mod' (address t) 4) as D. rewrite Al in D.
  replace (address t + bit (tag0 t) + 2 * bit (tag1 t)) with (m + (address t / 4) * 4)
    by (unfold m; lia).
  rewrite N.mod_add, N.mod_small, N.div_add, N.div_small by lia.
  assert (P : 2 ^ w = 4 * 2 ^ (w - 2)).
  { change 4 with (2 ^ 2). rewrite <- N.pow_add_r. f_equal. lia. }
  repeat split; lia.
Qed.

Lemma low_bits m : m mod 4 = bit (N.testbit m 0) + 2 * bit (N.testbit m 1).
Proof.
  assert (E : m mod 4 = N.land m (N.ones 2)) by now rewrite N.land_ones.
  assert (T : forall k, k < 2 -> N.testbit m k = N.testbit (m mod 4) k).
  { intros k K. rewrite E, N.land_spec, N.ones_spec_low by lia. now rewrite andb_true_r. }
  rewrite (T 0), (T 1) by lia.
  pose proof (N.mod_upper_bound m 4 ltac:(lia)) as B. revert B. generalize (m mod 4).
  intros r B. assert (C : r = 0 \/ r = 1 \/ r = 2 \/ r = 3) by lia.
  destruct C as [ -> |[ -> |[ -> | -> ]]]; reflexivity.
Qed.

Lemma step_meta w t s m : 2 <= w -> repr w t s ->
  repr w {| address := address t; tag0 := N.testbit m 0; tag1 := N.testbit m 1 |} (set_meta w s m).
Proof.
  intros W R. destruct (repr_parts w t s W R) as (M & A & B & NZ). destruct R as [P _].
  split; [exact P|]. cbn [address tag0 tag1]. unfold set_meta.
  rewrite mask_addr by easy. change (N.land m MASK_META) with (meta m).
  rewrite meta_mod, lor_low by (apply N.mod_upper_bound; lia).
  rewrite A, low_bits. lia.
Qed.

Lemma step_ptr w t s a : 2 <= w -> repr w t s -> pointer w a ->
  repr w {| address := a; tag0 := tag0 t; tag1 := tag1 t |} (set_ptr_unchecked w s a).
Proof.
  intros W R P. destruct (repr_parts w t s W R) as (M & A & B & NZ).
  split; [exact P|]. cbn [address tag0 tag1]. unfold set_ptr_unchecked.
  destruct P as (PN & PA & PB).
  rewrite mask_addr, meta_mod, lor_low by (easy || apply N.mod_upper_bound; lia).
  pose proof (N.div_mod' a 4) as D. rewrite PA in D. rewrite M. lia.
Qed.

Lemma shl_bit w v i k : k < w -> i < w -> (v = 0 \/ v = 1) ->
  exists x, shl w v i = Ok x /\ N.testbit x k = ((k =? i) && (v =? 1))%bool.
Proof.
  intros K I V. unfold shl. replace (i <? w) with true by (symmetry; now apply N.ltb_lt).
  eexists. split; [reflexivity|]. rewrite N.mod_pow2_bits_low by easy.
  destruct (N.ltb_spec k i) as [L|L].
  - rewrite N.shiftl_spec_low by easy.
    replace (k =? i) with false by (symmetry; apply N.eqb_neq; lia). easy.
  - rewrite N.shiftl_spec_high' by easy. destruct V as [ -> | -> ].
    + rewrite N.bits_0. cbn. now rewrite andb_false_r.
    + destruct (N.eqb_spec k i) as [ -> |NE].
      * now rewrite N.sub_diag.
      * apply (N.bits_above_log2 1). cbn. lia.
Qed.

Lemma shl_ok w v i : i < w -> exists x, shl w v i = Ok x.
Proof. intros I. unfold shl. replace (i <? w) with true by (symmetry; now apply N.ltb_lt). eauto. Qed.

Lemma step_bit w t s i f : 2 <= w -> repr w t s -> i < w ->
  exists s', set_meta_bit w s i f = Ok s' /\
  repr w {| address := address t;
            tag0 := if i =? 0 then f else tag0 t;
            tag1 := if i =? 1 then f else tag1 t |} s'.
Proof.
  intros W R I. unfold set_meta_bit.
  destruct (shl_ok w 1 i I) as [one O]. rewrite O. cbn [bind].
  destruct (shl_ok w (if f then 1 else 0) i I) as [g G]. rewrite G. cbn [bind].
  eexists. split; [reflexivity|].
  set (m := N.lor (N.land (meta s) (not_ w one)) g).
  assert (T : forall k, k < 2 ->
     N.testbit m k = if k =? i then f else N.testbit (s mod 4) k).
  { intros k K. unfold m, not_. rewrite N.lor_spec, N.land_spec, N.lxor_spec.
    rewrite N.ones_spec_low by lia.
    destruct (shl_bit w 1 i k) as (o' & O' & T1); [lia|easy|now right|].
    rewrite O in O'. injection O' as <-.
    destruct (shl_bit w (if f then 1 else 0) i k) as (g' & G' & T2);
      [lia|easy|destruct f; auto|].
    rewrite G in G'. injection G' as <-.
    rewrite T1, T2, meta_mod. destruct (k =? i); cbn.
    - rewrite andb_false_r. now destruct f.
    - now rewrite andb_true_r, orb_false_r. }
  pose proof (step_meta w t s m W R) as S.
  destruct (repr_parts w t s W R) as (M & _).
  assert (T0 : N.testbit (s mod 4) 0 = tag0 t) by (rewrite M; destruct (tag0 t), (tag1 t); easy).
  assert (T1 : N.testbit (s mod 4) 1 = tag1 t) by (rewrite M; destruct (tag0 t), (tag1 t); easy).
  rewrite (T 0), (T 1), T0, T1 in S by lia.
  now rewrite (N.eqb_sym i 0), (N.eqb_sym i 1).
Qed.

Lemma step_repr w t s o : 2 <= w -> repr w t s -> allowed w o ->
  exists s', step w s o = Ok s' /\ repr w (apply t o) s'.
Proof.
  intros W R A. destruct o as [a|m|i f|f|f]; cbn [step].
  - eexists. split; [easy|]. now apply step_ptr.
  - eexists. split; [easy|]. now apply step_meta.
  - destruct (step_bit w t s i f W R A) as (s' & E & R'). exists s'. split; [exact E|].
    destruct i as [|[p|p|]]; try exact R'; cbn in R' |- *; destruct t; exact R'.
  - unfold set0. destruct (step_bit w t s 0 f W R) as (s' & E & R'); [lia|]. eauto.
  - unfold set1. destruct (step_bit w t s 1 f W R) as (s' & E & R'); [lia|]. eauto.
Qed.

Lemma run_repr w os : 2 <= w -> forall t s, repr w t s -> Forall (allowed w) os ->
  exists s', run w s os = Ok s' /\ repr w (fold_left apply os t) s'.
Proof.
  intros W. induction os as [|o os IH]; intros t s R F; cbn [run fold_left]; [eauto|].
  inversion F as [|o0 os0 A F']; subst o0 os0.
  destruct (step_repr w t s o W R A) as (s1 & E & R1). rewrite E. cbn [bind].
  now apply IH.
Qed.

Lemma meta_bit_repr w t s i : 2 <= w -> repr w t s -> i < w ->
  meta_bit w s i = Ok (if i =? 0 then tag0 t else if i =? 1 then tag1 t else false).
Proof.
  intros W R I. unfold meta_bit. destruct (shl_ok w 1 i I) as [one O]. rewrite O. cbn [bind].
  destruct (repr_parts w t s W R) as (M & _). rewrite meta_mod, M. f_equal.
  assert (E : one = 2 ^ i).
  { unfold shl in O. replace (i <? w) with true in O by (symmetry; now apply N.ltb_lt).
    rewrite N.shiftl_1_l, N.mod_small in O by (apply N.pow_lt_mono_r; lia). congruence. }
  rewrite E. clear -I W.
  assert (C : forall v, N.land v (2 ^ i) = if N.testbit v i then 2 ^ i else 0).
  { intros v. apply N.bits_inj. intros k. rewrite N.land_spec, N.pow2_bits_eqb.
    destruct (N.eqb_spec i k) as [ -> |NE].
    - destruct (N.testbit v k); rewrite ?N.pow2_bits_true, ?N.bits_0; easy.
    - rewrite andb_false_r. destruct (N.testbit v i); rewrite ?N.pow2_bits_false, ?N.bits_0 by easy; easy. }
  rewrite C.
  destruct (N.eqb_spec i 0) as [ -> |N0]; [destruct (tag0 t), (tag1 t); easy|].
  destruct (N.eqb_spec i 1) as [ -> |N1]; [destruct (tag0 t), (tag1 t); easy|].
  assert (F : N.testbit (bit (tag0 t) + 2 * bit (tag1 t)) i = false).
  { pose proof (bit_bound (tag0 t)). pose proof (bit_bound (tag1 t)).
    set (m := bit (tag0 t) + 2 * bit (tag1 t)) in *.
    apply N.bits_above_log2. destruct (N.eq_dec m 0) as [->|NZ]; [cbn; lia|].
    apply N.log2_lt_pow2; [lia|]. apply N.lt_le_trans with (2 ^ 2); [change (2^2) with 4; lia|].
    apply N.pow_le_mono_r; lia. }
  rewrite F. apply N.eqb_neq. pose proof (N.pow_nonzero 2 i). lia.
Qed.
