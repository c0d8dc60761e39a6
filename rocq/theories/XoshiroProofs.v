(** The Xoshiro256++ state transition as a linear map over GF(2): inverse,
    annihilating polynomial, jumps as powers. *)
From Verif Require Import Base RngModel RngSpec RngProofs.
Local Open Scope N_scope.

Notation "a <+> b" := (xor_words a b) (at level 50, left associativity).

Lemma add_comm a b : a <+> b = b <+> a.
Proof. unfold xor_words. rewrite (N.lxor_comm (x0 a)), (N.lxor_comm (x1 a)), (N.lxor_comm (x2 a)), (N.lxor_comm (x3 a)). reflexivity. Qed.
Lemma add_assoc a b c : a <+> b <+> c = a <+> (b <+> c).
Proof. unfold xor_words; cbn [x0 x1 x2 x3]. rewrite !N.lxor_assoc. reflexivity. Qed.
Lemma add_0_r a : a <+> zero = a.
Proof. unfold xor_words; destruct a as [p q r t]; cbn [x0 x1 x2 x3 zero]. rewrite !N.lxor_0_r. reflexivity. Qed.
Lemma add_0_l a : zero <+> a = a.
Proof. rewrite add_comm. apply add_0_r. Qed.
Lemma add_self a : a <+> a = zero.
Proof. unfold xor_words. rewrite !N.lxor_nilpotent. reflexivity. Qed.
Lemma add_cancel a b : a <+> (a <+> b) = b.
Proof. rewrite <- add_assoc, add_self. apply add_0_l. Qed.
Lemma add_eq_0 a b : a <+> b = zero -> a = b.
Proof. intros H. rewrite <- (add_cancel a b), H, add_0_r. reflexivity. Qed.
Lemma wf_zero : x_wf zero. Proof. repeat split. Qed.
Lemma wf_add a b : x_wf a -> x_wf b -> x_wf (a <+> b).
Proof.
  intros [A0 [A1 [A2 A3]]] [B0 [B1 [B2 B3]]].
  split; [|split; [|split]]; apply lxor_lt; assumption.
Qed.

(** ** The step without carries between bits, defined on all numbers *)
Definition M64 : N := 0xffffffffffffffff.
Definition shlL (a n : N) : N := N.land (N.shiftl a n) M64.
Definition rotL (a n : N) : N := N.lxor (shlL a n) (N.shiftr a (64 - n)).
Definition stepL (s : Xoshiro) : Xoshiro :=
  let s2 := N.lxor (x2 s) (x0 s) in
  let s3 := N.lxor (x3 s) (x1 s) in
  X (N.lxor (x0 s) s3) (N.lxor (x1 s) s2) (N.lxor s2 (shlL (x1 s) 17)) (rotL s3 45).

Lemma shlL_eq a n : shl64 a n = shlL a n.
Proof. unfold shl64, shlL. change M64 with (N.ones 64). rewrite N.land_ones. reflexivity. Qed.
Lemma shlL_spec a n i : N.testbit (shlL a n) i = (n <=? i) && N.testbit a (i - n) && (i <? 64).
Proof.
  unfold shlL. rewrite N.land_spec. change M64 with (N.ones 64).
  destruct (N.ltb_spec i 64) as [Hi|Hi].
  - rewrite N.ones_spec_low by exact Hi. rewrite !andb_true_r.
    destruct (N.leb_spec n i).
    + rewrite N.shiftl_spec_high' by assumption. reflexivity.
    + rewrite N.shiftl_spec_low by assumption. reflexivity.
  - rewrite N.ones_spec_high by exact Hi. rewrite !andb_false_r. reflexivity.
Qed.
Lemma rotl_eq a n : a < 2 ^ 64 -> 0 < n < 64 -> rotl64 a n = rotL a n.
Proof.
  intros Ha Hn. unfold rotl64, rotL. rewrite shlL_eq.
  apply N.bits_inj. intros i. rewrite N.lor_spec, N.lxor_spec, shlL_spec, N.shiftr_spec by lia.
  destruct (N.leb_spec n i); cbn [andb].
  - rewrite (bits_lt a 64 (i + (64 - n))) by (assumption || lia).
    rewrite orb_false_r, xorb_false_r. reflexivity.
  - destruct (N.testbit a (i + (64 - n))); reflexivity.
Qed.
Lemma shlL_lt a n : shlL a n < 2 ^ 64.
Proof. apply lt_bits. intros i Hi. rewrite shlL_spec. rewrite (proj2 (N.ltb_ge _ _) Hi), andb_false_r. reflexivity. Qed.
Lemma rotL_lt a n : a < 2 ^ 64 -> rotL a n < 2 ^ 64.
Proof. intros Ha. apply lxor_lt; [apply shlL_lt|apply shiftr_lt; exact Ha]. Qed.

Lemma step_eq s : x_wf s -> step s = stepL s.
Proof.
  intros [H0 [H1 [H2 H3]]]. unfold step, stepL. rewrite shlL_eq.
  rewrite rotl_eq; [reflexivity | apply lxor_lt; assumption | lia].
Qed.
Lemma wf_stepL s : x_wf s -> x_wf (stepL s).
Proof.
  intros [H0 [H1 [H2 H3]]]. unfold stepL.
  repeat split; cbn [x0 x1 x2 x3]; repeat apply lxor_lt; try assumption; try apply shlL_lt.
  apply shiftr_lt, lxor_lt; assumption.
Qed.
Lemma wf_step s : x_wf s -> x_wf (step s).
Proof. intros H. rewrite step_eq by exact H. apply wf_stepL, H. Qed.

Lemma shlL_lxor a b n : shlL (N.lxor a b) n = N.lxor (shlL a n) (shlL b n).
Proof.
  apply N.bits_inj; intros i. rewrite N.lxor_spec, !shlL_spec, N.lxor_spec.
  destruct (n <=? i), (N.testbit a (i - n)), (N.testbit b (i - n)), (i <? 64); reflexivity.
Qed.
Lemma rotL_lxor a b n : rotL (N.lxor a b) n = N.lxor (rotL a n) (rotL b n).
Proof.
  unfold rotL. rewrite shlL_lxor, N.shiftr_lxor.
  rewrite !N.lxor_assoc. f_equal. rewrite <- !N.lxor_assoc. f_equal. apply N.lxor_comm.
Qed.
Ltac lx := apply N.bits_inj; intros ?i; rewrite ?N.lxor_spec;
  repeat match goal with |- context [N.testbit ?a ?j] => destruct (N.testbit a j) end; reflexivity.
Lemma stepL_add a b : stepL (a <+> b) = stepL a <+> stepL b.
Proof.
  unfold stepL, xor_words; cbn [x0 x1 x2 x3]. rewrite !shlL_lxor.
  f_equal; try lx. rewrite <- rotL_lxor. f_equal. lx.
Qed.
Lemma stepL_0 : stepL zero = zero. Proof. reflexivity. Qed.

(** ** Inverse *)
Lemma rotL_inv a : a < 2 ^ 64 -> rotL (rotL a 45) 19 = a.
Proof.
  intros Ha. apply N.bits_inj; intros i. unfold rotL.
  rewrite !N.lxor_spec, !shlL_spec, !N.lxor_spec, !N.shiftr_spec, !shlL_spec, !N.lxor_spec,
    !shlL_spec, !N.shiftr_spec by lia.
  destruct (N.ltb_spec i 64) as [Hi|Hi].
  - destruct (N.leb_spec 19 i) as [H19|H19].
    + replace (i - 19 + (64 - 45)) with i by lia.
      destruct (N.leb_spec 45 (i - 19)); [lia|].
      replace (i + (64 - 19)) with (i + 45) by lia.
      destruct (N.leb_spec 45 (i + 45)); [|lia]. destruct (N.ltb_spec (i + 45) 64); [lia|].
      rewrite (bits_lt a 64 (i + 45 + (64 - 45))) by (assumption || lia).
      repeat match goal with |- context [N.testbit ?a ?j] => destruct (N.testbit a j) end; reflexivity.
    + replace (i + (64 - 19)) with (i + 45) by lia.
      destruct (N.leb_spec 45 (i + 45)); [|lia]. destruct (N.ltb_spec (i + 45) 64); [|lia].
      replace (i + 45 - 45) with i by lia.
      rewrite (bits_lt a 64 (i + 45 + (64 - 45))) by (assumption || lia).
      repeat match goal with |- context [N.testbit ?a ?j] => destruct (N.testbit a j) end; reflexivity.
  - rewrite (bits_lt a 64 i Ha Hi).
    rewrite (bits_lt a 64 (i + (64 - 19) + (64 - 45)) Ha) by lia.
    destruct (N.ltb_spec (i + (64 - 19)) 64); [lia|]. rewrite !andb_false_r. reflexivity.
Qed.
Lemma rotL_inv' a : a < 2 ^ 64 -> rotL (rotL a 19) 45 = a.
Proof.
  intros Ha. apply N.bits_inj; intros i. unfold rotL.
  rewrite !N.lxor_spec, !shlL_spec, !N.lxor_spec, !N.shiftr_spec, !shlL_spec, !N.lxor_spec,
    !shlL_spec, !N.shiftr_spec by lia.
  destruct (N.ltb_spec i 64) as [Hi|Hi].
  - destruct (N.leb_spec 45 i) as [H19|H19].
    + replace (i - 45 + (64 - 19)) with i by lia.
      destruct (N.leb_spec 19 (i - 45)); [lia|].
      replace (i + (64 - 45)) with (i + 19) by lia.
      destruct (N.leb_spec 19 (i + 19)); [|lia]. destruct (N.ltb_spec (i + 19) 64); [lia|].
      rewrite (bits_lt a 64 (i + 19 + (64 - 19))) by (assumption || lia).
      repeat match goal with |- context [N.testbit ?a ?j] => destruct (N.testbit a j) end; reflexivity.
    + replace (i + (64 - 45)) with (i + 19) by lia.
      destruct (N.leb_spec 19 (i + 19)); [|lia]. destruct (N.ltb_spec (i + 19) 64); [|lia].
      replace (i + 19 - 19) with i by lia.
      rewrite (bits_lt a 64 (i + 19 + (64 - 19))) by (assumption || lia).
      repeat match goal with |- context [N.testbit ?a ?j] => destruct (N.testbit a j) end; reflexivity.
  - rewrite (bits_lt a 64 i Ha Hi).
    rewrite (bits_lt a 64 (i + (64 - 45) + (64 - 19)) Ha) by lia.
    destruct (N.ltb_spec (i + (64 - 45)) 64); [lia|]. rewrite !andb_false_r. reflexivity.
Qed.

(** With y = step s: y3 rotated back is s3 ^ s1 = u, y0 ^ u = s0, and s1 is
    determined by s1 ^ (s1 << 17) = y1 ^ y2: undo that shift. *)
Definition unshl17 (v : N) : N :=
  N.lxor (N.lxor (N.lxor v (shlL v 17)) (shlL v 34)) (shlL v 51).
Definition unstep (y : Xoshiro) : Xoshiro :=
  let u := rotL (x3 y) 19 in
  let s0 := N.lxor (x0 y) u in
  let s1 := unshl17 (N.lxor (x1 y) (x2 y)) in
  X s0 s1 (N.lxor (N.lxor (x1 y) s1) s0) (N.lxor u s1).

Lemma unshl17_ok v : v < 2 ^ 64 -> unshl17 (N.lxor v (shlL v 17)) = v.
Proof.
  intros Hv. apply N.bits_inj; intros i. unfold unshl17.
  rewrite !shlL_lxor, !N.lxor_spec, !shlL_spec.
  destruct (N.ltb_spec i 64) as [Hi|Hi].
  2:{ rewrite !andb_false_r, (bits_lt v 64 i Hv Hi). reflexivity. }
  replace (i - 17 - 17) with (i - 34) by lia.
  replace (i - 34 - 17) with (i - 51) by lia.
  replace (i - 51 - 17) with (i - 68) by lia.
  rewrite !andb_true_r.
  destruct (N.leb_spec 17 i), (N.leb_spec 34 i), (N.leb_spec 51 i); try lia;
  destruct (N.leb_spec 17 (i - 17)), (N.leb_spec 17 (i - 34)), (N.leb_spec 17 (i - 51)); try lia; cbn [andb];
  rewrite ?(proj2 (N.ltb_lt (i - 17) 64)), ?(proj2 (N.ltb_lt (i - 34) 64)), ?(proj2 (N.ltb_lt (i - 51) 64)) by lia;
  rewrite ?andb_true_r;
  repeat match goal with |- context [N.testbit ?a ?j] => destruct (N.testbit a j) end; reflexivity.
Qed.
Lemma shlL_shlL v a b : shlL (shlL v a) b = shlL v (a + b).
Proof.
  apply N.bits_inj; intros i. rewrite !shlL_spec.
  destruct (N.leb_spec b i), (N.leb_spec a (i - b)), (N.leb_spec (a + b) i), (N.ltb_spec (i - b) 64), (N.ltb_spec i 64);
    try lia; replace (i - b - a) with (i - (a + b)) by lia;
    destruct (N.testbit v (i - (a + b))); reflexivity.
Qed.
Lemma unshl17_ok' v : v < 2 ^ 64 -> N.lxor (unshl17 v) (shlL (unshl17 v) 17) = v.
Proof.
  intros Hv. rewrite <- (unshl17_ok v Hv) at 3. unfold unshl17.
  rewrite !shlL_lxor, !shlL_shlL. rewrite (N.add_comm 34 17), (N.add_comm 51 17). lx.
Qed.
Lemma unstep_step s : x_wf s -> unstep (step s) = s.
Proof.
  intros W. rewrite step_eq by exact W. destruct W as [H0 [H1 [H2 H3]]]. destruct s as [a b c d]. cbn [x0 x1 x2 x3] in *.
  unfold unstep, stepL. cbn [x0 x1 x2 x3].
  rewrite rotL_inv by (apply lxor_lt; assumption).
  assert (E : N.lxor (N.lxor b (N.lxor c a)) (N.lxor (N.lxor c a) (shlL b 17)) = N.lxor b (shlL b 17)) by lx.
  rewrite E, unshl17_ok by exact H1. f_equal; lx.
Qed.
Lemma wf_unstep y : x_wf y -> x_wf (unstep y).
Proof.
  intros [H0 [H1 [H2 H3]]]. unfold unstep, unshl17.
  repeat split; cbn [x0 x1 x2 x3]; repeat apply lxor_lt; try assumption; try apply shlL_lt; try (apply shiftr_lt; assumption).
Qed.
Lemma step_unstep y : x_wf y -> step (unstep y) = y.
Proof.
  intros W. rewrite step_eq by (apply wf_unstep, W). destruct W as [H0 [H1 [H2 H3]]]. destruct y as [a b c d]. cbn [x0 x1 x2 x3] in *.
  unfold unstep, stepL. cbn [x0 x1 x2 x3].
  set (u := rotL d 19). set (v := unshl17 (N.lxor b c)).
  assert (E : N.lxor v (shlL v 17) = N.lxor b c) by (apply unshl17_ok', lxor_lt; assumption).
  f_equal; try lx.
  - replace (N.lxor (N.lxor (N.lxor (N.lxor b v) (N.lxor a u)) (N.lxor a u)) (shlL v 17))
      with (N.lxor b (N.lxor v (shlL v 17))) by lx.
    rewrite E. lx.
  - replace (N.lxor (N.lxor u v) v) with u by lx. apply rotL_inv', H3.
Qed.
Lemma step_inj a b : x_wf a -> x_wf b -> step a = step b -> a = b.
Proof. intros Ha Hb E. rewrite <- (unstep_step a Ha), E. apply unstep_step, Hb. Qed.
Lemma step_0 : step zero = zero. Proof. reflexivity. Qed.
