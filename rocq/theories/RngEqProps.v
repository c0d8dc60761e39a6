(** C125: equal generators are those that return the same numbers. *)
From Coq Require Import Lia.
From Verif Require Import Base RngModel RngSpec RngProofs RngDist RngProps RngEqModel.
Local Open Scope N_scope.

(** ** Counting below a bound *)

(** How many numbers below [n] have the property. *)
Definition count (p : N -> bool) (n : N) : N :=
  fst (N.iter n (fun '(c, i) => (if p i then c + 1 else c, i + 1)) (0, 0)).
Lemma count_index p n : snd (N.iter n (fun '(c, i) => (if p i : bool then c + 1 else c, i + 1)) (0, 0)) = n.
Proof.
  induction n as [|n IH] using N.peano_ind; [reflexivity|].
  rewrite iter_succ. destruct (N.iter n _ _) as [c i]. cbn in *. lia.
Qed.
Lemma count_0 p : count p 0 = 0. Proof. reflexivity. Qed.
Lemma count_S p n : count p (n + 1) = count p n + (if p n then 1 else 0).
Proof.
  unfold count. rewrite N.add_1_r, iter_succ. pose proof (count_index p n) as I.
  destruct (N.iter n _ _) as [c i]. cbn in *. subst i. destruct (p n); lia.
Qed.
Lemma count_add p a b : count p (a + b) = count p a + count (fun i => p (a + i)) b.
Proof.
  induction b as [|b IH] using N.peano_ind; [rewrite N.add_0_r, count_0; lia|].
  rewrite <- N.add_1_r, N.add_assoc, !count_S, IH. lia.
Qed.
Lemma count_ext p q n : (forall i, p i = q i) -> count p n = count q n.
Proof. intros H. induction n as [|n IH] using N.peano_ind; [reflexivity|]. rewrite <- N.add_1_r, !count_S, IH, H. reflexivity. Qed.
Lemma count_periodic p g m : (forall i, p (i + g) = p i) -> count p (m * g) = m * count p g.
Proof.
  intros H. induction m as [|m IH] using N.peano_ind; [reflexivity|].
  rewrite N.mul_succ_l, (N.add_comm (m * g)), count_add.
  rewrite (count_ext (fun i => p (g + i)) p) by (intros i; rewrite N.add_comm; apply H). rewrite IH. lia.
Qed.
(** An enumeration without repetition tells the number. *)
Lemma count_enumerated p n : forall c f,
  (forall k, k < c -> f k < n /\ p (f k) = true) ->
  (forall k l, k < c -> l < c -> f k = f l -> k = l) ->
  (forall i, i < n -> p i = true -> exists k, k < c /\ i = f k) -> count p n = c.
Proof.
  induction n as [|n IH] using N.peano_ind; intros c f F I S.
  - destruct (N.eq_dec c 0) as [-> |H]; [reflexivity|]. destruct (F 0) as [? _]; lia.
  - rewrite <- N.add_1_r, count_S. destruct (p n) eqn:P.
    + destruct (S n) as (k & K & E); [lia|assumption|].
      assert (count p n = c - 1) as ->; [|lia].
      apply (IH _ (fun j => if j =? k then f (c - 1) else f j)).
      * intros j J. destruct (N.eqb_spec j k) as [-> |D].
        -- destruct (F (c - 1)) as [L T]; [lia|]. split; [|assumption].
           assert (f (c - 1) <> n); [|lia]. intros Q. rewrite E in Q. apply I in Q; lia.
        -- destruct (F j) as [L T]; [lia|]. split; [|assumption].
           assert (f j <> n); [|lia]. intros Q. rewrite E in Q. apply I in Q; lia.
      * intros j l J L. destruct (N.eqb_spec j k), (N.eqb_spec l k); intros Q; subst; try reflexivity.
        -- apply I in Q; lia.
        -- apply I in Q; lia.
        -- apply I in Q; lia.
      * intros i Hi T. destruct (S i) as (j & J & Q); [lia|assumption|].
        destruct (N.eq_dec j (c - 1)) as [-> |D].
        -- exists k. rewrite N.eqb_refl. split; [|assumption].
           assert (k <> c - 1); [|lia]. intros ->. lia.
        -- exists j. destruct (N.eqb_spec j k) as [-> |D']; [|split; [lia|assumption]]. lia.
    + rewrite N.add_0_r. apply (IH _ f).
      * intros k K. destruct (F k K) as [L T]. split; [|assumption].
        assert (f k <> n); [|lia]. intros Q. congruence.
      * exact I.
      * intros i Hi T. apply S; [lia|assumption].
Qed.

Lemma odd_divides m k : N.odd m = true -> (m | 2 ^ k) -> m = 1.
Proof.
  intros O D. pose proof (odd_coprime m k O) as G. apply N.divide_gcd_iff in D; [|lia]. rewrite N.gcd_comm in D. lia.
Qed.

(** ** Proofs *)

Lemma out_shift s k i : x_out (N.iter k x_skip s) i = x_out s (i + k).
Proof. unfold x_out. now rewrite iter_add. Qed.
Lemma out_mul s k : (forall i, x_out s (i + k) = x_out s i) -> forall m i, x_out s (i + m * k) = x_out s i.
Proof.
  intros H m. induction m as [|m IH] using N.peano_ind; intros i; [now rewrite N.add_0_r|].
  rewrite N.mul_succ_l, N.add_assoc, H. apply IH.
Qed.

Lemma period_divides s k : x_reachable s -> (forall i, x_out s (i + k) = x_out s i) -> (2 ^ 256 - 1 | k).
Proof.
  intros R H. pose proof (xoshiro_never_zero s R) as [W Z].
  assert (forall i, x_out s (i + (2 ^ 256 - 1)) = x_out s i) as C.
  { intros i. rewrite <- out_shift. now rewrite (proj1 (xoshiro_period s W Z)). }
  remember (2 ^ 256 - 1) as P eqn:EP. assert (0 < P) as PP by (rewrite EP; reflexivity).
  assert (N.odd P = true) as OP by (rewrite EP; reflexivity).
  destruct (N.eq_dec k 0) as [-> |NZ]; [apply N.divide_0_r|].
  set (g := N.gcd k P).
  assert (forall i, x_out s (i + g) = x_out s i) as HG.
  { intros i. destruct (N.gcd_bezout_pos k P) as (a & b & E); [lia|]. fold g in E.
    rewrite <- (out_mul s P C b). rewrite <- N.add_assoc, <- E. apply (out_mul s k H). }
  destruct (N.gcd_divide_r k P) as (m & M). fold g in M.
  pose proof (xoshiro_equidistributed s 1 R eq_refl) as E. cbv zeta in E. change (1 =? 0) with false in E. cbv iota in E. rewrite <- EP in E.
  destruct E as (f & F & I & S).
  assert (count (fun i => x_out s i =? 1) P = 2 ^ 192) as CP.
  { apply (count_enumerated _ _ _ f).
    - intros j J. destruct (F j J) as [L V]. split; [assumption|]. now apply N.eqb_eq.
    - exact I.
    - intros i L V. apply S; [assumption|]. now apply N.eqb_eq. }
  rewrite M in CP. rewrite count_periodic in CP by (intros i; rewrite HG; reflexivity).
  assert (m = 1) as ->.
  { apply (odd_divides m 192).
    - rewrite M, N.odd_mul in OP. apply Bool.andb_true_iff in OP. exact (proj1 OP).
    - exists (count (fun i => x_out s i =? 1) g). rewrite <- CP. apply N.mul_comm. }
  rewrite N.mul_1_l in M. rewrite M. apply N.gcd_divide_l.
Qed.

(** ** C125 *)

(** The numbers that [next64] of Xoshiro256++ returns repeat after 2^256 - 1
    calls, and after no other number of calls but its multiples: the period of
    the output is that of the state (C11). *)
Theorem xoshiro_output_period : forall s k, x_reachable s ->
  ((forall i, x_out s (i + k) = x_out s i) <-> (2 ^ 256 - 1 | k)).
Proof.
  intros s k R. split; [now apply period_divides|]. intros (m & ->). apply out_mul.
  intros i. rewrite <- out_shift. pose proof (xoshiro_never_zero s R) as [W Z]. now rewrite (proj1 (xoshiro_period s W Z)).
Qed.
Print Assumptions xoshiro_output_period.

(** Generators compare equal exactly if they return the same numbers. *)
Theorem xoshiro_equal_outputs : forall s t, x_reachable s -> x_reachable t ->
  (x_eq s t = true <-> forall i, x_out s i = x_out t i).
Proof.
  intros s t Rs Rt. pose proof (xoshiro_never_zero s Rs) as [Ws Zs]. pose proof (xoshiro_never_zero t Rt) as [Wt Zt].
  assert (x_eq s t = true <-> s = t) as ->.
  { unfold x_eq. rewrite !Bool.andb_true_iff, !N.eqb_eq. destruct s, t; cbn. split; [intros (-> & -> & -> & ->)|intros [= -> -> -> ->]]; auto. }
  split; [now intros -> |]. intros H.
  destruct (xoshiro_single_cycle s t Ws Zs Wt Zt) as (k & K & <-).
  assert (2 ^ 256 - 1 | k) as D by (apply (period_divides s k Rs); intros i; rewrite <- out_shift; symmetry; apply H).
  destruct (N.eq_dec k 0) as [-> |NZ]; [reflexivity|]. apply N.divide_pos_le in D; lia.
Qed.
Print Assumptions xoshiro_equal_outputs.

(** Two numbers in a row tell one SplitMix64 generator from all others. *)
Theorem splitmix64_equal_outputs : forall s t, sm_reachable s -> sm_reachable t ->
  (sm_eq s t = true <-> sm_out64 s 0 = sm_out64 t 0 /\ sm_out64 s 1 = sm_out64 t 1).
Proof.
  intros s t Rs Rt. pose proof (reachable_wf s Rs) as (Ms & Gs & _). pose proof (reachable_wf t Rt) as (Mt & Gt & _).
  assert (sm_eq s t = true <-> s = t) as ->.
  { unfold sm_eq, mix_eq. rewrite !Bool.andb_true_iff, !N.eqb_eq. destruct s, t; cbn. split; [intros (-> & ->)|intros [= -> ->]]; auto. }
  split; [now intros -> |]. rewrite !out64_eq by assumption. intros [E0 E1].
  apply (f_equal unmix64) in E0, E1. rewrite !unmix64_mix64 in E0, E1 by (apply N.mod_upper_bound, W64_nz).
  destruct s as [m g], t as [m' g']. cbn [mix gamma] in *. unfold W64 in *.
  change (2 ^ 64) with 18446744073709551616 in *.
  assert (g = g' /\ m = m') as [-> ->]; [|reflexivity].
  zify. Z.to_euclidean_division_equations. lia.
Qed.
Print Assumptions splitmix64_equal_outputs.
(** One number tells a Mix64 generator from all others. *)
Theorem mix64_equal_outputs : forall a b, a < 2 ^ 64 -> b < 2 ^ 64 ->
  (mix_eq a b = true <-> fst (mix_next64 a) = fst (mix_next64 b)).
Proof.
  intros a b A B. unfold mix_eq. rewrite N.eqb_eq. split; [now intros -> |]. unfold mix_next64. cbn [fst]. intros E.
  apply (f_equal unmix64) in E. rewrite !unmix64_mix64 in E by apply wadd_lt.
  unfold mix_step, wadd, W64 in E. change (2 ^ 64) with 18446744073709551616 in *. unfold GAMMA in E.
  zify. Z.to_euclidean_division_equations. lia.
Qed.
Print Assumptions mix64_equal_outputs.

(** A generator and its continuation; a parent and its child. *)
Example rng_equal_case :
  let s := x_with_seed (X 1 2 3 4) in
  x_reachable s /\ x_reachable (x_jump128 s) /\ x_eq s (x_jump128 s) = false /\ x_eq s s = true
  /\ sm_reachable (sm_with_seed 7) /\ sm_reachable (fst (sm_split (sm_with_seed 7)))
  /\ sm_eq (sm_with_seed 7) (fst (sm_split (sm_with_seed 7))) = false.
Proof.
  cbv zeta.
  assert (x_reachable (x_with_seed (X 1 2 3 4))) as R by (apply XR_seed; repeat split).
  assert (sm_reachable (sm_with_seed 7)) as S by (apply R_seed; reflexivity).
  split; [exact R|]. split; [exact (XR_jump128 _ R)|]. split; [vm_compute; reflexivity|]. split; [vm_compute; reflexivity|].
  split; [exact S|]. split; [exact (R_child _ S)|]. vm_compute; reflexivity.
Qed.
