(** Polynomials over GF(2) (as binary numbers) acting on Xoshiro states: the
    polynomial sum of x^i acts as the sum of the i-fold steps. *)
From Verif Require Import Base RngModel RngSpec RngProofs XoshiroProofs.
Local Open Scope N_scope.

Fixpoint ev_pos (p : positive) (v : Xoshiro) : Xoshiro :=
  match p with
  | xH => v
  | xO p' => ev_pos p' (stepL v)
  | xI p' => v <+> ev_pos p' (stepL v)
  end.
Definition ev (p : N) (v : Xoshiro) : Xoshiro :=
  match p with 0 => zero | Npos p => ev_pos p v end.

Lemma ev_double p v : ev (N.double p) v = ev p (stepL v).
Proof. destruct p; reflexivity. Qed.
Lemma ev_succ_double p v : ev (N.succ_double p) v = v <+> ev p (stepL v).
Proof. destruct p; cbn [N.succ_double ev ev_pos]; [symmetry; apply add_0_r|reflexivity]. Qed.

Lemma add_swap a b c d : (a <+> b) <+> (c <+> d) = (a <+> c) <+> (b <+> d).
Proof. rewrite !add_assoc. f_equal. rewrite <- !add_assoc. f_equal. apply add_comm. Qed.

Lemma ev_lxor p : forall q v, ev (N.lxor p q) v = ev p v <+> ev q v.
Proof.
  assert (G : forall p q v, ev (Pos.lxor p q) v = ev_pos p v <+> ev_pos q v).
  { clear p. induction p as [p IH|p IH|]; intros [q|q|] v; cbn [Pos.lxor ev_pos].
    - rewrite ev_double, IH, add_swap, add_self, add_0_l. reflexivity.
    - rewrite ev_succ_double, IH, add_assoc. reflexivity.
    - rewrite add_comm, add_cancel. reflexivity.
    - rewrite ev_succ_double, IH, <- !add_assoc. f_equal. apply add_comm.
    - rewrite ev_double, IH. reflexivity.
    - rewrite add_comm. reflexivity.
    - rewrite add_cancel. reflexivity.
    - reflexivity.
    - rewrite add_self. reflexivity. }
  intros [|q] v; destruct p as [|p]; cbn [N.lxor ev].
  - symmetry; apply add_0_r.
  - symmetry; apply add_0_r.
  - symmetry; apply add_0_l.
  - apply G.
Qed.

Lemma ev_add p : forall a b, ev p (a <+> b) = ev p a <+> ev p b.
Proof.
  destruct p as [|p]; intros a b; cbn [ev]; [rewrite add_0_r; reflexivity|].
  revert a b. induction p as [p IH|p IH|]; intros a b; cbn [ev_pos].
  - rewrite stepL_add, IH, add_swap. reflexivity.
  - rewrite stepL_add, IH. reflexivity.
  - reflexivity.
Qed.
Lemma ev_0 p : ev p zero = zero.
Proof. destruct p as [|p]; [reflexivity|]. induction p as [p IH|p IH|]; cbn [ev ev_pos] in *; rewrite ?stepL_0, ?IH; reflexivity. Qed.
Lemma ev_step p : forall v, ev p (stepL v) = stepL (ev p v).
Proof.
  destruct p as [|p]; intros v; [reflexivity|]. cbn [ev]. revert v.
  induction p as [p IH|p IH|]; intros v; cbn [ev_pos]; rewrite ?stepL_add, ?IH; reflexivity.
Qed.
Lemma ev_comm p q v : ev p (ev q v) = ev q (ev p v).
Proof.
  destruct p as [|p]; [cbn [ev]; rewrite ev_0; reflexivity|]. cbn [ev]. revert v.
  induction p as [p IH|p IH|]; intros v; cbn [ev_pos].
  - rewrite ev_add, <- ev_step, IH. reflexivity.
  - rewrite <- ev_step, IH. reflexivity.
  - reflexivity.
Qed.
Lemma wf_ev p : forall v, x_wf v -> x_wf (ev p v).
Proof.
  destruct p as [|p]; intros v Hv; [apply wf_zero|]. cbn [ev]. revert v Hv.
  induction p as [p IH|p IH|]; intros v Hv; cbn [ev_pos].
  - apply wf_add; [assumption|]. apply IH, wf_stepL, Hv.
  - apply IH, wf_stepL, Hv.
  - assumption.
Qed.

(** ** The annihilating polynomial *)
Definition P : N := 0x10003c03c3f3ecb1904b4edcf26259f850280002bcefd1a5e9d116f2bb0f0f001.

Definition is_zero (s : Xoshiro) : bool :=
  (x0 s =? 0) && (x1 s =? 0) && (x2 s =? 0) && (x3 s =? 0).
Lemma is_zero_ok s : is_zero s = true <-> s = zero.
Proof.
  unfold is_zero. destruct s as [a b c d]. cbn [x0 x1 x2 x3]. rewrite !andb_true_iff, !N.eqb_eq.
  unfold zero. split; [intros [[[-> ->] ->] ->]; reflexivity|]. intros H; inversion H; auto.
Qed.

Lemma P_basis : forallb (fun j => is_zero (ev P (X (2 ^ N.of_nat j) 0 0 0))) (seq 0 64) = true.
Proof. vm_compute. reflexivity. Qed.

Lemma linear_zero (f : N -> Xoshiro) :
  (forall a b, f (N.lxor a b) = f a <+> f b) ->
  forall n, (forall j, (j < n)%nat -> f (2 ^ N.of_nat j) = zero) ->
  forall x, x < 2 ^ N.of_nat n -> f x = zero.
Proof.
  intros Hf n. induction n as [|n IH]; intros Hb x Hx.
  - assert (x = 0) as -> by (cbn in Hx; lia).
    pose proof (Hf 0 0) as E. rewrite N.lxor_0_r, add_self in E. exact E.
  - destruct (N.testbit x (N.of_nat n)) eqn:Et.
    + assert (Ex : x = N.lxor (2 ^ N.of_nat n) (N.lxor (2 ^ N.of_nat n) x)).
      { rewrite <- N.lxor_assoc, N.lxor_nilpotent, N.lxor_0_l. reflexivity. }
      rewrite Ex, Hf, (Hb n) by lia. rewrite add_0_l. apply IH; [intros; apply Hb; lia|].
      apply lt_bits. intros i Hi. rewrite N.lxor_spec, N.pow2_bits_eqb.
      destruct (N.eqb_spec (N.of_nat n) i) as [<-|Hne]; [rewrite Et; reflexivity|].
      rewrite (bits_lt x (N.of_nat (S n)) i) by (assumption || lia). reflexivity.
    + apply IH; [intros; apply Hb; lia|].
      apply lt_bits. intros i Hi.
      destruct (N.eqb_spec (N.of_nat n) i) as [<-|Hne]; [exact Et|].
      apply (bits_lt x (N.of_nat (S n)) i); [assumption|lia].
Qed.

Lemma P_a x : x < 2 ^ 64 -> ev P (X x 0 0 0) = zero.
Proof.
  intros Hx. apply (linear_zero (fun x => ev P (X x 0 0 0))) with (n := 64%nat).
  - intros a b. rewrite <- ev_add. reflexivity.
  - intros j Hj. apply is_zero_ok.
    exact (proj1 (forallb_forall _ _) P_basis j (proj2 (in_seq 64 0 j) ltac:(lia))).
  - exact Hx.
Qed.
Lemma stepL_inj0 v : x_wf v -> stepL v = zero -> v = zero.
Proof.
  intros W E. apply step_inj; [exact W|apply wf_zero|]. rewrite step_eq, E by exact W. reflexivity.
Qed.
Lemma wf_word a b c d : a < 2 ^ 64 -> b < 2 ^ 64 -> c < 2 ^ 64 -> d < 2 ^ 64 -> x_wf (X a b c d).
Proof. repeat split; assumption. Qed.
Lemma z64 : 0 < 2 ^ 64. Proof. reflexivity. Qed.

Lemma step_a x : stepL (X x 0 0 0) = X x x x 0.
Proof. unfold stepL; cbn [x0 x1 x2 x3]. rewrite !N.lxor_0_l, ?N.lxor_0_r. reflexivity. Qed.
Lemma step_b x : stepL (X 0 x 0 0) = X x x (shlL x 17) (rotL x 45).
Proof. unfold stepL; cbn [x0 x1 x2 x3]. rewrite !N.lxor_0_l, ?N.lxor_0_r. reflexivity. Qed.
Lemma step_c x : stepL (X 0 0 x 0) = X 0 x x 0.
Proof. unfold stepL; cbn [x0 x1 x2 x3]. rewrite ?N.lxor_0_l, ?N.lxor_0_r. reflexivity. Qed.

Lemma P_c x : x < 2 ^ 64 -> ev P (X 0 0 x 0) = zero.
Proof.
  intros Hx. apply stepL_inj0; [apply wf_ev, wf_word; assumption || apply z64|].
  rewrite <- ev_step, step_c.
  assert (E : X 0 x x 0 = stepL (X x 0 0 0) <+> X x 0 0 0).
  { rewrite step_a. unfold xor_words; cbn [x0 x1 x2 x3]. rewrite !N.lxor_nilpotent, ?N.lxor_0_r. reflexivity. }
  rewrite E, ev_add, ev_step, P_a by exact Hx. reflexivity.
Qed.
Lemma P_b x : x < 2 ^ 64 -> ev P (X 0 x 0 0) = zero.
Proof.
  intros Hx.
  assert (E : X 0 x 0 0 = stepL (X 0 0 x 0) <+> X 0 0 x 0).
  { rewrite step_c. unfold xor_words; cbn [x0 x1 x2 x3]. rewrite !N.lxor_nilpotent, ?N.lxor_0_r. reflexivity. }
  rewrite E, ev_add, ev_step, P_c by exact Hx. reflexivity.
Qed.
Lemma P_d x : x < 2 ^ 64 -> ev P (X 0 0 0 x) = zero.
Proof.
  intros Hx. set (y := rotL x 19).
  assert (Hy : y < 2 ^ 64) by apply rotL_lt, Hx.
  assert (E : X 0 0 0 x = stepL (X 0 y 0 0) <+> (X y 0 0 0 <+> (X 0 y 0 0 <+> X 0 0 (shlL y 17) 0))).
  { rewrite step_b. unfold xor_words; cbn [x0 x1 x2 x3].
    rewrite !N.lxor_0_l, !N.lxor_0_r, !N.lxor_nilpotent. unfold y. rewrite rotL_inv' by exact Hx. reflexivity. }
  rewrite E, !ev_add, ev_step, P_a, P_b, P_c by (assumption || apply shlL_lt). reflexivity.
Qed.

Lemma P_annihilates v : x_wf v -> ev P v = zero.
Proof.
  intros [H0 [H1 [H2 H3]]]. destruct v as [a b c d]. cbn [x0 x1 x2 x3] in *.
  assert (E : X a b c d = X a 0 0 0 <+> (X 0 b 0 0 <+> (X 0 0 c 0 <+> X 0 0 0 d))).
  { unfold xor_words; cbn [x0 x1 x2 x3]. rewrite ?N.lxor_0_l, ?N.lxor_0_r. reflexivity. }
  rewrite E, !ev_add, P_a, P_b, P_c, P_d by assumption. reflexivity.
Qed.

(** ** Multiplication modulo P *)
Definition xtimes (r : N) : N :=
  let r := N.double r in if N.testbit r 256 then N.lxor r P else r.
Fixpoint mul_pos (a : N) (b : positive) : N :=
  match b with
  | xH => a
  | xO b' => xtimes (mul_pos a b')
  | xI b' => N.lxor a (xtimes (mul_pos a b'))
  end.
Definition mul (a b : N) : N := match b with 0 => 0 | Npos b => mul_pos a b end.
Lemma ev_xtimes r v : x_wf v -> ev (xtimes r) v = ev r (stepL v).
Proof.
  intros W. unfold xtimes. destruct (N.testbit _ 256).
  - rewrite ev_lxor, P_annihilates, add_0_r by exact W. apply ev_double.
  - apply ev_double.
Qed.
Lemma ev_mul a b v : x_wf v -> ev (mul a b) v = ev b (ev a v).
Proof.
  intros W. destruct b as [|b]; [reflexivity|]. cbn [mul ev].
  revert v W. induction b as [b IH|b IH|]; intros v W; cbn [mul_pos ev_pos].
  - rewrite ev_lxor, ev_xtimes by exact W. rewrite IH by (apply wf_stepL, W). rewrite ev_step. reflexivity.
  - rewrite ev_xtimes by exact W. rewrite IH by (apply wf_stepL, W). rewrite ev_step. reflexivity.
  - reflexivity.
Qed.

(** Faster multiplication and squaring: tables of the powers of x. *)
Fixpoint powers (k : nat) (n : nat) (c : N) : list N :=
  match n with O => [] | S n' => c :: powers k n' (Nat.iter k xtimes c) end.
Fixpoint pick (a : positive) (t : list N) : N :=
  match t with
  | [] => 0
  | c :: t =>
    match a with
    | xH => c
    | xO a' => pick a' t
    | xI a' => N.lxor c (pick a' t)
    end
  end.
(** [ev] with every step repeated [k] times. *)
Fixpoint evk_pos (k : nat) (p : positive) (v : Xoshiro) : Xoshiro :=
  match p with
  | xH => v
  | xO p' => evk_pos k p' (Nat.iter k stepL v)
  | xI p' => v <+> evk_pos k p' (Nat.iter k stepL v)
  end.
Lemma wf_iterk k v : x_wf v -> x_wf (Nat.iter k stepL v).
Proof. intros W. induction k as [|k IH]; [exact W|]. apply wf_stepL, IH. Qed.
Lemma ev_xtimes_k k c v : x_wf v -> ev (Nat.iter k xtimes c) v = Nat.iter k stepL (ev c v).
Proof.
  intros W. induction k as [|k IH]; [reflexivity|]. cbn [Nat.iter nat_rect].
  rewrite ev_xtimes, ev_step by exact W. f_equal. exact IH.
Qed.
Lemma ev_iterk k c v : ev c (Nat.iter k stepL v) = Nat.iter k stepL (ev c v).
Proof.
  induction k as [|k IH]; [reflexivity|]. cbn [Nat.iter nat_rect].
  rewrite ev_step. f_equal. exact IH.
Qed.
Lemma pick_ok k n : forall a c v, x_wf v -> (Pos.size_nat a <= n)%nat ->
  ev (pick a (powers k n c)) v = evk_pos k a (ev c v).
Proof.
  induction n as [|n IH]; intros a c v W H; [destruct a; cbn in H; lia|].
  cbn [powers]. destruct a as [a|a|]; cbn [Pos.size_nat] in H; cbn [pick evk_pos].
  - rewrite ev_lxor, IH, ev_xtimes_k by (assumption || lia). reflexivity.
  - rewrite IH, ev_xtimes_k by (assumption || lia). reflexivity.
  - reflexivity.
Qed.
Lemma evk_ev k a v : evk_pos k a (stepL v) = stepL (evk_pos k a v).
Proof.
  revert v. induction a as [a IH|a IH|]; intros v; cbn [evk_pos].
  - assert (E : Nat.iter k stepL (stepL v) = stepL (Nat.iter k stepL v)).
    { clear. induction k as [|k IH]; [reflexivity|]. cbn [Nat.iter nat_rect]. f_equal. exact IH. }
    rewrite E, IH, stepL_add. reflexivity.
  - assert (E : Nat.iter k stepL (stepL v) = stepL (Nat.iter k stepL v)).
    { clear. induction k as [|k IH]; [reflexivity|]. cbn [Nat.iter nat_rect]. f_equal. exact IH. }
    rewrite E, IH. reflexivity.
  - reflexivity.
Qed.
Lemma ev1 a v : evk_pos 1 a v = ev_pos a v.
Proof.
  revert v. induction a as [a IH|a IH|]; intros v; cbn [evk_pos ev_pos]; rewrite ?IH; reflexivity.
Qed.
Lemma ev2 a v : evk_pos 2 a v = ev_pos a (ev_pos a v).
Proof.
  revert v. induction a as [a IH|a IH|]; intros v; cbn [evk_pos ev_pos]; [..|reflexivity].
  - rewrite IH. cbn [Nat.iter nat_rect].
    pose proof (ev_step (Npos a)) as S1. pose proof (ev_add (Npos a)) as A1. cbn [ev] in S1, A1.
    rewrite !stepL_add, A1, !S1, add_assoc. f_equal.
    rewrite <- add_assoc, add_self, add_0_l. reflexivity.
  - rewrite IH. cbn [Nat.iter nat_rect].
    pose proof (ev_step (Npos a)) as S1. cbn [ev] in S1. rewrite !S1. reflexivity.
Qed.

Definition SQ : list N := Eval vm_compute in powers 2 256 1.
Lemma SQ_ok : SQ = powers 2 256 1. Proof. vm_compute. reflexivity. Qed.
Definition HI : list N := Eval vm_compute in powers 1 256 (N.lxor P (2 ^ 256)).
Lemma HI_ok : HI = powers 1 256 (N.lxor P (2 ^ 256)). Proof. vm_compute. reflexivity. Qed.

Definition sq (a : N) : N :=
  match a with
  | 0 => 0
  | Npos p => if (Pos.size_nat p <=? 256)%nat then pick p SQ else mul a a
  end.
Lemma ev_sq a v : x_wf v -> ev (sq a) v = ev a (ev a v).
Proof.
  intros W. destruct a as [|p]; [reflexivity|]. unfold sq.
  destruct (Nat.leb_spec (Pos.size_nat p) 256).
  - rewrite SQ_ok, pick_ok by assumption. cbn [ev ev_pos]. apply ev2.
  - apply ev_mul, W.
Qed.

(** The product without reduction, and the reduction of its high part. *)
Fixpoint prod_pos (a : N) (b : positive) : N :=
  match b with
  | xH => a
  | xO b' => N.double (prod_pos a b')
  | xI b' => N.lxor a (N.double (prod_pos a b'))
  end.
Fixpoint split_at (n : nat) (p : positive) : N * N :=
  match n with
  | O => (0, Npos p)
  | S n' =>
    match p with
    | xH => (1, 0)
    | xO p' => let '(l, h) := split_at n' p' in (N.double l, h)
    | xI p' => let '(l, h) := split_at n' p' in (N.succ_double l, h)
    end
  end.
Definition fmul (a b : N) : N :=
  match b with
  | 0 => 0
  | Npos b =>
    match prod_pos a b with
    | 0 => 0
    | Npos p =>
      match split_at 256 p with
      | (l, 0) => l
      | (l, Npos h) =>
        if (Pos.size_nat h <=? 256)%nat then N.lxor l (pick h HI) else mul a (Npos b)
      end
    end
  end.
Lemma ev_prod a b v : ev (prod_pos a b) v = ev_pos b (ev a v).
Proof.
  revert v. induction b as [b IH|b IH|]; intros v; cbn [prod_pos ev_pos]; [..|reflexivity].
  - rewrite ev_lxor, ev_double, IH, ev_step. reflexivity.
  - rewrite ev_double, IH, ev_step. reflexivity.
Qed.
Lemma iterk_shift k v : Nat.iter k stepL (stepL v) = stepL (Nat.iter k stepL v).
Proof. induction k as [|k IH]; [reflexivity|]. cbn [Nat.iter nat_rect]. f_equal. exact IH. Qed.
Lemma ev_split_at n : forall p v,
  ev_pos p v = ev (fst (split_at n p)) v <+> ev (snd (split_at n p)) (Nat.iter n stepL v).
Proof.
  induction n as [|n IH]; intros p v; [cbn; symmetry; apply add_0_l|].
  destruct p as [p|p|]; cbn [split_at ev_pos].
  - specialize (IH p (stepL v)). destruct (split_at n p) as [l h]. cbn [fst snd] in *.
    rewrite ev_succ_double, IH, iterk_shift, add_assoc. reflexivity.
  - specialize (IH p (stepL v)). destruct (split_at n p) as [l h]. cbn [fst snd] in *.
    rewrite ev_double, IH, iterk_shift. reflexivity.
  - cbn. symmetry. apply add_0_r.
Qed.
Fixpoint pow2_pos (n : nat) : positive := match n with O => xH | S n => xO (pow2_pos n) end.
Lemma ev_pow2 n : forall v, ev_pos (pow2_pos n) v = Nat.iter n stepL v.
Proof.
  induction n as [|n IH]; intros v; [reflexivity|]. cbn [pow2_pos ev_pos].
  rewrite IH. apply iterk_shift.
Qed.
Lemma ev_fmul a b v : x_wf v -> ev (fmul a b) v = ev b (ev a v).
Proof.
  intros W. destruct b as [|b]; [reflexivity|]. unfold fmul. cbn [ev].
  pose proof (ev_prod a b v) as E. destruct (prod_pos a b) as [|p]; [exact E|]. cbn [ev] in E.
  rewrite (ev_split_at 256) in E. destruct (split_at 256 p) as [l h]. cbn [fst snd] in E.
  destruct h as [|h]; [rewrite <- E; symmetry; apply add_0_r|].
  destruct (Nat.leb_spec (Pos.size_nat h) 256); [|rewrite ev_mul by exact W; reflexivity].
  rewrite ev_lxor, HI_ok, pick_ok by assumption. rewrite ev1, <- E. f_equal. cbn [ev]. f_equal.
  rewrite ev_lxor, P_annihilates, add_0_l by exact W.
  change (2 ^ 256) with (Npos (pow2_pos 256)). exact (ev_pow2 256 v).
Qed.
Fixpoint pow_pos (a : N) (n : positive) : N :=
  match n with
  | xH => a
  | xO n' => sq (pow_pos a n')
  | xI n' => fmul a (sq (pow_pos a n'))
  end.

(** [y] acts as [e] steps. *)
Definition acts (y e : N) : Prop := forall v, x_wf v -> ev y v = N.iter e stepL v.
Lemma wf_iter e v : x_wf v -> x_wf (N.iter e stepL v).
Proof. intros W. apply N.iter_invariant; [intros; apply wf_stepL; assumption|exact W]. Qed.
Lemma acts_x : acts 2 1. Proof. intros v W. reflexivity. Qed.
Lemma acts_sq a e : acts a e -> acts (sq a) (e + e).
Proof.
  intros A v W. rewrite ev_sq, (A v W) by exact W. rewrite A by (apply wf_iter, W).
  symmetry. apply N.iter_add.
Qed.
Lemma acts_mul a b e f : acts a e -> acts b f -> acts (fmul a b) (e + f).
Proof.
  intros A B v W. rewrite ev_fmul, A, B by (try apply wf_iter; assumption).
  rewrite N.add_comm. symmetry. apply N.iter_add.
Qed.
Lemma acts_pow a e n : acts a e -> acts (pow_pos a n) (e * Npos n).
Proof.
  intros A. induction n as [n IH|n IH|]; cbn [pow_pos].
  - replace (e * N.pos n~1) with (e + (e * Npos n + e * Npos n)) by lia.
    apply acts_mul; [exact A|]. apply acts_sq; exact IH.
  - replace (e * N.pos n~0) with (e * Npos n + e * Npos n) by lia.
    apply acts_sq; exact IH.
  - rewrite N.mul_1_r. exact A.
Qed.

Lemma iter_step e v : x_wf v -> N.iter e step v = N.iter e stepL v.
Proof.
  intros W. induction e as [|e IH] using N.peano_ind; [reflexivity|].
  rewrite !N.iter_succ, IH. apply step_eq, wf_iter, W.
Qed.

(** ** Jumps *)
Fixpoint value (table : list N) : N :=
  match table with [] => 0 | w :: t => w + 2 ^ 64 * value t end.

Lemma dbl x : N.double x = 2 * x. Proof. destruct x; reflexivity. Qed.
Lemma sdbl x : N.succ_double x = 2 * x + 1. Proof. destruct x; reflexivity. Qed.
Lemma ev_split n : forall a b v, a < 2 ^ N.of_nat n ->
  ev (a + 2 ^ N.of_nat n * b) v = ev a v <+> ev b (N.iter (N.of_nat n) stepL v).
Proof.
  induction n as [|n IH]; intros a b v Ha.
  - assert (a = 0) as -> by (cbn in Ha; lia). cbn [N.of_nat N.iter].
    rewrite N.pow_0_r, N.mul_1_l, N.add_0_l. symmetry. apply add_0_l.
  - assert (E : a = N.double (N.div2 a) + N.b2n (N.odd a)).
    { etransitivity; [exact (N.div2_odd a)|]. destruct (N.div2 a); reflexivity. }
    rewrite Nat2N.inj_succ, N.pow_succ_r' in *.
    assert (Hd : N.div2 a < 2 ^ N.of_nat n).
    { rewrite N.div2_div. apply N.div_lt_upper_bound; [discriminate|exact Ha]. }
    assert (Ei : N.iter (N.succ (N.of_nat n)) stepL v = N.iter (N.of_nat n) stepL (stepL v)).
    { rewrite N.iter_succ, N.iter_swap. reflexivity. }
    rewrite Ei. set (q := N.div2 a) in *. clearbody q.
    destruct (N.odd a); cbn [N.b2n] in E; rewrite dbl in E.
    + replace (a + 2 * 2 ^ N.of_nat n * b) with (N.succ_double (q + 2 ^ N.of_nat n * b))
        by (rewrite sdbl; lia).
      replace a with (N.succ_double q) by (rewrite sdbl; lia).
      rewrite !ev_succ_double, IH by exact Hd. symmetry. apply add_assoc.
    + replace (a + 2 * 2 ^ N.of_nat n * b) with (N.double (q + 2 ^ N.of_nat n * b))
        by (rewrite dbl; lia).
      replace a with (N.double q) by (rewrite dbl; lia).
      rewrite !ev_double, IH by exact Hd. reflexivity.
Qed.

Lemma jump_bits_ok n : forall j w s t, x_wf s -> j + N.of_nat n <= 64 ->
  jump_bits n j w (s, t) =
  (N.iter (N.of_nat n) stepL s, t <+> ev (N.shiftr w j mod 2 ^ N.of_nat n) s).
Proof.
  induction n as [|n IH]; intros j w s t W Hj; cbn [jump_bits].
  - cbn [N.of_nat N.iter]. rewrite N.pow_0_r, N.mod_1_r. cbn [ev]. rewrite add_0_r. reflexivity.
  - rewrite Nat2N.inj_succ in *.
    assert (Eb : negb (N.land w (shl64 1 j) =? 0) = N.testbit w j).
    { rewrite shlL_eq. destruct (N.testbit w j) eqn:Et.
      - apply negb_true_iff, N.eqb_neq. intros Z.
        assert (B : N.testbit (N.land w (shlL 1 j)) j = true).
        { rewrite N.land_spec, Et, shlL_spec, N.leb_refl, N.sub_diag.
          rewrite (proj2 (N.ltb_lt j 64)) by lia. reflexivity. }
        rewrite Z, N.bits_0 in B. discriminate.
      - apply negb_false_iff, N.eqb_eq. apply N.bits_inj; intros i.
        rewrite N.land_spec, shlL_spec, N.bits_0.
        destruct (N.leb_spec j i); [|apply andb_false_r].
        destruct (N.eq_dec i j) as [->|Hne]; [rewrite Et; reflexivity|].
        assert (E1 : N.testbit 1 (i - j) = false).
        { change 1 with (2 ^ 0). rewrite N.pow2_bits_eqb. apply N.eqb_neq. lia. }
        rewrite E1. apply andb_false_r. }
    rewrite Eb. rewrite step_eq by exact W. rewrite IH; [|apply wf_stepL, W|lia].
    f_equal; [rewrite N.iter_succ, N.iter_swap; reflexivity|].
    assert (Em : N.shiftr w j mod 2 ^ N.succ (N.of_nat n) =
                 N.b2n (N.testbit w j) + 2 * (N.shiftr w (j + 1) mod 2 ^ N.of_nat n)).
    { rewrite <- !N.land_ones. apply N.bits_inj; intros i.
      destruct (N.eq_dec i 0) as [->|Hi].
      - rewrite N.land_spec, N.shiftr_spec, N.add_0_l, N.ones_spec_low by lia.
        rewrite N.add_b2n_double_bit0. apply andb_true_r.
      - replace i with (N.succ (N.pred i)) by lia. set (k := N.pred i).
        assert (Es : forall (c : bool) y, N.testbit (N.b2n c + 2 * y) (N.succ k) = N.testbit y k).
        { intros c y. rewrite N.add_comm. destruct c; cbn [N.b2n].
          - apply N.testbit_odd_succ. lia.
          - rewrite N.add_0_r. apply N.testbit_even_succ. lia. }
        rewrite Es, !N.land_spec, !N.shiftr_spec by lia.
        replace (N.succ k + j) with (k + (j + 1)) by lia. f_equal.
        destruct (N.lt_ge_cases k (N.of_nat n)).
        + rewrite !N.ones_spec_low by lia. reflexivity.
        + rewrite !N.ones_spec_high by lia. reflexivity. }
    rewrite Em. set (r := N.shiftr w (j + 1) mod 2 ^ N.of_nat n).
    destruct (N.testbit w j); cbn [N.b2n].
    + replace (1 + 2 * r) with (N.succ_double r) by (rewrite sdbl; lia).
      rewrite ev_succ_double. apply add_assoc.
    + replace (0 + 2 * r) with (N.double r) by (rewrite dbl; lia).
      rewrite ev_double. reflexivity.
Qed.

Lemma value_cons w table : value (w :: table) = w + 2 ^ 64 * value table.
Proof. reflexivity. Qed.
Lemma jump_word_ok w s t : x_wf s -> w < 2 ^ 64 ->
  jump_word (s, t) w = (N.iter 64 stepL s, t <+> ev w s).
Proof.
  intros W Hw. unfold jump_word. rewrite (jump_bits_ok 64 0 w s t W); [|discriminate].
  rewrite N.shiftr_0_r. change (N.of_nat 64) with 64. rewrite N.mod_small by exact Hw. reflexivity.
Qed.
Lemma ev_word w b s : w < 2 ^ 64 -> ev (w + 2 ^ 64 * b) s = ev w s <+> ev b (N.iter 64 stepL s).
Proof. exact (ev_split 64 w b s). Qed.
Lemma fold_left_cons {A B} (f : A -> B -> A) x l a : fold_left f (x :: l) a = fold_left f l (f a x).
Proof. reflexivity. Qed.
Lemma jump_words_ok table : forall s t, x_wf s -> Forall (fun w => w < 2 ^ 64) table ->
  snd (fold_left jump_word table (s, t)) = t <+> ev (value table) s.
Proof.
  induction table as [|w table IH]; intros s t W F.
  - symmetry. apply add_0_r.
  - inversion F as [|? ? Hw F']; subst.
    rewrite fold_left_cons, value_cons, jump_word_ok, IH, ev_word by (assumption || apply wf_iter, W).
    apply add_assoc.
Qed.

Lemma jump_ok s table : x_wf s -> Forall (fun w => w < 2 ^ 64) table ->
  jump s table = ev (value table) s.
Proof. intros W F. unfold jump, jump_words. rewrite jump_words_ok by assumption. apply add_0_l. Qed.

Fixpoint sqn (n : nat) (a : N) : N := match n with O => a | S n' => sq (sqn n' a) end.
Lemma acts_sqn n a e : acts a e -> acts (sqn n a) (e * 2 ^ N.of_nat n).
Proof.
  intros A. induction n as [|n IH]; cbn [sqn]; [cbn [N.of_nat]; rewrite N.pow_0_r, N.mul_1_r; exact A|].
  rewrite Nat2N.inj_succ, N.pow_succ_r'.
  replace (e * (2 * 2 ^ N.of_nat n)) with (e * 2 ^ N.of_nat n + e * 2 ^ N.of_nat n) by lia.
  apply acts_sq; exact IH.
Qed.
(** The powers x^(2^(16 j)). *)
Definition K0 : N := 2.
Lemma acts_K0 : acts K0 (2 ^ 0). Proof. exact acts_x. Qed.
Definition K1 : N := 0xd87f8ce230817a21ef43beaa06f02fb892ae7ca370c0bf6b7e89ac5ca2fbf2c7.
Lemma sq_K1 : sqn 16 K0 = K1. Proof. vm_compute. reflexivity. Qed.
Lemma acts_K1 : acts K1 (2 ^ 16).
Proof. rewrite <- sq_K1. exact (acts_sqn 16 K0 (2 ^ 0) acts_K0). Qed.
Definition K2 : N := 0xe055d3520fdb9d7214fafc0fbdbc2087d8d0632bd08e6ac58120d583c112f69.
Lemma sq_K2 : sqn 16 K1 = K2. Proof. vm_compute. reflexivity. Qed.
Lemma acts_K2 : acts K2 (2 ^ 32).
Proof. rewrite <- sq_K2. exact (acts_sqn 16 K1 (2 ^ 16) acts_K1). Qed.
Definition K3 : N := 0x5f728be2c97e9066474579292f705634f825539dee5e4763f11fb4faea62c7f1.
Lemma sq_K3 : sqn 16 K2 = K3. Proof. vm_compute. reflexivity. Qed.
Lemma acts_K3 : acts K3 (2 ^ 48).
Proof. rewrite <- sq_K3. exact (acts_sqn 16 K2 (2 ^ 32) acts_K2). Qed.
Definition K4 : N := 0x12e4a2fbfc19bff934faff184785c20ab60d6c5b8c78f106b13c16e8096f0754.
Lemma sq_K4 : sqn 16 K3 = K4. Proof. vm_compute. reflexivity. Qed.
Lemma acts_K4 : acts K4 (2 ^ 64).
Proof. rewrite <- sq_K4. exact (acts_sqn 16 K3 (2 ^ 48) acts_K3). Qed.
Definition K5 : N := 0x2c09ebb60b81941a5d23c239088b488e0355dab5aaada3566c1a4d1bee4cfb25.
Lemma sq_K5 : sqn 16 K4 = K5. Proof. vm_compute. reflexivity. Qed.
Lemma acts_K5 : acts K5 (2 ^ 80).
Proof. rewrite <- sq_K5. exact (acts_sqn 16 K4 (2 ^ 64) acts_K4). Qed.
Definition K6 : N := 0x31eebb6c82a9615fb27c05962ea56a13cdb45d7def42c317148c356c3114b7a9.
Lemma sq_K6 : sqn 16 K5 = K6. Proof. vm_compute. reflexivity. Qed.
Lemma acts_K6 : acts K6 (2 ^ 96).
Proof. rewrite <- sq_K6. exact (acts_sqn 16 K5 (2 ^ 80) acts_K5). Qed.
Definition K7 : N := 0x19809df824096ba19a5475c8d2fb2d20e903694ada9d6795ff09f37df22eab9a.
Lemma sq_K7 : sqn 16 K6 = K7. Proof. vm_compute. reflexivity. Qed.
Lemma acts_K7 : acts K7 (2 ^ 112).
Proof. rewrite <- sq_K7. exact (acts_sqn 16 K6 (2 ^ 96) acts_K6). Qed.
Definition K8 : N := 0x39abdc4529b1661ca9582618e03fc9aad5a61266f0c9392c180ec6d33cfd0aba.
Lemma sq_K8 : sqn 16 K7 = K8. Proof. vm_compute. reflexivity. Qed.
Lemma acts_K8 : acts K8 (2 ^ 128).
Proof. rewrite <- sq_K8. exact (acts_sqn 16 K7 (2 ^ 112) acts_K7). Qed.
Definition K9 : N := 0xb81875d0f4f6f253962c90a866ea6719c51212c8b1aa27873dcd32f39276a95f.
Lemma sq_K9 : sqn 16 K8 = K9. Proof. vm_compute. reflexivity. Qed.
Lemma acts_K9 : acts K9 (2 ^ 144).
Proof. rewrite <- sq_K9. exact (acts_sqn 16 K8 (2 ^ 128) acts_K8). Qed.
Definition K10 : N := 0xf567382197055bf04823b45b89dc689c69e6e6e431a2d40bc04b4f9c5d26c200.
Lemma sq_K10 : sqn 16 K9 = K10. Proof. vm_compute. reflexivity. Qed.
Lemma acts_K10 : acts K10 (2 ^ 160).
Proof. rewrite <- sq_K10. exact (acts_sqn 16 K9 (2 ^ 144) acts_K9). Qed.
Definition K11 : N := 0x2432aaa71d816e63259022fe05f4023e0b4df9e68366344a053ff7e4e8581163.
Lemma sq_K11 : sqn 16 K10 = K11. Proof. vm_compute. reflexivity. Qed.
Lemma acts_K11 : acts K11 (2 ^ 176).
Proof. rewrite <- sq_K11. exact (acts_sqn 16 K10 (2 ^ 160) acts_K10). Qed.
Definition K12 : N := 0x39109bb02acbe63577710069854ee241c5004e441c522fb376e15d3efefdcbbf.
Lemma sq_K12 : sqn 16 K11 = K12. Proof. vm_compute. reflexivity. Qed.
Lemma acts_K12 : acts K12 (2 ^ 192).
Proof. rewrite <- sq_K12. exact (acts_sqn 16 K11 (2 ^ 176) acts_K11). Qed.
Definition K13 : N := 0x114dcbb43b155057470868184fcc3f5f1af87374102c1031afbacb099d1967bd.
Lemma sq_K13 : sqn 16 K12 = K13. Proof. vm_compute. reflexivity. Qed.
Lemma acts_K13 : acts K13 (2 ^ 208).
Proof. rewrite <- sq_K13. exact (acts_sqn 16 K12 (2 ^ 192) acts_K12). Qed.
Definition K14 : N := 0xa2b5d83a373c7ac2f31d2e03157bc387d317530723ab526a0c7840cbc3b121ad.
Lemma sq_K14 : sqn 16 K13 = K14. Proof. vm_compute. reflexivity. Qed.
Lemma acts_K14 : acts K14 (2 ^ 224).
Proof. rewrite <- sq_K14. exact (acts_sqn 16 K13 (2 ^ 208) acts_K13). Qed.
Definition K15 : N := 0x33a1c005e4ccc286de5eb81978735ad0ba5487bfcecce199d18562b8cfa0694f.
Lemma sq_K15 : sqn 16 K14 = K15. Proof. vm_compute. reflexivity. Qed.
Lemma acts_K15 : acts K15 (2 ^ 240).
Proof. rewrite <- sq_K15. exact (acts_sqn 16 K14 (2 ^ 224) acts_K14). Qed.
Definition K16 : N := 0x2.
Lemma sq_K16 : sqn 16 K15 = K16. Proof. vm_compute. reflexivity. Qed.
Lemma acts_K16 : acts K16 (2 ^ 256).
Proof. rewrite <- sq_K16. exact (acts_sqn 16 K15 (2 ^ 240) acts_K15). Qed.
Lemma acts256 : acts 2 (2 ^ 256). Proof. exact acts_K16. Qed.

Lemma jump128_ok s : x_wf s -> x_jump128 s = N.iter (2 ^ 128) step s.
Proof.
  intros W. unfold x_jump128, step128. rewrite jump_ok, iter_step by (exact W || (repeat constructor)).
  change (value TABLE128) with K8. apply acts_K8, W.
Qed.
Lemma jump192_ok s : x_wf s -> x_jump192 s = N.iter (2 ^ 192) step s.
Proof.
  intros W. unfold x_jump192, step192. rewrite jump_ok, iter_step by (exact W || (repeat constructor)).
  change (value TABLE192) with K12. apply acts_K12, W.
Qed.
