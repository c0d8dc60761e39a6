(** Primality certificates, and exact periods from a factorisation.
    Library file: number theory only, nothing here models code. *)
From Verif Require Import Base.
Local Open Scope N_scope.

Definition primeN (p : N) : Prop := 1 < p /\ forall d, (d | p) -> d = 1 \/ d = p.
Definition prodl (l : list N) : N := fold_right N.mul 1 l.

Lemma prime_coprime p m : primeN p -> ~ (p | m) -> N.gcd m p = 1.
Proof.
  intros [H1 Hp] Hn. destruct (Hp (N.gcd m p) (N.gcd_divide_r _ _)) as [|E]; [assumption|].
  exfalso. apply Hn. rewrite <- E at 1. apply N.gcd_divide_l.
Qed.

Lemma coprime_mul m a b : N.gcd m a = 1 -> N.gcd m b = 1 -> N.gcd m (a * b) = 1.
Proof.
  intros Ha Hb. set (d := N.gcd m (a * b)).
  assert (D1 : (d | m)) by apply N.gcd_divide_l.
  assert (D2 : (d | a * b)) by apply N.gcd_divide_r.
  assert (E : N.gcd d a = 1).
  { apply N.divide_1_r. rewrite <- Ha. apply N.gcd_greatest.
    - eapply N.divide_trans; [apply N.gcd_divide_l|exact D1].
    - apply N.gcd_divide_r. }
  apply N.gauss in D2; [|exact E].
  apply N.divide_1_r. rewrite <- Hb. apply N.gcd_greatest; assumption.
Qed.

Lemma common_factor l m : Forall primeN l -> (exists q, In q l /\ (q | m)) \/ N.gcd m (prodl l) = 1.
Proof.
  induction l as [|p l IH]; intros F; cbn [prodl fold_right].
  - right. apply N.gcd_1_r.
  - inversion F as [|? ? Hp Fl]; subst. destruct (IH Fl) as [[q [Hq Hd]]|E].
    + left. exists q. split; [right; exact Hq|exact Hd].
    + destruct (N.eq_dec (m mod p) 0) as [Hz|Hz].
      * left. exists p. split; [left; reflexivity|]. apply N.mod_divide; [destruct Hp; lia|exact Hz].
      * right. apply coprime_mul; [|exact E]. apply prime_coprime; [exact Hp|].
        intros D. apply Hz. apply N.mod_divide; [destruct Hp; lia|exact D].
Qed.

(** A proper divisor of a product of primes divides a maximal proper divisor. *)
Lemma divisor_chain l g : Forall primeN l -> (g | prodl l) -> 0 < prodl l -> g <> prodl l ->
  exists q, In q l /\ (g | prodl l / q).
Proof.
  intros F [m Hm] Hpos Hne. destruct (common_factor l m F) as [[q [Hq [m' Hd]]]|E].
  - exists q. split; [exact Hq|]. exists m'. rewrite Hm, Hd.
    assert (1 < q) by (apply (proj1 (Forall_forall _ _) F) in Hq; apply Hq).
    replace (m' * q * g) with (m' * g * q) by lia. apply N.div_mul. lia.
  - exfalso. assert (D : (m | prodl l)) by (exists g; lia).
    assert (N.gcd m (prodl l) = m) by (apply N.divide_gcd_iff'; exact D).
    apply Hne. rewrite Hm. nia.
Qed.

(** ** Exact periods *)
Section Period.
Variable per : N -> Prop.
Hypothesis per_add : forall a b, per a -> per b -> per (a + b).
Hypothesis per_sub : forall a b, per a -> per (a + b) -> per b.
Hypothesis per_0 : per 0.

Lemma per_mul a k : per a -> per (k * a).
Proof.
  intros H. induction k as [|k IH] using N.peano_ind; [rewrite N.mul_0_l; exact per_0|].
  replace (N.succ k * a) with (a + k * a) by lia. apply per_add; assumption.
Qed.
Lemma per_gcd a b : per a -> per b -> per (N.gcd a b).
Proof.
  destruct (N.eq_dec a 0) as [->|Ha]; [rewrite N.gcd_0_l; auto|].
  destruct (N.eq_dec b 0) as [->|Hb]; [rewrite N.gcd_0_r; auto|].
  intros H1 H2. assert (Pa : 0 < a) by lia. assert (Pb : 0 < b) by lia.
  destruct (N.gcd_bezout_pos_pos a Pa b Pb) as [[u [v E]] _].
  apply (per_sub (v * b)); [apply per_mul; assumption|].
  rewrite N.add_comm, <- E. apply per_mul; assumption.
Qed.

Lemma exact_period l : Forall primeN l -> per (prodl l) ->
  (forall q, In q l -> ~ per (prodl l / q)) ->
  forall d, 0 < d < prodl l -> ~ per d.
Proof.
  intros F HF Hq d Hd Hper.
  pose proof (per_gcd d (prodl l) Hper HF) as Hg.
  set (g := N.gcd d (prodl l)) in *.
  assert (D1 : (g | prodl l)) by apply N.gcd_divide_r.
  assert (D2 : (g | d)) by apply N.gcd_divide_l.
  assert (g <= d) by (apply N.divide_pos_le; [lia|exact D2]).
  destruct (divisor_chain l g F D1 ltac:(lia) ltac:(lia)) as [q [Hin [k Hk]]].
  apply (Hq q Hin). rewrite Hk. apply per_mul, Hg.
Qed.
End Period.

(** ** Modular powers *)
Fixpoint powmod_pos (b : N) (e : positive) (n : N) : N :=
  match e with
  | xH => b mod n
  | xO e' => let r := powmod_pos b e' n in (r * r) mod n
  | xI e' => let r := powmod_pos b e' n in (((r * r) mod n) * b) mod n
  end.
Definition powmod (b e n : N) : N := match e with 0 => 1 mod n | Npos e => powmod_pos b e n end.
Lemma powmod_ok b e n : n <> 0 -> powmod b e n = b ^ e mod n.
Proof.
  intros Hn. destruct e as [|e]; [reflexivity|]. cbn [powmod].
  induction e as [e IH|e IH|]; cbn [powmod_pos].
  - rewrite IH. rewrite <- N.mul_mod by exact Hn. rewrite N.mul_mod_idemp_l by exact Hn.
    f_equal. replace (N.pos e~1) with (N.pos e + N.pos e + 1) by lia.
    rewrite !N.pow_add_r, N.pow_1_r. reflexivity.
  - rewrite IH. rewrite <- N.mul_mod by exact Hn.
    f_equal. replace (N.pos e~0) with (N.pos e + N.pos e) by lia.
    rewrite !N.pow_add_r. reflexivity.
  - rewrite N.pow_1_r. reflexivity.
Qed.

(** ** Pocklington's criterion *)
Definition pock_check (n b : N) (l : list N) : bool :=
  let F := prodl l in
  (1 <? n) && (n <? (F + 1) * (F + 1)) && (powmod b F n =? 1) &&
  forallb (fun q => N.gcd (powmod b (F / q) n + (n - 1)) n =? 1) l.

(** [b^i] for [i < F] are pairwise distinct and non-zero modulo [p]. *)
Lemma order_bound p b F : 1 < p -> b ^ F mod p = 1 ->
  (forall d, 0 < d < F -> b ^ d mod p <> 1) -> F < p.
Proof.
  intros Hp HF Hd. assert (Hp0 : p <> 0) by lia.
  destruct (N.eq_dec F 0) as [->|HF0]; [lia|].
  assert (Inj : forall i j, i < j -> j < F -> b ^ i mod p = b ^ j mod p -> False).
  { intros i j Hij Hj E. apply (Hd (F - j + i)); [lia|].
    rewrite N.pow_add_r, <- N.mul_mod_idemp_r, E, N.mul_mod_idemp_r, <- N.pow_add_r by exact Hp0.
    replace (F - j + j) with F by lia. exact HF. }
  assert (Nz : forall i, i < F -> b ^ i mod p <> 0).
  { intros i Hi E. assert (HF' := HF). replace F with ((F - i) + i) in HF' by lia.
    rewrite N.pow_add_r, <- N.mul_mod_idemp_r, E, N.mul_0_r, N.mod_0_l in HF' by exact Hp0. discriminate. }
  set (l1 := map (fun i => N.to_nat (b ^ N.of_nat i mod p)) (seq 0 (N.to_nat F))).
  assert (ND : NoDup l1).
  { unfold l1. assert (G : forall n s, (s + n <= N.to_nat F)%nat ->
      NoDup (map (fun i => N.to_nat (b ^ N.of_nat i mod p)) (seq s n))).
    { induction n as [|n IH]; intros s Hs; cbn [seq map]; constructor.
      - intros Hin. apply in_map_iff in Hin. destruct Hin as [j [E Hj]]. apply in_seq in Hj.
        apply N2Nat.inj in E. apply (Inj (N.of_nat s) (N.of_nat j)); [lia|lia|]. symmetry; exact E.
      - apply IH. lia. }
    apply G. lia. }
  assert (Inc : incl l1 (seq 1 (N.to_nat p - 1))).
  { intros x Hx. unfold l1 in Hx. apply in_map_iff in Hx. destruct Hx as [i [<- Hi]]. apply in_seq in Hi.
    apply in_seq. pose proof (Nz (N.of_nat i) ltac:(lia)).
    pose proof (N.mod_upper_bound (b ^ N.of_nat i) p Hp0). lia. }
  pose proof (NoDup_incl_length ND Inc) as L. unfold l1 in L.
  rewrite map_length, !seq_length in L. lia.
Qed.

Lemma pocklington n b l : Forall primeN l -> pock_check n b l = true -> primeN n.
Proof.
  intros Fl C. unfold pock_check in C. set (F := prodl l) in *.
  apply andb_true_iff in C as [C C4]. apply andb_true_iff in C as [C C3].
  apply andb_true_iff in C as [C1 C2].
  apply N.ltb_lt in C1, C2. apply N.eqb_eq in C3.
  assert (Hn0 : n <> 0) by lia.
  rewrite powmod_ok in C3 by exact Hn0.
  assert (FP : 0 < F).
  { unfold F. clear - Fl. induction Fl as [|q l [Hq _] Fl IH]; cbn [prodl fold_right]; [lia|].
    fold (prodl l). nia. }
  assert (Big : forall p, (p | n) -> 1 < p -> F < p).
  { intros p Hpn Hp. assert (Hp0 : p <> 0) by lia.
    assert (Red : forall a, (a mod n) mod p = a mod p).
    { intros a. destruct Hpn as [k Hk]. rewrite (N.div_mod a n Hn0) at 2.
      generalize (a / n) (a mod n). intros u r.
      replace (n * u + r) with (r + (k * u) * p) by (rewrite Hk; lia).
      rewrite N.mod_add by exact Hp0. reflexivity. }
    assert (One : 1 mod p = 1) by (apply N.mod_small; exact Hp).
    assert (BF : b ^ F mod p = 1) by (rewrite <- Red, C3; exact One).
    apply (order_bound p b F Hp BF).
    apply (exact_period (fun k => b ^ k mod p = 1)) with (l := l).
    - intros x y Hx Hy. rewrite N.pow_add_r, N.mul_mod, Hx, Hy, N.mul_1_l by exact Hp0. exact One.
    - intros x y Hx Hxy. rewrite N.pow_add_r, N.mul_mod, Hx, N.mul_1_l, N.mod_mod in Hxy by exact Hp0. exact Hxy.
    - rewrite N.pow_0_r. exact One.
    - exact Fl.
    - exact BF.
    - intros q Hq E. apply (proj1 (forallb_forall _ _) C4) in Hq. apply N.eqb_eq in Hq.
      rewrite powmod_ok in Hq by exact Hn0. fold F in E.
      assert (D : (p | N.gcd (b ^ (F / q) mod n + (n - 1)) n)).
      { apply N.gcd_greatest; [|exact Hpn].
        apply N.mod_divide; [exact Hp0|].
        rewrite <- N.add_mod_idemp_l, Red, E by exact Hp0.
        replace (1 + (n - 1)) with n by lia. apply N.mod_divide; assumption. }
      rewrite Hq in D. apply N.divide_1_r in D. lia. }
  split; [exact C1|].
  assert (G : forall d e, n = d * e -> d <= e -> d = 1).
  { intros d e E Hde. destruct (N.eq_dec d 1) as [|Hd]; [assumption|]. exfalso.
    assert (d <> 0) by (intros ->; lia).
    assert (F < d) by (apply Big; [exists e; lia|lia]). nia. }
  intros d [e E]. destruct (N.le_ge_cases d e) as [L|L].
  - left. apply (G d e); [lia|exact L].
  - assert (e = 1) by (apply (G e d); assumption). right. lia.
Qed.

(** ** Small primes by trial division *)
Fixpoint trial (n : N) (d : N) (fuel : nat) : bool :=
  match fuel with
  | O => false
  | S fuel' => if n <? d * d then true
               else negb (n mod d =? 0) && trial n (d + 1) fuel'
  end.
Lemma trial_ok n fuel : forall d0, 1 < n -> 1 < d0 ->
  (forall d, 1 < d < d0 -> ~ (d | n)) -> trial n d0 fuel = true -> primeN n.
Proof.
  induction fuel as [|fuel IH]; intros d0 Hn Hd0 Hbelow T; cbn [trial] in T; [discriminate|].
  destruct (N.ltb_spec n (d0 * d0)) as [Hlt|Hge].
  - split; [exact Hn|].
    assert (G : forall d e, n = d * e -> d <= e -> d = 1).
    { intros d e E Hde. destruct (N.eq_dec d 1) as [|Hd]; [assumption|]. exfalso.
      assert (d <> 0) by (intros ->; lia).
      apply (Hbelow d); [nia|exists e; lia]. }
    intros d [e E]. destruct (N.le_ge_cases d e) as [L|L].
    + left. apply (G d e); [lia|exact L].
    + assert (e = 1) by (apply (G e d); assumption). right. lia.
  - apply andb_true_iff in T as [T1 T2]. apply negb_true_iff, N.eqb_neq in T1.
    apply (IH (d0 + 1)); try lia; try assumption.
    intros d Hd. destruct (N.eq_dec d d0) as [->|]; [|apply Hbelow; lia].
    intros D. apply T1. apply N.mod_divide; [lia|exact D].
Qed.
Lemma small_prime n : 1 < n -> trial n 2 3000 = true -> primeN n.
Proof. intros Hn T. apply (trial_ok n 3000 2 Hn); [lia| |exact T]. intros d Hd; lia. Qed.
Ltac small := apply small_prime; [reflexivity|vm_compute; reflexivity].

Lemma p3 : primeN 3. Proof. small. Qed.
Lemma p5 : primeN 5. Proof. small. Qed.
Lemma p17 : primeN 17. Proof. small. Qed.
Lemma p257 : primeN 257. Proof. small. Qed.
Lemma p641 : primeN 641. Proof. small. Qed.
Lemma p65537 : primeN 65537. Proof. small. Qed.
Lemma p274177 : primeN 274177. Proof. small. Qed.
Lemma p6700417 : primeN 6700417. Proof. small. Qed.
Lemma p373 : primeN 373. Proof. small. Qed.
Lemma p2998279 : primeN 2998279. Proof. small. Qed.
Lemma p1896229 : primeN 1896229. Proof. small. Qed.
Lemma p6939437 : primeN 6939437. Proof. small. Qed.
Lemma p67280421310721 : primeN 67280421310721.
Proof. apply (pocklington _ 61081809823082 [2998279; 373]); [exact (Forall_cons _ p2998279 (Forall_cons _ p373 (Forall_nil _)))|vm_compute; reflexivity]. Qed.
Lemma p18533742247 : primeN 18533742247.
Proof. apply (pocklington _ 3936126951 [1896229]); [exact (Forall_cons _ p1896229 (Forall_nil _))|vm_compute; reflexivity]. Qed.
Lemma p116503103764643 : primeN 116503103764643.
Proof. apply (pocklington _ 65489195555553 [18533742247]); [exact (Forall_cons _ p18533742247 (Forall_nil _))|vm_compute; reflexivity]. Qed.
Lemma p59649589127497217 : primeN 59649589127497217.
Proof. apply (pocklington _ 20416608684428934 [116503103764643]); [exact (Forall_cons _ p116503103764643 (Forall_nil _))|vm_compute; reflexivity]. Qed.
Lemma p55515497 : primeN 55515497.
Proof. apply (pocklington _ 256 [6939437]); [exact (Forall_cons _ p6939437 (Forall_nil _))|vm_compute; reflexivity]. Qed.
Lemma p733803839347 : primeN 733803839347.
Proof. apply (pocklington _ 232562832822 [55515497]); [exact (Forall_cons _ p55515497 (Forall_nil _))|vm_compute; reflexivity]. Qed.
Lemma p5704689200685129054721 : primeN 5704689200685129054721.
Proof. apply (pocklington _ 2500924644267550558592 [733803839347]); [exact (Forall_cons _ p733803839347 (Forall_nil _))|vm_compute; reflexivity]. Qed.

(** The factorisation of 2^256 - 1. *)
Definition factors : list N :=
  [3; 5; 17; 257; 641; 65537; 274177; 6700417; 67280421310721; 59649589127497217; 5704689200685129054721].
Lemma factors_prime : Forall primeN factors.
Proof.
  unfold factors.
  exact (Forall_cons _ p3 (Forall_cons _ p5 (Forall_cons _ p17 (Forall_cons _ p257 (Forall_cons _ p641
   (Forall_cons _ p65537 (Forall_cons _ p274177 (Forall_cons _ p6700417 (Forall_cons _ p67280421310721
   (Forall_cons _ p59649589127497217 (Forall_cons _ p5704689200685129054721 (Forall_nil _)))))))))))).
Qed.
Lemma factors_prod : prodl factors = 2 ^ 256 - 1.
Proof. vm_compute. reflexivity. Qed.
