(** Proofs: the published algorithms, equidistribution of the outputs of
    Xoshiro256++, and disjoint streams of streams. *)
From Coq Require Import ConstructiveEpsilon.
From Verif Require Import Base RngModel RngSpec RngProofs XoshiroProofs XoshiroPoly XoshiroPeriod RngMore.
From Verif Require RngRef.
Local Open Scope N_scope.

(** ** Published algorithms *)
Lemma shiftr_ref v k : N.shiftr v k = v / 2 ^ k.
Proof. apply N.shiftr_div_pow2. Qed.

Lemma murmur13_ok v : v < 2 ^ 64 -> RngRef.murmur13 v = mix64 v.
Proof.
  intros H. unfold RngRef.murmur13, RngRef.avalanche, mix64, wmul. cbn [fold_left].
  rewrite !shiftr_ref, N.mul_1_r. apply N.mod_small.
  apply lxor_lt; [apply N.mod_lt; discriminate|].
  rewrite <- shiftr_ref. apply shiftr_lt, N.mod_lt. discriminate.
Qed.
Lemma murmur4_ok v : RngRef.murmur4 v = mix32 v.
Proof.
  unfold RngRef.murmur4, RngRef.avalanche, mix32, wmul. cbn [fold_left]. rewrite !shiftr_ref.
  symmetry. apply N.mod_small. apply N.div_lt_upper_bound; [discriminate|].
  change (2 ^ 32 * 2 ^ 32) with W64. apply N.mod_lt. discriminate.
Qed.
Lemma murmur3_ok v : N.lor (RngRef.murmur3 v) 1 =
  let v := wmul (N.lxor v (N.shiftr v 33)) 0xff51afd7ed558ccd in
  let v := wmul (N.lxor v (N.shiftr v 33)) 0xc4ceb9fe1a85ec53 in
  N.lor (N.lxor v (N.shiftr v 33)) 1.
Proof.
  unfold RngRef.murmur3, RngRef.avalanche, wmul. cbn [fold_left]. cbv zeta.
  rewrite !shiftr_ref, N.mul_1_r. rewrite (N.mod_small (N.lxor _ _)); [reflexivity|].
  apply lxor_lt; [apply N.mod_lt; discriminate|].
  rewrite <- shiftr_ref. apply shiftr_lt, N.mod_lt. discriminate.
Qed.
Lemma ones_of_ok n z : z < 2 ^ N.of_nat n -> RngRef.ones_of n z = popcount z.
Proof.
  revert z. induction n as [|n IH]; intros z H; cbn [RngRef.ones_of].
  - cbn in H. replace z with 0 by lia. reflexivity.
  - rewrite IH.
    2: { rewrite Nat2N.inj_succ, N.pow_succ_r' in H. apply N.div_lt_upper_bound; lia. }
    rewrite <- N.bit0_mod, <- N.div2_div. destruct z as [|[p|p|]]; reflexivity.
Qed.
Lemma increment_ok v : RngRef.increment v = mixg v.
Proof.
  unfold RngRef.increment, mixg. rewrite murmur3_ok. cbv zeta.
  set (w := N.lor _ 1). change (w / 2) with (w / 2 ^ 1). rewrite <- shiftr_ref.
  rewrite ones_of_ok; [reflexivity|].
  assert (W : w < 2 ^ 64).
  { apply lor_lt; [|reflexivity]. apply lxor_lt; [apply wmul_lt|apply shiftr_lt, wmul_lt]. }
  apply lxor_lt; [exact W|]. apply shiftr_lt, W.
Qed.

Lemma sm_calls_ok seed g calls : forall i s,
  mix s = (seed + i * g) mod 2 ^ 64 -> gamma s = g ->
  sm_calls s calls = RngRef.splitmix seed g i calls.
Proof.
  assert (A : forall i, wadd ((seed + i * g) mod 2 ^ 64) g = (seed + (i + 1) * g) mod 2 ^ 64).
  { intros i. unfold wadd. rewrite N.add_mod_idemp_l by discriminate. f_equal. lia. }
  induction calls as [|[] calls IH]; intros i s M G; [reflexivity|..]; cbn [sm_calls RngRef.splitmix sm_next32 sm_next64 sm_split].
  - unfold mix_step. rewrite G, M, A. rewrite murmur4_ok. f_equal. now apply IH.
  - unfold mix_step. rewrite G, M, A. rewrite murmur13_ok by (apply N.mod_lt; discriminate). f_equal. now apply IH.
  - unfold mix_step. rewrite G, M, !A. rewrite murmur13_ok by (apply N.mod_lt; discriminate). rewrite increment_ok.
    replace (i + 2) with (i + 1 + 1) by lia. f_equal. now apply IH.
Qed.

Lemma rotate_ok k x : x < 2 ^ 64 -> 0 < k < 64 -> RngRef.rotate k x = rotl64 x k.
Proof.
  intros H K. unfold RngRef.rotate, rotl64, shl64, W64. rewrite N.shiftl_mul_pow2, <- shiftr_ref.
  symmetry. rewrite <- N.lxor_lor, <- N.add_nocarry_lxor; [reflexivity|..];
    (apply N.bits_inj; intros i; rewrite N.land_spec, N.bits_0, N.shiftr_spec by lia;
     destruct (N.ltb_spec i k) as [L|L];
     [rewrite <- N.shiftl_mul_pow2; destruct (N.ltb_spec i 64);
      [rewrite N.mod_pow2_bits_low by lia; rewrite N.shiftl_spec_low by lia; reflexivity
      |rewrite N.mod_pow2_bits_high by lia; reflexivity]
     |rewrite (bits_lt x 64 (i + (64 - k))) by (assumption || lia); apply andb_false_r]).
Qed.

Lemma output_ok s : x_wf s -> RngRef.xoshiro_output (x_words s) = combine s.
Proof.
  intros (A & B & C & D). unfold RngRef.xoshiro_output, x_words, combine, wadd.
  rewrite rotate_ok; [reflexivity|apply N.mod_lt; discriminate|lia].
Qed.
Lemma matrix_ok s : x_wf s -> RngRef.xoshiro_matrix (x_words s) = x_words (step s).
Proof.
  intros (A & B & C & D). unfold RngRef.xoshiro_matrix, x_words, step. cbn [x0 x1 x2 x3].
  rewrite rotate_ok; [|now apply lxor_lt|lia]. unfold shl64, W64. rewrite N.shiftl_mul_pow2.
  rewrite (N.lxor_comm (x1 s) (x3 s)). rewrite (N.lxor_comm (x0 s) (x2 s)).
  replace (N.lxor (x1 s) (N.lxor (x2 s) (x0 s))) with (N.lxor (x0 s) (N.lxor (x1 s) (x2 s))); [reflexivity|].
  rewrite <- (N.lxor_assoc (x1 s)). apply N.lxor_comm.
Qed.
Lemma take_ok n : forall s, x_wf s -> x_take n s = RngRef.xoshiro (x_words s) n.
Proof.
  induction n as [|n IH]; intros s W; [reflexivity|]. cbn [x_take RngRef.xoshiro x_next64].
  rewrite output_ok, matrix_ok by exact W. f_equal. apply IH, wf_step, W.
Qed.

(** ** Inverting the scrambler *)
(** The last word of a state whose first word is [a] and whose output is [v]. *)
Definition unscramble (a v : N) : N :=
  wadd (rotL (wadd v (2 ^ 64 - a)) 41) (2 ^ 64 - a).

Lemma rotL_back a m n : a < 2 ^ 64 -> 0 < m -> 0 < n -> m + n = 64 -> rotL (rotL a m) n = a.
Proof.
  intros Ha Hm Hn E. apply N.bits_inj; intros i. unfold rotL.
  rewrite !N.lxor_spec, !shlL_spec, !N.lxor_spec, !N.shiftr_spec, !shlL_spec, !N.lxor_spec,
    !shlL_spec, !N.shiftr_spec by lia.
  destruct (N.ltb_spec i 64) as [Hi|Hi].
  - destruct (N.leb_spec n i) as [H19|H19].
    + replace (i - n + (64 - m)) with i by lia.
      destruct (N.leb_spec m (i - n)); [lia|].
      replace (i + (64 - n)) with (i + m) by lia.
      destruct (N.leb_spec m (i + m)); [|lia]. destruct (N.ltb_spec (i + m) 64); [lia|].
      rewrite (bits_lt a 64 (i + m + (64 - m))) by (assumption || lia).
      repeat match goal with |- context [N.testbit ?a ?j] => destruct (N.testbit a j) end; reflexivity.
    + replace (i + (64 - n)) with (i + m) by lia.
      destruct (N.leb_spec m (i + m)); [|lia]. destruct (N.ltb_spec (i + m) 64); [|lia].
      replace (i + m - m) with i by lia.
      rewrite (bits_lt a 64 (i + m + (64 - m))) by (assumption || lia).
      repeat match goal with |- context [N.testbit ?a ?j] => destruct (N.testbit a j) end; reflexivity.
  - rewrite (bits_lt a 64 i Ha Hi).
    rewrite (bits_lt a 64 (i + (64 - n) + (64 - m)) Ha) by lia.
    destruct (N.ltb_spec (i + (64 - n)) 64); [lia|]. rewrite !andb_false_r. reflexivity.
Qed.

Lemma wadd_sub v a : v < 2 ^ 64 -> a < 2 ^ 64 -> wadd (wadd v a) (2 ^ 64 - a) = v.
Proof.
  intros V A. unfold wadd, W64. rewrite N.add_mod_idemp_l by discriminate.
  replace (v + a + (2 ^ 64 - a)) with (v + 1 * 2 ^ 64) by lia.
  rewrite N.mod_add by discriminate. now apply N.mod_small.
Qed.
Lemma wadd_sub' v a : v < 2 ^ 64 -> a < 2 ^ 64 -> wadd (wadd v (2 ^ 64 - a)) a = v.
Proof.
  intros V A. unfold wadd, W64. rewrite N.add_mod_idemp_l by discriminate.
  replace (v + (2 ^ 64 - a) + a) with (v + 1 * 2 ^ 64) by lia.
  rewrite N.mod_add by discriminate. now apply N.mod_small.
Qed.
Lemma wadd_comm a b : wadd a b = wadd b a.
Proof. unfold wadd. now rewrite N.add_comm. Qed.
Lemma unscramble_lt a v : unscramble a v < 2 ^ 64.
Proof. apply wadd_lt. Qed.
Definition scramble (a d : N) : N := wadd (rotl64 (wadd a d) 23) a.
Lemma scramble_lt a d : scramble a d < 2 ^ 64. Proof. apply wadd_lt. Qed.
Lemma unscramble_scramble a d : a < 2 ^ 64 -> d < 2 ^ 64 -> unscramble a (scramble a d) = d.
Proof.
  intros A D. unfold unscramble, scramble.
  pose proof (wadd_lt a d) as S. rewrite rotl_eq by (assumption || lia).
  rewrite wadd_sub; [|now apply rotL_lt|assumption]. rewrite rotL_back by (assumption || lia).
  rewrite (wadd_comm a d). now apply wadd_sub.
Qed.
Lemma scramble_unscramble a v : a < 2 ^ 64 -> v < 2 ^ 64 -> scramble a (unscramble a v) = v.
Proof.
  intros A V. unfold unscramble, scramble. rewrite (wadd_comm a).
  set (w := wadd v (2 ^ 64 - a)). assert (W : w < 2 ^ 64) by apply wadd_lt.
  rewrite wadd_sub' by (try apply rotL_lt; assumption).
  rewrite rotl_eq by (try apply rotL_lt; assumption || lia).
  rewrite rotL_back by (assumption || lia). unfold w. now apply wadd_sub'.
Qed.

(** ** The state with given first three outputs *)
(** [p] is the first word two steps later. *)
Definition state_of (a b c p : N) : Xoshiro :=
  let y := rotL (unscramble p c) 19 in
  let q := N.lxor p y in
  let d1 := unscramble q b in
  let x := rotL d1 19 in
  let r := N.lxor q x in
  let d0 := unscramble r a in
  let s1 := N.lxor x d0 in
  X r s1 (N.lxor (N.lxor (N.lxor y d1) s1) r) d0.

Lemma state_of_wf a b c p : p < 2 ^ 64 -> x_wf (state_of a b c p).
Proof.
  intros P. unfold state_of, x_wf. cbn [x0 x1 x2 x3].
  repeat split; repeat (assumption || apply unscramble_lt || apply rotL_lt || apply lxor_lt).
Qed.
Lemma lxor_mid a b : N.lxor a (N.lxor a b) = b.
Proof. now rewrite <- N.lxor_assoc, N.lxor_nilpotent, N.lxor_0_l. Qed.
Lemma lxor_mid' a b : N.lxor (N.lxor a b) b = a.
Proof. now rewrite N.lxor_assoc, N.lxor_nilpotent, N.lxor_0_r. Qed.
Lemma lxor_mid3 a b : N.lxor (N.lxor a b) a = b.
Proof. rewrite (N.lxor_comm a b). apply lxor_mid'. Qed.

Lemma state_of_step a b c p : p < 2 ^ 64 ->
  let y := rotL (unscramble p c) 19 in let q := N.lxor p y in let d1 := unscramble q b in
  x0 (step (state_of a b c p)) = q /\ x3 (step (state_of a b c p)) = d1
  /\ x1 (step (state_of a b c p)) = N.lxor y d1.
Proof.
  intros P y q d1. rewrite step_eq by now apply state_of_wf.
  unfold stepL, state_of. cbn [x0 x1 x2 x3]. fold y. fold q. fold d1.
  set (x := rotL d1 19). set (r := N.lxor q x). set (d0 := unscramble r a).
  assert (D1 : d1 < 2 ^ 64) by apply unscramble_lt.
  assert (E : N.lxor d0 (N.lxor x d0) = x) by (rewrite N.lxor_comm; apply lxor_mid').
  rewrite E. split; [unfold r; apply lxor_mid'|]. split.
  - unfold x. apply rotL_back; lia || assumption.
  - rewrite lxor_mid'. rewrite (N.lxor_comm (N.lxor y d1)). rewrite lxor_mid. reflexivity.
Qed.

Lemma state_of_outputs a b c p : a < 2 ^ 64 -> b < 2 ^ 64 -> c < 2 ^ 64 -> p < 2 ^ 64 ->
  let s := state_of a b c p in
  combine s = a /\ combine (step s) = b /\ combine (step (step s)) = c /\ x0 (step (step s)) = p.
Proof.
  intros A B C P s.
  destruct (state_of_step a b c p P) as (E0 & E3 & E1). fold s in E0, E3, E1.
  set (y := rotL (unscramble p c) 19) in *. set (q := N.lxor p y) in *. set (d1 := unscramble q b) in *.
  assert (Y : y < 2 ^ 64) by (apply rotL_lt, unscramble_lt).
  assert (Q : q < 2 ^ 64) by now apply lxor_lt.
  split.
  { unfold combine, s, state_of. cbn [x0 x3]. fold y. fold q. fold d1.
    apply scramble_unscramble; [|assumption]. apply lxor_lt; [assumption|]. apply rotL_lt, unscramble_lt. }
  split; [unfold combine; rewrite E0, E3; now apply scramble_unscramble|].
  assert (W : x_wf (step s)) by now apply wf_step, state_of_wf.
  assert (Z0 : x0 (step (step s)) = p /\ x3 (step (step s)) = unscramble p c).
  { rewrite (step_eq (step s)) by exact W. unfold stepL. cbn [x0 x3]. rewrite E0, E3, E1.
    assert (E : N.lxor d1 (N.lxor y d1) = y) by (rewrite N.lxor_comm; apply lxor_mid').
    rewrite E. split; [apply lxor_mid'|]. unfold y. apply rotL_back; try lia. apply unscramble_lt. }
  destruct Z0 as (Z0 & Z3). split; [|exact Z0].
  unfold combine. rewrite Z0, Z3. now apply scramble_unscramble.
Qed.

Lemma combine_eq s : x_wf s -> x3 s = unscramble (x0 s) (combine s).
Proof. intros (A & _ & _ & D). symmetry. now apply unscramble_scramble. Qed.

Lemma state_of_complete s : x_wf s ->
  state_of (combine s) (combine (step s)) (combine (step (step s))) (x0 (step (step s))) = s.
Proof.
  intros W. pose proof (wf_step s W) as W1. pose proof (wf_step _ W1) as W2.
  unfold state_of. rewrite <- (combine_eq (step (step s))) by exact W2.
  assert (Y : rotL (x3 (step (step s))) 19 = N.lxor (x3 (step s)) (x1 (step s))).
  { rewrite (step_eq (step s)) by exact W1. unfold stepL. cbn [x3].
    apply rotL_back; try lia. apply lxor_lt; apply W1. }
  rewrite Y.
  assert (Q : N.lxor (x0 (step (step s))) (N.lxor (x3 (step s)) (x1 (step s))) = x0 (step s)).
  { rewrite (step_eq (step s)) by exact W1. unfold stepL. cbn [x0]. apply lxor_mid'. }
  rewrite Q. rewrite <- (combine_eq (step s)) by exact W1.
  assert (X' : rotL (x3 (step s)) 19 = N.lxor (x3 s) (x1 s)).
  { rewrite (step_eq s) by exact W. unfold stepL. cbn [x3].
    apply rotL_back; try lia. apply lxor_lt; apply W. }
  rewrite X'.
  assert (R : N.lxor (x0 (step s)) (N.lxor (x3 s) (x1 s)) = x0 s).
  { rewrite (step_eq s) by exact W. unfold stepL. cbn [x0]. apply lxor_mid'. }
  rewrite R. rewrite <- (combine_eq s) by exact W.
  rewrite lxor_mid3. rewrite (N.lxor_comm (x3 (step s)) (x1 (step s))), lxor_mid'.
  assert (S1 : x1 (step s) = N.lxor (x1 s) (N.lxor (x2 s) (x0 s))).
  { rewrite (step_eq s) by exact W. reflexivity. }
  rewrite S1, lxor_mid3, lxor_mid'. now destruct s.
Qed.

(** ** Positions of states *)
Lemma lt_dec_N a b : {a < b} + {~ a < b}.
Proof. destruct (N.ltb a b) eqn:E; [left; now apply N.ltb_lt|right; intros H; apply N.ltb_lt in H; congruence]. Qed.
Lemma xoshiro_eq_dec (a b : Xoshiro) : {a = b} + {a <> b}.
Proof. decide equality; apply N.eq_dec. Qed.

Lemma position s t : x_wf s -> s <> zero -> x_wf t -> t <> zero ->
  {k | k < 2 ^ 256 - 1 /\ N.iter k step s = t}.
Proof.
  intros Ws Hs Wt Ht.
  destruct (constructive_indefinite_ground_description_nat
     (fun n => N.of_nat n < 2 ^ 256 - 1 /\ N.iter (N.of_nat n) step s = t)) as (n & H).
  - intros n. destruct (lt_dec_N (N.of_nat n) (2 ^ 256 - 1)) as [L|L]; [|right; tauto].
    destruct (xoshiro_eq_dec (N.iter (N.of_nat n) step s) t); [left|right]; tauto.
  - destruct (single_cycle s t Ws Hs Wt Ht) as (k & K & E). exists (N.to_nat k). now rewrite N2Nat.id.
  - exists (N.of_nat n). exact H.
Qed.

(** If [g] enumerates the states with a property, there is an enumeration of the
    positions at which the property holds. *)
Lemma enumerate s (P : Xoshiro -> Prop) K (g : N -> Xoshiro) : x_wf s -> s <> zero ->
  (forall k, k < K -> x_wf (g k) /\ g k <> zero /\ P (g k)) ->
  (forall k l, k < K -> l < K -> g k = g l -> k = l) ->
  (forall t, x_wf t -> t <> zero -> P t -> exists k, k < K /\ t = g k) ->
  exists f : N -> N,
    (forall k, k < K -> f k < 2 ^ 256 - 1 /\ P (N.iter (f k) step s)) /\
    (forall k l, k < K -> l < K -> f k = f l -> k = l) /\
    (forall i, i < 2 ^ 256 - 1 -> P (N.iter i step s) -> exists k, k < K /\ i = f k).
Proof.
  intros Ws Hs G I O.
  set (f := fun k => match lt_dec_N k K with
    | left H => proj1_sig (position s (g k) Ws Hs (proj1 (G k H)) (proj1 (proj2 (G k H))))
    | right _ => 0
    end).
  assert (F : forall k, k < K -> f k < 2 ^ 256 - 1 /\ N.iter (f k) step s = g k).
  { intros k H. unfold f. destruct (lt_dec_N k K) as [L|L]; [|contradiction].
    destruct (position _ _ _ _ _ _) as (n & N1 & N2). cbn [proj1_sig]. tauto. }
  exists f. split; [|split].
  - intros k H. destruct (F k H) as (A & E). split; [exact A|]. rewrite E. now apply G.
  - intros k l Hk Hl E. apply I; [assumption..|]. destruct (F k Hk) as (_ & <-), (F l Hl) as (_ & <-). now rewrite E.
  - intros i Hi Pi. destruct (step_nonzero s i Ws Hs) as (W & Z). destruct (O _ W Z Pi) as (k & Hk & E).
    exists k. split; [exact Hk|]. destruct (F k Hk) as (A & E').
    apply (proj2 (x_period s Ws Hs)); [assumption..|]. now rewrite E'.
Qed.

Lemma iter_out s i : x_out s i = combine (N.iter i step s). Proof. reflexivity. Qed.
Lemma iter_S s i : N.iter (i + 1) step s = step (N.iter i step s).
Proof. now rewrite N.add_1_r, N.iter_succ. Qed.

(** Triples of outputs. *)
Lemma triples s a b c : x_wf s -> s <> zero -> a < 2 ^ 64 -> b < 2 ^ 64 -> c < 2 ^ 64 ->
  let K := if (a =? 0) && (b =? 0) && (c =? 0) then 2 ^ 64 - 1 else 2 ^ 64 in
  exists f : N -> N,
    (forall k, k < K -> f k < 2 ^ 256 - 1 /\ x_out s (f k) = a /\ x_out s (f k + 1) = b /\ x_out s (f k + 2) = c) /\
    (forall k l, k < K -> l < K -> f k = f l -> k = l) /\
    (forall i, i < 2 ^ 256 - 1 -> x_out s i = a -> x_out s (i + 1) = b -> x_out s (i + 2) = c ->
       exists k, k < K /\ i = f k).
Proof.
  intros Ws Hs A B C K.
  set (shift := if (a =? 0) && (b =? 0) && (c =? 0) then 1 else 0).
  assert (KS : K + shift = 2 ^ 64) by (unfold K, shift; destruct (_ && _); reflexivity).
  set (P := fun t => combine t = a /\ combine (step t) = b /\ combine (step (step t)) = c).
  destruct (enumerate s P K (fun k => state_of a b c (k + shift)) Ws Hs) as (f & F1 & F2 & F3).
  - intros k Hk. assert (L : k + shift < 2 ^ 64) by lia. split; [now apply state_of_wf|].
    pose proof (state_of_outputs a b c _ A B C L) as (Oa & Ob & Oc & Op). split; [|now repeat split].
    intros Z. rewrite Z in *.
    change (step zero) with zero in *. change (step zero) with zero in *. change (combine zero) with 0 in *.
    change (x0 zero) with 0 in *. subst a b c. unfold shift in Op. cbn in Op. lia.
  - intros k l Hk Hl E.
    pose proof (state_of_outputs a b c (k + shift) A B C ltac:(lia)) as (_ & _ & _ & E1).
    pose proof (state_of_outputs a b c (l + shift) A B C ltac:(lia)) as (_ & _ & _ & E2).
    rewrite E in E1. lia.
  - intros t W Z (Oa & Ob & Oc). pose proof (state_of_complete t W) as E. rewrite Oa, Ob, Oc in E.
    set (p := x0 (step (step t))) in *.
    assert (Hp : p < 2 ^ 64) by (apply wf_step, wf_step, W).
    assert (S' : shift <= p).
    { unfold shift. destruct ((a =? 0) && (b =? 0) && (c =? 0)) eqn:Q; [|lia].
      apply andb_prop in Q. destruct Q as (Q & Qc). apply andb_prop in Q. destruct Q as (Qa & Qb).
      apply N.eqb_eq in Qa, Qb, Qc. destruct (N.eq_dec p 0) as [P0|]; [|lia]. exfalso. apply Z.
      rewrite <- E, Qa, Qb, Qc, P0. vm_compute. reflexivity. }
    exists (p - shift). split; [lia|]. rewrite N.sub_add by exact S'. now symmetry.
  - exists f. split; [|split; [exact F2|]].
    + intros k Hk. destruct (F1 k Hk) as (L & Pa & Pb & Pc). split; [exact L|]. rewrite !iter_out.
      replace (f k + 2) with (f k + 1 + 1) by lia. rewrite !iter_S. now repeat split.
    + intros i Hi Oa Ob Oc. apply F3; [exact Hi|]. rewrite iter_out in Oa, Ob, Oc.
      replace (i + 2) with (i + 1 + 1) in Oc by lia. rewrite !iter_S in *. now repeat split.
Qed.

(** Single outputs. *)
Lemma singles s v : x_wf s -> s <> zero -> v < 2 ^ 64 ->
  let K := if v =? 0 then 2 ^ 192 - 1 else 2 ^ 192 in
  exists f : N -> N,
    (forall k, k < K -> f k < 2 ^ 256 - 1 /\ x_out s (f k) = v) /\
    (forall k l, k < K -> l < K -> f k = f l -> k = l) /\
    (forall i, i < 2 ^ 256 - 1 -> x_out s i = v -> exists k, k < K /\ i = f k).
Proof.
  intros Ws Hs V K. set (shift := if v =? 0 then 1 else 0).
  assert (KS : K + shift = 2 ^ 192) by (unfold K, shift; destruct (v =? 0); reflexivity).
  set (at_ := fun k => X (k mod 2 ^ 64) (k / 2 ^ 64 mod 2 ^ 64) (k / 2 ^ 128)
                         (unscramble (k mod 2 ^ 64) v)).
  assert (Wf : forall k, k < 2 ^ 192 -> x_wf (at_ k)).
  { intros k Hk. unfold at_, x_wf. cbn [x0 x1 x2 x3].
    split; [apply N.mod_lt; discriminate|]. split; [apply N.mod_lt; discriminate|].
    split; [|apply unscramble_lt]. apply N.div_lt_upper_bound; [discriminate|].
    change (2 ^ 128 * 2 ^ 64) with (2 ^ 192). exact Hk. }
  assert (Dig : forall k, k = k mod 2 ^ 64 + 2 ^ 64 * (k / 2 ^ 64 mod 2 ^ 64 + 2 ^ 64 * (k / 2 ^ 128))).
  { intros k. change (2 ^ 128) with (2 ^ 64 * 2 ^ 64). rewrite <- N.div_div by discriminate.
    rewrite (N.add_comm (k / 2 ^ 64 mod 2 ^ 64)), <- N.div_mod by discriminate.
    rewrite N.add_comm. now apply N.div_mod. }
  destruct (enumerate s (fun t => combine t = v) K (fun k => at_ (k + shift)) Ws Hs) as (f & F1 & F2 & F3).
  - intros k Hk. assert (L : k + shift < 2 ^ 192) by lia. split; [now apply Wf|].
    assert (O : combine (at_ (k + shift)) = v).
    { unfold combine, at_. cbn [x0 x3]. apply scramble_unscramble; [apply N.mod_lt; discriminate|exact V]. }
    split; [|exact O]. intros Z. rewrite Z in O. change (combine zero) with 0 in O.
    assert (S' : shift = 1) by (unfold shift; now rewrite <- O).
    pose proof (Dig (k + shift)) as D. 
    pose proof (f_equal x0 Z) as Z0. pose proof (f_equal x1 Z) as Z1. pose proof (f_equal x2 Z) as Z2.
    unfold at_, zero in Z0, Z1, Z2. cbn [x0 x1 x2] in Z0, Z1, Z2.
    rewrite Z0, Z1, Z2 in D. lia.
  - intros k l Hk Hl E. 
    pose proof (f_equal x0 E) as E0. pose proof (f_equal x1 E) as E1. pose proof (f_equal x2 E) as E2.
    unfold at_ in E0, E1, E2. cbn [x0 x1 x2] in E0, E1, E2.
    pose proof (Dig (k + shift)) as D. rewrite E0, E1, E2, <- Dig in D. lia.
  - intros t W Z O. destruct t as [a b c d]. destruct W as (A & B & C & D). cbn [x0 x1 x2 x3] in *.
    set (k := a + 2 ^ 64 * (b + 2 ^ 64 * c)).
    assert (k < 2 ^ 192).
    { unfold k. change (2 ^ 192) with (2 ^ 64 * (2 ^ 64 * 2 ^ 64)). revert A B C. generalize (2 ^ 64). intros.
      nia. }
    assert (M0 : k mod 2 ^ 64 = a).
    { unfold k. rewrite N.mul_comm, N.mod_add by discriminate. now apply N.mod_small. }
    assert (D0 : k / 2 ^ 64 = b + 2 ^ 64 * c).
    { unfold k. rewrite N.mul_comm, N.div_add by discriminate. now rewrite N.div_small. }
    assert (E : X a b c d = at_ k).
    { unfold at_. rewrite M0. change (2 ^ 128) with (2 ^ 64 * 2 ^ 64). rewrite <- N.div_div by discriminate.
      rewrite D0. rewrite (N.mul_comm _ c), N.mod_add, N.div_add, N.mod_small, N.div_small by (discriminate || assumption).
      f_equal. rewrite <- O. symmetry. now apply unscramble_scramble. }
    assert (S' : shift <= k).
    { unfold shift. destruct (v =? 0) eqn:Q; [|lia]. destruct (N.eq_dec k 0) as [K0|]; [|lia].
      exfalso. apply Z. apply N.eqb_eq in Q. rewrite E, K0. unfold at_. rewrite Q. vm_compute. reflexivity. }
    exists (k - shift). split; [lia|]. rewrite N.sub_add by exact S'. exact E.
  - exists f. exact (conj F1 (conj F2 F3)).
Qed.

(** ** Streams of streams *)
Lemma jumps192_ok a s : x_wf s -> x_wf (N.iter a x_jump192 s) /\
  N.iter a x_jump192 s = N.iter (a * 2 ^ 192) step s.
Proof.
  intros W. induction a as [|a IH] using N.peano_ind; [split; [exact W|reflexivity]|].
  rewrite !N.iter_succ. destruct IH as [W' IH].
  assert (E : x_jump192 (N.iter a x_jump192 s) = N.iter (N.succ a * 2 ^ 192) step s).
  { rewrite jump192_ok, IH, <- N.iter_add by exact W'. f_equal. lia. }
  rewrite E. split; [|reflexivity]. rewrite iter_step by exact W. apply wf_iter, W.
Qed.

Lemma disjoint_streams2 s a b a' b' i j : x_wf s -> s <> zero ->
  a < 2 ^ 64 - 1 -> a' < 2 ^ 64 - 1 -> b < 2 ^ 64 -> b' < 2 ^ 64 -> i < 2 ^ 128 -> j < 2 ^ 128 ->
  N.iter i step (N.iter b x_jump128 (N.iter a x_jump192 s)) =
  N.iter j step (N.iter b' x_jump128 (N.iter a' x_jump192 s)) -> a = a' /\ b = b' /\ i = j.
Proof.
  intros W Hs Ha Ha' Hb Hb' Hi Hj E.
  destruct (jumps192_ok a s W) as [Wa Ea], (jumps192_ok a' s W) as [Wa' Ea'].
  destruct (jumps_ok b _ Wa) as [_ Eb], (jumps_ok b' _ Wa') as [_ Eb'].
  rewrite Eb, Eb', Ea, Ea', <- !N.iter_add in E.
  assert (X1 : forall a b i, a < 2 ^ 64 - 1 -> b < 2 ^ 64 -> i < 2 ^ 128 ->
    i + b * 2 ^ 128 + a * 2 ^ 192 < 2 ^ 256 - 1).
  { intros u v w U V T. change (2 ^ 256) with (2 ^ 64 * (2 ^ 64 * 2 ^ 128)).
    change (2 ^ 192) with (2 ^ 64 * 2 ^ 128). revert U V T. generalize (2 ^ 64), (2 ^ 128). intros n m U V T.
    assert (H1 : w + v * m + 1 <= n * m) by nia. revert H1. generalize (n * m). intros M H1.
    assert (H2 : (u + 2) * M <= n * M) by (apply N.mul_le_mono_r; lia). nia. }
  apply (proj2 (x_period s W Hs)) in E; [|now apply X1..].
  replace (i + b * 2 ^ 128 + a * 2 ^ 192) with (i + 2 ^ 128 * (b + 2 ^ 64 * a)) in E by lia.
  replace (j + b' * 2 ^ 128 + a' * 2 ^ 192) with (j + 2 ^ 128 * (b' + 2 ^ 64 * a')) in E by lia.
  apply split_eq in E; [|assumption..]. destruct E as (-> & E).
  apply split_eq in E; [|assumption..]. destruct E as (-> & ->). repeat split.
Qed.
