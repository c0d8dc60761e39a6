(** Proofs that the SHA-256 engine refines FIPS 180-4. *)
From Verif Require Import Base Sha256Model.
From Verif Require Sha256Spec.
Module S := Sha256Spec.
Local Open Scope N_scope.
Local Open Scope res_scope.

Definition to_list (h : st8) : list N :=
  let '(St8 a b c d e f g h) := h in [a; b; c; d; e; f; g; h].

(** ** Constants *)
Lemma K_spec : SHA256_K = S.K.
Proof. vm_compute. reflexivity. Qed.
Lemma H_spec : to_list SHA256_H = S.H0.
Proof. vm_compute. reflexivity. Qed.
#[global] Opaque S.H0 S.K.
Lemma K_length : length SHA256_K = 64%nat.
Proof. reflexivity. Qed.

(** ** Words *)
Lemma pow32 : 2 ^ 32 = 0x100000000. Proof. reflexivity. Qed.
Lemma add32_comm a b : S.add32 a b = S.add32 b a.
Proof. unfold S.add32; rewrite N.add_comm; reflexivity. Qed.
Lemma add32_assoc a b c : S.add32 (S.add32 a b) c = S.add32 a (S.add32 b c).
Proof.
  unfold S.add32. rewrite N.add_mod_idemp_l, N.add_mod_idemp_r by discriminate.
  rewrite N.add_assoc; reflexivity.
Qed.
Lemma wadd_spec a b : wadd a b = S.add32 a b. Proof. reflexivity. Qed.

(** ** Generic list facts *)
Lemma skipn_nth_error {A} (l : list A) i x :
  nth_error l i = Some x -> skipn i l = x :: skipn (S i) l.
Proof.
  revert l; induction i as [|i IH]; intros [|y l] H; cbn in *; try discriminate.
  - inversion H; reflexivity.
  - apply IH, H.
Qed.
Lemma nth_error_Some_ex {A} (l : list A) i : (i < length l)%nat -> exists x, nth_error l i = Some x.
Proof.
  intros H; destruct (nth_error l i) eqn:E; [eauto|].
  apply nth_error_None in E; lia.
Qed.
Lemma combine_app {A B} (l1 l2 : list A) (m1 m2 : list B) :
  length l1 = length m1 -> combine (l1 ++ l2) (m1 ++ m2) = combine l1 m1 ++ combine l2 m2.
Proof.
  revert m1; induction l1 as [|a l1 IH]; intros [|b m1] H; cbn in *; try discriminate; auto.
  f_equal; apply IH; lia.
Qed.

(** ** One step and sixteen steps *)
Lemma step_ok sched st block i k w :
  (block < 4)%nat -> (i < 16)%nat ->
  nth_error SHA256_K (block * 16 + i) = Some k -> nth_error sched i = Some w ->
  exists st', sha256_step sched st block i = Ok st' /\
    to_list st' = S.round (to_list st) (k, w).
Proof.
  intros Hb Hi Hk Hw. unfold sha256_step.
  rewrite (proj2 (Nat.ltb_lt _ _) Hb), (proj2 (Nat.ltb_lt _ _) Hi), Hk, Hw.
  destruct st as [a b c d e f g h]. eexists; split; [reflexivity|]. reflexivity.
Qed.

Lemma steps_ok sched block : (block < 4)%nat -> length sched = 16%nat ->
  forall n from st, (from + n <= 16)%nat ->
  exists st', for_range from n (fun i st => sha256_step sched st block i) st = Ok st' /\
    to_list st' = fold_left S.round
      (combine (firstn n (skipn (block * 16 + from) SHA256_K)) (firstn n (skipn from sched)))
      (to_list st).
Proof.
  intros Hb Hs n; induction n as [|n IH]; intros from st Hf.
  - exists st; split; reflexivity.
  - destruct (nth_error_Some_ex SHA256_K (block * 16 + from)) as [k Hk];
      [rewrite K_length; lia|].
    destruct (nth_error_Some_ex sched from) as [w Hw]; [lia|].
    destruct (step_ok sched st block from k w Hb ltac:(lia) Hk Hw) as [st1 [E1 L1]].
    destruct (IH (S from) st1 ltac:(lia)) as [st2 [E2 L2]].
    exists st2; split.
    + cbn [for_range]. rewrite E1. exact E2.
    + rewrite L2, (skipn_nth_error _ _ _ Hk), (skipn_nth_error _ _ _ Hw).
      rewrite <- Nat.add_succ_r. cbn [firstn combine fold_left]. rewrite L1. reflexivity.
Qed.

(** ** Message schedule *)
Definition nw (x0 x1 x9 x14 : N) : N :=
  S.add32 (S.add32 (S.add32 (S.sigma1 x14) x9) (S.sigma0 x1)) x0.

Lemma nw_model x0 x1 x9 x14 :
  wadd (wadd (wadd x0 (S.sigma0 x1)) x9) (S.sigma1 x14) = nw x0 x1 x9 x14.
Proof.
  unfold nw. rewrite !wadd_spec.
  rewrite (add32_comm _ (S.sigma1 x14)).
  rewrite <- add32_assoc, <- add32_assoc.
  rewrite !add32_assoc. f_equal.
  rewrite (add32_comm x0), (add32_comm x9), !add32_assoc. f_equal. apply add32_comm.
Qed.

Lemma nth_app_end {A} (p l : list A) k d : (k <= length l)%nat ->
  nth (length (p ++ l) - k) (p ++ l) d = nth (length l - k) l d.
Proof.
  intros H. rewrite app_length, app_nth2 by lia. f_equal. lia.
Qed.

Lemma sched_step p n x0 x1 x2 x3 x4 x5 x6 x7 x8 x9 x10 x11 x12 x13 x14 x15 :
  S.schedule (Datatypes.S n) (p ++ [x0;x1;x2;x3;x4;x5;x6;x7;x8;x9;x10;x11;x12;x13;x14;x15]) =
  S.schedule n ((p ++ [x0]) ++ [x1;x2;x3;x4;x5;x6;x7;x8;x9;x10;x11;x12;x13;x14;x15;nw x0 x1 x9 x14]).
Proof.
  cbn [S.schedule].
  rewrite !nth_app_end by (cbn; lia).
  cbn [length Nat.sub nth].
  rewrite <- !app_assoc. reflexivity.
Qed.

Lemma schedule_update_eq s i x0 x1 x9 x14 :
  nth_error s i = Some x0 -> nth_error s ((i + 1) mod 16) = Some x1 ->
  nth_error s ((i + 9) mod 16) = Some x9 -> nth_error s ((i + 14) mod 16) = Some x14 ->
  schedule_update i s = Ok (upd s i (nw x0 x1 x9 x14)).
Proof.
  intros E0 E1 E9 E14. unfold schedule_update. rewrite E0, E1, E9, E14.
  do 2 f_equal. rewrite <- nw_model. reflexivity.
Qed.

Lemma list16 {A} (l : list A) : length l = 16%nat ->
  exists x0 x1 x2 x3 x4 x5 x6 x7 x8 x9 x10 x11 x12 x13 x14 x15,
  l = [x0;x1;x2;x3;x4;x5;x6;x7;x8;x9;x10;x11;x12;x13;x14;x15].
Proof.
  intros H.
  do 16 (destruct l as [|? l]; [cbn in H; discriminate|]).
  destruct l; [|cbn in H; discriminate].
  repeat eexists.
Qed.

Lemma sched16 x : length x = 16%nat ->
  exists y, for_range 0 16 schedule_update x = Ok y /\ length y = 16%nat /\
    forall p n, S.schedule (16 + n) (p ++ x) = S.schedule n ((p ++ x) ++ y).
Proof.
  intros H. destruct (list16 x H) as
    (x0&x1&x2&x3&x4&x5&x6&x7&x8&x9&x10&x11&x12&x13&x14&x15&->).
  eexists; split; [|split].
  - cbn [for_range].
    do 16 (erewrite schedule_update_eq; [cbn [bind upd firstn skipn app] | reflexivity..]).
    reflexivity.
  - reflexivity.
  - intros p n. cbn [Nat.add].
    rewrite !sched_step. rewrite <- !app_assoc. cbn [app]. reflexivity.
Qed.

Lemma word_eq b i b0 b1 b2 b3 :
  nth_error b (i * 4) = Some b0 -> nth_error b (i * 4 + 1) = Some b1 ->
  nth_error b (i * 4 + 2) = Some b2 -> nth_error b (i * 4 + 3) = Some b3 ->
  from_be_bytes b0 b1 b2 b3 = S.word b i.
Proof.
  intros E0 E1 E2 E3. unfold S.word. rewrite (Nat.mul_comm 4 i).
  rewrite (nth_error_nth b (i*4) 0 E0), (nth_error_nth b (i*4+1) 0 E1),
    (nth_error_nth b (i*4+2) 0 E2), (nth_error_nth b (i*4+3) 0 E3).
  unfold from_be_bytes. change (2^24) with (256*256*256). change (2^16) with (256*256).
  change (2^8) with 256. lia.
Qed.

Lemma init_ok b : length b = 64%nat ->
  for_range 0 16 (fun i l => do w <- schedule_init b i; Ok (l ++ [w])) [] = Ok (S.words b).
Proof.
  intros Hb.
  assert (E : forall n from acc, (from + n <= 16)%nat ->
    for_range from n (fun i l => do w <- schedule_init b i; Ok (l ++ [w])) acc
    = Ok (acc ++ map (S.word b) (seq from n))).
  { induction n as [|n IH]; intros from acc Hf; cbn [for_range seq map].
    - rewrite app_nil_r; reflexivity.
    - unfold schedule_init.
      destruct (nth_error_Some_ex b (from*4)) as [b0 E0]; [lia|].
      destruct (nth_error_Some_ex b (from*4+1)) as [b1 E1]; [lia|].
      destruct (nth_error_Some_ex b (from*4+2)) as [b2 E2]; [lia|].
      destruct (nth_error_Some_ex b (from*4+3)) as [b3 E3]; [lia|].
      rewrite E0, E1, E2, E3. cbn [bind].
      rewrite (word_eq _ _ _ _ _ _ E0 E1 E2 E3).
      change (fun (i : nat) (l : list N) => do w <- schedule_init b i; Ok (l ++ [w]))
        with (fun (i : nat) (l : list N) => do w <- schedule_init b i; Ok (l ++ [w])) in IH.
      unfold schedule_init in IH. rewrite IH by lia. rewrite <- app_assoc. reflexivity. }
  apply (E 16%nat 0%nat []). lia.
Qed.

Lemma words_length b : length (S.words b) = 16%nat. Proof. reflexivity. Qed.

Lemma hash_add_spec h st :
  to_list (hash_add h st) =
  map (fun p => S.add32 (fst p) (snd p)) (combine (to_list st) (to_list h)).
Proof.
  destruct h, st. cbn [hash_add to_list combine map fst snd].
  rewrite !wadd_spec. repeat (apply f_equal2; [apply add32_comm|]). reflexivity.
Qed.

Lemma for_range_S {A} from n (body : nat -> A -> res A) a :
  for_range from (Datatypes.S n) body a = do a' <- body from a; for_range (Datatypes.S from) n body a'.
Proof. reflexivity. Qed.

Lemma round_ok data h : length data = 64%nat ->
  exists h', sha256_round data h = Ok h' /\
    to_list h' = S.compress_with SHA256_K (to_list h) data.
Proof.
  intros Hd. unfold sha256_round. rewrite init_ok by assumption. cbn [bind].
  set (w := S.words data). assert (Hw : length w = 16%nat) by apply words_length.
  destruct (steps_ok w 0 ltac:(lia) Hw 16 0 h ltac:(lia)) as [st0 [-> L0]]. cbn [bind].
  rewrite (for_range_S 1 2).
  destruct (sched16 w Hw) as [u1 [E1 [Hu1 P1]]]. rewrite E1. cbn [bind].
  destruct (steps_ok u1 1 ltac:(lia) Hu1 16 0 st0 ltac:(lia)) as [st1 [-> L1]]. cbn [bind].
  rewrite (for_range_S 2 1). cbn [bind].
  destruct (sched16 u1 Hu1) as [u2 [E2 [Hu2 P2]]]. rewrite E2. cbn [bind].
  destruct (steps_ok u2 2 ltac:(lia) Hu2 16 0 st1 ltac:(lia)) as [st2 [-> L2]]. cbn [bind].
  rewrite (for_range_S 3 0). cbn [bind].
  destruct (sched16 u2 Hu2) as [u3 [E3 [Hu3 P3]]]. rewrite E3. cbn [bind].
  destruct (steps_ok u3 3 ltac:(lia) Hu3 16 0 st2 ltac:(lia)) as [st3 [-> L3]]. cbn [bind].
  cbn [for_range bind]. eexists; split; [reflexivity|].
  rewrite hash_add_spec. unfold S.compress_with. fold w.
  do 2 f_equal.
  assert (EW : S.schedule 48 w = w ++ u1 ++ u2 ++ u3).
  { change 48%nat with (16 + (16 + (16 + 0)))%nat.
    rewrite <- (app_nil_l w) at 1. rewrite P1, P2, P3. cbn [S.schedule].
    rewrite app_nil_l, <- !app_assoc. reflexivity. }
  rewrite EW, L3, L2, L1, L0.
  rewrite !Nat.add_0_r, !skipn_O.
  rewrite !firstn_all2 with (l := w) by lia.
  rewrite !firstn_all2 with (l := u1) by lia.
  rewrite !firstn_all2 with (l := u2) by lia.
  rewrite !firstn_all2 with (l := u3) by lia.
  rewrite <- !fold_left_app. f_equal.
  rewrite <- (firstn_skipn 16 SHA256_K) at 5.
  rewrite <- (firstn_skipn 16 (skipn 16 SHA256_K)).
  rewrite <- (firstn_skipn 16 (skipn 16 (skipn 16 SHA256_K))).
  rewrite combine_app by (rewrite firstn_length, K_length; lia).
  rewrite combine_app by (rewrite firstn_length, skipn_length, K_length; lia).
  rewrite combine_app by (rewrite firstn_length, !skipn_length, K_length; lia).
  reflexivity.
Qed.

(** ** Blocks *)
Lemma blocks_app a b k : length a = (64 * k)%nat -> S.blocks (a ++ b) = S.blocks a ++ S.blocks b.
Proof.
  intros Ha. unfold S.blocks. rewrite app_length, Ha.
  replace ((64 * k + length b) / 64)%nat with (k + length b / 64)%nat
    by (rewrite (Nat.mul_comm 64 k), Nat.div_add_l by lia; reflexivity).
  rewrite (Nat.mul_comm 64 k), Nat.div_mul by lia.
  rewrite seq_app, map_app. f_equal.
  - apply map_ext_in. intros i Hi. apply in_seq in Hi.
    rewrite skipn_app, firstn_app.
    rewrite skipn_length, Ha.
    replace (64 - (64 * k - 64 * i))%nat with 0%nat by lia.
    rewrite firstn_O, app_nil_r. reflexivity.
  - cbn [Nat.add].
    assert (G : forall n s, seq (k + s) n = map (fun i => (k + i)%nat) (seq s n)).
    { induction n as [|n IH]; intros s; cbn [seq map]; [reflexivity|].
      f_equal. rewrite <- IH. f_equal. lia. }
    rewrite <- (Nat.add_0_r k) at 1. rewrite G.
    rewrite map_map. apply map_ext. intros i.
    rewrite skipn_app. rewrite (skipn_all2 a) by lia. cbn [app]. do 2 f_equal. lia.
Qed.
Lemma blocks_one b : length b = 64%nat -> S.blocks b = [b].
Proof.
  intros Hb. unfold S.blocks. rewrite Hb. 
  change (64 / 64)%nat with 1%nat. cbn [seq map]. change (64 * 0)%nat with 0%nat. rewrite skipn_O.
  f_equal. apply firstn_all2. lia.
Qed.

Definition compress_all (p : list N) : list N :=
  fold_left (S.compress_with SHA256_K) (S.blocks p) S.H0.

(** ** Engine abstraction: state [e] has absorbed the bytes [m]. *)
Record absorbed (e : engine) (m : list N) : Prop := Absorbed {
  ab_chunk : length (chunk e) = 64%nat;
  ab_rem : (0 < remaining e <= 64)%nat;
  ab_split : exists p t k, m = p ++ t /\ length p = (64 * k)%nat /\
    length t = (64 - remaining e)%nat /\ firstn (length t) (chunk e) = t /\
    to_list (hash e) = compress_all p
}.

Lemma absorbed_default : absorbed engine_default [].
Proof.
  split; [reflexivity | unfold engine_default, CHUNK; cbn [remaining]; lia |].
  exists [], [], 0%nat. repeat (split; [reflexivity|]). exact H_spec.
Qed.

Lemma absorbed_hash e p k : absorbed e p -> length p = (64 * k)%nat ->
  to_list (hash e) = compress_all p /\ remaining e = 64%nat.
Proof.
  intros [Hc Hr (p' & t & k' & E & Hp & Ht & _ & Hh)] Hl.
  assert (length t = 0%nat).
  { assert (length p = (length p' + length t)%nat) by (rewrite E, app_length; reflexivity). lia. }
  destruct t; [|discriminate]. rewrite app_nil_r in E; subst p'.
  split; [exact Hh | cbn [length] in Ht; lia].
Qed.

Lemma absorbed_rem e m : absorbed e m -> remaining e = (64 - length m mod 64)%nat.
Proof.
  intros [Hc Hr (p & t & k & E & Hp & Ht & _)].
  assert (length m = (64 * k + length t)%nat) by (rewrite E, app_length, Hp; reflexivity).
  assert (length m mod 64 = length t)%nat.
  { rewrite H, Nat.add_comm, Nat.mul_comm, Nat.mod_add by lia. apply Nat.mod_small; lia. }
  lia.
Qed.

Definition U64 : N := 0x10000000000000000.

Lemma absorb_ok e m d : absorbed e m -> (length d <= remaining e)%nat ->
  if total e + N.of_nat (length d) <? U64
  then exists e', absorb e d = Ok e' /\ absorbed e' (m ++ d) /\
         total e' = total e + N.of_nat (length d)
  else absorb e d = Panic.
Proof.
  intros [Hc Hr (p & t & k & E & Hp & Ht & Hf & Hh)] Hd.
  unfold absorb, U64. rewrite Hc.
  rewrite (proj2 (Nat.leb_le (remaining e) 64)) by lia.
  rewrite (proj2 (Nat.leb_le (64 - remaining e + length d) 64)) by lia.
  rewrite (proj2 (Nat.leb_le (length d) (remaining e))) by lia.
  destruct (total e + N.of_nat (length d) <? 18446744073709551616) eqn:Ht64; [|reflexivity].
  assert (Hlen : length (splice (chunk e) (64 - remaining e) d) = 64%nat)
    by (rewrite splice_length; lia).
  assert (Hpre : firstn (64 - remaining e + length d) (splice (chunk e) (64 - remaining e) d) = t ++ d).
  { rewrite firstn_splice by lia. rewrite <- Ht, Hf. reflexivity. }
  destruct (Nat.eqb_spec (remaining e - length d) 0) as [Hz|Hz].
  - destruct (round_ok (splice (chunk e) (64 - remaining e) d) (hash e) Hlen) as [h' [-> Eh]].
    cbn [bind]. eexists; split; [reflexivity|]. split; [|reflexivity].
    split; cbn [chunk remaining hash]; [assumption | lia |].
    replace (64 - remaining e + length d)%nat with 64%nat in Hpre by lia.
    rewrite firstn_all2 in Hpre by lia.
    exists (p ++ t ++ d), [], (k + 1)%nat. rewrite app_nil_r, E, <- app_assoc.
    split; [reflexivity|]. split; [rewrite !app_length; lia|].
    split; [cbn [length]; lia|]. split; [reflexivity|].
    rewrite Eh, Hpre, Hh. unfold compress_all.
    rewrite (blocks_app p (t ++ d) k Hp), (blocks_one (t ++ d)) by (rewrite app_length; lia).
    rewrite fold_left_app. cbn [fold_left]. reflexivity.
  - eexists; split; [reflexivity|]. split; [|reflexivity].
    split; cbn [chunk remaining hash]; [assumption | lia |].
    exists p, (t ++ d), k. rewrite E, <- app_assoc.
    split; [reflexivity|]. split; [assumption|].
    split; [rewrite app_length; lia|]. split; [|assumption].
    rewrite app_length, Ht. exact Hpre.
Qed.

Lemma push_loop_ok fuel : forall e m data, absorbed e m -> (length data <= fuel)%nat ->
  if total e + N.of_nat (length data) <? U64
  then exists e', push_loop fuel e data = Ok e' /\ absorbed e' (m ++ data) /\
         total e' = total e + N.of_nat (length data)
  else total e < U64 -> push_loop fuel e data = Panic.
Proof.
  induction fuel as [|fuel IH]; intros e m data Ha Hf.
  - destruct data; [|cbn in Hf; lia]. cbn [length push_loop]. rewrite N.add_0_r, app_nil_r.
    destruct (total e <? U64) eqn:E; [eauto|]. intros; lia.
  - destruct data as [|x data'] eqn:Ed.
    { cbn [length push_loop]. rewrite N.add_0_r, app_nil_r.
      destruct (total e <? U64) eqn:E; [eauto|]. intros; lia. }
    rewrite <- Ed in *.
    assert (Hstep : push_loop (S fuel) e data =
      bind (absorb e (firstn (Nat.min (remaining e) (length data)) data))
           (fun e' => push_loop fuel e' (skipn (Nat.min (remaining e) (length data)) data)))
      by (subst data; reflexivity).
    rewrite Hstep. set (n := Nat.min (remaining e) (length data)).
    assert (Hn : (0 < n)%nat) by (pose proof (ab_rem _ _ Ha); subst data n; cbn [length]; lia).
    assert (Hl : length (firstn n data) = n) by (rewrite firstn_length; lia).
    pose proof (absorb_ok e m (firstn n data) Ha ltac:(lia)) as H1. rewrite Hl in H1.
    assert (Hs : length (skipn n data) = (length data - n)%nat) by apply skipn_length.
    destruct (total e + N.of_nat n <? U64) eqn:E1.
    + destruct H1 as [e1 [E' [A1 T1]]]. rewrite E'. cbn [bind].
      pose proof (IH e1 (m ++ firstn n data) (skipn n data) A1 ltac:(lia)) as H2.
      rewrite Hs, T1 in H2.
      replace (total e + N.of_nat n + N.of_nat (length data - n)) with
        (total e + N.of_nat (length data)) in H2 by lia.
      destruct (total e + N.of_nat (length data) <? U64).
      * rewrite <- app_assoc, firstn_skipn in H2. exact H2.
      * intros _. apply H2. lia.
    + rewrite H1. destruct (total e + N.of_nat (length data) <? U64) eqn:E2; [|reflexivity].
      lia.
Qed.

Lemma push_ok e m data : absorbed e m -> total e < U64 ->
  if total e + N.of_nat (length data) <? U64
  then exists e', push e data = Ok e' /\ absorbed e' (m ++ data) /\
         total e' = total e + N.of_nat (length data)
  else push e data = Panic.
Proof.
  intros Ha Ht. pose proof (push_loop_ok (length data) e m data Ha (le_n _)) as H.
  unfold push. destruct (_ <? _); auto.
Qed.

Lemma push_zero_loop_eq fuel : forall e n,
  push_zero_loop fuel e n = push_loop fuel e (repeat 0 n).
Proof.
  induction fuel as [|fuel IH]; intros e n.
  - destruct n; reflexivity.
  - destruct n as [|n'] eqn:En; [reflexivity|]. rewrite <- En.
    assert (E1 : push_zero_loop (S fuel) e n =
      bind (absorb e (repeat 0 (Nat.min (remaining e) n)))
           (fun e' => push_zero_loop fuel e' (n - Nat.min (remaining e) n))) by (subst n; reflexivity).
    assert (E2 : push_loop (S fuel) e (repeat 0 n) =
      bind (absorb e (firstn (Nat.min (remaining e) (length (repeat 0 n))) (repeat 0 n)))
           (fun e' => push_loop fuel e' (skipn (Nat.min (remaining e) (length (repeat 0 n))) (repeat 0 n))))
      by (subst n; reflexivity).
    rewrite E1, E2, repeat_length.
    assert (G1 : forall a b, (a <= b)%nat -> firstn a (repeat 0 b) = repeat 0 a).
    { induction a; intros [|b] Hab; cbn; try reflexivity; [lia|]. f_equal. apply IHa. lia. }
    assert (G2 : forall a b, (a <= b)%nat -> skipn a (repeat 0 b) = repeat 0 (b - a)).
    { induction a; intros [|b] Hab; cbn [skipn Nat.sub]; try reflexivity. apply IHa. lia. }
    rewrite G1, G2 by lia.
    destruct (absorb e _); cbn [bind]; auto.
Qed.
Lemma push_zero_eq e n : push_zero e n = push e (repeat 0 n).
Proof. unfold push_zero, push. rewrite repeat_length. apply push_zero_loop_eq. Qed.

Lemma to_be64 w : to_be_bytes64 w = S.be64 w. Proof. reflexivity. Qed.
Lemma be64_length w : length (S.be64 w) = 8%nat. Proof. reflexivity. Qed.
Lemma flatten_spec h : flatten h = flat_map S.be32 (to_list h).
Proof.
  destruct h as [a b c d e f g h]. unfold flatten, to_list.
  cbn [flat_map Sha256Model.s0 Sha256Model.s1 Sha256Model.s2 Sha256Model.s3
       Sha256Model.s4 Sha256Model.s5 Sha256Model.s6 Sha256Model.s7].
  rewrite app_nil_r. reflexivity.
Qed.

Lemma pad_split (m : list N) k r : length m = (64 * k + r)%nat -> (r < 64)%nat ->
  S.zeros_needed (N.of_nat (length m)) = N.of_nat (if Nat.ltb r 56 then 55 - r else 119 - r)%nat.
Proof.
  intros Hm Hr. unfold S.zeros_needed. rewrite Hm.
  replace (N.of_nat (64 * k + r) + 1 + 8) with (N.of_nat (r + 9) + N.of_nat k * 64) by lia.
  rewrite N.mod_add by lia.
  destruct (Nat.ltb_spec r 56).
  - destruct (Nat.eq_dec r 55) as [->|Hne]; [reflexivity|].
    rewrite (N.mod_small (N.of_nat (r + 9))) by lia.
    rewrite N.mod_small by lia. lia.
  - replace (N.of_nat (r + 9)) with (N.of_nat (r - 55) + 1 * 64) by lia.
    rewrite N.mod_add by lia. rewrite (N.mod_small (N.of_nat (r - 55))) by lia.
    rewrite N.mod_small by lia. lia.
Qed.

Lemma upd_splice {A} (l : list A) i v : upd l i v = splice l i [v].
Proof. unfold upd, splice. cbn [length app]. rewrite Nat.add_1_r. reflexivity. Qed.

(** [finalize] fails exactly for over-long messages and for messages of
    length 63 modulo 64; otherwise it returns the FIPS digest. *)
Lemma finalize_ok e m : absorbed e m -> total e = N.of_nat (length m) ->
  if (N.of_nat (length m) <? 2 ^ 61) && negb (Nat.eqb (length m mod 64) 63)
  then exists e', finalize e = Ok (S.sha256 m, e') /\ absorbed e' [] /\ total e' = 0
  else finalize e = Panic.
Proof.
  intros Ha Ht. pose proof (absorbed_rem _ _ Ha) as Hrem.
  pose proof Ha as [Hc Hr (p & t & k & E & Hp & Hlt & Hf & Hh)].
  unfold finalize. rewrite Ht.
  destruct (N.ltb_spec (N.of_nat (length m)) (2 ^ 61)) as [Hs|Hs]; cbn [andb].
  2:{ rewrite (proj2 (N.ltb_ge _ _)); [reflexivity|]. lia. }
  rewrite (proj2 (N.ltb_lt _ _)) by lia.
  destruct (Nat.eqb_spec (remaining e) 0); [lia|]. cbn [negb].
  rewrite Hc. rewrite (proj2 (Nat.leb_le _ _)) by lia.
  cbn [remaining].
  assert (Hlm : length m = (64 * k + length t)%nat) by (rewrite E, app_length, Hp; reflexivity).
  destruct (Nat.eqb_spec (length m mod 64) 63) as [H63|H63]; cbn [negb].
  { (* length 63 modulo 64 *)
    assert (remaining e = 1)%nat as -> by lia. cbn [Nat.sub Nat.ltb Nat.leb push_zero push_zero_loop bind remaining].
    reflexivity. }
  set (e1 := Engine (hash e) _ _ _).
  assert (A1 : absorbed e1 (m ++ [0x80])).
  { split; cbn [chunk remaining hash e1].
    - rewrite upd_length; lia.
    - lia.
    - exists p, (t ++ [0x80]), k. rewrite E, <- app_assoc. repeat split; try assumption.
      + rewrite app_length; cbn [length]; lia.
      + rewrite app_length. rewrite upd_splice, <- Hlt.
        rewrite firstn_splice by lia. rewrite Hf. reflexivity. }
  assert (T1 : total e1 = N.of_nat (length m)) by reflexivity.
  assert (R1 : remaining e1 = (remaining e - 1)%nat) by reflexivity.
  clearbody e1. rewrite <- R1.
  assert (Hz : exists e2, (if Nat.ltb (remaining e1) 8 then push_zero e1 (remaining e1) else Ok e1) = Ok e2 /\
    absorbed e2 (m ++ [0x80] ++ repeat 0 (if Nat.ltb (remaining e1) 8 then remaining e1 else 0%nat)) /\
    (8 <= remaining e2)%nat /\ total e2 <= total e1 + 8 /\
    remaining e2 = (if Nat.ltb (remaining e1) 8 then 64%nat else remaining e1)).
  { destruct (Nat.ltb_spec (remaining e1) 8) as [H8|H8].
    - pose proof (push_ok e1 _ (repeat 0 (remaining e1)) A1 ltac:(unfold U64; lia)) as HP.
      rewrite repeat_length in HP.
      destruct (N.ltb_spec (total e1 + N.of_nat (remaining e1)) U64) as [_|Hbad]; [|unfold U64 in Hbad; lia].
      destruct HP as [e2 [E2 [A2 T2]]]. rewrite push_zero_eq. exists e2.
      rewrite app_assoc.
      assert (R64 : remaining e2 = 64%nat).
      { pose proof (absorbed_rem _ _ A2) as H2. rewrite !app_length, repeat_length in H2.
        cbn [length] in H2. rewrite H2.
        replace (length m + 1 + remaining e1)%nat with (0 + (k + 1) * 64)%nat by lia.
        rewrite Nat.mod_add by lia. reflexivity. }
      split; [exact E2|]. split; [exact A2|]. lia.
    - exists e1. cbn [repeat]. rewrite app_nil_r.
      split; [reflexivity|]. split; [exact A1|]. lia. }
  destruct Hz as [e2 [-> [A2 [R2 [T2 R2']]]]]. cbn [bind].
  rewrite (proj2 (Nat.leb_le _ _)) by lia.
  rewrite push_zero_eq.
  pose proof (push_ok e2 _ (repeat 0 (remaining e2 - 8)) A2 ltac:(unfold U64; lia)) as HP.
  rewrite repeat_length in HP. pose proof (ab_rem _ _ A2) as Hr2.
  destruct (N.ltb_spec (total e2 + N.of_nat (remaining e2 - 8)) U64) as [_|Hbad]; [|unfold U64 in Hbad; lia].
  destruct HP as [e3 [-> [A3 T3]]]. cbn [bind].
  pose proof (push_ok e3 _ (to_be_bytes64 (N.of_nat (length m) * 8)) A3 ltac:(unfold U64; lia)) as HP.
  rewrite to_be64, be64_length in HP. rewrite to_be64.
  destruct (N.ltb_spec (total e3 + N.of_nat 8) U64) as [_|Hbad]; [|unfold U64 in Hbad; lia].
  destruct HP as [e4 [-> [A4 T4]]]. cbn [bind].
  assert (EP : ((m ++ [0x80] ++ repeat 0 (if Nat.ltb (remaining e1) 8 then remaining e1 else 0%nat)) ++
     repeat 0 (remaining e2 - 8)) ++ S.be64 (N.of_nat (length m) * 8) = S.pad m).
  { unfold S.pad. rewrite (N.mul_comm 8). rewrite <- !app_assoc. do 2 f_equal.
    rewrite app_assoc, <- repeat_app. do 2 f_equal.
    rewrite (pad_split m k (length t) Hlm) by lia. rewrite Nat2N.id, R2'.
    destruct (Nat.ltb_spec (remaining e1) 8); destruct (Nat.ltb_spec (length t) 56); lia. }
  rewrite EP in A4.
  assert (HL : exists j, length (S.pad m) = (64 * j)%nat).
  { rewrite <- EP. rewrite !app_length, !repeat_length, be64_length. cbn [length]. rewrite R2'.
    destruct (Nat.ltb_spec (remaining e1) 8); [exists (k + 2)%nat | exists (k + 1)%nat]; lia. }
  destruct HL as [j HL]. destruct (absorbed_hash _ _ _ A4 HL) as [EH ER].
  rewrite ER, (ab_chunk _ _ A4). rewrite Nat.eqb_refl.
  eexists; split; [|split].
  - rewrite flatten_spec, EH. unfold compress_all, S.sha256. rewrite K_spec. reflexivity.
  - split; cbn [chunk remaining hash]; [apply (ab_chunk _ _ A4) | lia |].
    exists [], [], 0%nat. repeat (split; [reflexivity|]). exact H_spec.
  - reflexivity.
Qed.

Lemma reset_ok e m : absorbed e m -> absorbed (reset e) [].
Proof.
  intros [Hc Hr _]. split; cbn [reset chunk remaining hash]; [assumption | unfold CHUNK; lia |].
  exists [], [], 0%nat. repeat (split; [reflexivity|]). exact H_spec.
Qed.
