(** Proofs: collisions of the hash are collisions of the compression function. *)
From Verif Require Import Base HashApi HashSpec.
From Verif Require Sha256Spec.
From Verif Require Import Sha256Model HmacModel Sha256Proofs HashProofs HashCollideSpec.
Module S := Sha256Spec.
Local Open Scope N_scope.
Local Opaque Sha256Spec.K Sha256Spec.H0.

(** ** Words *)
Lemma bytes_of w : w < 2 ^ 32 -> w = (w / 2 ^ 24) mod 256 * 2 ^ 24 + (w / 2 ^ 16) mod 256 * 2 ^ 16 + (w / 2 ^ 8) mod 256 * 2 ^ 8 + w mod 256.
Proof.
  intros L. pose proof (N.div_mod w 256 ltac:(lia)) as E1. pose proof (N.div_mod (w / 256) 256 ltac:(lia)) as E2.
  pose proof (N.div_mod (w / 256 / 256) 256 ltac:(lia)) as E3. rewrite !N.div_div in * by lia.
  change (256 * 256 * 256) with (2 ^ 24) in *. change (256 * 256) with (2 ^ 16) in *. change (2 ^ 8) with 256.
  assert (B : w / 2 ^ 24 < 256) by (apply N.div_lt_upper_bound; [discriminate|]; change (2 ^ 24 * 256) with (2 ^ 32); exact L).
  rewrite (N.mod_small (w / 2 ^ 24)) by exact B. change (2 ^ 24) with (256 * 256 * 256) at 2. change (2 ^ 16) with (256 * 256) at 2.
  rewrite E1 at 1. rewrite E2 at 1. rewrite E3 at 1. lia.
Qed.
Lemma be32_inj w v : w < 2 ^ 32 -> v < 2 ^ 32 -> S.be32 w = S.be32 v -> w = v.
Proof. intros LW LV E. 
  pose proof (f_equal (fun l => nth 0 l 0) E) as E1. pose proof (f_equal (fun l => nth 1 l 0) E) as E2.
  pose proof (f_equal (fun l => nth 2 l 0) E) as E3. pose proof (f_equal (fun l => nth 3 l 0) E) as E4.
  unfold S.be32 in E1, E2, E3, E4. cbn [nth] in E1, E2, E3, E4.
  rewrite (bytes_of w LW), (bytes_of v LV), E1, E2, E3, E4. reflexivity.
Qed.
Lemma be64_inj w v : w < 2 ^ 64 -> v < 2 ^ 64 -> S.be64 w = S.be64 v -> w = v.
Proof.
  intros LW LV E. unfold S.be64 in E. assert (A : S.be32 (w / 2 ^ 32) = S.be32 (v / 2 ^ 32) /\ S.be32 (w mod 2 ^ 32) = S.be32 (v mod 2 ^ 32)).
  { split; [exact (f_equal (firstn 4) E)|exact (f_equal (skipn 4) E)]. }
  destruct A as [A1 A2]. apply be32_inj in A1; [|apply N.div_lt_upper_bound; [discriminate|]; change (2 ^ 32 * 2 ^ 32) with (2 ^ 64); assumption..].
  apply be32_inj in A2; [|apply N.mod_lt; discriminate..].
  rewrite (N.div_mod w (2 ^ 32)), (N.div_mod v (2 ^ 32)), A1, A2 by discriminate. reflexivity.
Qed.
Lemma flat_inj l : forall k, Forall (fun w => w < 2 ^ 32) l -> Forall (fun w => w < 2 ^ 32) k -> flat_map S.be32 l = flat_map S.be32 k -> l = k.
Proof.
  induction l as [|x l IH]; intros [|y k] FL FK E; try discriminate; [reflexivity|]. inversion FL; subst. inversion FK; subst.
  change (flat_map S.be32 (x :: l)) with (S.be32 x ++ flat_map S.be32 l) in E. change (flat_map S.be32 (y :: k)) with (S.be32 y ++ flat_map S.be32 k) in E.
  assert (A : S.be32 x = S.be32 y /\ flat_map S.be32 l = flat_map S.be32 k).
  { split; [exact (f_equal (firstn 4) E)|exact (f_equal (skipn 4) E)]. }
  destruct A as [A1 A2]. f_equal; [apply be32_inj; assumption|apply IH; assumption].
Qed.
Lemma sums_words (l : list (N * N)) : Forall (fun w => w < 2 ^ 32) (map (fun p => S.add32 (fst p) (snd p)) l).
Proof. induction l as [|p l IH]; cbn [map]; constructor; [apply N.mod_lt; discriminate|exact IH]. Qed.
Lemma compress_words v b : Forall (fun w => w < 2 ^ 32) (compress v b).
Proof. exact (sums_words _). Qed.
Lemma H0_words : Forall (fun w => w < 2 ^ 32) S.H0.
Proof. rewrite <- H_spec. unfold to_list. repeat (constructor; [apply N.ltb_lt; reflexivity|]). constructor. Qed.
Lemma fold_words bs : Forall (fun w => w < 2 ^ 32) (fold_left compress bs S.H0).
Proof. destruct bs as [|b bs _] using rev_ind; [exact H0_words|]. rewrite fold_left_app. apply compress_words. Qed.

(** ** Blocks *)
Lemma mod64 n : (n + (64 - n mod 64) mod 64) mod 64 = 0.
Proof.
  pose proof (N.mod_lt n 64 ltac:(lia)). destruct (N.eq_dec (n mod 64) 0) as [E|E].
  - rewrite E. change ((64 - 0) mod 64) with 0. rewrite N.add_0_r. exact E.
  - rewrite (N.mod_small (64 - n mod 64)) by lia. rewrite <- N.add_mod_idemp_l by lia.
    replace (n mod 64 + (64 - n mod 64)) with 64 by lia. reflexivity.
Qed.
Lemma pad_length m : exists k, length (S.pad m) = (64 * k)%nat.
Proof.
  exists (length (S.pad m) / 64)%nat. apply Nat2N.inj. rewrite Nat2N.inj_mul, Nat2N.inj_div. change (N.of_nat 64) with 64.
  assert (E : N.of_nat (length (S.pad m)) mod 64 = 0); [|rewrite (N.div_mod (N.of_nat (length (S.pad m))) 64) at 1 by lia; lia].
  unfold S.pad. rewrite !app_length, repeat_length, be64_length. cbn [length]. unfold S.zeros_needed.
  rewrite <- (mod64 (N.of_nat (length m) + 1 + 8)). f_equal. lia.
Qed.
Lemma blocks_concat k : forall p, length p = (64 * k)%nat -> concat (S.blocks p) = p /\ Forall (fun b => length b = 64%nat) (S.blocks p).
Proof.
  induction k as [|k IH]; intros p L.
  - destruct p; [|cbn in L; lia]. split; [reflexivity|constructor].
  - assert (L1 : length (firstn 64 p) = 64%nat) by (rewrite firstn_length; lia).
    assert (L2 : length (skipn 64 p) = (64 * k)%nat) by (rewrite skipn_length; lia).
    rewrite <- (firstn_skipn 64 p). rewrite (blocks_app _ _ 1 L1), (blocks_one _ L1). destruct (IH _ L2) as [E F].
    cbn [app concat]. rewrite E. split; [reflexivity|constructor; assumption].
Qed.
Lemma tail_eq {A} (a b c d : list A) : a ++ b = c ++ d -> (length d <= length b)%nat -> exists t, b = t ++ d.
Proof.
  revert c. induction a as [|x a IH]; intros c E L.
  - exists c. exact E.
  - destruct c as [|y c]; [exfalso; cbn in E; subst d; cbn in L; rewrite app_length in L; lia|].
    injection E as _ E. exact (IH c E L).
Qed.
Lemma tails {A} (a b c d : list A) : a ++ b = c ++ d -> length b = length d -> b = d.
Proof.
  intros E L. destruct (tail_eq a b c d E ltac:(lia)) as (t & ->). rewrite app_length in L. destruct t; [reflexivity|cbn in L; lia].
Qed.
(** The last block ends with the length. *)
Lemma last_block m : exists bs b t, S.blocks (S.pad m) = bs ++ [b] /\ b = t ++ S.be64 (8 * N.of_nat (length m)).
Proof.
  destruct (pad_length m) as (k & L). destruct (blocks_concat k _ L) as [E F].
  destruct (S.blocks (S.pad m)) as [|b bs _] eqn:B using rev_ind.
  - exfalso. apply (f_equal (@length N)) in E. unfold S.pad in E. rewrite !app_length in E. cbn [concat length] in E. lia.
  - exists bs, b. rewrite concat_app in E. cbn [concat] in E. rewrite app_nil_r in E.
    apply Forall_app in F. destruct F as [_ F]. assert (LB : length b = 64%nat) by (inversion F; assumption).
    unfold S.pad in E. rewrite !app_assoc in E. destruct (tail_eq _ _ _ _ E) as (t & T); [rewrite be64_length; lia|].
    exists t. split; [reflexivity|exact T].
Qed.
Lemma pad_inj m n : length m = length n -> S.pad m = S.pad n -> m = n.
Proof.
  intros L E. unfold S.pad in E. rewrite L in E. apply (f_equal (firstn (length m))) in E.
  rewrite !firstn_app, L, Nat.sub_diag, !firstn_O, !app_nil_r, <- L, firstn_all, L, firstn_all in E. exact E.
Qed.

(** ** Collisions *)
Lemma list_N_dec (a b : list N) : {a = b} + {a <> b}.
Proof. apply list_eq_dec, N.eq_dec. Qed.
Lemma fold_collides P Q : forall P' Q', length P' = length Q' -> P' <> Q' ->
  fold_left compress P' S.H0 = fold_left compress Q' S.H0 ->
  forall R R', P = P' ++ R -> Q = Q' ++ R' ->
  exists p b p' q c q', P = p ++ b :: p' /\ Q = q ++ c :: q' /\
    (fold_left compress p S.H0 <> fold_left compress q S.H0 \/ b <> c) /\
    compress (fold_left compress p S.H0) b = compress (fold_left compress q S.H0) c.
Proof.
  intros P'. induction P' as [|b P' IH] using rev_ind; intros Q' L NE E R R' EP EQ.
  - destruct Q'; [congruence|discriminate].
  - destruct Q' as [|c Q' _] using rev_ind; [rewrite app_length in L; cbn in L; lia|].
    rewrite !app_length in L. cbn in L. rewrite !fold_left_app in E. cbn [fold_left] in E.
    destruct (list_N_dec b c) as [->|BC].
    + destruct (list_N_dec (fold_left compress P' S.H0) (fold_left compress Q' S.H0)) as [F|F].
      * apply (IH Q') with (R := c :: R) (R' := c :: R'); [lia|congruence|exact F|rewrite EP, <- app_assoc; reflexivity|rewrite EQ, <- app_assoc; reflexivity].
      * exists P', c, R, Q', c, R'. rewrite EP, EQ, <- !app_assoc. repeat split; [left; exact F|exact E].
    + exists P', b, R, Q', c, R'. rewrite EP, EQ, <- !app_assoc. repeat split; [right; exact BC|exact E].
Qed.
Theorem sha_collides m n : N.of_nat (length m) < 2 ^ 61 -> N.of_nat (length n) < 2 ^ 61 ->
  S.sha256 m = S.sha256 n -> m = n \/ collides m n.
Proof.
  intros LM LN E. Transparent Sha256Spec.sha256. unfold S.sha256 in E. apply flat_inj in E; [|apply fold_words|apply fold_words]. fold compress in E.
  destruct (Nat.eq_dec (length m) (length n)) as [L|L].
  - destruct (list_N_dec m n) as [->|NE]; [left; reflexivity|right].
    assert (NP : S.blocks (S.pad m) <> S.blocks (S.pad n)).
    { intros B. apply NE, pad_inj; [exact L|]. destruct (pad_length m) as (k & LK), (pad_length n) as (k' & LK').
      rewrite <- (proj1 (blocks_concat k _ LK)), <- (proj1 (blocks_concat k' _ LK')), B. reflexivity. }
    assert (LB : length (S.blocks (S.pad m)) = length (S.blocks (S.pad n))).
    { unfold S.blocks. rewrite !map_length, !seq_length. f_equal. unfold S.pad. rewrite !app_length, !repeat_length, L. reflexivity. }
    destruct (fold_collides _ _ _ _ LB NP E [] [] (eq_sym (app_nil_r _)) (eq_sym (app_nil_r _))) as (p & b & p' & q & c & q' & E1 & E2 & D & C).
    exists (fold_left compress p S.H0), b, (fold_left compress q S.H0), c.
    split; [exists p, p'; split; [exact E1|reflexivity]|]. split; [exists q, q'; split; [exact E2|reflexivity]|]. split; assumption.
  - right. destruct (last_block m) as (p & b & t & E1 & B), (last_block n) as (q & c & u & E2 & C). rewrite E1, E2, !fold_left_app in E. cbn [fold_left] in E.
    exists (fold_left compress p S.H0), b, (fold_left compress q S.H0), c.
    split; [exists p, []; split; [exact E1|reflexivity]|]. split; [exists q, []; split; [exact E2|reflexivity]|]. split; [|exact E].
    right. intros BC. rewrite B, C in BC. apply tails in BC; [|rewrite !be64_length; reflexivity].
    change (2 ^ 61) with 2305843009213693952 in *. apply be64_inj in BC; [lia| |].
    + change (2 ^ 64) with 18446744073709551616. lia.
    + change (2 ^ 64) with 18446744073709551616. lia.
Qed.
#[global] Opaque Sha256Spec.sha256.

(** ** HMAC *)
Lemma lxor_inj c x y : N.lxor c x = N.lxor c y -> x = y.
Proof. intros E. apply (f_equal (N.lxor c)) in E. rewrite <- !N.lxor_assoc, N.lxor_nilpotent, !N.lxor_0_l in E. exact E. Qed.
Lemma xor_inj c a : forall b, xor_byte c a = xor_byte c b -> a = b.
Proof.
  induction a as [|x a IH]; intros [|y b] E; try discriminate; [reflexivity|]. injection E as E1 E2. f_equal; [apply (lxor_inj c), E1|apply IH, E2].
Qed.
Lemma hkey_length key : length (hmac_key S.sha256 64 key) = 64%nat.
Proof.
  unfold hmac_key. destruct (Nat.ltb_spec 64 (length key)) as [L|L]; rewrite app_length, repeat_length; [rewrite sha256_length|]; lia.
Qed.
Lemma inner_length key msg : length (inner key msg) = (64 + length msg)%nat.
Proof. unfold inner, xor_byte. rewrite app_length, map_length, hkey_length. reflexivity. Qed.
Lemma outer_length key msg : length (outer key msg) = 96%nat.
Proof. unfold outer, xor_byte. rewrite app_length, map_length, hkey_length, sha256_length. reflexivity. Qed.
Lemma app_same {A} (a b c d : list A) : length a = length c -> a ++ b = c ++ d -> a = c /\ b = d.
Proof.
  revert c. induction a as [|x a IH]; intros [|y c] L E; try discriminate; [split; [reflexivity|exact E]|].
  injection E as -> E. injection L as L. destruct (IH c L E) as [-> ->]. split; reflexivity.
Qed.
Theorem hmac_collides k m l n : 64 + N.of_nat (length m) < 2 ^ 61 -> 64 + N.of_nat (length n) < 2 ^ 61 ->
  rfc2104 S.sha256 64 k m = rfc2104 S.sha256 64 l n ->
  (hmac_key S.sha256 64 k = hmac_key S.sha256 64 l /\ m = n) \/ collides (inner k m) (inner l n) \/ collides (outer k m) (outer l n).
Proof.
  intros LM LN E. change (S.sha256 (outer k m) = S.sha256 (outer l n)) in E.
  apply sha_collides in E; [|rewrite outer_length; reflexivity|rewrite outer_length; reflexivity]. destruct E as [E|E]; [|right; right; exact E].
  unfold outer in E. apply app_same in E; [|unfold xor_byte; rewrite !map_length, !hkey_length; reflexivity]. destruct E as [EK E].
  apply xor_inj in EK. apply sha_collides in E; [|rewrite inner_length, Nat2N.inj_add; assumption..].
  destruct E as [E|E]; [|right; left; exact E]. left. split; [exact EK|].
  unfold inner in E. apply app_same in E; [|unfold xor_byte; rewrite !map_length, !hkey_length; reflexivity]. apply E.
Qed.

(** ** Histories *)
Lemma history_inv H f l ops : forall m outs, forallb is_data ops = true -> history H f l m (ops ++ [Finalize]) = Some outs ->
  l (N.of_nat (length (m ++ data_of ops))) = true /\ map fst outs = map (fun _ => None) ops ++ [Some (H (m ++ data_of ops))].
Proof.
  induction ops as [|o ops IH]; intros m outs D E.
  - cbn in E. unfold data_of. cbn [flat_map]. rewrite app_nil_r. destruct (l _); [|discriminate]. injection E as <-. split; reflexivity.
  - cbn [forallb] in D. apply andb_true_iff in D. destruct D as [DO D].
    assert (X : exists outs', history H f l (m ++ op_data o) (ops ++ [Finalize]) = Some outs' /\ map fst outs = None :: map fst outs').
    { cbn [app history] in E. destruct o as [d|k| |]; try discriminate DO; destruct (f _); try discriminate;
        (destruct (history H f l _ _) as [outs'|] eqn:E'; [|discriminate]); injection E as <-; exists outs'; (split; [reflexivity|reflexivity]). }
    destruct X as (outs' & E' & ->). destruct (IH _ _ D E') as [A B]. unfold data_of in *. cbn [flat_map map app]. rewrite app_assoc.
    split; [exact A|]. rewrite B. reflexivity.
Qed.
