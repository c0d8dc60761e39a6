(** Property C130: a collision of the hash, or of message authentication codes, is
    a collision of the compression function. *)
From Verif Require Import Base HashApi HashSpec.
From Verif Require Sha256Spec.
From Verif Require Import Sha256Model HmacModel HashProofs HashProps HashCollideSpec HashCollide.
Local Open Scope N_scope.
Local Open Scope res_scope.

(** What [finalize] returns after these calls of a new engine, and of a new HMAC. *)
Definition digest (ops : list op) : option (list N) :=
  match run engine_default (ops ++ [Finalize]) with Ok (outs, _) => last (map fst outs) None | _ => None end.
Definition mac (key : list N) (ops : list op) : option (list N) :=
  match (do h <- hmac_sha256_new key; hmac_run sha256_engine h (ops ++ [Finalize])) with
  | Ok (outs, _) => last outs None | _ => None end.

Lemma digest_inv ops d : forallb is_data ops = true -> digest ops = Some d ->
  N.of_nat (length (data_of ops)) < 2 ^ 61 /\ d = Sha256Spec.sha256 (data_of ops).
Proof.
  intros D E. unfold digest in E. destruct (run_exact (ops ++ [Finalize])) as [_ R]. destruct (run _ _) as [[outs e]| |]; try discriminate.
  cbn [outputs] in R. symmetry in R. apply history_inv in R; [|exact D]. cbn [app] in R. destruct R as [L M]. rewrite M, last_last in E.
  unfold actual_len in L. apply andb_true_iff in L. destruct L as [L _]. apply N.ltb_lt in L. split; [exact L|congruence].
Qed.
Lemma mac_inv key ops d : forallb is_data ops = true -> mac key ops = Some d ->
  64 + N.of_nat (length (data_of ops)) < 2 ^ 61 /\ d = rfc2104 Sha256Spec.sha256 64 key (data_of ops).
Proof.
  intros D E. unfold mac in E. destruct (hmac_exact key (ops ++ [Finalize])) as [_ R]. revert R E. cbv zeta.
  destruct (bind _ _) as [[outs e]| |]; try discriminate.
  cbn [outputs]. intros R E. unfold hmac_history in R. destruct (_ || _); [|discriminate].
  destruct (history _ _ _ _ _) as [h|] eqn:H; [|discriminate]. cbn [option_map] in R. injection R as ->.
  apply history_inv in H; [|exact D]. cbn [app] in H. destruct H as [L M]. rewrite M, last_last in E.
  unfold actual_len in L. apply andb_true_iff in L. destruct L as [L _]. apply N.ltb_lt in L. split; [exact L|congruence].
Qed.

(** For all messages, however pushed: if two of them have the same digest then
    they are the same, or hashing them gives different arguments to the
    compression function for which its results are the same. *)
Theorem sha256_collision : forall ops ops' d,
  forallb is_data ops = true -> forallb is_data ops' = true -> digest ops = Some d -> digest ops' = Some d ->
  data_of ops = data_of ops' \/ collides (data_of ops) (data_of ops').
Proof.
  intros ops ops' d D D' E E'. apply digest_inv in E; [|exact D]. apply digest_inv in E'; [|exact D'].
  destruct E as [L E], E' as [L' E']. apply sha_collides; [exact L|exact L'|congruence].
Qed.
(** The same for a key and a message, up to what RFC 2104 makes of the key. *)
Theorem hmac_collision : forall key key' ops ops' d,
  forallb is_data ops = true -> forallb is_data ops' = true -> mac key ops = Some d -> mac key' ops' = Some d ->
  (hmac_key Sha256Spec.sha256 64 key = hmac_key Sha256Spec.sha256 64 key' /\ data_of ops = data_of ops') \/
  collides (inner key (data_of ops)) (inner key' (data_of ops')) \/
  collides (outer key (data_of ops)) (outer key' (data_of ops')).
Proof.
  intros key key' ops ops' d D D' E E'. apply mac_inv in E; [|exact D]. apply mac_inv in E'; [|exact D'].
  destruct E as [L E], E' as [L' E']. apply hmac_collides; [exact L|exact L'|congruence].
Qed.
(** What RFC 2104 makes of two keys is the same exactly if they differ only in
    zeros at the end, where a key longer than a block counts as its digest. *)
Definition short (key : list N) : list N := if Nat.ltb 64 (length key) then Sha256Spec.sha256 key else key.
Theorem hmac_same_key : forall key key',
  hmac_key Sha256Spec.sha256 64 key = hmac_key Sha256Spec.sha256 64 key' <->
  exists n, short key' = short key ++ repeat 0 n \/ short key = short key' ++ repeat 0 n.
Proof.
  intros key key'. change (hmac_key Sha256Spec.sha256 64 key) with (short key ++ repeat 0 (64 - length (short key))).
  change (hmac_key Sha256Spec.sha256 64 key') with (short key' ++ repeat 0 (64 - length (short key'))).
  assert (L : forall k, (length (short k) <= 64)%nat).
  { intros k. unfold short. destruct (Nat.ltb_spec 64 (length k)); [rewrite sha256_length; lia|lia]. }
  pose proof (L key) as LK. pose proof (L key') as LK'. clear L. generalize dependent (short key). generalize dependent (short key').
  clear key key'.
  assert (G : forall a b : list N, (length a <= length b)%nat -> (length b <= 64)%nat ->
    a ++ repeat 0 (64 - length a) = b ++ repeat 0 (64 - length b) -> b = a ++ repeat 0 (length b - length a)).
  { intros a b LA LB E. apply (f_equal (firstn (length b))) in E.
    rewrite (firstn_app _ b), firstn_all, Nat.sub_diag, firstn_O, app_nil_r, firstn_app, (firstn_all2 a) in E by exact LA.
    rewrite <- E at 1. f_equal. apply firstn_zeros. lia. }
  intros b LB a LA. split.
  - intros E. destruct (Nat.le_ge_cases (length a) (length b)) as [H|H].
    + exists (length b - length a)%nat. left. apply G; assumption.
    + exists (length a - length b)%nat. right. apply G; [exact H|exact LA|symmetry; exact E].
  - assert (H : forall a n, (length (a ++ repeat 0%N n) <= 64)%nat ->
      a ++ repeat 0 (64 - length a) = (a ++ repeat 0 n) ++ repeat 0 (64 - length (a ++ repeat 0 n))).
    { intros c n L. rewrite <- app_assoc. f_equal. rewrite <- repeat_app. f_equal. rewrite app_length, repeat_length in *. lia. }
    intros (n & [->| ->]); [apply H, LB|symmetry; apply H, LA].
Qed.
(** And then the keys cannot be told apart: all histories of calls return the same. *)
Theorem hmac_zero_key : forall key n ops, (length key + n <= 64)%nat ->
  outputs (do h <- hmac_sha256_new (key ++ repeat 0 n); hmac_run sha256_engine h ops) =
  outputs (do h <- hmac_sha256_new key; hmac_run sha256_engine h ops).
Proof.
  intros key n ops L. rewrite (proj2 (hmac_exact_history (key ++ repeat 0 n) ops)), (proj2 (hmac_exact_history key ops)).
  assert (LN : length (key ++ repeat 0 n) = (length key + n)%nat) by (rewrite app_length, repeat_length; reflexivity).
  unfold hmac_history. rewrite LN, (proj2 (N.leb_le (N.of_nat (length key + n)) 64)), (proj2 (N.leb_le (N.of_nat (length key)) 64)) by lia. cbn [orb].
  assert (E : hmac_key Sha256Spec.sha256 64 key = hmac_key Sha256Spec.sha256 64 (key ++ repeat 0 n)).
  { apply hmac_same_key. exists n. left. unfold short. rewrite LN, (proj2 (Nat.ltb_ge 64 (length key + n)) L), (proj2 (Nat.ltb_ge 64 (length key))) by lia. reflexivity. }
  assert (R : rfc2104 Sha256Spec.sha256 64 key = rfc2104 Sha256Spec.sha256 64 (key ++ repeat 0 n)) by (unfold rfc2104; rewrite E; reflexivity).
  rewrite R. reflexivity.
Qed.
(** Beside: different histories with the same message, and keys that cannot be told apart. *)
Example sha256_collision_case : exists d, digest [Push abc] = Some d /\ digest [Push [97]; PushZero 0; Push [98; 99]] = Some d.
Proof. exists abc_digest. split; vm_compute; reflexivity. Qed.
Example hmac_collision_case : exists d, mac jefe [Push jefe_msg] = Some d /\ mac (jefe ++ repeat 0 60) [Push jefe_msg] = Some d.
Proof. exists jefe_mac. split; vm_compute; reflexivity. Qed.

Print Assumptions sha256_collision.
Print Assumptions hmac_collision.
Print Assumptions hmac_same_key.
Print Assumptions hmac_zero_key.
