(** What a decoder reads from arbitrary bytes. *)
From Verif Require Import Base DbusSpec IoMapModel IoMapSpec IoMapProofs.
From Verif Require Import DbusSigModel DvarModel DvarSpec DvarDecSpec DvarProofs DvarDecode DvarVisit.
Local Open Scope N_scope.
Local Open Scope res_scope.

Lemma le_bytes l : Forall (fun b => b < 256) l -> from_le_bytes l < 256 ^ N.of_nat (length l) /\ int false (length l) (from_le_bytes l) = l.
Proof.
  assert (G : forall n v k, map (fun i => v / 256 ^ N.of_nat i mod 256) (seq (S k) n) = map (fun i => v / 256 / 256 ^ N.of_nat i mod 256) (seq k n)).
  { induction n as [|n IH]; intros v k; [reflexivity|]. cbn [seq map]. rewrite IH. f_equal. replace (N.of_nat (S k)) with (1 + N.of_nat k) by lia.
    rewrite N.pow_add_r, N.div_div by (try apply N.pow_nonzero; lia). reflexivity. }
  induction 1 as [|b l Hb _ [IH1 IH2]]; [split; [reflexivity|reflexivity]|]. cbn [from_le_bytes length].
  replace (N.of_nat (S (length l))) with (1 + N.of_nat (length l)) by lia. rewrite N.pow_add_r. split; [lia|].
  unfold int in *. cbn [negb] in *. cbn [seq map].
  assert (E : b + 256 * from_le_bytes l = from_le_bytes l * 256 + b) by lia.
  f_equal.
  - change (256 ^ N.of_nat 0) with 1. rewrite N.div_1_r, E, N.add_comm, N.mod_add by lia. apply N.mod_small. exact Hb.
  - rewrite G. replace ((b + 256 * from_le_bytes l) / 256) with (from_le_bytes l); [exact IH2|]. apply (N.div_unique _ _ _ b); lia.
Qed.
Lemma de_bytes (big : bool) l : Forall (fun b => b < 256) l ->
  let v := if big then from_be_bytes l else from_le_bytes l in v < 256 ^ N.of_nat (length l) /\ int big (length l) v = l.
Proof.
  intros H. destruct big; [|apply le_bytes, H]. cbv zeta. unfold from_be_bytes.
  assert (H' : Forall (fun b => b < 256) (rev l)) by (apply Forall_rev; exact H).
  destruct (le_bytes _ H') as [A B]. rewrite rev_length in A, B. split; [exact A|].
  unfold int in *. cbn [negb] in *. rewrite B. apply rev_involutive.
Qed.
Lemma bytes_slice l i j : Forall (fun b => b < 256) l -> Forall (fun b => b < 256) (slice l i j).
Proof.
  intros H. unfold slice. rewrite <- (firstn_skipn i l) in H. apply Forall_app in H. destruct H as [_ H].
  rewrite <- (firstn_skipn (j - i) (skipn i l)) in H. apply Forall_app in H. exact (proj1 H).
Qed.

Section Reads.
Context {R : Type} (I : Read R) (P : R -> Prop) (msg : list N) (HR : reading I P msg).
Context (HB : Forall (fun b => b < 256) msg).

Lemma cread_inv r idx len (d : Dec R) k x d' : P r -> 0 < len -> seq_read (read I r idx len) d k = Ok (Continue tt, x, d') ->
  exists r', P r' /\ idx + len <= size msg /\ k r' (idx + len) (slice msg (N.to_nat idx) (N.to_nat (idx + len))) = Ok (Continue tt, x, d').
Proof.
  intros HP Hl H. unfold seq_read in H. apply bind_inv in H. destruct H as [[[[f r'] idx'] got] [E H]].
  pose proof (read_any I P msg _ _ _ _ _ _ _ HR HP E) as [G [_ [B C]]].
  destruct f as [e|[]]; [destruct e; discriminate|].
  destruct (C eq_refl) as [-> HP']. exists r'. split; [exact HP'|]. split; [apply B; lia|]. rewrite <- G. exact H.
Qed.
Lemma cread_inv0 r idx len (d : Dec R) k x d' : P r -> idx <= size msg -> seq_read (read I r idx len) d k = Ok (Continue tt, x, d') ->
  exists r', P r' /\ idx + len <= size msg /\ k r' (idx + len) (slice msg (N.to_nat idx) (N.to_nat (idx + len))) = Ok (Continue tt, x, d').
Proof.
  intros HP Hl H. unfold seq_read in H. apply bind_inv in H. destruct H as [[[[f r'] idx'] got] [E H]].
  pose proof (read_any I P msg _ _ _ _ _ _ _ HR HP E) as [G [_ [B C]]].
  destruct f as [e|[]]; [destruct e; discriminate|].
  destruct (C eq_refl) as [-> HP']. exists r'. split; [exact HP'|]. split; [|rewrite <- G; exact H].
  destruct (N.eq_dec len 0); [lia|]. apply B. lia.
Qed.
Lemma calign_inv idx a (d : Dec R) k x d' : a < 31 -> dec_align idx a d k = Ok (Continue tt, x, d') ->
  k (idx + size (padding idx a)) = Ok (Continue tt, x, d').
Proof. intros Ha H. apply align_inv in H. destruct H as [[e [=]]|H]. exact (H Ha). Qed.
Lemma slice_size i j : i <= j -> j <= size msg -> size (slice msg (N.to_nat i) (N.to_nat j)) = j - i.
Proof. intros A B. unfold size in *. rewrite slice_length by lia. lia. Qed.
Lemma slice_int (big : bool) n i : i + N.of_nat n <= size msg ->
  let v := if big then from_be_bytes (slice msg (N.to_nat i) (N.to_nat (i + N.of_nat n))) else from_le_bytes (slice msg (N.to_nat i) (N.to_nat (i + N.of_nat n))) in
  v < 256 ^ N.of_nat n /\ holds msg i (int big n v).
Proof.
  intros Hi. pose proof (de_bytes big _ (bytes_slice msg (N.to_nat i) (N.to_nat (i + N.of_nat n)) HB)) as D. cbv zeta in *.
  assert (L : length (slice msg (N.to_nat i) (N.to_nat (i + N.of_nat n))) = n) by (unfold size in *; rewrite slice_length by lia; lia).
  rewrite L in D. destruct D as [A B]. split; [exact A|]. unfold holds. rewrite size_int, B. reflexivity.
Qed.
Lemma reads_u16 d x d' : P (d_read d) -> dec_call I d DCU16 = Ok (Continue tt, x, d') ->
  exists n, x = DNum n /\ n < 2 ^ 16 /\ let p := position d + size (padding (position d) 1) in
  holds msg p (int (big_endian (d_format d)) 2 n) /\ p + 2 <= size msg /\ position d' = p + 2.
Proof.
  intros HP H. cbn [dec_call] in H. unfold dec_u16, dec_fixed in H. cbv zeta in H. apply bind_inv in H. destruct H as [ok [_ H]].
  destruct ok; cbn [negb] in H; [|discriminate]. apply calign_inv in H; [|cbn; lia].
  apply cread_inv in H; [|exact HP|lia]. destruct H as [r' [_ [B H]]].
  apply bind_inv in H. destruct H as [c [_ H]]. injection H as <- <-.
  change (e_dvar_alignment_exp EU16) with 1 in *. fold (position d) in *.
  destruct (slice_int (big_endian (d_format d)) 2 _ B) as [A C]. change (N.of_nat 2) with 2 in *.
  eexists. split; [reflexivity|]. split; [exact A|]. cbv zeta. split; [exact C|]. split; [exact B|reflexivity].
Qed.
Lemma reads_str d el len_el n de x d' : P (d_read d) -> e_dvar_alignment_exp len_el < 31 -> (0 < n)%nat ->
  (forall l, de (d_format d) l = if big_endian (d_format d) then from_be_bytes l else from_le_bytes l) ->
  dec_str I d el len_el (N.of_nat n) de = Ok (Continue tt, x, d') ->
  exists s, x = DText s /\ text s /\ size s < 256 ^ N.of_nat n /\
  let p := position d + size (padding (position d) (e_dvar_alignment_exp len_el)) in
  holds msg p (int (big_endian (d_format d)) n (size s) ++ s) /\ p + N.of_nat n + size s <= size msg /\
  position d' = p + N.of_nat n + size s + 1.
Proof.
  intros HP Ha Hn Hde H. unfold dec_str in H. cbv zeta in H. apply bind_inv in H. destruct H as [ok [_ H]].
  destruct ok; cbn [negb] in H; [|discriminate]. apply calign_inv in H; [|exact Ha]. fold (position d) in H.
  set (p := position d + size (padding (position d) (e_dvar_alignment_exp len_el))) in *.
  apply cread_inv in H; [|exact HP|lia]. destruct H as [r' [HP' [B H]]].
  apply cread_inv0 in H; [|exact HP'|exact B]. destruct H as [r2 [_ [B2 H]]].
  destruct (slice_int (big_endian (d_format d)) n p B) as [A C]. cbv zeta in A, C. rewrite <- Hde in A, C.
  set (len := de (d_format d) _) in *.
  destruct (utf8_valid _) eqn:EU; cbn [negb] in H; [|discriminate]. apply bind_inv in H. destruct H as [i [Hi H]]. apply add_inv in Hi. subst i.
  apply bind_inv in H. destruct H as [c [_ H]]. injection H as <- <-.
  assert (L : size (slice msg (N.to_nat (p + N.of_nat n)) (N.to_nat (p + N.of_nat n + len))) = len) by (rewrite slice_size by lia; lia).
  eexists. split; [reflexivity|]. split; [apply utf8_exact, EU|]. rewrite L. split; [exact A|]. cbv zeta.
  split; [|split; [exact B2|reflexivity]].
  unfold holds. rewrite size_app', size_int, L. unfold holds in C. rewrite size_int in C.
  rewrite (slice_split msg _ (N.to_nat (p + N.of_nat n)) _) by lia. rewrite C. rewrite N.add_assoc. reflexivity.
Qed.
End Reads.
