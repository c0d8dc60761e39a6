(** Proofs about memory with addresses. *)
From Coq Require Import Arith Lia.
From Verif Require Import Base FfiSpec MemSpec MemModel.
From Verif Require FfiModel FfiProofs.

Lemma holds_nil w a : holds w a [].
Proof. intros i H. cbn in H. lia. Qed.
Lemma holds_cons w a c cs : holds w a (c :: cs) <-> w a = Some c /\ holds w (S a) cs.
Proof.
  split.
  - intros H. split.
    + specialize (H 0). cbn in H. rewrite Nat.add_0_r in H. apply H. lia.
    + intros i L. specialize (H (S i)). cbn in H. rewrite Nat.add_succ_r in H. apply H. lia.
  - intros [A B] [|i] L.
    + now rewrite Nat.add_0_r.
    + rewrite Nat.add_succ_r. apply B. cbn in L. lia.
Qed.
Lemma holds_app w a l r : holds w a (l ++ r) <-> holds w a l /\ holds w (a + length l) r.
Proof.
  revert a. induction l as [|c l IH]; intros a; cbn [app length].
  - rewrite Nat.add_0_r. split; [|easy]. intros H. split; [apply holds_nil|easy].
  - rewrite !holds_cons, IH. replace (S a + length l) with (a + S (length l)) by lia. tauto.
Qed.

Lemma bytes_at_holds w a cs : holds w a cs -> bytes_at w a (length cs) = Some cs.
Proof.
  revert a. induction cs as [|c cs IH]; intros a; [easy|].
  intros [A B]%holds_cons. cbn. rewrite A. cbn. now rewrite (IH _ B).
Qed.
Lemma bytes_at_n w a cs n : holds w a cs -> length cs = n -> bytes_at w a n = Some cs.
Proof. intros H <-. now apply bytes_at_holds. Qed.

Lemma set_same w a c : set w a c a = Some c.
Proof. unfold set. now rewrite Nat.eqb_refl. Qed.
Lemma set_other w a c x : x <> a -> set w a c x = w x.
Proof. intros H. unfold set. now apply Nat.eqb_neq in H as ->. Qed.

Lemma overwrite_holds w a os ns : holds w a os -> length os = length ns ->
  exists w', overwrite w a ns = Some w' /\ holds w' a ns /\ elsewhere w w' a (length ns).
Proof.
  revert w a os. induction ns as [|c ns IH]; intros w a os H L; cbn.
  - exists w. split; [easy|]. split; [apply holds_nil|easy].
  - destruct os as [|o os]; [easy|]. cbn in L. apply holds_cons in H as [A B].
    rewrite A. cbn.
    destruct (IH (set w a c) (S a) os) as (w' & E & G & F); [|lia|].
    { intros i Hi. rewrite set_other by lia. now apply B. }
    exists w'. split; [easy|]. split.
    + apply holds_cons. split; [|easy]. rewrite F by lia. apply set_same.
    + intros x X. rewrite F by lia. apply set_other. lia.
Qed.

Lemma place_holds w a n : holds (place w a n) a (repeat Uninit n) /\ elsewhere w (place w a n) a n.
Proof.
  revert w a. induction n as [|n IH]; intros w a; cbn.
  - split; [apply holds_nil|easy].
  - destruct (IH (set w a Uninit) (S a)) as [A B]. split.
    + apply holds_cons. split; [|easy]. rewrite B by lia. apply set_same.
    + intros x X. rewrite B by lia. apply set_other. lia.
Qed.

Lemma holds_elsewhere w w' a n b cs : elsewhere w w' a n -> holds w b cs ->
  b + length cs <= a \/ a + n <= b -> holds w' b cs.
Proof. intros E H D i L. rewrite E by lia. now apply H. Qed.

(** What is free is apart from what is there. *)
Lemma free_preserved w w' t d : free w t d -> elsewhere w w' d (size t) -> preserved w w'.
Proof.
  intros [_ F] E x c X. rewrite E; [easy|]. intros L.
  specialize (F (x - d)). replace (d + (x - d)) with x in F by lia.
  rewrite F in X by lia. easy.
Qed.
Lemma preserved_holds w w' a cs : preserved w w' -> holds w a cs -> holds w' a cs.
Proof.
  intros P H i L. destruct (nth_error cs i) eqn:N.
  - apply P. now rewrite H.
  - apply nth_error_None in N. lia.
Qed.
Lemma elsewhere_trans w1 w2 w3 a n : elsewhere w1 w2 a n -> elsewhere w2 w3 a n -> elsewhere w1 w3 a n.
Proof. intros A B x X. now rewrite B, A. Qed.

(* ------------------------------------------------------------------ *)

Lemma aligned_smaller s t a : proper s -> proper t -> align t <= align s ->
  Nat.divide (align s) a -> a mod align t = 0.
Proof.
  intros [k K] [m M] L D. apply Nat.mod_divide; [rewrite M; now apply Nat.pow_nonzero|].
  apply Nat.divide_trans with (align s); [|easy]. rewrite K, M in *.
  assert (m <= k) by (apply (Nat.pow_le_mono_r_iff 2); lia).
  exists (2 ^ (k - m)). rewrite <- Nat.pow_add_r. f_equal. lia.
Qed.
Lemma aligned_self t a : proper t -> Nat.divide (align t) a -> a mod align t = 0.
Proof. intros P D. now apply aligned_smaller with t. Qed.

(** Reading a type at an object that is large enough. *)
Lemma read_prefix w s t a cs : proper s -> proper t -> reference w s a cs -> size t <= size s ->
  (if align s <? align t then ptr_read_unaligned w t a else ptr_read w t a) = Some (firstn (size t) cs).
Proof.
  intros Ps Pt (L & H & D) Z.
  assert (B : bytes_at w a (size t) = Some (firstn (size t) cs)).
  { apply bytes_at_n; [|rewrite firstn_length; lia].
    rewrite <- (firstn_skipn (size t) cs) in H. now apply holds_app in H. }
  destruct (align s <? align t) eqn:E; [easy|]. apply Nat.ltb_ge in E.
  unfold ptr_read. now rewrite (aligned_smaller s t).
Qed.

Lemma transmute_copy_prefix w s t a cs : proper s -> proper t -> reference w s a cs ->
  size t <= size s -> transmute_copy w s t a = Some (firstn (size t) cs).
Proof.
  intros Ps Pt R Z. unfold transmute_copy. apply Nat.leb_le in Z as E. rewrite E. cbn [require].
  now apply read_prefix.
Qed.

Lemma transmute_copy_uninit_spec local w s t a cs : proper s -> proper t ->
  reference w s a cs -> free w t (local t) ->
  exists w', transmute_copy_uninit local w s t a
             = Some (firstn (size t) cs ++ repeat Uninit (size t - size s), w')
    /\ preserved w w'.
Proof.
  intros Ps Pt R F. unfold transmute_copy_uninit.
  destruct (size s <? size t) eqn:E.
  - apply Nat.ltb_lt in E. destruct R as (L & H & D).
    destruct (place_holds w (local t) (size t)) as [A B].
    set (w1 := place w (local t) (size t)) in *.
    pose proof (free_preserved _ _ _ _ F B) as P1.
    unfold copy_unaligned, ptr_copy. rewrite Nat.mul_1_l.
    rewrite (bytes_at_n w1 a cs) by (easy || now apply preserved_holds with w). cbn [bind].
    replace (size t) with (length cs + (size t - size s)) in A at 1 by lia.
    rewrite repeat_app in A. apply holds_app in A as [A1 A2]. rewrite repeat_length in A2.
    destruct (overwrite_holds w1 (local t) _ cs A1) as (w2 & O & H2 & E2); [apply repeat_length|].
    rewrite O. cbn [bind].
    assert (V : holds w2 (local t) (cs ++ repeat Uninit (size t - size s))).
    { apply holds_app. split; [easy|]. eapply holds_elsewhere; [exact E2|exact A2|]. now right. }
    unfold ptr_read. destruct F as [FD FF]. rewrite aligned_self by easy.
    cbn [Nat.eqb require]. rewrite (bytes_at_n w2 (local t) _ (size t) V)
      by (rewrite app_length, repeat_length; lia).
    cbn [bind]. exists w2. split.
    + rewrite firstn_all2 by lia. easy.
    + apply (free_preserved w w2 t (local t)); [easy|]. apply elsewhere_trans with w1; [easy|].
      intros x X. apply E2. lia.
  - apply Nat.ltb_ge in E. rewrite (read_prefix w s t a cs) by easy. cbn [bind].
    exists w. split; [|easy]. replace (size t - size s) with 0 by lia. cbn. now rewrite app_nil_r.
Qed.

(* ------------------------------------------------------------------ *)

Lemma bswap_loop_spec k : forall i w t a d cs, i + k = size t -> length cs = size t ->
  holds w a cs -> (a + size t <= d \/ d + size t <= a) ->
  holds w d (firstn i (rev cs) ++ repeat Uninit k) ->
  exists w', bswap_loop k i w t a d = Some w' /\ holds w' d (rev cs) /\ elsewhere w w' d (size t).
Proof.
  induction k as [|k IH]; intros i w t a d cs I L H D G; cbn [bswap_loop].
  - exists w. split; [easy|]. split; [|easy]. cbn in G. rewrite app_nil_r, firstn_all2 in G; [easy|].
    rewrite rev_length. lia.
  - unfold ptr_copy. set (j := size t - i - 1).
    destruct (nth_error cs j) as [c|] eqn:N;
      [|apply nth_error_None in N; subst j; lia].
    assert (B : bytes_at w (a + j) 1 = Some [c]).
    { cbn. rewrite H by (subst j; lia). now rewrite N. }
    rewrite B. cbn [bind].
    apply holds_app in G as [G1 G2]. rewrite firstn_length, rev_length in G2.
    replace (Nat.min i (length cs)) with i in G2 by lia. cbn [repeat] in G2.
    change (Uninit :: repeat Uninit k) with ([Uninit] ++ repeat Uninit k) in G2.
    apply holds_app in G2 as [G2 G3]. cbn [length] in G3.
    destruct (overwrite_holds w (d + i) [Uninit] [c] G2) as (w1 & O & H1 & E1); [easy|].
    rewrite O. cbn [bind].
    assert (R : firstn (S i) (rev cs) = firstn i (rev cs) ++ [c]).
    { assert (NR : nth_error (rev cs) i = Some c).
      { rewrite nth_error_nth' with (d := Uninit) by (rewrite rev_length; lia).
        rewrite rev_nth by lia. f_equal.
        replace (length cs - S i) with j by (subst j; lia).
        now apply nth_error_nth. }
      clear - NR. revert i NR. generalize (rev cs) as l. induction l as [|x l IH]; intros [|i]; cbn; try easy.
      - now intros [= ->].
      - intros NR. f_equal. now apply IH. }
    destruct (IH (S i) w1 t a d cs) as (w2 & O2 & H2 & E2); try easy; [lia| | |].
    + eapply holds_elsewhere; [exact E1|exact H|]. cbn [length]. lia.
    + rewrite R, <- app_assoc. apply holds_app. split.
      * eapply holds_elsewhere; [exact E1|exact G1|]. rewrite firstn_length, rev_length. lia.
      * rewrite firstn_length, rev_length. replace (Nat.min i (length cs)) with i by lia.
        apply holds_app. split; [easy|].
        eapply holds_elsewhere; [exact E1|exact G3|]. cbn [length]. lia.
    + exists w2. split; [easy|]. split; [easy|]. apply elsewhere_trans with w1; [|easy].
      intros x X. apply E1. cbn [length]. lia.
Qed.

Lemma free_apart w t d a cs : free w t d -> holds w a cs -> length cs = size t ->
  a + size t <= d \/ d + size t <= a.
Proof.
  intros [_ F] H L. destruct (Nat.eq_dec (size t) 0) as [Z|Z]; [lia|].
  destruct (le_lt_dec (a + size t) d) as [|K]; [now left|]. right.
  destruct (le_lt_dec (d + size t) a) as [|M]; [easy|]. exfalso.
  destruct (le_lt_dec a d) as [O|O].
  - specialize (F 0). specialize (H (d - a)). rewrite Nat.add_0_r in F.
    replace (a + (d - a)) with d in H by lia. rewrite F in H by lia.
    specialize (H ltac:(lia)). symmetry in H. apply nth_error_None in H. lia.
  - specialize (F (a - d)). specialize (H 0). rewrite Nat.add_0_r in H.
    replace (d + (a - d)) with a in F by lia. rewrite F in H by lia.
    specialize (H ltac:(lia)). symmetry in H. apply nth_error_None in H. lia.
Qed.

Lemma bswap_slow_spec local w t a cs : proper t -> reference w t a cs -> free w t (local t) ->
  exists w', bswap_slow local w t a = Some (rev cs, w') /\ preserved w w'.
Proof.
  intros P (L & H & D) F. unfold bswap_slow.
  destruct (place_holds w (local t) (size t)) as [A B].
  pose proof (free_preserved _ _ _ _ F B) as P1.
  destruct (bswap_loop_spec (size t) 0 (place w (local t) (size t)) t a (local t) cs)
    as (w2 & O & H2 & E2); try easy.
  - now apply preserved_holds with w.
  - now apply free_apart with w cs.
  - rewrite O. cbn [bind]. unfold ptr_read. destruct F as [FD FF]. rewrite aligned_self by easy.
    cbn [Nat.eqb require]. rewrite (bytes_at_n w2 _ (rev cs)) by (easy || now rewrite rev_length).
    exists w2. split; [easy|]. apply (free_preserved w w2 t (local t)); [easy|].
    now apply elsewhere_trans with (place w (local t) (size t)).
Qed.

Lemma initialized_bytes l : initialized (map Byte l) = Some l.
Proof. induction l as [|b l IH]; cbn; [easy|]. now rewrite IH. Qed.

Lemma host_swap h n l : bytes l -> length l = n ->
  FfiModel.host_bytes h n (FfiModel.swap_bytes n (FfiModel.of_host h l)) = rev l.
Proof.
  intros B L. unfold FfiModel.swap_bytes. subst n. destruct h; cbn.
  - rewrite <- (rev_length l), FfiProofs.le_of_le by now apply FfiProofs.bytes_rev.
    rewrite rev_involutive, rev_length, FfiProofs.le_of_le by easy. easy.
  - rewrite FfiProofs.le_of_le by easy. rewrite <- (rev_length l), FfiProofs.le_of_le by now apply FfiProofs.bytes_rev. easy.
Qed.

Lemma bswap_uint_spec h local u w t a l : proper u -> proper t -> size u = size t -> bytes l ->
  reference w t a (map Byte l) -> free w u (local u) ->
  exists w', bswap_uint h local u w t a = Some (map Byte (rev l), w') /\ preserved w w'.
Proof.
  intros Pu Pt Z B R F. unfold bswap_uint.
  rewrite (transmute_copy_prefix w t u a _ Pt Pu R) by lia.
  pose proof R as (L & H & D). rewrite firstn_all2 by lia. cbn [bind].
  rewrite initialized_bytes. cbn [bind].
  rewrite map_length in L. rewrite host_swap by (easy || lia).
  destruct (place_holds w (local u) (size u)) as [A E].
  destruct (overwrite_holds _ _ _ (map Byte (rev l)) A) as (w2 & O & H2 & E2).
  { rewrite repeat_length, map_length, rev_length. lia. }
  rewrite O. cbn [bind].
  rewrite (transmute_copy_prefix w2 u t (local u) (map Byte (rev l))); try easy; [|split|lia].
  - rewrite firstn_all2 by (rewrite map_length, rev_length; lia). cbn [bind].
    exists w2. split; [easy|]. apply (free_preserved w w2 u (local u)); [easy|].
    apply elsewhere_trans with (place w (local u) (size u)); [easy|].
    intros x X. apply E2. rewrite map_length, rev_length. lia.
  - rewrite map_length, rev_length. lia.
  - now destruct F.
Qed.

Lemma bswap_copy_spec h al local w t a l : (forall n, exists k, al n = 2 ^ k) -> proper t -> bytes l ->
  reference w t a (map Byte l) -> (forall u, proper u -> free w u (local u)) ->
  exists w', bswap_copy h al local w t a = Some (map Byte (rev l), w') /\ preserved w w'.
Proof.
  intros Pa Pt B R F.
  assert (S : exists w', bswap_slow local w t a = Some (map Byte (rev l), w') /\ preserved w w').
  { rewrite map_rev. apply bswap_slow_spec; try easy. now apply F. }
  assert (U : forall n, n = size t -> exists w',
    bswap_uint h local {| size := n; align := al n |} w t a = Some (map Byte (rev l), w') /\ preserved w w').
  { intros n N. apply bswap_uint_spec; try easy; [apply Pa|]. apply F, Pa. }
  assert (O : size t = 1 -> exists w', (let? v := transmute_copy w t t a in Some (v, w))
    = Some (map Byte (rev l), w') /\ preserved w w').
  { intros Z. rewrite (transmute_copy_prefix w t t a _ Pt Pt R) by lia. cbn [bind].
    exists w. split; [|easy]. destruct R as (L & _ & _). rewrite firstn_all2 by lia.
    rewrite map_length in L. destruct l as [|x [|y l]]; cbn in *; try easy; lia. }
  unfold bswap_copy.
  destruct (size t) as [|[|[|[|[|[|[|[|[|[|[|[|[|[|[|[|[|n]]]]]]]]]]]]]]]]];
    try exact S; try (apply U; easy). now apply O.
Qed.

(** Other sizes need no initialised bytes. *)
Lemma bswap_copy_any h al local w t a cs : ~ In (size t) [2; 4; 8; 16] -> proper t ->
  reference w t a cs -> free w t (local t) ->
  exists w', bswap_copy h al local w t a = Some (rev cs, w') /\ preserved w w'.
Proof.
  intros N Pt R F.
  assert (S : exists w', bswap_slow local w t a = Some (rev cs, w') /\ preserved w w')
    by now apply bswap_slow_spec.
  assert (O : size t = 1 -> exists w', (let? v := transmute_copy w t t a in Some (v, w))
    = Some (rev cs, w') /\ preserved w w').
  { intros Z. rewrite (transmute_copy_prefix w t t a _ Pt Pt R) by lia. cbn [bind].
    exists w. split; [|easy]. destruct R as (L & _ & _). rewrite firstn_all2 by lia.
    destruct cs as [|x [|y l]]; cbn in *; try easy; lia. }
  unfold bswap_copy.
  destruct (size t) as [|[|[|[|[|[|[|[|[|[|[|[|[|[|[|[|[|n]]]]]]]]]]]]]]]]];
    try exact S; try (exfalso; apply N; cbn; tauto). now apply O.
Qed.

(* ------------------------------------------------------------------ *)

Lemma slice_bytes w a n l : holds w a (map Byte l) -> length l = n -> from_raw_parts w a n = Some (a, n).
Proof.
  intros H L. unfold from_raw_parts. rewrite (bytes_at_n w a _ n H) by now rewrite map_length.
  cbn [bind]. now rewrite initialized_bytes.
Qed.

Lemma index_bytes w a l i : holds w a (map Byte l) -> index w (a, length l) i = nth_error l i.
Proof.
  intros H. unfold index. cbn [fst snd]. destruct (i <? length l) eqn:E; cbn [require].
  - apply Nat.ltb_lt in E. rewrite H by (rewrite map_length; lia). rewrite nth_error_map.
    destruct (nth_error l i) eqn:N; cbn; easy.
  - apply Nat.ltb_ge in E. symmetry. now apply nth_error_None.
Qed.

Lemma assign_bytes w a l i b r : holds w a (map Byte (l ++ b :: r)) -> i = length l -> forall c,
  exists w', assign w (a, length (l ++ b :: r)) i c = Some w'
    /\ holds w' a (map Byte (l ++ c :: r)) /\ elsewhere w w' (a + i) 1.
Proof.
  intros H -> c. unfold assign. cbn [fst snd].
  assert (E : (length l <? length (l ++ b :: r)) = true).
  { apply Nat.ltb_lt. rewrite app_length. cbn. lia. }
  rewrite E. cbn [require]. rewrite map_app in H. apply holds_app in H as [H1 H2].
  rewrite map_length in H2. cbn [map] in H2. change (Byte b :: map Byte r) with ([Byte b] ++ map Byte r) in H2.
  apply holds_app in H2 as [H2 H3].
  destruct (overwrite_holds w (a + length l) [Byte b] [Byte c] H2) as (w' & O & G & F); [easy|].
  exists w'. split; [easy|]. split; [|easy].
  rewrite map_app. apply holds_app. rewrite map_length. cbn [map].
  change (Byte c :: map Byte r) with ([Byte c] ++ map Byte r). rewrite holds_app. split; [|split; [easy|]].
  - eapply holds_elsewhere; [exact F|exact H1|]. rewrite map_length. cbn. lia.
  - eapply holds_elsewhere; [exact F|exact H3|]. cbn. lia.
Qed.

Lemma assign_out w a n i b : n <= i -> assign w (a, n) i b = None.
Proof. intros H. unfold assign. cbn [fst snd]. apply Nat.ltb_ge in H. now rewrite H. Qed.

Lemma mem_eq_spec w ta tb a b l r : reference w ta a (map Byte l) -> reference w tb b (map Byte r) ->
  mem_eq w ta tb a b = Some (if list_eq_dec N.eq_dec l r then true else false).
Proof.
  intros (L & H & _) (L' & H' & _). rewrite map_length in L, L'. unfold mem_eq, as_bytes.
  rewrite (slice_bytes w a _ l), (slice_bytes w b _ r) by easy. cbn [bind].
  unfold contents. cbn [fst snd].
  rewrite (bytes_at_n w a _ (size ta) H), (bytes_at_n w b _ (size tb) H') by now rewrite map_length.
  cbn [bind]. now rewrite !initialized_bytes.
Qed.
