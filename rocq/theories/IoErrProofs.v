(** Proofs for IoErrProps.v. *)
From Verif Require Import Base DbusSpec IoMapModel IoMapSpec IoMapProofs.
Local Open Scope N_scope.

Lemma write_origin {W} (I : Write W) fuel : forall o idx data e o' idx',
  write_loop fuel I o idx data = Ok (Break e, o', idx') ->
  exists k w, k < size data /\ idx' = idx + k /\ w_map I w idx' (size data - k) = Ok (Break e, o_w o').
Proof.
  induction fuel as [|fuel IH]; intros o idx data e o' idx'; cbn [write_loop]; [discriminate|].
  destruct (N.ltb_spec 0 (size data)) as [L|L]; [|discriminate].
  destruct (w_map I (o_w o) idx (size data)) as [[[x|n] w]| |] eqn:E; cbn [bind]; try discriminate.
  - intros [= <- <- <-]. exists 0, (o_w o). rewrite N.add_0_r, N.sub_0_r. split; [exact L|]. split; [reflexivity|exact E].
  - destruct (N.ltb_spec 0 n) as [L'|]; [|discriminate].
    destruct (add_usize idx (N.min n (size data))) as [i| |] eqn:EA; cbn [bind]; try discriminate. apply add_inv in EA. subst i.
    intros H. apply IH in H. destruct H as [k [w' [K1 [K2 K3]]]]. rewrite size_skipn in K1, K3.
    exists (N.min n (size data) + k), w'. split; [lia|]. split; [lia|].
    rewrite N.sub_add_distr. exact K3.
Qed.
Lemma fill_origin {W} (I : Write W) x fuel : forall o idx len e o' idx',
  fill_loop fuel I o idx len x = Ok (Break e, o', idx') ->
  exists k w, k < len /\ idx' = idx + k /\ w_map I w idx' (len - k) = Ok (Break e, o_w o').
Proof.
  induction fuel as [|fuel IH]; intros o idx len e o' idx'; cbn [fill_loop]; [discriminate|].
  destruct (N.ltb_spec 0 len) as [L|L]; [|discriminate].
  destruct (w_map I (o_w o) idx len) as [[[y|n] w]| |] eqn:E; cbn [bind]; try discriminate.
  - intros [= <- <- <-]. exists 0, (o_w o). rewrite N.add_0_r, N.sub_0_r. split; [exact L|]. split; [reflexivity|exact E].
  - destruct (N.ltb_spec 0 n) as [L'|]; [|discriminate].
    destruct (add_usize idx (N.min n len)) as [i| |] eqn:EA; cbn [bind]; try discriminate. apply add_inv in EA. subst i.
    unfold sub_usize. destruct (N.leb_spec (N.min n len) len); cbn [bind]; [|discriminate].
    intros H'. apply IH in H'. destruct H' as [k [w' [K1 [K2 K3]]]].
    exists (N.min n len + k), w'. split; [lia|]. split; [lia|]. rewrite N.sub_add_distr. exact K3.
Qed.
Lemma read_origin {R} (I : Read R) fuel : forall r idx len got e r' idx' got',
  read_loop fuel I r idx len got = Ok (Break e, r', idx', got') ->
  exists k r0, k < len /\ idx' = idx + k /\ r_map I r0 idx' (len - k) = Ok (Break e, r').
Proof.
  induction fuel as [|fuel IH]; intros r idx len got e r' idx' got'; cbn [read_loop]; [discriminate|].
  destruct (N.ltb_spec 0 len) as [L|L]; [|discriminate].
  destruct (r_map I r idx len) as [[[y|s] w]| |] eqn:E; cbn [bind]; try discriminate.
  - intros [= <- <- <- <-]. exists 0, r. rewrite N.add_0_r, N.sub_0_r. split; [exact L|]. split; [reflexivity|exact E].
  - destruct (N.ltb_spec 0 (size s)) as [L'|]; [|discriminate].
    destruct (add_usize idx (N.min (size s) len)) as [i| |] eqn:EA; cbn [bind]; try discriminate. apply add_inv in EA. subst i.
    intros H'. apply IH in H'. destruct H' as [k [w' [K1 [K2 K3]]]].
    exists (N.min (size s) len + k), w'. split; [lia|]. split; [lia|]. rewrite N.sub_add_distr. exact K3.
Qed.
Lemma write_iter_origin {W} (I : Write W) fuel : forall o idx it e o' idx',
  write_iter_loop fuel I o idx it = Ok (Break e, o', idx') ->
  exists k w, k < it_hint it /\ idx' = idx + k /\ w_map I w idx' (it_hint it - k) = Ok (Break e, o_w o').
Proof.
  induction fuel as [|fuel IH]; intros o idx it e o' idx'; cbn [write_iter_loop]; [discriminate|].
  destruct (N.eqb_spec (it_hint it) 0) as [L|L]; [destruct (fst (it_next it)); discriminate|].
  destruct (w_map I (o_w o) idx (it_hint it)) as [[[y|n] w]| |] eqn:E; cbn [bind]; try discriminate.
  - intros [= <- <- <-]. exists 0, (o_w o). rewrite N.add_0_r, N.sub_0_r. split; [lia|]. split; [reflexivity|exact E].
  - destruct (N.ltb_spec 0 n) as [L'|]; [|discriminate].
    destruct (iter_chunk (N.to_nat (N.min (it_hint it) n)) idx n (o_mem o) idx it) as [[[m i] it']| |] eqn:EC; cbn [bind]; try discriminate.
    apply iter_chunk_any in EC; [|lia]. destruct EC as [A [_ [C _]]]. rewrite N2Nat.id in *. subst i it'.
    intros H'. apply IH in H'. cbn [it_hint] in H'. destruct H' as [k [w' [K1 [K2 K3]]]].
    exists (N.min (it_hint it) n + k), w'. split; [lia|]. split; [lia|]. rewrite N.sub_add_distr. exact K3.
Qed.

Lemma slice_answer data idx len : size data < usize -> 0 < len ->
  (idx + len <= size data -> read slice_read data idx len =
    Ok (Continue tt, data, idx + len, slice data (N.to_nat idx) (N.to_nat (idx + len)))) /\
  (size data < idx + len < usize -> read slice_read data idx len = Ok (Break (Some Exceeded), data, idx, [])) /\
  (usize <= idx + len -> read slice_read data idx len = Ok (Break (Some Overflow), data, idx, [])).
Proof.
  intros HU L. split; [|split].
  - intros HB. destruct (slice_reading data HU) as [A B].
    destruct (read_all slice_read _ data data idx len A B HU eq_refl HB) as [r' [E ->]]. exact E.
  - intros HB. unfold read. cbn [read_loop]. rewrite (proj2 (N.ltb_lt _ _) L). cbn [slice_read r_map]. unfold checked_add.
    rewrite (proj2 (N.ltb_lt (idx + len) usize)) by lia. rewrite (proj2 (N.ltb_lt (size data) _)) by lia. reflexivity.
  - intros HB. unfold read. cbn [read_loop]. rewrite (proj2 (N.ltb_lt _ _) L). cbn [slice_read r_map]. unfold checked_add.
    rewrite (proj2 (N.ltb_ge (idx + len) usize)) by lia. reflexivity.
Qed.

Lemma vec_answer grow o idx data : vec_ok (o_w o) -> 0 < size data ->
  (idx + size data <= isize_max -> exists o', write (vec_write grow) o idx data = Ok (Continue tt, o', idx + size data) /\
     v_len (o_w o') = v_len (o_w o) /\ written (o_mem o) idx data (o_mem o')) /\
  (isize_max < idx + size data < usize -> write (vec_write grow) o idx data = Panic) /\
  (usize <= idx + size data -> write (vec_write grow) o idx data = Ok (Break (Some Overflow), o, idx)).
Proof.
  intros HV L. assert (U : isize_max < usize) by reflexivity. split; [|split].
  - intros HB. destruct (write_serving (vec_write grow) _ isize_max o idx data (vec_serving grow (v_len (o_w o))) U (conj HV eq_refl) HB)
      as [o' [E [[_ HL] M]]]. exists o'. split; [exact E|]. split; [exact HL|]. apply store_written. exact M.
  - intros HB. unfold write. cbn [write_loop]. rewrite (proj2 (N.ltb_lt _ _) L). cbn [vec_write w_map]. unfold checked_add.
    rewrite (proj2 (N.ltb_lt (idx + size data) usize)) by lia. destruct HV as [V1 V2].
    rewrite (proj2 (N.ltb_lt (v_len (o_w o)) _)) by lia. unfold vec_reserve.
    rewrite (proj2 (N.ltb_lt (v_cap (o_w o) - v_len (o_w o)) _)) by lia.
    rewrite (proj2 (N.leb_gt _ isize_max)) by lia. reflexivity.
  - intros HB. unfold write. cbn [write_loop]. rewrite (proj2 (N.ltb_lt _ _) L). cbn [vec_write w_map]. unfold checked_add.
    rewrite (proj2 (N.ltb_ge (idx + size data) usize)) by lia. cbn [bind]. destruct o; reflexivity.
Qed.

Lemma align_answer {W} (I : Write W) o idx exp : idx < usize ->
  (exp < 31 -> align_exp2 I o idx exp =
     if pad_to (2 ^ exp) idx <? usize then fill I o idx (pad_to (2 ^ exp) idx - idx) 0 else Ok (Break (Some Overflow), o, idx)) /\
  (exp = 31 -> align_exp2 I o idx exp =
     if idx <=? usize - 2 ^ 31 then fill I o idx (pad_to (usize - 2 ^ 31) idx - idx) 0 else Ok (Break (Some Overflow), o, idx)) /\
  (31 < exp -> align_exp2 I o idx exp = Panic).
Proof.
  intros HU. split; [|split].
  - intros He. unfold align_exp2, shl_usize. rewrite (proj2 (N.ltb_lt _ _)) by exact He. cbn [bind].
    rewrite (checked_next _ _ (pow_pos exp)). pose proof (pad_ge _ idx (pow_pos exp)).
    replace ((idx mod 2 ^ exp =? 0) || (pad_to (2 ^ exp) idx <? usize)) with (pad_to (2 ^ exp) idx <? usize).
    + destruct (_ <? _); [|reflexivity]. unfold sub_usize. rewrite (proj2 (N.leb_le _ _)) by assumption. reflexivity.
    + rewrite (next_multiple _ _ (pow_pos exp)). destruct (N.eqb_spec (idx mod 2 ^ exp) 0) as [E|E]; cbn [orb]; [|reflexivity].
      rewrite N.add_0_r. apply N.ltb_lt. exact HU.
  - intros ->. unfold align_exp2. change (shl_usize 31) with (Ok (usize - 2 ^ 31)). cbn [bind].
    set (m := usize - 2 ^ 31). assert (Hm : 0 < m) by reflexivity.
    assert (M2 : usize < 2 * m) by reflexivity.
    rewrite (checked_next _ _ Hm). pose proof (pad_ge _ idx Hm) as G.
    replace ((idx mod m =? 0) || (pad_to m idx <? usize)) with (idx <=? m).
    + destruct (_ <=? _); [|reflexivity]. unfold sub_usize. rewrite (proj2 (N.leb_le _ _)) by assumption. reflexivity.
    + rewrite (next_multiple _ _ Hm). destruct (N.lt_trichotomy idx m) as [L|[->|L]].
      * rewrite (proj2 (N.leb_le idx m)) by lia. rewrite N.mod_small by exact L. destruct (N.eqb_spec idx 0); cbn [orb]; [reflexivity|].
        symmetry. apply N.ltb_lt. replace (idx + (m - idx)) with m by lia. reflexivity.
      * rewrite N.mod_same by lia. rewrite N.leb_refl. reflexivity.
      * rewrite (proj2 (N.leb_gt idx m)) by lia.
        assert (E : idx mod m = idx - m). { symmetry. apply (N.mod_unique idx m 1); lia. }
        rewrite E. rewrite (proj2 (N.eqb_neq (idx - m) 0)) by lia. cbn [orb]. symmetry. apply N.ltb_ge. lia.
  - intros He. unfold align_exp2, shl_usize. rewrite (proj2 (N.ltb_ge _ _)) by lia. rewrite (proj2 (N.eqb_neq _ _)) by lia. reflexivity.
Qed.
