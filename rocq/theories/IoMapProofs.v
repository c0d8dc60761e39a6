(** Proofs about mapped I/O. *)
From Verif Require Import Base DbusSpec IoMapModel IoMapSpec.
Local Open Scope N_scope.
Local Open Scope res_scope.

Lemma size_length {A} (l : list A) : N.to_nat (size l) = length l.
Proof. unfold size. lia. Qed.
Lemma size_app' {A} (a b : list A) : size (a ++ b) = size a + size b.
Proof. unfold size. rewrite app_length. lia. Qed.
Lemma size_firstn {A} (l : list A) n : n <= size l -> size (firstn (N.to_nat n) l) = n.
Proof. unfold size. intros H. rewrite firstn_length. lia. Qed.
Lemma size_skipn {A} (l : list A) n : size (skipn (N.to_nat n) l) = size l - n.
Proof. unfold size. rewrite skipn_length. lia. Qed.
Lemma size_repeat {A} (x : A) n : size (repeat x n) = N.of_nat n.
Proof. unfold size. rewrite repeat_length. reflexivity. Qed.

(** * Stores *)
Lemma store_nil m i j : store m i [] j = m j.
Proof.
  unfold store. change (size (@nil N)) with 0. rewrite N.add_0_r.
  destruct (N.leb_spec i j), (N.ltb_spec j i); cbn [andb]; try reflexivity. lia.
Qed.
Lemma store_app m i a b j : store m i (a ++ b) j = store (store m i a) (i + size a) b j.
Proof.
  unfold store. rewrite size_app'.
  destruct (N.leb_spec i j), (N.ltb_spec j (i + (size a + size b))), (N.leb_spec (i + size a) j),
    (N.ltb_spec j (i + size a + size b)), (N.ltb_spec j (i + size a)); cbn [andb]; try lia; try reflexivity.
  - rewrite nth_error_app2 by (unfold size in *; lia). f_equal. unfold size in *. lia.
  - rewrite nth_error_app1 by (unfold size in *; lia). reflexivity.
Qed.
Lemma store_ext m m' i d : (forall j, m j = m' j) -> forall j, store m i d j = store m' i d j.
Proof. intros H j. unfold store. destruct ((i <=? j) && (j <? i + size d)); auto. Qed.
Lemma store_over m i a b j : size a <= size b -> store (store m i a) i b j = store m i b j.
Proof.
  intros H. unfold store.
  destruct (N.leb_spec i j), (N.ltb_spec j (i + size b)), (N.ltb_spec j (i + size a)); cbn [andb]; try reflexivity; lia.
Qed.
Lemma store_comm m i a k b j : i + size a <= k -> store (store m k b) i a j = store (store m i a) k b j.
Proof.
  intros H. unfold store.
  destruct (N.leb_spec i j), (N.ltb_spec j (i + size a)), (N.leb_spec k j), (N.ltb_spec j (k + size b)); cbn [andb]; try reflexivity; lia.
Qed.
Lemma store_written m i d m' : written m i d m' <-> forall j, m' j = store m i d j.
Proof.
  unfold written, store. split.
  - intros [A B] j. destruct (N.leb_spec i j), (N.ltb_spec j (i + size d)); cbn [andb]; try (apply B; lia).
    destruct (nth_error d (N.to_nat (j - i))) as [x|] eqn:E.
    + rewrite <- (A _ _ E). f_equal. lia.
    + apply nth_error_None in E. unfold size in *. lia.
  - intros H. split.
    + intros k x E. rewrite H. assert (k < length d)%nat by (apply nth_error_Some; congruence).
      unfold size. destruct (N.leb_spec i (i + N.of_nat k)), (N.ltb_spec (i + N.of_nat k) (i + N.of_nat (length d)));
        cbn [andb]; try lia. rewrite <- E. f_equal. lia.
    + intros j Hj. rewrite H. destruct (N.leb_spec i j), (N.ltb_spec j (i + size d)); cbn [andb]; try reflexivity; lia.
Qed.

Lemma add_ok a b : a + b < usize -> add_usize a b = Ok (a + b).
Proof. intros H. unfold add_usize. rewrite (proj2 (N.ltb_lt _ _)) by exact H. reflexivity. Qed.
Lemma add_inv a b c : add_usize a b = Ok c -> c = a + b.
Proof. unfold add_usize. destruct (_ <? _); [intros [= <-]; reflexivity|discriminate]. Qed.

(** * write *)
(** What any run stores, for any writer. *)
Lemma write_loop_any {W} (I : Write W) fuel : forall o idx data r o' idx',
  write_loop fuel I o idx data = Ok (r, o', idx') ->
  exists k, k <= size data /\ idx' = idx + k /\
    (forall j, o_mem o' j = store (o_mem o) idx (firstn (N.to_nat k) data) j) /\
    (r = Continue tt -> k = size data).
Proof.
  induction fuel as [|fuel IH]; intros o idx data r o' idx'; cbn [write_loop]; [discriminate|].
  destruct (N.ltb_spec 0 (size data)) as [L|L].
  - destruct (w_map I (o_w o) idx (size data)) as [[[e|map_len] w]| |]; cbn [bind]; try discriminate.
    + intros [= <- <- <-]. exists 0. split; [lia|]. split; [lia|]. split; [|discriminate].
      intros j. cbn [firstn N.to_nat o_mem]. rewrite store_nil. reflexivity.
    + destruct (N.ltb_spec 0 map_len) as [L'|]; [|discriminate].
      set (n := N.min map_len (size data)).
      destruct (add_usize idx n) as [i| |] eqn:E; cbn [bind]; try discriminate. apply add_inv in E. subst i.
      intros H. apply IH in H. destruct H as [k [K1 [K2 [K3 K4]]]].
      rewrite size_skipn in K1, K4. assert (n <= size data) by (unfold n; lia).
      exists (n + k). split; [lia|]. split; [lia|]. split.
      * intros j. rewrite K3. cbn [o_mem].
        replace (firstn (N.to_nat (n + k)) data) with (firstn (N.to_nat n) data ++ firstn (N.to_nat k) (skipn (N.to_nat n) data)).
        -- rewrite store_app, size_firstn by lia. reflexivity.
        -- replace (N.to_nat (n + k)) with (N.to_nat n + N.to_nat k)%nat by lia.
           rewrite <- (firstn_skipn (N.to_nat n) data) at 3. rewrite firstn_app, firstn_firstn.
           replace (Nat.min (N.to_nat n + N.to_nat k) (N.to_nat n)) with (N.to_nat n) by lia.
           rewrite firstn_length. f_equal. f_equal. unfold size in *. lia.
      * intros Hr. specialize (K4 Hr). lia.
  - intros [= <- <- <-]. exists 0. split; [lia|]. split; [lia|]. split; [|intros _; lia].
    intros j. cbn [firstn N.to_nat]. rewrite store_nil. reflexivity.
Qed.
Lemma write_any {W} (I : Write W) o idx data r o' idx' :
  write I o idx data = Ok (r, o', idx') ->
  exists k, k <= size data /\ idx' = idx + k /\
    written (o_mem o) idx (firstn (N.to_nat k) data) (o_mem o') /\
    (r = Continue tt -> k = size data).
Proof.
  intros H. apply write_loop_any in H. destruct H as [k [A [B [C D]]]]. exists k. repeat split; auto; apply store_written in C; apply C.
Qed.
Lemma write_loop_fuel {W} (I : Write W) : returning I -> forall fuel o idx data,
  (length data < fuel)%nat -> write_loop fuel I o idx data <> NoFuel.
Proof.
  intros R. induction fuel as [|fuel IH]; intros o idx data Hf; [lia|]. cbn [write_loop].
  destruct (N.ltb_spec 0 (size data)) as [L|L]; [|discriminate].
  destruct (w_map I (o_w o) idx (size data)) as [[[e|map_len] w]| |] eqn:E; cbn [bind]; try discriminate;
    [|exfalso; exact (R _ _ _ E)].
  destruct (N.ltb_spec 0 map_len) as [L'|]; [|discriminate].
  unfold add_usize. destruct (_ <? usize); cbn [bind]; [|discriminate].
  apply IH. rewrite skipn_length. unfold size in *. lia.
Qed.
Lemma write_returns {W} (I : Write W) o idx data : returning I -> write I o idx data <> NoFuel.
Proof. intros R. apply write_loop_fuel; [exact R|lia]. Qed.

Lemma write_loop_serving {W} (I : Write W) P limit : serving I P limit -> limit < usize ->
  forall fuel o idx data, (length data < fuel)%nat -> P (o_w o) -> idx + size data <= limit ->
  exists o', write_loop fuel I o idx data = Ok (Continue tt, o', idx + size data) /\ P (o_w o').
Proof.
  intros S HL. induction fuel as [|fuel IH]; intros o idx data Hf HP HB; [lia|]. cbn [write_loop].
  destruct (N.ltb_spec 0 (size data)) as [L|L].
  - destruct (S (o_w o) idx (size data) HP L HB) as [map_len [w [E [K HP']]]]. rewrite E. cbn [bind].
    rewrite (proj2 (N.ltb_lt _ _)) by exact K. set (n := N.min map_len (size data)).
    assert (n <= size data) by (unfold n; lia). assert (0 < n) by (unfold n; lia).
    rewrite add_ok by lia. cbn [bind].
    destruct (IH (mkOut w (store (o_mem o) idx (firstn (N.to_nat n) data))) (idx + n) (skipn (N.to_nat n) data)) as [o' [E' HP'']].
    + rewrite skipn_length. unfold size in *. lia.
    + exact HP'.
    + rewrite size_skipn. lia.
    + exists o'. split; [|exact HP'']. rewrite E'. rewrite size_skipn. do 2 f_equal. lia.
  - exists o. split; [|exact HP]. do 2 f_equal. lia.
Qed.
Lemma write_serving {W} (I : Write W) P limit o idx data : serving I P limit -> limit < usize ->
  P (o_w o) -> idx + size data <= limit ->
  exists o', write I o idx data = Ok (Continue tt, o', idx + size data) /\ P (o_w o') /\
    forall j, o_mem o' j = store (o_mem o) idx data j.
Proof.
  intros S L HP HB. destruct (write_loop_serving I P limit S L (Datatypes.S (length data)) o idx data ltac:(lia) HP HB) as [o' [E HP']].
  exists o'. split; [exact E|]. split; [exact HP'|]. apply write_loop_any in E. destruct E as [k [A [B [C D]]]].
  specialize (D eq_refl). subst k. intros j. rewrite C. rewrite size_length, firstn_all. reflexivity.
Qed.

(** * fill, zero, align *)
Lemma fill_loop_any {W} (I : Write W) fuel : forall o idx len x r o' idx',
  fill_loop fuel I o idx len x = Ok (r, o', idx') ->
  exists k, k <= len /\ idx' = idx + k /\
    (forall j, o_mem o' j = store (o_mem o) idx (repeat x (N.to_nat k)) j) /\
    (r = Continue tt -> k = len).
Proof.
  induction fuel as [|fuel IH]; intros o idx len x r o' idx'; cbn [fill_loop]; [discriminate|].
  destruct (N.ltb_spec 0 len) as [L|L].
  - destruct (w_map I (o_w o) idx len) as [[[e|map_len] w]| |]; cbn [bind]; try discriminate.
    + intros [= <- <- <-]. exists 0. split; [lia|]. split; [lia|]. split; [|discriminate].
      intros j. cbn [repeat N.to_nat o_mem]. rewrite store_nil. reflexivity.
    + destruct (N.ltb_spec 0 map_len) as [L'|]; [|discriminate].
      set (n := N.min map_len len).
      destruct (add_usize idx n) as [i| |] eqn:E; cbn [bind]; try discriminate. apply add_inv in E. subst i.
      unfold sub_usize. destruct (N.leb_spec n len) as [Hn|]; [|discriminate]. cbn [bind].
      intros H. apply IH in H. destruct H as [k [K1 [K2 [K3 K4]]]].
      exists (n + k). split; [lia|]. split; [lia|]. split.
      * intros j. rewrite K3. cbn [o_mem].
        replace (N.to_nat (n + k)) with (N.to_nat n + N.to_nat k)%nat by lia.
        rewrite repeat_app, store_app, size_repeat. f_equal. lia.
      * intros Hr. specialize (K4 Hr). lia.
  - intros [= <- <- <-]. exists 0. split; [lia|]. split; [lia|]. split; [|intros _; lia].
    intros j. cbn [repeat N.to_nat]. rewrite store_nil. reflexivity.
Qed.
Lemma fill_any {W} (I : Write W) o idx len x r o' idx' :
  fill I o idx len x = Ok (r, o', idx') ->
  exists k, k <= len /\ idx' = idx + k /\
    written (o_mem o) idx (repeat x (N.to_nat k)) (o_mem o') /\ (r = Continue tt -> k = len).
Proof.
  intros H. apply fill_loop_any in H. destruct H as [k [A [B [C D]]]]. exists k. repeat split; auto; apply store_written in C; apply C.
Qed.
Lemma fill_loop_serving {W} (I : Write W) P limit x : serving I P limit -> limit < usize ->
  forall fuel o idx len, (N.to_nat len < fuel)%nat -> P (o_w o) -> idx + len <= limit ->
  exists o', fill_loop fuel I o idx len x = Ok (Continue tt, o', idx + len) /\ P (o_w o').
Proof.
  intros S HL. induction fuel as [|fuel IH]; intros o idx len Hf HP HB; [lia|]. cbn [fill_loop].
  destruct (N.ltb_spec 0 len) as [L|L].
  - destruct (S (o_w o) idx len HP L HB) as [map_len [w [E [K HP']]]]. rewrite E. cbn [bind].
    rewrite (proj2 (N.ltb_lt _ _)) by exact K. set (n := N.min map_len len).
    assert (n <= len) by (unfold n; lia). assert (0 < n) by (unfold n; lia).
    rewrite add_ok by lia. cbn [bind]. unfold sub_usize. rewrite (proj2 (N.leb_le _ _)) by lia. cbn [bind].
    destruct (IH (mkOut w (store (o_mem o) idx (repeat x (N.to_nat n)))) (idx + n) (len - n)) as [o' [E' HP'']];
      [lia|exact HP'|lia|].
    exists o'. split; [|exact HP'']. rewrite E'. do 2 f_equal. lia.
  - exists o. split; [|exact HP]. do 2 f_equal. lia.
Qed.
Lemma fill_serving {W} (I : Write W) P limit o idx len x : serving I P limit -> limit < usize ->
  P (o_w o) -> idx + len <= limit ->
  exists o', fill I o idx len x = Ok (Continue tt, o', idx + len) /\ P (o_w o') /\
    forall j, o_mem o' j = store (o_mem o) idx (repeat x (N.to_nat len)) j.
Proof.
  intros S L HP HB. destruct (fill_loop_serving I P limit x S L (Datatypes.S (N.to_nat len)) o idx len ltac:(lia) HP HB) as [o' [E HP']].
  exists o'. split; [exact E|]. split; [exact HP'|]. apply fill_loop_any in E. destruct E as [k [A [B [C D]]]].
  specialize (D eq_refl). subst k. exact C.
Qed.

Lemma next_multiple a m : 0 < m ->
  pad_to m a = a + (if a mod m =? 0 then 0 else m - a mod m).
Proof.
  intros Hm. unfold pad_to. pose proof (N.div_mod a m ltac:(lia)) as D. pose proof (N.mod_lt a m ltac:(lia)).
  set (q := a / m) in *. set (r := a mod m) in *.
  destruct (N.eqb_spec r 0) as [R|R].
  - replace (a + m - 1) with ((m - 1) + q * m) by nia. rewrite N.div_add, N.div_small by lia. nia.
  - replace (a + m - 1) with ((r - 1) + (q + 1) * m) by nia. rewrite N.div_add, N.div_small by lia. nia.
Qed.
Lemma checked_next a m : 0 < m ->
  checked_next_multiple_of a m = if (a mod m =? 0) || (pad_to m a <? usize) then Some (pad_to m a) else None.
Proof.
  intros Hm. rewrite (next_multiple a m Hm). unfold checked_next_multiple_of, checked_add. cbv zeta.
  destruct (N.eqb_spec (a mod m) 0) as [E|E]; cbn [orb]; [rewrite N.add_0_r; reflexivity|reflexivity].
Qed.
Lemma pad_ge m a : 0 < m -> a <= pad_to m a.
Proof. intros H. rewrite next_multiple by exact H. lia. Qed.
Lemma pow_pos e : 0 < 2 ^ e.
Proof. apply N.neq_0_lt_0, N.pow_nonzero. discriminate. Qed.
Lemma align_serving {W} (I : Write W) P limit o idx exp : serving I P limit -> limit < usize ->
  P (o_w o) -> exp < 31 -> pad_to (2 ^ exp) idx <= limit ->
  exists o', align_exp2 I o idx exp = Ok (Continue tt, o', pad_to (2 ^ exp) idx) /\ P (o_w o') /\
    forall j, o_mem o' j = store (o_mem o) idx (repeat 0 (N.to_nat (pad_to (2 ^ exp) idx - idx))) j.
Proof.
  intros S L HP He HB. unfold align_exp2, shl_usize. rewrite (proj2 (N.ltb_lt _ _)) by exact He. cbn [bind].
  rewrite (checked_next _ _ (pow_pos exp)). rewrite (proj2 (N.ltb_lt (pad_to _ _) _)) by lia. rewrite orb_true_r.
  pose proof (pad_ge _ idx (pow_pos exp)). unfold sub_usize. rewrite (proj2 (N.leb_le _ _)) by assumption. cbn [bind].
  destruct (fill_serving I P limit o idx (pad_to (2 ^ exp) idx - idx) 0 S L HP ltac:(lia)) as [o' [E [HP' M]]].
  exists o'. split; [|split; [exact HP'|exact M]]. unfold zero. rewrite E. do 2 f_equal. lia.
Qed.
Lemma align_any {W} (I : Write W) o idx exp r o' idx' : exp < 31 ->
  align_exp2 I o idx exp = Ok (r, o', idx') ->
  exists k, k <= pad_to (2 ^ exp) idx - idx /\ idx' = idx + k /\
    written (o_mem o) idx (repeat 0 (N.to_nat k)) (o_mem o') /\
    (r = Continue tt -> idx' = pad_to (2 ^ exp) idx).
Proof.
  intros He. unfold align_exp2, shl_usize. rewrite (proj2 (N.ltb_lt _ _)) by exact He. cbn [bind].
  rewrite (checked_next _ _ (pow_pos exp)). pose proof (pad_ge _ idx (pow_pos exp)).
  destruct (_ || _) eqn:E.
  - unfold sub_usize. rewrite (proj2 (N.leb_le _ _)) by assumption. cbn [bind]. unfold zero. intros H'.
    apply fill_any in H'. destruct H' as [k [A [B [C D]]]]. exists k. repeat split; auto; try apply C.
    intros Hr. specialize (D Hr). lia.
  - intros [= <- <- <-]. exists 0. split; [lia|]. split; [lia|]. split; [|discriminate].
    apply store_written. intros j. cbn [repeat N.to_nat]. rewrite store_nil. reflexivity.
Qed.

(** * write_iter *)
Lemma iter_chunk_any n : forall base map_len m idx it m' idx' it', N.of_nat n <= map_len ->
  iter_chunk n base map_len m idx it = Ok (m', idx', it') ->
  idx' = idx + N.of_nat n /\ (n <= length (it_items it))%nat /\
  it' = mkIter (it_hint it - N.of_nat n) (skipn n (it_items it)) /\
  forall j, m' j = store m (base + (map_len - N.of_nat n)) (firstn n (it_items it)) j.
Proof.
  induction n as [|n IH]; intros base map_len m idx it m' idx' it' Hn; cbn [iter_chunk].
  - intros [= <- <- <-]. split; [lia|]. split; [lia|]. split.
    + destruct it as [h l]. cbn [it_hint it_items skipn N.of_nat]. f_equal. lia.
    + intros j. cbn [firstn]. rewrite store_nil. reflexivity.
  - unfold sub_usize. rewrite (proj2 (N.leb_le _ _)) by exact Hn. cbn [bind].
    destruct it as [h [|x l]]; cbn [it_next it_items it_hint]; [discriminate|].
    destruct (add_usize idx 1) as [i| |] eqn:E; cbn [bind]; try discriminate. apply add_inv in E. subst i.
    intros H. apply IH in H; [|lia]. cbn [it_items it_hint] in H. destruct H as [A [B [C D]]].
    split; [lia|]. split; [cbn [length]; lia|]. split.
    + rewrite C. cbn [skipn]. f_equal. lia.
    + intros j. rewrite D. cbn [firstn]. change (x :: firstn n l) with ([x] ++ firstn n l).
      rewrite store_app. change (size [x]) with 1. f_equal. lia.
Qed.
Lemma write_iter_loop_bounded {W} (I : Write W) fuel : bounded I -> forall o idx it r o' idx',
  it_hint it = size (it_items it) ->
  write_iter_loop fuel I o idx it = Ok (r, o', idx') ->
  exists k, k <= size (it_items it) /\ idx' = idx + k /\
    (forall j, o_mem o' j = store (o_mem o) idx (firstn (N.to_nat k) (it_items it)) j) /\
    (r = Continue tt -> k = size (it_items it)).
Proof.
  intros HB. induction fuel as [|fuel IH]; intros o idx it r o' idx' Hh; cbn [write_iter_loop]; [discriminate|].
  rewrite Hh. destruct (N.eqb_spec (size (it_items it)) 0) as [L|L].
  - destruct it as [h [|x l]]; cbn [it_items it_hint it_next fst] in *; [|discriminate].
    intros [= <- <- <-]. exists 0. split; [lia|]. split; [lia|]. split; [|intros _; lia].
    intros j. cbn [firstn N.to_nat]. rewrite store_nil. reflexivity.
  - destruct (w_map I (o_w o) idx (size (it_items it))) as [[[e|map_len] w]| |] eqn:EM; cbn [bind]; try discriminate.
    + intros [= <- <- <-]. exists 0. split; [lia|]. split; [lia|]. split; [|discriminate].
      intros j. cbn [firstn N.to_nat o_mem]. rewrite store_nil. reflexivity.
    + apply HB in EM. destruct (N.ltb_spec 0 map_len) as [L'|]; [|discriminate].
      replace (N.min (size (it_items it)) map_len) with map_len by lia.
      destruct (iter_chunk (N.to_nat map_len) idx map_len (o_mem o) idx it) as [[[m i] it']| |] eqn:EC; cbn [bind]; try discriminate.
      apply iter_chunk_any in EC; [|lia]. destruct EC as [A [B [C D]]]. rewrite N2Nat.id in *.
      subst i it'. intros H. apply IH in H; cbn [it_items it_hint] in *.
      * destruct H as [k [K1 [K2 [K3 K4]]]]. rewrite size_skipn in K1, K4.
        exists (map_len + k). split; [lia|]. split; [lia|]. split.
        -- intros j. rewrite K3. cbn [o_mem]. rewrite (store_ext _ _ _ _ D).
           rewrite N.sub_diag, N.add_0_r.
           replace (firstn (N.to_nat (map_len + k)) (it_items it)) with
             (firstn (N.to_nat map_len) (it_items it) ++ firstn (N.to_nat k) (skipn (N.to_nat map_len) (it_items it))).
           ++ rewrite store_app, size_firstn by lia. reflexivity.
           ++ replace (N.to_nat (map_len + k)) with (N.to_nat map_len + N.to_nat k)%nat by lia.
              rewrite <- (firstn_skipn (N.to_nat map_len) (it_items it)) at 3. rewrite firstn_app, firstn_firstn.
              replace (Nat.min (N.to_nat map_len + N.to_nat k) (N.to_nat map_len)) with (N.to_nat map_len) by lia.
              rewrite firstn_length. f_equal. f_equal. unfold size in *. lia.
        -- intros Hr. specialize (K4 Hr). lia.
      * rewrite size_skipn, Hh. reflexivity.
Qed.
Lemma iter_chunk_ok n : forall base map_len m idx it, N.of_nat n <= map_len ->
  (n <= length (it_items it))%nat -> idx + N.of_nat n < usize ->
  exists r, iter_chunk n base map_len m idx it = Ok r.
Proof.
  induction n as [|n IH]; intros base map_len m idx it Hn Hl Hu; cbn [iter_chunk]; [eexists; reflexivity|].
  unfold sub_usize. rewrite (proj2 (N.leb_le _ _)) by exact Hn. cbn [bind].
  destruct it as [h [|x l]]; cbn [it_next it_items it_hint length] in *; [lia|].
  rewrite add_ok by lia. cbn [bind]. apply IH; cbn [it_items]; lia.
Qed.
Lemma write_iter_loop_serving {W} (I : Write W) P limit : serving I P limit -> bounded I -> limit < usize ->
  forall fuel o idx it, (length (it_items it) < fuel)%nat -> it_hint it = size (it_items it) ->
  P (o_w o) -> idx + size (it_items it) <= limit ->
  exists o', write_iter_loop fuel I o idx it = Ok (Continue tt, o', idx + size (it_items it)) /\ P (o_w o').
Proof.
  intros S HB HL. induction fuel as [|fuel IH]; intros o idx it Hf Hh HP Hl; [lia|]. cbn [write_iter_loop].
  rewrite Hh. destruct (N.eqb_spec (size (it_items it)) 0) as [L|L].
  - destruct it as [h [|x l]]; cbn [it_items it_hint it_next fst] in *; [|discriminate].
    exists o. split; [|exact HP]. change (size (@nil N)) with 0. rewrite N.add_0_r. reflexivity.
  - destruct (S (o_w o) idx (size (it_items it)) HP ltac:(lia) Hl) as [map_len [w [EM [K HP']]]]. rewrite EM. cbn [bind].
    apply HB in EM. rewrite (proj2 (N.ltb_lt _ _)) by exact K.
    replace (N.min (size (it_items it)) map_len) with map_len by lia.
    destruct (iter_chunk_ok (N.to_nat map_len) idx map_len (o_mem o) idx it) as [[[m i] it'] EC]; [lia|unfold size in *; lia|lia|].
    rewrite EC. cbn [bind]. apply iter_chunk_any in EC; [|lia]. destruct EC as [A [B [C D]]]. rewrite N2Nat.id in *.
    subst i it'.
    destruct (IH (mkOut w m) (idx + map_len) (mkIter (it_hint it - map_len) (skipn (N.to_nat map_len) (it_items it)))) as [o' [E' HP'']];
      cbn [it_items it_hint].
    + rewrite skipn_length. unfold size in *. lia.
    + rewrite size_skipn, Hh. reflexivity.
    + exact HP'.
    + rewrite size_skipn. lia.
    + exists o'. split; [|exact HP'']. rewrite E'. cbn [it_items]. rewrite size_skipn. do 2 f_equal. lia.
Qed.
Lemma write_iter_serving {W} (I : Write W) P limit o idx data : serving I P limit -> bounded I -> limit < usize ->
  P (o_w o) -> idx + size data <= limit ->
  exists o', write_iter I o idx (mkIter (size data) data) = Ok (Continue tt, o', idx + size data) /\ P (o_w o') /\
    forall j, o_mem o' j = store (o_mem o) idx data j.
Proof.
  intros S B L HP HB. unfold write_iter. cbn [it_hint]. rewrite size_length.
  destruct (write_iter_loop_serving I P limit S B L (Datatypes.S (length data)) o idx (mkIter (size data) data) ltac:(cbn; lia) eq_refl HP HB) as [o' [E HP']].
  exists o'. split; [exact E|]. split; [exact HP'|]. apply write_iter_loop_bounded in E; [|exact B|reflexivity]. cbn [it_items] in E.
  destruct E as [k [A1 [A2 [C D]]]].
  specialize (D eq_refl). subst k. intros j. rewrite C. rewrite size_length, firstn_all. reflexivity.
Qed.
Lemma write_iter_any {W} (I : Write W) o idx data r o' idx' : bounded I ->
  write_iter I o idx (mkIter (size data) data) = Ok (r, o', idx') ->
  exists k, k <= size data /\ idx' = idx + k /\
    written (o_mem o) idx (firstn (N.to_nat k) data) (o_mem o') /\ (r = Continue tt -> k = size data).
Proof.
  intros HB H. apply write_iter_loop_bounded in H; [|exact HB|reflexivity]. cbn [it_items] in H.
  destruct H as [k [A [B [C D]]]]. exists k. repeat split; auto; apply store_written in C; apply C.
Qed.

(** * read *)
Lemma firstn_plus {A} (l : list A) a b : firstn (a + b) l = firstn a l ++ firstn b (skipn a l).
Proof.
  revert l; induction a as [|a IH]; intros l; [reflexivity|]. destruct l as [|x l]; cbn.
  - rewrite firstn_nil. reflexivity.
  - f_equal. apply IH.
Qed.
Lemma skipn_plus {A} (l : list A) a b : skipn (a + b) l = skipn b (skipn a l).
Proof.
  revert l; induction a as [|a IH]; intros l; [reflexivity|]. destruct l as [|x l]; cbn.
  - rewrite skipn_nil. reflexivity.
  - apply IH.
Qed.
Lemma slice_split {A} (l : list A) i j k : (i <= j)%nat -> (j <= k)%nat -> slice l i k = slice l i j ++ slice l j k.
Proof.
  intros H1 H2. unfold slice. replace (k - i)%nat with ((j - i) + (k - j))%nat by lia. rewrite firstn_plus.
  f_equal. rewrite <- skipn_plus. f_equal. f_equal. lia.
Qed.
Lemma slice_firstn {A} (l : list A) i j n : (n <= j - i)%nat -> firstn n (slice l i j) = slice l i (i + n).
Proof. intros H. unfold slice. rewrite firstn_firstn. f_equal. lia. Qed.

Lemma reading_bound {A} (data s : list A) idx : s <> [] -> s = slice data idx (idx + length s) -> (idx + length s <= length data)%nat.
Proof.
  intros Hs E. assert (L : length s = length (slice data idx (idx + length s))) by (rewrite <- E; reflexivity).
  unfold slice in L. rewrite firstn_length, skipn_length in L. destruct s; [congruence|]. cbn [length] in *. lia.
Qed.
Lemma read_loop_any {R} (I : Read R) P data : reading I P data -> forall fuel r idx len got f r' idx' got',
  P r -> read_loop fuel I r idx len got = Ok (f, r', idx', got') ->
  exists k, k <= len /\ idx' = idx + k /\ got' = got ++ slice data (N.to_nat idx) (N.to_nat idx') /\
    (0 < k -> idx' <= size data) /\ (f = Continue tt -> k = len /\ P r').
Proof.
  intros HR. induction fuel as [|fuel IH]; intros r idx len got f r' idx' got' HP; cbn [read_loop]; [discriminate|].
  assert (Z : forall i, slice data i i = []) by (intros i; unfold slice; rewrite Nat.sub_diag; reflexivity).
  destruct (N.ltb_spec 0 len) as [L|L].
  - destruct (r_map I r idx len) as [[[e|s] w]| |] eqn:EM; cbn [bind]; try discriminate.
    + intros [= <- <- <- <-]. exists 0. rewrite Z, app_nil_r. repeat split; try lia; try discriminate.
    + destruct (HR _ _ _ _ _ HP EM) as [ES HP']. destruct (N.ltb_spec 0 (size s)) as [L'|]; [|discriminate].
      set (n := N.min (size s) len).
      destruct (add_usize idx n) as [i| |] eqn:E; cbn [bind]; try discriminate. apply add_inv in E. subst i.
      intros H. apply (IH _ _ _ _ _ _ _ _ HP') in H. destruct H as [k [K1 [K2 [K3 [K4 K5]]]]].
      assert (Bs : (N.to_nat idx + length s <= length data)%nat).
      { apply reading_bound; [|exact ES]. intros ->. unfold size in L'. cbn in L'. lia. }
      exists (n + k). split; [lia|]. split; [lia|]. split; [|split].
      * rewrite K3, <- app_assoc. f_equal. rewrite ES, slice_firstn by (unfold size in *; lia).
        rewrite (slice_split data (N.to_nat idx) (N.to_nat (idx + n)) (N.to_nat idx')) by lia.
        f_equal. f_equal. lia.
      * intros _. destruct (N.eq_dec k 0) as [->|]; [unfold size in *; lia|]. apply K4. lia.
      * intros Hf. destruct (K5 Hf) as [Ek HP'']. split; [lia|exact HP''].
  - intros [= <- <- <- <-]. exists 0. rewrite Z, app_nil_r. repeat split; try lia. exact HP.
Qed.
Lemma read_any {R} (I : Read R) P data r idx len f r' idx' got : reading I P data -> P r ->
  read I r idx len = Ok (f, r', idx', got) ->
  got = slice data (N.to_nat idx) (N.to_nat idx') /\ idx <= idx' <= idx + len /\
  (idx < idx' -> idx' <= size data) /\ (f = Continue tt -> idx' = idx + len /\ P r').
Proof.
  intros HR HP H. apply (read_loop_any I P data HR _ _ _ _ _ _ _ _ _ HP) in H. cbn [app] in H.
  destruct H as [k [A [B [C [D E]]]]]. split; [exact C|]. split; [lia|]. split; [intros; apply D; lia|].
  intros Hf. destruct (E Hf) as [-> HP']. split; [exact B|exact HP'].
Qed.
Lemma read_loop_all {R} (I : Read R) P data : reading I P data -> reading_all I P data -> size data < usize ->
  forall fuel r idx len got, (N.to_nat len < fuel)%nat -> P r -> idx + len <= size data ->
  exists r' got', read_loop fuel I r idx len got = Ok (Continue tt, r', idx + len, got').
Proof.
  intros HR HA HU. induction fuel as [|fuel IH]; intros r idx len got Hf HP Hb; [lia|]. cbn [read_loop].
  destruct (N.ltb_spec 0 len) as [L|L].
  - destruct (HA r idx len HP L Hb) as [s [w [EM Hs]]]. rewrite EM. cbn [bind].
    destruct (HR _ _ _ _ _ HP EM) as [ES HP']. assert (0 < size s) by (destruct s; [congruence|unfold size; cbn; lia]).
    rewrite (proj2 (N.ltb_lt _ _)) by assumption. set (n := N.min (size s) len).
    rewrite add_ok by lia. cbn [bind].
    destruct (IH w (idx + n) (len - n) (got ++ firstn (N.to_nat n) s)) as [r' [got' E]]; [lia|exact HP'|lia|].
    exists r', got'. rewrite E. do 3 f_equal. lia.
  - exists r, got. do 3 f_equal. lia.
Qed.
Lemma read_all {R} (I : Read R) P data r idx len : reading I P data -> reading_all I P data -> size data < usize ->
  P r -> idx + len <= size data ->
  exists r', read I r idx len = Ok (Continue tt, r', idx + len, slice data (N.to_nat idx) (N.to_nat (idx + len))) /\ P r'.
Proof.
  intros HR HA HU HP HB.
  destruct (read_loop_all I P data HR HA HU (S (N.to_nat len)) r idx len [] ltac:(lia) HP HB) as [r' [got E]].
  pose proof (read_any I P data r idx len _ _ _ _ HR HP E) as [-> [_ [_ Q]]]. exists r'. split; [exact E|apply Q; reflexivity].
Qed.
Lemma slice_reading data : size data < usize ->
  reading slice_read (fun r => r = data) data /\ reading_all slice_read (fun r => r = data) data.
Proof.
  intros HU. split.
  - intros r idx len s r' -> . unfold slice_read. cbn [r_map]. unfold checked_add.
    destruct (N.ltb_spec (idx + len) usize); [|discriminate]. destruct (N.ltb_spec (size data) (idx + len)); [discriminate|].
    intros [= <- <-]. split; [|reflexivity]. unfold slice.
    assert (EL : length (firstn (N.to_nat len) (skipn (N.to_nat idx) data)) = N.to_nat len).
    { rewrite firstn_length, skipn_length. unfold size in *. lia. }
    rewrite EL. f_equal. lia.
  - intros r idx len -> Hl Hb. unfold slice_read. cbn [r_map]. unfold checked_add.
    destruct (N.ltb_spec (idx + len) usize); [|lia]. destruct (N.ltb_spec (size data) (idx + len)); [lia|].
    do 2 eexists. split; [reflexivity|]. intros E. apply (f_equal (@length N)) in E.
    rewrite firstn_length, skipn_length in E. unfold size in *. cbn in E. lia.
Qed.

(** * Vectors *)
Definition vec_ok (v : vec) : Prop := v_len v <= v_cap v /\ v_cap v <= isize_max.
Lemma vec_map_ok grow v idx len : vec_ok v -> idx + len <= isize_max ->
  exists v', w_map (vec_write grow) v idx len = Ok (Continue len, v') /\ vec_ok v' /\ v_len v' = v_len v /\ idx + len <= v_cap v'.
Proof.
  intros [HL HC] HB. unfold vec_write. cbn [w_map]. unfold checked_add.
  assert (idx + len < usize) by (unfold isize_max, usize in *; lia).
  rewrite (proj2 (N.ltb_lt _ _)) by assumption. unfold vec_reserve.
  destruct (N.ltb_spec (v_len v) (idx + len)) as [L|L].
  - destruct (N.ltb_spec (v_cap v - v_len v) (idx + len - v_len v)) as [G|G]; cbn [bind].
    + replace (v_len v + (idx + len - v_len v)) with (idx + len) by lia. rewrite (proj2 (N.leb_le _ _)) by assumption. cbn [bind v_cap v_len].
      set (c := N.min isize_max (idx + len + grow (idx + len))). assert (idx + len <= c) by (unfold c; lia).
      rewrite (proj2 (N.leb_le _ _)) by assumption. replace (idx + len - idx) with len by lia. eexists. split; [reflexivity|].
      split; [split; cbn [v_len v_cap]; [lia|unfold c; lia]|]. split; [reflexivity|]. cbn [v_cap]. assumption.
    + rewrite (proj2 (N.leb_le _ _)) by lia. replace (idx + len - idx) with len by lia. eexists. split; [reflexivity|]. split; [split; assumption|]. split; [reflexivity|lia].
  - cbn [bind]. rewrite (proj2 (N.leb_le _ _)) by lia. replace (idx + len - idx) with len by lia. eexists. split; [reflexivity|]. split; [split; assumption|]. split; [reflexivity|lia].
Qed.
Lemma vec_serving grow n : serving (vec_write grow) (fun v => vec_ok v /\ v_len v = n) isize_max.
Proof.
  intros v idx len [HV HN] Hl HB. destruct (vec_map_ok grow v idx len HV HB) as [v' [E [V' [N' _]]]].
  exists len, v'. split; [exact E|]. split; [exact Hl|]. split; [exact V'|congruence].
Qed.
Lemma vec_bounded grow : bounded (vec_write grow).
Proof.
  intros v idx len k v'. unfold vec_write. cbn [w_map]. unfold checked_add. destruct (_ <? usize); [|discriminate].
  destruct (if v_len v <? idx + len then _ else _) as [u| |]; cbn [bind]; try discriminate.
  destruct (_ <=? v_cap u); [|discriminate]. intros [= <- <-]. lia.
Qed.
Lemma overlay_ext ws : forall m m', (forall j, m j = m' j) -> forall j, overlay m ws j = overlay m' ws j.
Proof.
  induction ws as [|[i d] ws IH]; intros m m' H j; cbn; [apply H|]. apply IH. intros k. rewrite H. reflexivity.
Qed.
Lemma write_all_vec grow n ws : forall o, vec_ok (o_w o) -> v_len (o_w o) = n ->
  Forall (fun '(i, d) => i + size d <= isize_max) ws ->
  exists o', write_all (vec_write grow) o ws = Ok o' /\ vec_ok (o_w o') /\ v_len (o_w o') = n /\
    forall j, o_mem o' j = overlay (o_mem o) ws j.
Proof.
  induction ws as [|[i d] ws IH]; intros o HV HN HF; cbn [write_all].
  - exists o. repeat split; auto; apply HV.
  - inversion HF; subst.
    destruct (write_serving (vec_write grow) _ isize_max o i d (vec_serving grow (v_len (o_w o))) ltac:(reflexivity)
      (conj HV eq_refl) H1) as [o1 [E [[V1 N1] M1]]].
    rewrite E. cbn [bind]. destruct (IH o1 V1 N1 H2) as [o2 [E2 [V2 [N2 M2]]]].
    exists o2. split; [exact E2|]. split; [exact V2|]. split; [exact N2|].
    intros j. rewrite M2. cbn. apply overlay_ext. exact M1.
Qed.
Lemma vec_of_ok l extra : size l + extra <= isize_max -> vec_ok (o_w (vec_of l extra)).
Proof. intros H. split; cbn [o_w vec_of v_len v_cap]; lia. Qed.
Lemma write_commit_ok grow l extra ws n : size l + extra <= isize_max ->
  Forall (fun '(i, d) => i + size d <= isize_max) ws -> size l + n < usize ->
  exists o', write_commit grow (vec_of l extra) ws n = Ok o' /\
    vec_contents o' = firsts (size l + n) (overlay (fun i => nth_error l (N.to_nat i)) ws).
Proof.
  intros HC HF HN. destruct (write_all_vec grow (size l) ws _ (vec_of_ok l extra HC) eq_refl HF) as [o1 [E [V [L M]]]].
  unfold write_commit. rewrite E. cbn [bind vec_write w_commit]. rewrite L, add_ok by exact HN. cbn [bind].
  eexists. split; [reflexivity|]. unfold vec_contents, firsts. cbn [o_w v_len o_mem].
  apply map_ext. intros i. apply M.
Qed.
Lemma overlay_before ws : forall m n, Forall (fun '(i, _) => n <= i) ws -> forall j, j < n -> overlay m ws j = m j.
Proof.
  induction ws as [|[i d] ws IH]; intros m n HF j Hj; cbn; [reflexivity|]. inversion HF; subst.
  etransitivity; [apply (IH _ n H2 j Hj)|]. cbn beta. destruct (N.leb_spec i j); [lia|reflexivity].
Qed.
Lemma seq_map_off n : forall s, seq s n = map (fun i => (s + i)%nat) (seq 0 n).
Proof.
  induction n as [|n IH]; intros s; cbn [seq map]; [reflexivity|]. f_equal; [lia|].
  rewrite (IH (S s)), (IH 1%nat), map_map. apply map_ext. intros i. lia.
Qed.
Lemma firsts_split a b m : firsts (a + b) m = firsts a m ++ firsts b (fun i => m (a + i)).
Proof.
  unfold firsts. rewrite N2Nat.inj_add, seq_app, map_app. f_equal. cbn [plus].
  rewrite (seq_map_off (N.to_nat b) (N.to_nat a)), map_map. apply map_ext. intros i. f_equal. lia.
Qed.
Lemma firsts_list l m : (forall j, j < size l -> m j = nth_error l (N.to_nat j)) -> firsts (size l) m = map Some l.
Proof.
  intros H. unfold firsts. rewrite size_length.
  transitivity (map (fun i => nth_error l i) (seq 0 (length l))).
  - apply map_ext_in. intros i Hi. apply in_seq in Hi. rewrite H by (unfold size; lia). f_equal. lia.
  - clear. induction l as [|x l IH]; [reflexivity|]. cbn [length seq map nth_error]. f_equal.
    rewrite <- seq_shift, map_map. exact IH.
Qed.
Lemma write_commit_appends grow l extra ws n : size l + extra <= isize_max ->
  Forall (fun '(i, d) => size l <= i /\ i + size d <= isize_max) ws -> size l + n < usize ->
  exists o', write_commit grow (vec_of l extra) ws n = Ok o' /\
    vec_contents o' = map Some l ++ firsts n (fun i => overlay (fun i => nth_error l (N.to_nat i)) ws (size l + i)).
Proof.
  intros HC HF HN. destruct (write_commit_ok grow l extra ws n HC) as [o' [E C]]; [|exact HN|].
  - eapply Forall_impl; [|exact HF]. intros [i d] [_ H]. exact H.
  - exists o'. split; [exact E|]. rewrite C, firsts_split. f_equal. apply firsts_list. intros j Hj.
    refine (overlay_before ws (fun i => nth_error l (N.to_nat i)) (size l) _ j Hj). eapply Forall_impl; [|exact HF]. intros [i d] [H _]. exact H.
Qed.
