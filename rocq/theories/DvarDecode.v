(** Driving the decoder over the bytes of a value. *)
From Verif Require Import Base DbusSpec IoMapModel IoMapSpec IoMapProofs.
From Verif Require Import DbusElement DbusSigModel DbusSigAnnot DbusSigRefine DbusSigTheory DbusCursorProofs DbusCursorQueries DbusSigResults DbusSigRefuted.
From Verif Require Import DvarModel DvarSpec DvarDecSpec DvarProofs DvarEncode.
Local Open Scope N_scope.
Local Open Scope res_scope.

Scheme decodes_mut := Minimality for decodes Sort Prop
  with decodes_all_mut := Minimality for decodes_all Sort Prop.
Combined Scheme decodes_both from decodes_mut, decodes_all_mut.

(** * UTF-8 *)
Lemma byte_cont x : x < 64 -> cont (128 + x) = true.
Proof. intros H. unfold cont, in_range. apply andb_true_intro. split; apply N.leb_le; lia. Qed.
Lemma utf8_one c l : scalar c -> utf8_valid (utf8 c ++ l) = utf8_valid l.
Proof.
  intros S. unfold utf8. destruct (N.ltb_spec c 128) as [A|A].
  { cbn [app utf8_valid]. rewrite (proj2 (N.ltb_lt _ _)) by exact A. reflexivity. }
  assert (M0 : c mod 64 < 64) by (apply N.mod_lt; lia).
  assert (M1 : c / 64 mod 64 < 64) by (apply N.mod_lt; lia).
  assert (M2 : c / 4096 mod 64 < 64) by (apply N.mod_lt; lia).
  destruct (N.ltb_spec c 2048) as [B|B].
  { assert (c / 64 < 32) by (apply N.div_lt_upper_bound; lia). assert (2 <= c / 64) by (apply N.div_le_lower_bound; lia).
    cbn [app utf8_valid]. rewrite (proj2 (N.ltb_ge _ _)) by lia.
    unfold in_range at 1. rewrite (proj2 (N.leb_le 194 _)), (proj2 (N.leb_le _ 223)) by lia. cbn [andb].
    rewrite byte_cont by exact M0. reflexivity. }
  destruct (N.ltb_spec c 65536) as [C|C].
  { assert (c / 4096 < 16) by (apply N.div_lt_upper_bound; lia).
    pose proof (N.div_mod (c / 64) 64 ltac:(lia)) as D. rewrite N.div_div in D by lia. change (64 * 64) with 4096 in D.
    pose proof (N.div_mod c 64 ltac:(lia)) as D'.
    cbn [app utf8_valid]. rewrite (proj2 (N.ltb_ge _ _)) by lia.
    unfold in_range at 1. rewrite (proj2 (N.leb_gt _ 223)) by lia. rewrite andb_false_r.
    unfold in_range at 1. rewrite (proj2 (N.leb_le 224 _)), (proj2 (N.leb_le _ 239)) by lia. cbn [andb].
    rewrite (byte_cont _ M0), (byte_cont _ M1). rewrite !andb_true_r.
    set (x := c / 4096) in *. set (y := c / 64 mod 64) in *. set (z := c mod 64) in *.
    destruct (N.eqb_spec (224 + x) 224) as [E|E].
    { unfold in_range. rewrite (proj2 (N.leb_le 160 _)), (proj2 (N.leb_le _ 191)) by lia. reflexivity. }
    destruct (N.eqb_spec (224 + x) 237) as [F|F]; [|reflexivity].
    unfold in_range. destruct S as [S|S]; rewrite (proj2 (N.leb_le 128 _)), (proj2 (N.leb_le _ 159)) by lia; reflexivity. }
  assert (Hc : c < 1114112) by (destruct S; lia).
  assert (c / 262144 < 5) by (apply N.div_lt_upper_bound; lia).
  pose proof (N.div_mod (c / 4096) 64 ltac:(lia)) as D. rewrite N.div_div in D by lia. change (4096 * 64) with 262144 in D.
  pose proof (N.div_mod c 4096 ltac:(lia)) as D'. pose proof (N.mod_lt c 4096 ltac:(lia)).
  cbn [app utf8_valid]. rewrite (proj2 (N.ltb_ge _ _)) by lia.
  unfold in_range at 1. rewrite (proj2 (N.leb_gt _ 223)) by lia. rewrite andb_false_r.
  unfold in_range at 1. rewrite (proj2 (N.leb_gt _ 239)) by lia. rewrite andb_false_r.
  unfold in_range at 1. rewrite (proj2 (N.leb_le 240 _)), (proj2 (N.leb_le _ 244)) by lia. cbn [andb].
  rewrite (byte_cont _ M0), (byte_cont _ M1). rewrite !andb_true_r.
  set (x := c / 262144) in *. set (y := c / 4096 mod 64) in *. set (z := c mod 4096) in *.
  destruct (N.eqb_spec (240 + x) 240) as [E|E].
  { unfold in_range. rewrite (proj2 (N.leb_le 144 _)), (proj2 (N.leb_le _ 191)) by lia. reflexivity. }
  destruct (N.eqb_spec (240 + x) 244) as [F|F].
  { unfold in_range. rewrite (proj2 (N.leb_le 128 _)), (proj2 (N.leb_le _ 143)) by lia. reflexivity. }
  rewrite (byte_cont _ M2). reflexivity.
Qed.
Lemma text_valid s : text s -> utf8_valid s = true.
Proof.
  intros [cs [F ->]]. induction F as [|c cs Hc F IH]; [reflexivity|]. cbn [flat_map]. rewrite utf8_one; assumption.
Qed.
Lemma in_range_iff lo hi b : in_range lo hi b = true <-> lo <= b <= hi.
Proof. unfold in_range. rewrite andb_true_iff, !N.leb_le. reflexivity. Qed.
Lemma text_cons c s : scalar c -> text s -> text (utf8 c ++ s).
Proof. intros H [cs [F ->]]. exists (c :: cs). split; [constructor; assumption|reflexivity]. Qed.
Lemma valid_text n : forall s, (length s <= n)%nat -> utf8_valid s = true -> text s.
Proof.
  induction n as [|n IH]; intros [|a s] Hn H; try (exists []; split; [constructor|reflexivity]); cbn [length] in Hn; [lia|].
  cbn [utf8_valid] in H. destruct (N.ltb_spec a 128) as [A|A].
  { replace (a :: s) with (utf8 a ++ s) by (unfold utf8; rewrite (proj2 (N.ltb_lt _ _)) by exact A; reflexivity).
    apply text_cons; [left; lia|]. apply IH; [lia|exact H]. }
  destruct s as [|b s]; [discriminate|]. cbn [length] in Hn.
  destruct (in_range 194 223 a) eqn:R2.
  { apply andb_true_iff in H. destruct H as [Hb H]. apply in_range_iff in R2. apply in_range_iff in Hb.
    set (c := (a - 192) * 64 + (b - 128)).
    assert (E1 : c / 64 = a - 192) by (symmetry; apply (N.div_unique _ _ _ (b - 128)); unfold c; lia).
    assert (E2 : c mod 64 = b - 128) by (symmetry; apply (N.mod_unique _ _ (a - 192)); unfold c; lia).
    replace (a :: b :: s) with (utf8 c ++ s).
    2:{ unfold utf8. rewrite (proj2 (N.ltb_ge _ _)), (proj2 (N.ltb_lt _ _)) by (unfold c; lia). rewrite E1, E2. cbn [app].
        repeat f_equal; lia. }
    apply text_cons; [left; unfold c; lia|]. apply IH; [lia|exact H]. }
  destruct s as [|d s]; [discriminate|]. cbn [length] in Hn.
  destruct (in_range 224 239 a) eqn:R3.
  { apply andb_true_iff in H. destruct H as [H Ht]. apply andb_true_iff in H. destruct H as [Hb Hd].
    apply in_range_iff in R3. apply in_range_iff in Hd.
    assert (Hb' : 128 <= b <= 191 /\ (a = 224 -> 160 <= b) /\ (a = 237 -> b <= 159)).
    { destruct (N.eqb_spec a 224); [apply in_range_iff in Hb; lia|]. destruct (N.eqb_spec a 237); apply in_range_iff in Hb; lia. }
    set (c := (a - 224) * 4096 + (b - 128) * 64 + (d - 128)).
    assert (E1 : c / 4096 = a - 224) by (symmetry; apply (N.div_unique _ _ _ ((b - 128) * 64 + (d - 128))); unfold c; lia).
    assert (E2 : c mod 64 = d - 128) by (symmetry; apply (N.mod_unique _ _ ((a - 224) * 64 + (b - 128))); unfold c; lia).
    assert (E3 : c / 64 mod 64 = b - 128).
    { assert (X : c / 64 = (a - 224) * 64 + (b - 128)) by (symmetry; apply (N.div_unique _ _ _ (d - 128)); unfold c; lia).
      rewrite X. symmetry; apply (N.mod_unique _ _ (a - 224)); lia. }
    replace (a :: b :: d :: s) with (utf8 c ++ s).
    2:{ unfold utf8. rewrite (proj2 (N.ltb_ge c 128)), (proj2 (N.ltb_ge c 2048)), (proj2 (N.ltb_lt c 65536)) by (unfold c; lia).
        rewrite E1, E2, E3. cbn [app]. repeat f_equal; lia. }
    apply text_cons; [unfold scalar, c; lia|]. apply IH; [lia|exact Ht]. }
  destruct s as [|x s]; [discriminate|]. cbn [length] in Hn.
  destruct (in_range 240 244 a) eqn:R4; [|discriminate].
  apply andb_true_iff in H. destruct H as [H Ht]. apply andb_true_iff in H. destruct H as [H Hx].
  apply andb_true_iff in H. destruct H as [Hb Hd].
  apply in_range_iff in R4. apply in_range_iff in Hd. apply in_range_iff in Hx.
  assert (Hb' : 128 <= b <= 191 /\ (a = 240 -> 144 <= b) /\ (a = 244 -> b <= 143)).
  { destruct (N.eqb_spec a 240); [apply in_range_iff in Hb; lia|]. destruct (N.eqb_spec a 244); apply in_range_iff in Hb; lia. }
  set (c := (a - 240) * 262144 + (b - 128) * 4096 + (d - 128) * 64 + (x - 128)).
  assert (E1 : c / 262144 = a - 240) by (symmetry; apply (N.div_unique _ _ _ ((b - 128) * 4096 + (d - 128) * 64 + (x - 128))); unfold c; lia).
  assert (E2 : c mod 64 = x - 128) by (symmetry; apply (N.mod_unique _ _ ((a - 240) * 4096 + (b - 128) * 64 + (d - 128))); unfold c; lia).
  assert (E3 : c / 64 mod 64 = d - 128).
  { assert (X : c / 64 = (a - 240) * 4096 + (b - 128) * 64 + (d - 128)) by (symmetry; apply (N.div_unique _ _ _ (x - 128)); unfold c; lia).
    rewrite X. symmetry; apply (N.mod_unique _ _ ((a - 240) * 64 + (b - 128))); lia. }
  assert (E4 : c / 4096 mod 64 = b - 128).
  { assert (X : c / 4096 = (a - 240) * 64 + (b - 128)) by (symmetry; apply (N.div_unique _ _ _ ((d - 128) * 64 + (x - 128))); unfold c; lia).
    rewrite X. symmetry; apply (N.mod_unique _ _ (a - 240)); lia. }
  replace (a :: b :: d :: x :: s) with (utf8 c ++ s).
  2:{ unfold utf8. rewrite (proj2 (N.ltb_ge c 128)), (proj2 (N.ltb_ge c 2048)), (proj2 (N.ltb_ge c 65536)) by (unfold c; lia).
      rewrite E1, E2, E3, E4. cbn [app]. repeat f_equal; lia. }
  apply text_cons; [unfold scalar, c; lia|]. apply IH; [lia|exact Ht].
Qed.
Theorem utf8_exact s : utf8_valid s = true <-> text s.
Proof. split; [apply (valid_text (length s)); lia|apply text_valid]. Qed.

(** * Bytes *)
Lemma le_int n : forall v, v < 256 ^ N.of_nat n -> from_le_bytes (int false n v) = v.
Proof.
  assert (G : forall n k v, from_le_bytes (map (fun i => v / 256 ^ N.of_nat i mod 256) (seq k n)) = (v / 256 ^ N.of_nat k) mod 256 ^ N.of_nat n).
  { induction n0 as [|m IH]; intros k v; [cbn; rewrite N.mod_1_r; reflexivity|].
    cbn [seq map from_le_bytes]. rewrite IH.
    replace (N.of_nat (S k)) with (N.of_nat k + 1) by lia. replace (N.of_nat (S m)) with (1 + N.of_nat m) by lia.
    rewrite !N.pow_add_r. change (256 ^ 1) with 256. rewrite <- N.div_div by (try apply N.pow_nonzero; lia).
    rewrite N.mod_mul_r by (try apply N.pow_nonzero; lia). reflexivity. }
  intros v H. unfold int. cbn [negb]. rewrite G. change (256 ^ N.of_nat 0) with 1. rewrite N.div_1_r. apply N.mod_small. exact H.
Qed.
Lemma de_int (big : bool) n v : v < 256 ^ N.of_nat n -> (if big then from_be_bytes (int big n v) else from_le_bytes (int big n v)) = v.
Proof.
  intros H. destruct big; [|apply le_int, H]. unfold from_be_bytes, int. rewrite rev_involutive. apply (le_int n v H).
Qed.
Lemma slice_length {A} (l : list A) i j : (i <= j)%nat -> (j <= length l)%nat -> length (slice l i j) = (j - i)%nat.
Proof. intros H1 H2. unfold slice. rewrite firstn_length, skipn_length. lia. Qed.
Lemma holds_app msg pos a b : pos + size (a ++ b) <= size msg -> holds msg pos (a ++ b) -> holds msg pos a /\ holds msg (pos + size a) b.
Proof.
  unfold holds. rewrite size_app'. intros B H.
  rewrite (slice_split msg _ (N.to_nat (pos + size a)) _) in H by lia.
  assert (L : length (slice msg (N.to_nat pos) (N.to_nat (pos + size a))) = length a).
  { rewrite slice_length by (unfold size in *; lia). unfold size. lia. }
  assert (X : slice msg (N.to_nat pos) (N.to_nat (pos + size a)) = a /\ slice msg (N.to_nat (pos + size a)) (N.to_nat (pos + (size a + size b))) = b).
  { split; [apply (f_equal (firstn (length a))) in H|apply (f_equal (skipn (length a))) in H].
    - rewrite <- L in H at 1. rewrite !firstn_app, L, !Nat.sub_diag in H. cbn [firstn] in H. rewrite !app_nil_r, firstn_all in H. rewrite <- L, firstn_all in H. exact H.
    - rewrite <- L in H at 1. rewrite !skipn_app, L, !Nat.sub_diag in H. rewrite skipn_all in H. rewrite <- L, skipn_all in H. cbn [app skipn] in H. exact H. }
  rewrite <- N.add_assoc. exact X.
Qed.

Section Calls.
Context {R : Type} (I : Read R) (P : R -> Prop) (msg : list N).
Context (HR : reading I P msg) (HA : reading_all I P msg) (HM : size msg < usize) (fmt : Format).
Notation big := (big_endian fmt).

Definition dst done c lvl stk link up r : Dec R := mkDec fmt (mkFrame done c lvl stk link) up r.

Lemma io_read r idx b : P r -> holds msg idx b -> idx + size b <= size msg ->
  exists r', read I r idx (size b) = Ok (Continue tt, r', idx + size b, b) /\ P r'.
Proof.
  intros HP HH HB. destruct (read_all I P msg r idx (size b) HR HA HM HP HB) as [r' [E Q]].
  exists r'. rewrite E, HH. split; [reflexivity|exact Q].
Qed.
Lemma io_dalign {A} idx a (d : Dec A) k : a < 31 -> idx + size (padding idx a) < usize ->
  dec_align idx a d k = k (idx + size (padding idx a)).
Proof.
  intros Ha H. unfold dec_align. rewrite pad_padding in *. unfold shl_usize. rewrite (proj2 (N.ltb_lt _ _)) by exact Ha. cbn [bind].
  rewrite (checked_next _ _ (pow_pos a)). rewrite (proj2 (N.ltb_lt (pad_to _ _) _)) by exact H. rewrite orb_true_r. reflexivity.
Qed.

Lemma dcall_u16 done T s fs n pos from meta stk link up r :
  is_sig T s -> occurs T fs (TBasic BUint16) -> P r -> n < 2 ^ 16 ->
  let b := padding pos 1 ++ int big 2 n in
  pos + size b <= size msg -> holds msg pos b ->
  exists r', dec_call I (dst done (mkCursor s (size (prefix fs))) (mkLevel pos from meta) stk link up r) DCU16 =
    Ok (Continue tt, DNum n, dst done (mkCursor s (after fs (TBasic BUint16))) (mkLevel (pos + size b) from meta) stk link up r') /\ P r'.
Proof.
  intros Hs O HP Hn b HB HH. destruct (holds_app _ _ _ _ HB HH) as [_ H2]. unfold b in *. rewrite size_app', size_int in *.
  change (N.of_nat 2) with 2 in *. cbn [dec_call]. unfold dec_u16, dec_fixed. cbv zeta.
  cbn [dst d_top f_cursor f_lvl l_idx d_read d_format].
  rewrite (expects_start T s fs _ EU16 Hs O). change (e_id (ty_el (TBasic BUint16)) =? e_id EU16) with true. cbn [bind negb].
  change (e_dvar_alignment_exp EU16) with 1. rewrite io_dalign by lia.
  destruct (io_read r (pos + size (padding pos 1)) (int big 2 n) HP H2) as [r' [E Q]]; [rewrite size_int; change (N.of_nat 2) with 2; lia|].
  rewrite size_int in E. change (N.of_nat 2) with 2 in E. rewrite E. cbn [seq_read bind].
  rewrite (step_start T s fs _ Hs O). cbn [bind]. exists r'. split; [|exact Q].
  unfold de_u16. rewrite de_int by exact Hn. rewrite N.add_assoc. reflexivity.
Qed.
Lemma dcall_str done T s fs bt el len_el n de x pos from meta stk link up r :
  is_sig T s -> occurs T fs (TBasic bt) -> e_id (ty_el (TBasic bt)) = e_id el -> e_dvar_alignment_exp len_el < 31 ->
  (forall v, v < 256 ^ N.of_nat n -> de fmt (int big n v) = v) -> size x < 256 ^ N.of_nat n ->
  P r -> text x ->
  let b := padding pos (e_dvar_alignment_exp len_el) ++ counted big n x in
  pos + size b <= size msg -> holds msg pos b ->
  exists r', dec_str I (dst done (mkCursor s (size (prefix fs))) (mkLevel pos from meta) stk link up r) el len_el (N.of_nat n) de =
    Ok (Continue tt, DText x, dst done (mkCursor s (after fs (TBasic bt))) (mkLevel (pos + size b) from meta) stk link up r') /\ P r'.
Proof.
  intros Hs O Eel Hal Hde Hx HP Ht b HB HH. destruct (holds_app _ _ _ _ HB HH) as [_ H2]. unfold b in *. unfold counted in *.
  rewrite !size_app', size_int in *. change (size [0]) with 1 in *.
  apply holds_app in H2; [|rewrite !size_app', size_int; change (size [0]) with 1; lia]. destruct H2 as [H2 H3]. rewrite size_int in H3.
  apply holds_app in H3; [|rewrite !size_app'; change (size [0]) with 1; lia]. destruct H3 as [H3 _].
  unfold dec_str. cbv zeta. cbn [dst d_top f_cursor f_lvl l_idx d_read d_format].
  rewrite (expects_start T s fs _ el Hs O), Eel, N.eqb_refl. cbn [bind negb].
  rewrite io_dalign by lia.
  destruct (io_read r (pos + size (padding pos (e_dvar_alignment_exp len_el))) (int big n (size x)) HP H2) as [r1 [E1 Q1]]; [rewrite size_int; lia|].
  rewrite size_int in E1. rewrite E1. cbn [seq_read bind]. rewrite Hde by exact Hx.
  destruct (io_read r1 _ x Q1 H3) as [r2 [E2 Q2]]; [lia|]. rewrite E2. cbn [seq_read bind].
  rewrite (text_valid x Ht). cbn [negb]. unfold add_usize. rewrite (proj2 (N.ltb_lt _ _)) by lia. cbn [bind].
  rewrite (step_start T s fs _ Hs O). cbn [bind]. exists r2. split; [|exact Q2].
  rewrite !N.add_assoc. reflexivity.
Qed.
Lemma dcall_array done T s fs u n pos from meta stk link up r :
  is_sig T s -> occurs T fs (TArray u) -> P r -> n < 2 ^ 32 ->
  let start := pos + size (padding pos 2) + 4 in
  let gap := padding start (dvar_align u) in
  start + size gap <= size msg -> holds msg pos (padding pos 2 ++ int big 4 n) ->
  exists r', dec_call I (dst done (mkCursor s (size (prefix fs))) (mkLevel pos from meta) stk link up r) DCArray =
    Ok (Continue tt, DUnit, dst done (mkCursor s (size (prefix (FArray :: fs)))) (mkLevel (start + size gap) from n)
          ((EArray, mkLevel pos from meta, None) :: stk) link up r') /\ P r'.
Proof.
  intros Hs O HP Hn start gap HB HH. apply holds_app in HH; [|rewrite size_app', size_int; change (N.of_nat 4) with 4; unfold start in *; lia].
  destruct HH as [_ H2]. cbn [dec_call]. unfold dec_array. cbv zeta.
  cbn [dst d_top f_cursor f_lvl l_idx d_read d_format].
  rewrite (expects_start T s fs _ EArray Hs O). change (e_id (ty_el (TArray u)) =? e_id EArray) with true. cbn [bind negb].
  unfold c_down. rewrite (start_down T s Hs fs _ O). cbn [is_container bind].
  pose proof (occ_array T fs u O) as O'.
  assert (EI : size (prefix fs) + 1 = size (prefix (FArray :: fs))) by (rewrite prefix_fs; cbn; change (size (@nil N)) with 0; lia).
  rewrite EI. change (element_at (mkCursor s (size (prefix fs)))) with (element_at (mkCursor s (size (prefix (FArray :: fs))))).
  rewrite (start_element T s Hs _ _ O'). cbn [unwrap bind].
  assert (EA : e_dvar_alignment_exp (ty_el u) = dvar_align u).
  { destruct u as [b| | | | |]; try reflexivity. destruct b; reflexivity. }
  rewrite EA. change (e_dvar_alignment_exp EU32) with 2. rewrite io_dalign by (unfold start in *; lia).
  destruct (io_read r (pos + size (padding pos 2)) (int big 4 n) HP H2) as [r1 [E1 Q1]]; [rewrite size_int; change (N.of_nat 4) with 4; unfold start in *; lia|].
  rewrite size_int in E1. change (N.of_nat 4) with 4 in E1. rewrite E1. cbn [seq_read bind]. fold start.
  rewrite io_dalign; [|destruct u as [b| | | | |]; try (cbn; lia); destruct b; cbn; lia|fold gap; lia]. fold gap.
  rewrite (down_start T s fs _ Hs O eq_refl). cbn [bind]. exists r1. split; [|exact Q1].
  unfold de_u32. rewrite de_int by exact Hn.
  unfold dput_read, dput, dst. cbn [d_format d_top d_up f_done f_stk f_link f_lvl f_cursor l_from]. rewrite EI. reflexivity.
Qed.
Lemma dcall_close done T s fs u pos from meta up_from up_meta pos0 stk link up r :
  is_sig T s -> occurs T fs (TArray u) ->
  dec_call I (dst done (mkCursor s (size (prefix (FArray :: fs)))) (mkLevel pos from meta)
    ((EArray, mkLevel pos0 up_from up_meta, None) :: stk) link up r) DCClose =
  Ok (Continue tt, DUnit, dst done (mkCursor s (after fs (TArray u))) (mkLevel pos up_from up_meta) stk link up r).
Proof.
  intros Hs O. pose proof (occ_array T fs u O) as O'. cbn [dec_call]. unfold dec_close. cbv zeta.
  cbn [dst d_top f_cursor]. rewrite (start_step T s Hs _ _ O'). cbn [step_of bind f_stk].
  unfold close_frame. cbn [f_stk f_cursor].
  replace (do_move (mkCursor s (size (prefix (FArray :: fs)))) Up) with (Ok (mkCursor s (size (prefix fs)))).
  2:{ unfold do_move. cbn [idx_of]. rewrite (start_up T s Hs _ _ O'). reflexivity. }
  cbn [bind]. rewrite (step_start T s fs _ Hs O). reflexivity.
Qed.

Lemma dec_calls_app a b ds : forall d d', dec_calls I d a = Ok (Continue tt, ds, d') ->
  dec_calls I d (a ++ b) = do '(r, xs, d'') <- dec_calls I d' b; Ok (r, ds ++ xs, d'').
Proof.
  revert ds. induction a as [|c a IH]; intros ds d d' H; cbn [dec_calls app] in *.
  - injection H as <- <-. destruct (dec_calls I d b) as [[[r xs] d'']| |]; reflexivity.
  - destruct (dec_call I d c) as [[[[x|[]] y] d1]| |]; cbn [bind] in *; try discriminate.
    destruct (dec_calls I d1 a) as [[[r' xs'] d2]| |] eqn:E; cbn [bind] in H; try discriminate. injection H as -> <- <-.
    rewrite (IH _ _ _ E). destruct (dec_calls I d2 b) as [[[r xs] d'']| |]; reflexivity.
Qed.

Definition dvalue_ok (t : ty) (v : value) (cs : list dcall) (ds : list datum) : Prop :=
  forall b pos, marshal big t v pos = Some b -> pos + size b <= size msg -> holds msg pos b ->
  forall T s fs done from meta stk link up r, is_sig T s -> occurs T fs t -> P r ->
  exists r', dec_calls I (dst done (mkCursor s (size (prefix fs))) (mkLevel pos from meta) stk link up r) cs =
    Ok (Continue tt, ds, dst done (mkCursor s (after fs t)) (mkLevel (pos + size b) from meta) stk link up r') /\ P r'.
Definition dvalues_ok (t : ty) (vs : list value) (cs : list dcall) (ds : list datum) : Prop :=
  forall b pos, marshal_all big (repeat t (length vs)) vs pos = Some b -> pos + size b <= size msg -> holds msg pos b ->
  forall T s fs done from meta stk link up r, is_sig T s -> occurs T (FArray :: fs) t -> P r ->
  exists r', dec_calls I (dst done (mkCursor s (size (prefix (FArray :: fs)))) (mkLevel pos from meta) stk link up r) cs =
    Ok (Continue tt, ds, dst done (mkCursor s (size (prefix (FArray :: fs)))) (mkLevel (pos + size b) from meta) stk link up r') /\ P r'.

Lemma dsub_ok c : forall t v cs ds, (c = DCDec \/ c = DCDecWith (print t)) -> dvalue_ok t v cs ds -> len t < 2 ^ 61 ->
  dvalue_ok t v (c :: cs ++ [DCCommit; DCDrop]) (DUnit :: ds ++ [DUnit; DUnit]).
Proof.
  intros t v cs ds Hc IH Ht b pos EM HLim HH T s fs done from meta stk link up r Hs O HP.
  destruct (sub_start T s fs t Hs O) as [s' [ES Hs']].
  assert (E1 : dec_dec (dst done (mkCursor s (size (prefix fs))) (mkLevel pos from meta) stk link up r) =
    Ok (Continue tt, DUnit, dst false (mkCursor s' 0) (mkLevel pos pos pos) [] (Some (step_of fs t))
       (mkFrame done (mkCursor s (size (prefix fs))) (mkLevel pos from meta) stk link :: up) r)).
  { unfold dec_dec. cbv zeta. cbn [dst d_top f_cursor]. rewrite (start_step T s Hs fs t O), ES. cbn [bind].
    unfold frame_for. rewrite (cursor_root t s' Hs'). reflexivity. }
  assert (E2 : dec_call I (dst done (mkCursor s (size (prefix fs))) (mkLevel pos from meta) stk link up r) c =
    Ok (Continue tt, DUnit, dst false (mkCursor s' 0) (mkLevel pos pos pos) [] (Some (step_of fs t))
       (mkFrame done (mkCursor s (size (prefix fs))) (mkLevel pos from meta) stk link :: up) r)).
  { destruct Hc as [-> | ->]; cbn [dec_call]; [exact E1|].
    destruct (make_sig_ok t Ht) as [s0 [E0 [Hs0 _]]]. rewrite E0. cbn [bind]. unfold dec_dec_with.
    change (f_cursor (d_top (dst done (mkCursor s (size (prefix fs))) (mkLevel pos from meta) stk link up r))) with (mkCursor s (size (prefix fs))).
    rewrite ES. cbn [bind]. rewrite (sig_eq_same t s0 s' Hs0 Hs'). cbn [bind]. exact E1. }
  destruct (IH b pos EM HLim HH t s' [] false pos pos [] (Some (step_of fs t))
    (mkFrame done (mkCursor s (size (prefix fs))) (mkLevel pos from meta) stk link :: up) r Hs' (occ_root t) HP) as [r' [E3 S3]].
  change (size (prefix [])) with 0 in E3.
  exists r'. split; [|exact S3]. cbn [dec_calls]. rewrite E2. cbn [bind]. rewrite (dec_calls_app _ _ _ _ _ E3).
  cbn [dec_calls dec_call]. unfold dec_commit. cbv zeta.
  cbn [dst d_top f_cursor]. rewrite (past_root t s' Hs'). cbn [bind f_stk f_link d_up].
  unfold dec_drop. cbn [d_up bind f_lvl l_idx]. do 2 f_equal.
  unfold dst. f_equal.
  unfold commit_up, with_level, with_cursor, set_idx, after, move_to. cbn [f_lvl f_cursor f_done f_stk f_link l_from l_meta c_sig].
  destruct (step_of fs t); reflexivity.
Qed.

Lemma dmain : (forall t v cs ds, decodes t v cs ds -> (len t < 2 ^ 61 -> dvalue_ok t v cs ds)) /\
  (forall t vs cs ds, decodes_all t vs cs ds -> (len t < 2 ^ 61 -> dvalues_ok t vs cs ds)).
Proof.
  apply decodes_both.
  - intros n _ b pos EM HLim HH T s fs done from meta stk link up r Hs O HP. cbn [marshal] in EM.
    destruct (N.ltb_spec n (2 ^ 16)) as [Hn|]; [|discriminate]. injection EM as <-.
    destruct (dcall_u16 done T s fs n pos from meta stk link up r Hs O HP Hn HLim HH) as [r' [E Q]].
    exists r'. split; [|exact Q]. cbn [dec_calls]. rewrite E. reflexivity.
  - intros x Hx _ b pos EM HLim HH T s fs done from meta stk link up r Hs O HP. cbn [marshal] in EM.
    destruct (N.ltb_spec (size x) (2 ^ 32)) as [Hn|]; [|discriminate]. injection EM as <-.
    destruct (dcall_str done T s fs BString EString EU32 4 de_u32 x pos from meta stk link up r Hs O eq_refl ltac:(cbn; lia)
      (fun v Hv => de_int big 4 v Hv) Hn HP Hx HLim HH) as [r' [E Q]].
    exists r'. split; [|exact Q]. cbn [dec_calls dec_call]. change (N.of_nat 4) with 4 in E. unfold dec_string. rewrite E. reflexivity.
  - intros x Hx _ b pos EM HLim HH T s fs done from meta stk link up r Hs O HP. cbn [marshal] in EM.
    destruct (N.ltb_spec (size x) (2 ^ 8)) as [Hn|]; [|discriminate]. injection EM as <-.
    assert (EP : counted big 1 x = padding pos (e_dvar_alignment_exp EU8) ++ counted big 1 x).
    { change (e_dvar_alignment_exp EU8) with 0. rewrite padding_0. reflexivity. }
    rewrite EP in HLim, HH |- *.
    destruct (dcall_str done T s fs BSignature ESignature EU8 1 de_u8 x pos from meta stk link up r Hs O eq_refl ltac:(cbn; lia)
      (fun v Hv => de_int big 1 v Hv) Hn HP Hx HLim HH) as [r' [E Q]].
    exists r'. split; [|exact Q]. cbn [dec_calls dec_call]. change (N.of_nat 1) with 1 in E. unfold dec_signature. rewrite E. reflexivity.
  - intros t vs cs ds Hcs IH Ht b pos EM HLim HH T s fs done from meta stk link up r Hs O HP. rewrite marshal_array in EM. cbv zeta in EM.
    set (start := pos + size (padding pos 2) + 4) in *. set (gap := padding start (dvar_align t)) in *.
    destruct (marshal_all big (repeat t (length vs)) vs (start + size gap)) as [b'|] eqn:EM'; [|discriminate].
    destruct (N.ltb_spec (size b') (2 ^ 32)) as [E32|]; [|discriminate]. injection EM as <-.
    rewrite (app_assoc (padding pos 2)) in HLim, HH.
    pose proof (holds_app _ _ _ _ HLim HH) as [H1 H2]. rewrite !size_app' in HLim. rewrite !size_int in HLim. rewrite !size_app' in H2. rewrite !size_int in H2. change (N.of_nat 4) with 4 in HLim, H2.
    apply holds_app in H2; [|rewrite size_app'; lia]. destruct H2 as [_ H3].
    replace (pos + (size (padding pos 2) + 4) + size gap) with (start + size gap) in H3 by (unfold start; lia).
    destruct (dcall_array done T s fs t (size b') pos from meta stk link up r Hs O HP E32) as [r1 [E1 Q1]].
    { fold start gap. unfold start in *. lia. }
    { exact H1. }
    fold start gap in E1. pose proof (occ_array T fs t O) as O'.
    destruct (IH ltac:(rewrite len_array in Ht; lia) b' (start + size gap) EM' ltac:(unfold start in *; lia) H3 T s fs done from (size b')
      ((EArray, mkLevel pos from meta, None) :: stk) link up r1 Hs O' Q1) as [r2 [E2 Q2]].
    exists r2. split; [|exact Q2]. cbn [dec_calls]. rewrite E1. cbn [bind]. rewrite (dec_calls_app _ _ _ _ _ E2).
    cbn [dec_calls]. rewrite (dcall_close done T s fs t _ _ _ _ _ _ _ _ _ _ Hs O). cbn [bind].
    rewrite !size_app', size_int. change (N.of_nat 4) with 4.
    replace (pos + (size (padding pos 2) + (4 + (size gap + size b')))) with (start + size gap + size b') by (unfold start; lia). reflexivity.
  - intros t v cs ds Hcs IH Ht. apply dsub_ok; [left; reflexivity|apply IH, Ht|exact Ht].
  - intros t v cs ds Hcs IH Ht. apply dsub_ok; [right; reflexivity|apply IH, Ht|exact Ht].
  - intros t _ b pos EM HLim HH T s fs done from meta stk link up r Hs O HP. cbn [marshal_all length repeat] in EM. injection EM as <-.
    exists r. split; [|exact HP]. cbn [dec_calls]. change (size (@nil N)) with 0. rewrite N.add_0_r. reflexivity.
  - intros t v vs cs ds cs' ds' H1 IH1 H2 IH2 Ht b pos EM HLim HH T s fs done from meta stk link up r Hs O HP. cbn [marshal_all length repeat] in EM.
    destruct (marshal big t v pos) as [b1|] eqn:EM1; [|discriminate].
    destruct (marshal_all big (repeat t (length vs)) vs (pos + size b1)) as [b2|] eqn:EM2; [|discriminate]. injection EM as <-.
    destruct (holds_app _ _ _ _ HLim HH) as [HH1 HH2]. rewrite size_app' in *.
    destruct (IH1 Ht b1 pos EM1 ltac:(lia) HH1 T s _ done from meta stk link up r Hs O HP) as [r1 [E1 Q1]].
    destruct (IH2 Ht b2 (pos + size b1) EM2 ltac:(lia) HH2 T s fs done from meta stk link up r1 Hs O Q1) as [r2 [E2 Q2]].
    exists r2. split; [|exact Q2]. rewrite (dec_calls_app _ _ _ _ _ E1).
    change (after (FArray :: fs) t) with (size (prefix (FArray :: fs))). rewrite E2. cbn [bind]. rewrite N.add_assoc. reflexivity.
Qed.
End Calls.

Theorem decoded R (I : Read R) P fuel fmt sg t v cs ds b r msg :
  reading I P msg -> reading_all I P msg -> size msg < usize -> P r ->
  sig_new fuel (print t) = Ok (inr sg) -> decodes t v cs ds -> marshal (big_endian fmt) t v 0 = Some b ->
  (exists rest, msg = b ++ rest) ->
  exists d d', dec_new sg fmt r = Ok d /\ dec_calls I d (cs ++ [DCCommit]) = Ok (Continue tt, ds ++ [DUnit], d') /\
    l_idx (f_lvl (d_top d')) = size b /\ P (d_read d').
Proof.
  intros HR HA HM HP Es Hd EM [rest ->]. pose proof (sig_new_is _ _ _ Es) as Hs. pose proof (sig_new_small _ _ _ Es) as Ht.
  rewrite size_app' in HM.
  assert (HB : 0 + size b <= size (b ++ rest)) by (rewrite size_app'; lia).
  assert (HH : holds (b ++ rest) 0 b).
  { unfold holds, slice. cbn [skipn N.to_nat]. change (0 + size b) with (size b). rewrite Nat.sub_0_r.
    unfold size. rewrite Nat2N.id, firstn_app, firstn_all, Nat.sub_diag. apply app_nil_r. }
  destruct (proj1 (dmain I P (b ++ rest) HR HA ltac:(rewrite size_app'; lia) fmt) t v cs ds Hd Ht b 0 EM HB HH t sg [] false 0 0 [] None [] r Hs (occ_root t) HP) as [r' [E Q]].
  change (size (prefix [])) with 0 in E.
  do 2 eexists. split; [unfold dec_new, frame_for; rewrite (cursor_root t sg Hs); reflexivity|].
  split.
  - unfold dst in E. rewrite (dec_calls_app _ _ _ _ _ _ E). cbn [dec_calls dec_call]. unfold dec_commit. cbv zeta.
    cbn [d_top f_cursor]. rewrite (past_root t sg Hs). cbn [bind f_stk f_link]. reflexivity.
  - cbn [d_top f_lvl l_idx d_read]. split; [reflexivity|exact Q].
Qed.
Lemma encodes_small_variants : forall t v cs ds, decodes t v cs ds -> variants_up_to 31 v.
Proof.
  apply (decodes_mut (fun _ v _ _ => variants_up_to 31 v) (fun _ vs _ _ => variants_up_to 31 (VArray vs))); intros;
    try exact Logic.I; try assumption.
  split; assumption.
Qed.
Lemma round_trip grow extra fuel fmt sg t v ecs dcs ds b :
  extra <= isize_max -> sig_new fuel (print t) = Ok (inr sg) ->
  encodes t v ecs -> decodes t v dcs ds -> marshal (big_endian fmt) t v 0 = Some b -> size b <= isize_max ->
  exists e e' d d' bytes, enc_new sg fmt (vec_of [] extra) = Ok e /\
    enc_calls (vec_write grow) e (ecs ++ [CCommit]) = Ok (Continue tt, e') /\
    vec_contents (e_out e') = map Some bytes /\
    dec_new sg fmt bytes = Ok d /\ dec_calls slice_read d (dcs ++ [DCCommit]) = Ok (Continue tt, ds ++ [DUnit], d') /\
    position d' = size bytes.
Proof.
  intros Hx Hs He Hd EM HB.
  destruct (encoded_vec grow extra fuel fmt sg t v ecs b Hx Hs He (encodes_small_variants _ _ _ _ Hd) EM HB) as [e [e' [E1 [E2 E3]]]].
  assert (HU : size b < usize) by (unfold isize_max, usize in *; lia).
  destruct (slice_reading b HU) as [HR HA].
  destruct (decoded _ slice_read (fun r => r = b) fuel fmt sg t v dcs ds b b b HR HA HU eq_refl Hs Hd EM) as [d [d' [D1 [D2 [D3 _]]]]].
  { exists []. symmetry. apply app_nil_r. }
  exists e, e', d, d', b. repeat split; assumption.
Qed.
