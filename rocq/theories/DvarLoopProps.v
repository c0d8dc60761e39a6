(** C138: reading the elements of an array in a loop. *)
From Verif Require Import Base DbusSpec DbusElement DbusSigModel DbusSigAnnot DbusSigRefine DbusSigTheory DbusCursorProofs DbusCursorQueries DbusSigResults DbusSigRefuted IoMapModel IoMapSpec IoMapProofs IoMapProps DvarModel DvarSpec DvarProofs DvarEncode DvarDecSpec DvarDecode DvarFixed.
Local Open Scope N_scope.
Local Open Scope res_scope.

(** ** C138 *)

(** The loop that `more` is for: as long as it says that there is more, an element
    of type [t] is read. *)
Inductive reads_loop {R} (I : Read R) (t : ty) : Dec R -> list value -> Dec R -> Prop :=
| loop_end d : dec_more d = false -> reads_loop I t d [] d
| loop_more d v cs ds d1 vs d2 : dec_more d = true -> decodes t v cs ds -> dec_calls I d cs = Ok (Continue tt, ds, d1) ->
    reads_loop I t d1 vs d2 -> reads_loop I t d (v :: vs) d2.
(** A decoder of an array is made, the loop yields the values [vs], the array is closed and the
    decoder is committed. All calls succeed. *)
Definition array_loop (sg : Sig) (fmt : Format) (msg : list N) (t : ty) (vs : list value) : Prop := exists d d1 d2 d3 d4,
  dec_new sg fmt msg = Ok d /\ dec_call slice_read d DCArray = Ok (Continue tt, DUnit, d1) /\ reads_loop slice_read t d1 vs d2 /\
  dec_call slice_read d2 DCClose = Ok (Continue tt, DUnit, d3) /\ dec_call slice_read d3 DCCommit = Ok (Continue tt, DUnit, d4).

(** The elements, of which the first is at [pos], up to the first one that is not before
    [limit]. *)
Fixpoint elements_before (big : bool) (t : ty) (limit : N) (vs : list value) (pos : N) : list value :=
  match vs with
  | v :: vs => match marshal big t v pos with
    | Some b => if pos <? limit then v :: elements_before big t limit vs (pos + size b) else []
    | None => []
    end
  | [] => []
  end.

(** Other values of basic types are read with the same calls, which yield other data. *)
Lemma same_calls b : forall v cs ds, decodes (TBasic b) v cs ds -> forall v' cs' ds', decodes (TBasic b) v' cs' ds' ->
  exists ds'', decodes (TBasic b) v cs' ds'' /\ (ds'' = ds' -> v = v').
Proof.
  assert (S : forall t v cs ds, decodes t v cs ds -> t = TBasic b ->
    (exists n, b = BUint16 /\ v = VU16 n) \/ (exists s, text s /\ b = BString /\ v = VString s) \/ (exists s, text s /\ b = BSignature /\ v = VSignature s)).
  { intros t v cs ds H. induction H; intros E; try discriminate; [injection E as E; symmetry in E; eauto 7..|auto|auto]. }
  assert (T : forall t v' cs' ds', decodes t v' cs' ds' -> t = TBasic b -> forall v cs ds, decodes t v cs ds ->
    exists ds'', decodes t v cs' ds'' /\ (ds'' = ds' -> v = v')).
  { intros t v' cs' ds' H'. induction H' as [| | | |? ? ? ? H' F|? ? ? ? H' F]; intros E v1 cs1 ds1 HV; try discriminate.
    - destruct (S _ _ _ _ HV E) as [(m & _ & ->)|[(s & _ & B & _)|(s & _ & B & _)]]; [|congruence..].
      exists [DNum m]. split; [constructor|]. congruence.
    - destruct (S _ _ _ _ HV E) as [(m & B & _)|[(x & X & _ & ->)|(x & _ & B & _)]]; [congruence| |congruence].
      exists [DText x]. split; [constructor; exact X|]. congruence.
    - destruct (S _ _ _ _ HV E) as [(m & B & _)|[(x & _ & B & _)|(x & X & _ & ->)]]; [congruence..|].
      exists [DText x]. split; [constructor; exact X|]. congruence.
    - destruct (F E _ _ _ HV) as (e & D & J). exists (DUnit :: e ++ [DUnit; DUnit]). split; [apply dec_as_sub; exact D|].
      intros Q. injection Q as Q. apply app_inv_tail in Q. auto.
    - destruct (F E _ _ _ HV) as (e & D & J). exists (DUnit :: e ++ [DUnit; DUnit]). split; [apply dec_as_sub_with; exact D|].
      intros Q. injection Q as Q. apply app_inv_tail in Q. auto. }
  intros v cs ds H v' cs' ds' H'. exact (T _ _ _ _ H' eq_refl _ _ _ H).
Qed.

Lemma loop_both : forall fuel fmt sg t vs contents msg rest,
  sig_new fuel (print (TArray t)) = Ok (inr sg) -> Forall (fun v => exists cs ds, decodes t v cs ds) vs ->
  let start := 4 + size (padding 4 (dvar_align t)) in
  marshal_all (big_endian fmt) (repeat t (length vs)) vs start = Some contents -> size contents < 2 ^ 32 ->
  marshal (big_endian fmt) (TArray t) (VArray vs) 0 = Some msg -> size (msg ++ rest) < usize ->
  array_loop sg fmt (msg ++ rest) t (elements_before (big_endian fmt) t (size contents) vs start) /\
  (forall b us, t = TBasic b -> array_loop sg fmt (msg ++ rest) t us -> us = elements_before (big_endian fmt) t (size contents) vs start).
Proof.
  intros fuel fmt sg t vs contents msg rest ES F start EC HC EM HM. set (big := big_endian fmt) in *.
  pose proof (sig_new_is _ _ _ ES) as Hs. pose proof (sig_new_small _ _ _ ES) as HL. rewrite len_array in HL.
  set (whole := msg ++ rest) in *. destruct (map_slice_reading whole HM) as [HR HA]. set (P := fun r : list N => r = whole) in *.
  rewrite marshal_array in EM. cbv zeta in EM. change (0 + size (padding 0 2) + 4) with 4 in EM. fold start in EM. rewrite EC in EM.
  rewrite (proj2 (N.ltb_lt _ _) HC) in EM. change (padding 0 2) with (@nil N) in EM. cbn [app] in EM. injection EM as EM.
  assert (HH : holds whole 0 (int big 4 (size contents) ++ padding 4 (dvar_align t) ++ contents)).
  { unfold holds, slice, whole. rewrite EM. cbn [skipn N.to_nat]. rewrite N.add_0_l, Nat.sub_0_r.
    unfold size. rewrite Nat2N.id, firstn_app, firstn_all, Nat.sub_diag. apply app_nil_r. }
  assert (HB : 4 + (size (padding 4 (dvar_align t)) + size contents) <= size whole).
  { unfold whole. rewrite <- EM, !size_app', size_int. change (N.of_nat 4) with 4. lia. }
  apply holds_app in HH; [|rewrite !size_app', size_int; change (N.of_nat 4) with 4; lia]. destruct HH as [H1 H2].
  rewrite size_int in H2. change (0 + N.of_nat 4) with 4 in H2. apply holds_app in H2; [|rewrite size_app'; lia]. destruct H2 as [_ H2]. fold start in H2.
  destruct (dcall_array slice_read P whole HR HA HM fmt false (TArray t) sg [] t (size contents) 0 0 0 [] None [] whole Hs (occ_root _) eq_refl HC) as [r1 [E1 Q1]].
  { change (0 + size (padding 0 2) + 4) with 4. lia. }
  { change (padding 0 2) with (@nil N). exact H1. }
  change (0 + size (padding 0 2) + 4) with 4 in E1. fold start in E1. change (size (prefix [])) with 0 in E1.
  assert (G : forall vs pos b r, Forall (fun v => exists cs ds, decodes t v cs ds) vs -> marshal_all big (repeat t (length vs)) vs pos = Some b ->
    pos + size b = start + size contents -> holds whole pos b -> P r ->
    exists p r', reads_loop slice_read t (dst fmt false (mkCursor sg (size (prefix [FArray]))) (mkLevel pos 0 (size contents)) [(EArray, mkLevel 0 0 0, None)] None [] r)
      (elements_before big t (size contents) vs pos) (dst fmt false (mkCursor sg (size (prefix [FArray]))) (mkLevel p 0 (size contents)) [(EArray, mkLevel 0 0 0, None)] None [] r')).
  { clear - HR HA HM Hs HL HB. intros vs. induction vs as [|v vs IH]; intros pos b r F E S H Q; cbn [elements_before].
    - cbn in E. injection E as <-. change (size (@nil N)) with 0 in S. exists pos, r. apply loop_end. unfold dec_more. cbn. apply N.ltb_ge. lia.
    - inversion F as [|? ? [cs [ds D]] F']; subst. cbn [length repeat marshal_all] in E.
      destruct (marshal big t v pos) as [b1|] eqn:E1; [|discriminate]. destruct (marshal_all big _ vs (pos + size b1)) as [b2|] eqn:E2; [|discriminate].
      injection E as <-. rewrite size_app' in S.
      destruct (N.ltb_spec pos (size contents)) as [X|X].
      + apply holds_app in H; [|rewrite size_app'; lia]. destruct H as [H1 H2].
        destruct (proj1 (dmain slice_read P whole HR HA HM fmt) t v cs ds D ltac:(lia) b1 pos E1 ltac:(lia) H1 (TArray t) sg [FArray] false 0 (size contents)
          [(EArray, mkLevel 0 0 0, None)] None [] r Hs (occ_array _ [] t (occ_root _)) Q) as [r1 [C1 Q1]].
        destruct (IH (pos + size b1) b2 r1 F' E2 ltac:(lia) H2 Q1) as (p & r' & L).
        exists p, r'. eapply loop_more; [unfold dec_more; cbn; apply N.ltb_lt; exact X|exact D|exact C1|exact L].
      + exists pos, r. apply loop_end. unfold dec_more. cbn. apply N.ltb_ge. exact X. }
  assert (U : forall b, t = TBasic b -> forall vs pos bs r us d2, Forall (fun v => exists cs ds, decodes t v cs ds) vs -> marshal_all big (repeat t (length vs)) vs pos = Some bs ->
    pos + size bs = start + size contents -> holds whole pos bs -> P r ->
    reads_loop slice_read t (dst fmt false (mkCursor sg (size (prefix [FArray]))) (mkLevel pos 0 (size contents)) [(EArray, mkLevel 0 0 0, None)] None [] r) us d2 ->
    us = elements_before big t (size contents) vs pos).
  { clear - HR HA HM Hs HL HB. intros b Tb vs. induction vs as [|v vs IH]; intros pos bs r us d2 F E S H Q L; cbn [elements_before].
    - cbn in E. injection E as <-. change (size (@nil N)) with 0 in S. inversion L as [|? ? ? ? ? ? ? M]; subst; [reflexivity|].
      unfold dec_more in M. cbn in M. apply N.ltb_lt in M. lia.
    - inversion F as [|? ? [cs [ds D]] F']; subst x l. cbn [length repeat marshal_all] in E.
      destruct (marshal big t v pos) as [b1|] eqn:E1; [|discriminate]. destruct (marshal_all big _ vs (pos + size b1)) as [b2|] eqn:E2; [|discriminate].
      injection E as <-. rewrite size_app' in S.
      destruct (N.ltb_spec pos (size contents)) as [X|X].
      + apply holds_app in H; [|rewrite size_app'; lia]. destruct H as [H1 H2].
        inversion L as [? M|? v' cs' ds' d1 us' ? M D' C' L']; [subst; unfold dec_more in M; cbn in M; apply N.ltb_ge in M; lia|subst us d2].
        rewrite Tb in D, D'. destruct (same_calls b v cs ds D v' cs' ds' D') as (e & De & J). rewrite <- Tb in *.
        destruct (proj1 (dmain slice_read P whole HR HA HM fmt) t v cs' e De ltac:(lia) b1 pos E1 ltac:(lia) H1 (TArray t) sg [FArray] false 0 (size contents)
          [(EArray, mkLevel 0 0 0, None)] None [] r Hs (occ_array _ [] t (occ_root _)) Q) as [r1 [C1 Q1]].
        assert (C2 := eq_trans (eq_sym C') C1). injection C2 as Z1 Z2. subst d1.
        rewrite (J (eq_sym Z1)). f_equal. exact (IH (pos + size b1) b2 r1 us' _ F' E2 ltac:(lia) H2 Q1 L').
      + inversion L as [|? ? ? ? ? ? ? M]; subst; [reflexivity|]. unfold dec_more in M. cbn in M. apply N.ltb_lt in M. lia. }
  assert (N0 : dec_new sg fmt whole = Ok (dst fmt false (mkCursor sg 0) (mkLevel 0 0 0) [] None [] whole)).
  { unfold dec_new, frame_for. rewrite (cursor_root _ sg Hs). reflexivity. }
  split.
  2:{ intros b us Tb (d & e1 & d2 & d3 & d4 & A1 & A2 & A3 & _). rewrite N0 in A1. injection A1 as <-.
      assert (A4 := eq_trans (eq_sym A2) E1). injection A4 as A4. subst e1. exact (U b Tb vs start contents r1 us d2 F EC eq_refl H2 Q1 A3). }
  destruct (G vs start contents r1 F EC eq_refl H2 Q1) as (p & r' & L).
  do 5 eexists. split; [unfold dec_new, frame_for; rewrite (cursor_root _ sg Hs); reflexivity|].
  split; [exact E1|]. split; [exact L|].
  split; [apply (dcall_close slice_read fmt false (TArray t) sg [] t p 0 (size contents) 0 0 0 [] None [] r' Hs (occ_root _))|].
  cbn [dec_call]. unfold dec_commit. cbv zeta. cbn [dst d_top f_cursor]. rewrite (past_root (TArray t) sg Hs). cbn [bind f_stk f_link]. reflexivity.
Qed.

(** The loop should yield all elements. Instead it ends at the first element that
    is as far from the start of the message as the array is long,
    and nothing tells that elements are missing: the array can be closed and the
    decoder committed. Missing: that these are all elements, which is false. *)
Theorem dvar_loop_partial : forall fuel fmt sg t vs contents msg rest,
  sig_new fuel (print (TArray t)) = Ok (inr sg) -> Forall (fun v => exists cs ds, decodes t v cs ds) vs ->
  let start := 4 + size (padding 4 (dvar_align t)) in
  marshal_all (big_endian fmt) (repeat t (length vs)) vs start = Some contents -> size contents < 2 ^ 32 ->
  marshal (big_endian fmt) (TArray t) (VArray vs) 0 = Some msg -> size (msg ++ rest) < usize ->
  array_loop sg fmt (msg ++ rest) t (elements_before (big_endian fmt) t (size contents) vs start).
Proof. intros. now apply (loop_both fuel fmt sg t vs contents msg rest). Qed.
Print Assumptions dvar_loop_partial.

(** If the elements are of a basic type, then the loop yields no other values, in whatever way they are read. *)
Theorem dvar_loop_only : forall fuel fmt sg b vs contents msg rest us,
  let t := TBasic b in
  sig_new fuel (print (TArray t)) = Ok (inr sg) -> Forall (fun v => exists cs ds, decodes t v cs ds) vs ->
  let start := 4 + size (padding 4 (dvar_align t)) in
  marshal_all (big_endian fmt) (repeat t (length vs)) vs start = Some contents -> size contents < 2 ^ 32 ->
  marshal (big_endian fmt) (TArray t) (VArray vs) 0 = Some msg -> size (msg ++ rest) < usize ->
  array_loop sg fmt (msg ++ rest) t us -> us = elements_before (big_endian fmt) t (size contents) vs start.
Proof. intros fuel fmt sg b vs contents msg rest us t H1 H2 start H3 H4 H5 H6. exact (proj2 (loop_both fuel fmt sg t vs contents msg rest H1 H2 H3 H4 H5 H6) b us eq_refl). Qed.
Print Assumptions dvar_loop_only.

Lemma elements_all big t v cl : forall ws limit pos c, marshal_all big (repeat t (length ws)) ws pos = Some c -> marshal big t v (pos + size c) = Some cl ->
  (elements_before big t limit (ws ++ [v]) pos = ws ++ [v] <-> pos + size c < limit).
Proof.
  induction ws as [|w ws IH]; intros limit pos c E E1; cbn [length repeat marshal_all app elements_before] in *.
  - injection E as <-. change (size (@nil N)) with 0 in *. rewrite N.add_0_r in *. rewrite E1.
    destruct (N.ltb_spec pos limit); split; intros; try reflexivity; try discriminate; lia.
  - destruct (marshal big t w pos) as [b1|]; [|discriminate]. destruct (marshal_all big _ ws (pos + size b1)) as [b2|] eqn:E2; [|discriminate].
    injection E as <-. rewrite size_app' in *. rewrite N.add_assoc in *. pose proof (IH limit _ _ E2 E1) as J.
    destruct (N.ltb_spec pos limit) as [X|X]; [|split; [discriminate|lia]].
    rewrite <- J. split; [intros Q; injection Q as Q; exact Q|intros ->; reflexivity].
Qed.

(** The loop is right if the last element, with the padding before it, is longer than what precedes
    the first element. Otherwise it is not, if the elements are of a basic type. *)
Theorem dvar_loop_complete_partial : forall fuel fmt sg t ws v contents last msg rest,
  let start := 4 + size (padding 4 (dvar_align t)) in
  sig_new fuel (print (TArray t)) = Ok (inr sg) -> Forall (fun v => exists cs ds, decodes t v cs ds) (ws ++ [v]) ->
  marshal_all (big_endian fmt) (repeat t (length ws)) ws start = Some contents ->
  marshal (big_endian fmt) t v (start + size contents) = Some last ->
  marshal (big_endian fmt) (TArray t) (VArray (ws ++ [v])) 0 = Some msg -> size (msg ++ rest) < usize ->
  (start < size last -> array_loop sg fmt (msg ++ rest) t (ws ++ [v])) /\
  (forall b, t = TBasic b -> array_loop sg fmt (msg ++ rest) t (ws ++ [v]) -> start < size last).
Proof.
  intros fuel fmt sg t ws v contents last msg rest start ES F EC EL EM HM.
  assert (EA : marshal_all (big_endian fmt) (repeat t (length (ws ++ [v]))) (ws ++ [v]) start = Some (contents ++ last)).
  { clear - EC EL. revert EC EL. generalize start as pos. revert contents. induction ws as [|w ws IH]; intros c pos E E1; cbn [length repeat marshal_all app] in *.
    - injection E as <-. change (size (@nil N)) with 0 in E1. rewrite N.add_0_r in E1. rewrite E1. rewrite app_nil_r. reflexivity.
    - destruct (marshal _ t w pos) as [b1|]; [|discriminate]. destruct (marshal_all _ _ ws (pos + size b1)) as [b2|] eqn:E2; [|discriminate].
      injection E as <-. rewrite size_app', N.add_assoc in E1. rewrite (IH _ _ E2 E1), app_assoc. reflexivity. }
  assert (HC : size (contents ++ last) < 2 ^ 32).
  { rewrite marshal_array in EM. cbv zeta in EM. change (0 + size (padding 0 2) + 4) with 4 in EM. fold start in EM. rewrite EA in EM.
    destruct (size (contents ++ last) <? 2 ^ 32) eqn:X; [apply N.ltb_lt; exact X|discriminate]. }
  destruct (loop_both fuel fmt sg t (ws ++ [v]) (contents ++ last) msg rest ES F EA HC EM HM) as [A B].
  pose proof (elements_all (big_endian fmt) t v last ws (size (contents ++ last)) start contents EC EL) as J. rewrite size_app' in J at 2. fold start in A, B.
  split.
  - intros X. rewrite (proj2 J ltac:(lia)) in A. exact A.
  - intros b Tb L. pose proof (proj1 J (eq_sym (B b _ Tb L))). lia.
Qed.
Print Assumptions dvar_loop_complete_partial.

(** Of an array of 16-bit numbers, the last two are missing. All elements are read of
    no such array, except of the empty one. *)
Theorem dvar_loop_refuted : forall fuel fmt sg ns msg rest,
  sig_new fuel (print (TArray (TBasic BUint16))) = Ok (inr sg) ->
  marshal (big_endian fmt) (TArray (TBasic BUint16)) (VArray (map VU16 ns)) 0 = Some msg -> size (msg ++ rest) < usize ->
  array_loop sg fmt (msg ++ rest) (TBasic BUint16) (map VU16 (firstn (length ns - 2) ns)) /\
  (ns <> [] -> ~ array_loop sg fmt (msg ++ rest) (TBasic BUint16) (map VU16 ns)).
Proof.
  intros fuel fmt sg ns msg rest ES EM HM. set (big := big_endian fmt) in *.
  assert (PE : forall p, p mod 2 = 0 -> padding p 1 = []).
  { intros p H. rewrite (N.div_mod p 2) by lia. rewrite H, N.add_0_r, N.mul_comm. apply (padding_multiple 1). }
  assert (A : forall ns p b, p mod 2 = 0 -> marshal_all big (repeat (TBasic BUint16) (length (map VU16 ns))) (map VU16 ns) p = Some b -> size b = 2 * N.of_nat (length ns)).
  { clear - PE. intros ns. induction ns as [|n ns IH]; intros p b H E; cbn [map length repeat marshal_all] in E.
    - injection E as <-. reflexivity.
    - cbn [marshal] in E. destruct (n <? 2 ^ 16); [|discriminate]. rewrite (PE p H) in E. cbn [app] in E. rewrite size_int in E.
      destruct (marshal_all big _ _ _) as [b2|] eqn:E2; [|discriminate]. injection E as <-. rewrite size_app', size_int.
      rewrite (IH (p + N.of_nat 2) _ ltac:(change (N.of_nat 2) with (1 * 2); rewrite N.mod_add by lia; exact H) E2). cbn [length]. lia. }
  assert (B : forall ns limit p b, p mod 2 = 0 -> limit mod 2 = 0 -> marshal_all big (repeat (TBasic BUint16) (length (map VU16 ns))) (map VU16 ns) p = Some b ->
    elements_before big (TBasic BUint16) limit (map VU16 ns) p = map VU16 (firstn (N.to_nat ((limit - p) / 2)) ns)).
  { clear - PE. intros ns. induction ns as [|n ns IH]; intros limit p b H HL E; cbn [map length repeat marshal_all] in E; cbn [map elements_before].
    - rewrite firstn_nil. reflexivity.
    - cbn [marshal] in *. destruct (n <? 2 ^ 16); [|discriminate]. rewrite (PE p H) in *. cbn [app] in *. rewrite size_int in *. change (N.of_nat 2) with 2 in *.
      destruct (marshal_all big _ _ _) as [b2|] eqn:E2; [|discriminate].
      assert (H' : (p + 2) mod 2 = 0) by (change (p + 2) with (p + 1 * 2); rewrite N.mod_add by lia; exact H).
      destruct (N.ltb_spec p limit) as [X|X].
      + rewrite (IH limit _ _ H' HL E2).
        assert (Z : (limit - p) / 2 = N.succ ((limit - (p + 2)) / 2)).
        { pose proof (N.div_mod limit 2 ltac:(lia)). pose proof (N.div_mod p 2 ltac:(lia)). rewrite HL in *. rewrite H in *.
          set (a := limit / 2) in *. set (c := p / 2) in *. replace (limit - p) with ((a - c) * 2) by lia. replace (limit - (p + 2)) with ((a - c - 1) * 2) by lia.
          rewrite !N.div_mul by lia. lia. }
        rewrite Z, N2Nat.inj_succ. reflexivity.
      + replace (limit - p) with 0 by lia. reflexivity. }
  pose proof EM as EM'. rewrite marshal_array in EM. cbv zeta in EM. change (0 + size (padding 0 2) + 4 + size (padding (0 + size (padding 0 2) + 4) (dvar_align (TBasic BUint16)))) with 4 in EM.
  destruct (marshal_all big _ (map VU16 ns) 4) as [contents|] eqn:EC; [|discriminate].
  destruct (size contents <? 2 ^ 32) eqn:HC; [|discriminate]. apply N.ltb_lt in HC.
  pose proof (A ns 4 contents eq_refl EC) as SC.
  pose proof (B ns (size contents) 4 contents eq_refl ltac:(rewrite SC, N.mul_comm, N.mod_mul; lia) EC) as EB.
  replace (N.to_nat ((size contents - 4) / 2)) with (length ns - 2)%nat in EB.
  2:{ rewrite SC. replace (2 * N.of_nat (length ns) - 4) with ((N.of_nat (length ns) - 2) * 2) by lia. rewrite N.div_mul by lia. lia. }
  assert (D : Forall (fun v => exists cs ds, decodes (TBasic BUint16) v cs ds) (map VU16 ns)).
  { clear. induction ns; constructor; [|assumption]. do 2 eexists. constructor. }
  split; [rewrite <- EB; exact (dvar_loop_partial fuel fmt sg (TBasic BUint16) (map VU16 ns) contents msg rest ES D EC HC EM' HM)|].
  intros H L. pose proof (dvar_loop_only fuel fmt sg BUint16 (map VU16 ns) contents msg rest _ ES D EC HC EM' HM L) as Z.
  change (4 + size (padding 4 (dvar_align (TBasic BUint16)))) with 4 in Z. fold big in Z. rewrite EB in Z. apply (f_equal (@length value)) in Z.
  rewrite !map_length, firstn_length in Z. destruct ns; [congruence|]. cbn [length] in Z. lia.
Qed.
Print Assumptions dvar_loop_refuted.

(** Four numbers, of which the loop yields two. *)
Example dvar_loop_case : exists sg msg,
  sig_new 0 (print (TArray (TBasic BUint16))) = Ok (inr sg) /\
  marshal false (TArray (TBasic BUint16)) (VArray (map VU16 [1; 2; 3; 4])) 0 = Some msg /\ msg = [8; 0; 0; 0; 1; 0; 2; 0; 3; 0; 4; 0] /\
  array_loop sg DVarLe msg (TBasic BUint16) [VU16 1; VU16 2].
Proof.
  do 2 eexists. split; [vm_compute; reflexivity|]. split; [vm_compute; reflexivity|]. split; [reflexivity|].
  apply (dvar_loop_refuted 0 DVarLe _ [1; 2; 3; 4] [8; 0; 0; 0; 1; 0; 2; 0; 3; 0; 4; 0] []); [vm_compute; reflexivity..].
Qed.

(** A string that is longer than the prefix of the array is read. *)
Example dvar_loop_complete_case : exists sg msg,
  sig_new 0 (print (TArray (TBasic BString))) = Ok (inr sg) /\
  marshal false (TArray (TBasic BString)) (VArray [VString [65]; VString [66]]) 0 = Some msg /\
  array_loop sg DVarLe (msg ++ []) (TBasic BString) [VString [65]; VString [66]].
Proof.
  assert (T : forall x, x < 128 -> text [x]).
  { intros x H. exists [x]. split; [constructor; [left; lia|constructor]|]. cbn. unfold utf8. rewrite (proj2 (N.ltb_lt _ _) H). reflexivity. }
  do 2 eexists. split; [vm_compute; reflexivity|]. split; [vm_compute; reflexivity|].
  eapply (dvar_loop_complete_partial 0 DVarLe _ (TBasic BString) [VString [65]] (VString [66])); try (vm_compute; reflexivity).
  constructor; [|constructor; [|constructor]]; do 2 eexists; apply dec_as_string; apply T; lia.
Qed.
