(** Driving the encoder with the calls of a value. *)
From Verif Require Import Base DbusSpec IoMapModel IoMapSpec IoMapProofs.
From Verif Require Import DbusSigAnnot DbusSigRefine DbusSigTheory DbusCursorProofs DbusCursorQueries DbusSigResults DbusSigRefuted.
From Verif Require Import DvarModel DvarSpec DvarProofs.
Local Open Scope N_scope.
Local Open Scope res_scope.

Scheme encodes_mut := Minimality for encodes Sort Prop
  with encodes_all_mut := Minimality for encodes_all Sort Prop.
Combined Scheme encodes_both from encodes_mut, encodes_all_mut.

Lemma sub_start T s fs u : is_sig T s -> occurs T fs u ->
  exists s', c_sub (mkCursor s (size (prefix fs))) = Ok (Some s') /\ is_sig u s'.
Proof.
  intros [k r Hk Hr ->] O. destruct (at_start k Hk T r Hr fs u O) as [s' [E [H _]]].
  exists s'. split; [exact E|exact H].
Qed.
Lemma sig_eq_same t a b : is_sig t a -> is_sig t b -> sig_eq a b = Ok true.
Proof.
  intros A B. destruct (is_sig_elements t a A) as [l [El Ec]]. destruct (is_sig_elements t b B) as [l' [El' Ec']].
  unfold sig_eq. rewrite El, El'. cbn [bind]. f_equal. apply list_eqb_eq. apply ids_codes. congruence.
Qed.
Lemma enc_calls_app {W} (I : Write W) a b : forall e e',
  enc_calls I e a = Ok (Continue tt, e') -> enc_calls I e (a ++ b) = enc_calls I e' b.
Proof.
  induction a as [|c a IH]; intros e e' H; cbn [enc_calls app] in *; [congruence|].
  destruct (enc_call I e c) as [[[r|[]] e1]| |]; cbn [bind] in *; try discriminate. apply IH. exact H.
Qed.
Lemma enc_calls_one {W} (I : Write W) e e' c : enc_call I e c = Ok (Continue tt, e') -> enc_calls I e [c] = Ok (Continue tt, e').
Proof. intros H. cbn [enc_calls]. rewrite H. reflexivity. Qed.
Lemma enc_calls_cons {W} (I : Write W) e e1 c cs : enc_call I e c = Ok (Continue tt, e1) -> enc_calls I e (c :: cs) = enc_calls I e1 cs.
Proof. intros H. cbn [enc_calls]. rewrite H. reflexivity. Qed.
Lemma up_to_all n vs : variants_up_to n (VArray vs) -> all_up_to n vs.
Proof. induction vs as [|v vs IH]; [trivial|]. intros [A B]. split; [exact A|apply IH, B]. Qed.
Lemma up_to_struct n vs : variants_up_to n (VStruct vs) -> all_up_to n vs.
Proof. exact (up_to_all n vs). Qed.
Lemma after_root t : after [] t = len t.
Proof. reflexivity. Qed.
Lemma past_root t s : is_sig t s -> idx_step (mkCursor s (after [] t)) = Ok None.
Proof. intros H. destruct (past_queries t s H (after [] t) (N.le_refl _)) as [_ [_ [_ [_ [_ [E _]]]]]]. exact E. Qed.

Lemma store_patch m i a x y z j : size x = size y ->
  store (store m i (a ++ x ++ z)) (i + size a) y j = store m i (a ++ y ++ z) j.
Proof.
  intros H. unfold store. rewrite !size_app', <- H.
  destruct (N.leb_spec i j), (N.ltb_spec j (i + (size a + (size x + size z)))), (N.leb_spec (i + size a) j), (N.ltb_spec j (i + size a + size x)); cbn [andb]; try reflexivity; try lia.
  - unfold size in *. rewrite (nth_error_app2 a) by lia. rewrite nth_error_app1 by lia. f_equal. lia.
  - unfold size in *. rewrite !(nth_error_app2 a) by lia. rewrite !nth_error_app2 by lia. f_equal. lia.
  - unfold size in *. rewrite !(nth_error_app1 a) by lia. reflexivity.
Qed.

Section Main.
Context {W : Type} (I : Write W) (P : W -> Prop) (limit : N).
Context (HS : serving I P limit) (HB : bounded I) (HL : limit < usize) (fmt : Format).
Notation big := (big_endian fmt).

Definition value_ok (t : ty) (v : value) (cs : list call) : Prop :=
  forall b pos, marshal big t v pos = Some b -> variants_up_to 31 v -> pos + size b <= limit ->
  forall T s fs done from meta stk link up o, is_sig T s -> occurs T fs t -> P (o_w o) ->
  exists o', enc_calls I (st fmt done (mkCursor s (size (prefix fs))) (mkLevel pos from meta) stk link up o) cs =
    Ok (Continue tt, st fmt done (mkCursor s (after fs t)) (mkLevel (pos + size b) from meta) stk link up o') /\
    stored P o o' pos b.
Definition values_ok (ts : list ty) (vs : list value) (cs : list call) : Prop :=
  forall b pos, marshal_all big ts vs pos = Some b -> all_up_to 31 vs -> pos + size b <= limit ->
  forall T s i j done from meta stk link up o, is_sig T s -> walk T i ts j -> P (o_w o) ->
  exists o', enc_calls I (st fmt done (mkCursor s i) (mkLevel pos from meta) stk link up o) cs =
    Ok (Continue tt, st fmt done (mkCursor s j) (mkLevel (pos + size b) from meta) stk link up o') /\
    stored P o o' pos b.

Ltac dest_if H := match type of H with (if ?c then _ else _) = Some _ => destruct c eqn:?E; [|discriminate H] end; injection H as <-.

Lemma sub_ok c : forall t v cs, (c = CEnc \/ c = CEncWith (print t)) -> value_ok t v cs -> len t < 2 ^ 61 -> value_ok t v (c :: cs ++ [CCommit; CDrop]).
Proof.
  intros t v cs Hc IH Ht b pos EM HV HLim T s fs done from meta stk link up o Hs O HP.
  destruct (sub_start T s fs t Hs O) as [s' [ES Hs']].
  assert (E1 : enc_enc (st fmt done (mkCursor s (size (prefix fs))) (mkLevel pos from meta) stk link up o) =
    Ok (Continue tt, st fmt false (mkCursor s' 0) (mkLevel pos pos pos) [] (Some (step_of fs t))
       (mkFrame done (mkCursor s (size (prefix fs))) (mkLevel pos from meta) stk link :: up) o)).
  { unfold enc_enc. cbv zeta. cbn [st e_top f_cursor]. rewrite (start_step T s Hs fs t O), ES. cbn [bind].
    unfold frame_for. rewrite (cursor_root t s' Hs'). reflexivity. }
  assert (E2 : enc_call I (st fmt done (mkCursor s (size (prefix fs))) (mkLevel pos from meta) stk link up o) c =
    Ok (Continue tt, st fmt false (mkCursor s' 0) (mkLevel pos pos pos) [] (Some (step_of fs t))
       (mkFrame done (mkCursor s (size (prefix fs))) (mkLevel pos from meta) stk link :: up) o)).
  { destruct Hc as [-> | ->]; cbn [enc_call]; [exact E1|].
    destruct (make_sig_ok t Ht) as [s0 [E0 [Hs0 _]]]. rewrite E0. cbn [bind]. unfold enc_enc_with.
    change (f_cursor (e_top (st fmt done (mkCursor s (size (prefix fs))) (mkLevel pos from meta) stk link up o))) with (mkCursor s (size (prefix fs))).
    rewrite ES. cbn [bind]. rewrite (sig_eq_same t s0 s' Hs0 Hs'). cbn [bind]. exact E1. }
  rewrite (enc_calls_cons _ _ _ _ _ E2).
  destruct (IH b pos EM HV HLim t s' [] false pos pos [] (Some (step_of fs t))
    (mkFrame done (mkCursor s (size (prefix fs))) (mkLevel pos from meta) stk link :: up) o Hs' (occ_root t) HP) as [o' [E3 S3]].
  change (size (prefix [])) with 0 in E3. rewrite (enc_calls_app _ _ _ _ _ E3).
  exists o'. split; [|exact S3]. cbn [enc_calls enc_call]. unfold enc_commit. cbv zeta.
  cbn [st e_top f_cursor]. rewrite (past_root t s' Hs'). cbn [bind f_stk f_link e_up].
  unfold enc_drop. cbn [e_up bind f_lvl l_idx]. f_equal. f_equal. unfold st. f_equal.
  unfold commit_up, with_level, with_cursor, set_idx, after, move_to. cbn [f_lvl f_cursor f_done f_stk f_link l_from l_meta c_sig].
  destruct (step_of fs t); reflexivity.
Qed.

Lemma main : (forall t v cs, encodes t v cs -> (len t < 2 ^ 61 -> value_ok t v cs)) /\
  (forall ts vs cs, encodes_all ts vs cs -> (Forall (fun t => len t < 2 ^ 61) ts -> values_ok ts vs cs)).
Proof.
  apply encodes_both.
  - intros n _ b pos EM HV HLim T s fs done from meta stk link up o Hs O HP. cbn [marshal] in EM. dest_if EM.
    destruct (call_fixed I P limit HS HL fmt done T s fs BUint16 EU16 pos from meta stk link up o (int big 2 n) Hs O eq_refl ltac:(cbn; lia) HP HLim) as [o' [E1 S1]].
    exists o'. split; [|exact S1]. apply enc_calls_one. cbn [enc_call]. unfold enc_u16. rewrite en_u16_int. exact E1.
  - intros n _ b pos EM HV HLim T s fs done from meta stk link up o Hs O HP. cbn [marshal] in EM. dest_if EM.
    destruct (call_fixed I P limit HS HL fmt done T s fs BUint32 EU32 pos from meta stk link up o (int big 4 n) Hs O eq_refl ltac:(cbn; lia) HP HLim) as [o' [E1 S1]].
    exists o'. split; [|exact S1]. apply enc_calls_one. cbn [enc_call]. unfold enc_u32. rewrite en_u32_int. exact E1.
  - intros n _ b pos EM HV HLim T s fs done from meta stk link up o Hs O HP. cbn [marshal] in EM. dest_if EM.
    destruct (call_fixed I P limit HS HL fmt done T s fs BUint64 EU64 pos from meta stk link up o (int big 8 n) Hs O eq_refl ltac:(cbn; lia) HP HLim) as [o' [E1 S1]].
    exists o'. split; [|exact S1]. apply enc_calls_one. cbn [enc_call]. unfold enc_u64. rewrite en_u64_int. exact E1.
  - intros x _ b pos EM HV HLim T s fs done from meta stk link up o Hs O HP. cbn [marshal] in EM. dest_if EM.
    apply N.ltb_lt in E.
    destruct (call_str I P limit HS HL fmt done T s fs BString EString EU32 (2 ^ 32) DvarModel.en_u32 4 pos from meta stk link up o x Hs O eq_refl
      ltac:(cbn; lia) E (en_u32_int _ _) HP HLim) as [o' [E1 S1]].
    exists o'. split; [|exact S1]. apply enc_calls_one. exact E1.
  - intros x _ b pos EM HV HLim T s fs done from meta stk link up o Hs O HP. cbn [marshal] in EM. dest_if EM.
    apply N.ltb_lt in E.
    destruct (call_str I P limit HS HL fmt done T s fs BObjectPath EObject EU32 (2 ^ 32) DvarModel.en_u32 4 pos from meta stk link up o x Hs O eq_refl
      ltac:(cbn; lia) E (en_u32_int _ _) HP HLim) as [o' [E1 S1]].
    exists o'. split; [|exact S1]. apply enc_calls_one. exact E1.
  - intros x _ b pos EM HV HLim T s fs done from meta stk link up o Hs O HP. cbn [marshal] in EM. dest_if EM.
    apply N.ltb_lt in E.
    assert (EP : counted big 1 x = padding pos (e_dvar_alignment_exp EU8) ++ counted big 1 x).
    { change (e_dvar_alignment_exp EU8) with 0. rewrite padding_0. reflexivity. }
    rewrite EP in HLim |- *.
    destruct (call_str I P limit HS HL fmt done T s fs BSignature ESignature EU8 (2 ^ 8) DvarModel.en_u8 1 pos from meta stk link up o x Hs O eq_refl
      ltac:(cbn; lia) E (en_u8_int _ _ E) HP HLim) as [o' [E1 S1]].
    exists o'. split; [|exact S1]. apply enc_calls_one. exact E1.
  - intros t v cs Hcs IH _ b pos EM HV HLim T s fs done from meta stk link up o Hs O HP. cbn [marshal] in EM.
    destruct (N.ltb_spec (size (print t)) (2 ^ 8)) as [E8|]; [|discriminate]. cbv zeta in EM.
    set (head := counted big 1 (print t)) in *. destruct (marshal big t v (pos + size head)) as [b'|] eqn:EM'; [|discriminate].
    injection EM as <-. destruct HV as [H31 HV]. rewrite size_app' in *.
    destruct (call_variant I P limit HS HB HL fmt done T s fs t pos from meta stk link up o Hs O H31 HP ltac:(fold head; lia)) as [o1 [s' [Hs' [E1 S1]]]].
    fold head in E1, S1. rewrite (enc_calls_cons _ _ _ _ _ E1).
    assert (Hlen : len t < 2 ^ 61) by (unfold len; lia).
    destruct (IH Hlen b' (pos + size head) EM' HV ltac:(lia) t s' [] done (pos + size head) (pos + size head)
      ((EVariant, mkLevel pos from meta, Some (mkCursor s (size (prefix fs)))) :: stk) link up o1 Hs' (occ_root t) (proj1 S1)) as [o2 [E2 S2]].
    change (size (prefix [])) with 0 in E2. rewrite (enc_calls_app _ _ _ _ _ E2).
    exists o2. split; [|eapply stored_app; eassumption].
    apply enc_calls_one. cbn [enc_call]. rewrite (call_close_plain I fmt done _ _ EVariant _ _ stk link up o2 (mkCursor s (after fs TVariant))).
    + unfold set_idx. cbn [l_idx l_from l_meta]. rewrite N.add_assoc. reflexivity.
    + left. reflexivity.
    + apply past_root. exact Hs'.
    + cbn [bind]. apply (step_start T s fs _ Hs O).
  - intros t vs cs Hcs IH Ht b pos EM HV HLim T s fs done from meta stk link up o Hs O HP. rewrite marshal_array in EM. cbv zeta in EM.
    set (start := pos + size (padding pos 2) + 4) in *. set (gap := padding start (dvar_align t)) in *.
    destruct (marshal_all big (repeat t (length vs)) vs (start + size gap)) as [b'|] eqn:EM'; [|discriminate].
    destruct (N.ltb_spec (size b') (2 ^ 32)) as [E32|]; [|discriminate]. injection EM as <-.
    rewrite !size_app', size_int in HLim. change (N.of_nat 4) with 4 in HLim.
    destruct (call_array I P limit HS HL fmt done T s fs t pos from meta stk link up o Hs O HP) as [o1 [E1 S1]].
    { fold start gap. unfold start in *. lia. }
    fold start gap in E1, S1.
    assert (E1' : enc_call I (st fmt done (mkCursor s (size (prefix fs))) (mkLevel pos from meta) stk link up o) CArray = _) by exact E1.
    rewrite (enc_calls_cons _ _ _ _ _ E1').
    destruct (IH ltac:(apply Forall_forall; intros x Hx; apply repeat_spec in Hx; subst x; rewrite len_array in Ht; lia)
      b' (start + size gap) EM' (up_to_all _ _ HV) ltac:(unfold start in *; lia) T s _ _ done (start + size gap) (pos + size (padding pos 2))
      ((EArray, mkLevel pos from meta, None) :: stk) link up o1 Hs (walk_array T fs t (length vs) O) (proj1 S1)) as [o2 [E2 S2]].
    rewrite (enc_calls_app _ _ _ _ _ E2).
    pose proof (occ_array T fs t O) as O'.
    destruct (call_close_array I P limit HS HL fmt done (mkCursor s (size (prefix (FArray :: fs))))
      (mkLevel (start + size gap + size b') (start + size gap) (pos + size (padding pos 2))) (mkLevel pos from meta) stk link up o2
      (mkCursor s (after fs (TArray t))) (size b')) as [o3 [E3 [Q3 M3]]].
    { apply (start_step T s Hs _ _ O'). }
    { unfold do_move at 1. cbn [idx_of]. rewrite (start_up T s Hs _ _ O'). cbn [bind container_of maybe_move move_to c_sig].
      apply (step_start T s fs _ Hs O). }
    { reflexivity. }
    { exact E32. }
    { cbn [l_meta]. unfold start in *. lia. }
    { exact (proj1 S2). }
    exists o3. split.
    + apply enc_calls_one. cbn [enc_call]. rewrite E3. unfold set_idx. cbn [l_idx l_from l_meta].
      rewrite !size_app', size_int. change (N.of_nat 4) with 4.
      replace (pos + (size (padding pos 2) + (4 + (size gap + size b')))) with (start + size gap + size b') by (unfold start; lia). reflexivity.
    + split; [exact Q3|]. intros j. rewrite M3. cbn [l_meta].
      assert (M2 : forall j, o_mem o2 j = store (o_mem o) pos (padding pos 2 ++ (int big 4 0 ++ gap ++ b')) j).
      { assert (S12 : stored P o o2 pos ((padding pos 2 ++ int big 4 0 ++ gap) ++ b')).
        { eapply stored_app; [exact S1|]. rewrite !size_app', size_int. change (N.of_nat 4) with 4.
          replace (pos + (size (padding pos 2) + (4 + size gap))) with (start + size gap) by (unfold start; lia). exact S2. }
        rewrite <- !app_assoc in S12. apply S12. }
      destruct (N.eqb_spec (size b') 0) as [Z|Z].
      * rewrite M2. rewrite Z. reflexivity.
      * rewrite (store_ext _ _ _ _ M2). apply store_patch. rewrite !size_int. reflexivity.
  - intros ts vs cs Hcs IH Ht b pos EM HV HLim T s fs done from meta stk link up o Hs O HP. rewrite marshal_struct in EM.
    destruct (marshal_all big ts vs (pos + size (padding pos 3))) as [b'|] eqn:EM'; [|discriminate]. injection EM as <-.
    rewrite size_app' in *.
    destruct (call_open I P limit HS HL fmt done T s fs (TStruct ts) EStructOpen pos from meta stk link up o Hs O eq_refl eq_refl eq_refl HP ltac:(lia)) as [o1 [E1 S1]].
    assert (E1' : enc_call I (st fmt done (mkCursor s (size (prefix fs))) (mkLevel pos from meta) stk link up o) CStructure = _) by exact E1.
    rewrite (enc_calls_cons _ _ _ _ _ E1').
    assert (EI : size (prefix fs) + 1 = size (prefix (FStruct [] :: fs))) by (rewrite prefix_fs; cbn [members flat_map]; change (size (@nil N)) with 0; lia).
    rewrite EI in *.
    assert (HF : Forall (fun t => len t < 2 ^ 61) ts).
    { apply Forall_forall. intros x Hx. apply in_split in Hx. destruct Hx as [l1 [l2 ->]].
      pose proof (occ_bound _ _ _ (occ_struct (TStruct (l1 ++ x :: l2)) [] l1 x l2 (occ_root _))). lia. }
    destruct (IH HF b' (pos + size (padding pos 3)) EM' (up_to_struct _ _ HV) ltac:(lia) T s _ _ done (pos + size (padding pos 3)) (pos + size (padding pos 3))
      ((EStructOpen, mkLevel pos from meta, None) :: stk) link up o1 Hs (walk_struct T fs ts [] O) (proj1 S1)) as [o2 [E2 S2]].
    cbn [app] in E2. rewrite (close_struct fs ts) in E2. rewrite (enc_calls_app _ _ _ _ _ E2).
    destruct (close_queries T s Hs fs (TStruct ts) O Logic.I) as [_ [_ [_ [Qu [_ [Qs _]]]]]].
    exists o2. split; [|eapply stored_app; eassumption].
    apply enc_calls_one. cbn [enc_call]. rewrite (call_close_plain I fmt done _ _ EStructOpen _ _ stk link up o2 (mkCursor s (after fs (TStruct ts)))).
    + unfold set_idx. cbn [l_idx l_from l_meta]. rewrite N.add_assoc. reflexivity.
    + right; left. reflexivity.
    + exact Qs.
    + unfold do_move at 1. cbn [idx_of]. rewrite Qu. cbn [bind maybe_move move_to c_sig]. apply (step_start T s fs _ Hs O).
  - intros k t kv v cs Hcs IH Ht b pos EM HV HLim T s fs done from meta stk link up o Hs O HP. rewrite marshal_dict in EM.
    destruct (marshal_all big [TBasic k; t] [kv; v] (pos + size (padding pos 3))) as [b'|] eqn:EM'; [|discriminate]. injection EM as <-.
    rewrite size_app' in *.
    destruct (call_open I P limit HS HL fmt done T s fs (TDict k t) EDictOpen pos from meta stk link up o Hs O eq_refl eq_refl eq_refl HP ltac:(lia)) as [o1 [E1 S1]].
    assert (E1' : enc_call I (st fmt done (mkCursor s (size (prefix fs))) (mkLevel pos from meta) stk link up o) CDict = _) by exact E1.
    rewrite (enc_calls_cons _ _ _ _ _ E1').
    assert (EI : size (prefix fs) + 1 = size (prefix (FDict [] :: fs))) by (rewrite prefix_fs; cbn [members flat_map]; change (size (@nil N)) with 0; lia).
    rewrite EI in *.
    assert (HF : Forall (fun t => len t < 2 ^ 61) [TBasic k; t]).
    { rewrite len_dict in Ht. apply Forall_cons; [change (len (TBasic k)) with 1; lia|]. apply Forall_cons; [lia|apply Forall_nil]. }
    destruct HV as [HVk HVv].
    destruct (IH HF b' (pos + size (padding pos 3)) EM' (conj HVk (conj HVv Logic.I)) ltac:(lia) T s _ _ done (pos + size (padding pos 3)) (pos + size (padding pos 3))
      ((EDictOpen, mkLevel pos from meta, None) :: stk) link up o1 Hs (walk_dict T fs k t O) (proj1 S1)) as [o2 [E2 S2]].
    rewrite (enc_calls_app _ _ _ _ _ E2).
    destruct (close_queries T s Hs fs (TDict k t) O Logic.I) as [_ [_ [_ [Qu [_ [Qs _]]]]]].
    exists o2. split; [|eapply stored_app; eassumption].
    apply enc_calls_one. cbn [enc_call]. rewrite (call_close_plain I fmt done _ _ EDictOpen _ _ stk link up o2 (mkCursor s (after fs (TDict k t)))).
    + unfold set_idx. cbn [l_idx l_from l_meta]. rewrite N.add_assoc. reflexivity.
    + right; right. reflexivity.
    + exact Qs.
    + unfold do_move at 1. cbn [idx_of]. rewrite Qu. cbn [bind maybe_move move_to c_sig]. apply (step_start T s fs _ Hs O).
  - intros t v cs Hcs IH Ht. apply sub_ok; [left; reflexivity|apply IH, Ht|exact Ht].
  - intros t v cs Hcs IH Ht. apply sub_ok; [right; reflexivity|apply IH, Ht|exact Ht].
  - intros _ b pos EM HV HLim T s i j done from meta stk link up o Hs Hw HP. cbn [marshal_all] in EM. injection EM as <-.
    inversion Hw; subst. exists o. split; [|apply stored_nil; exact HP]. cbn [enc_calls]. change (size (@nil N)) with 0. rewrite N.add_0_r. reflexivity.
  - intros t ts v vs cs cs' H1 IH1 H2 IH2 HF b pos EM HV HLim T s i j done from meta stk link up o Hs Hw HP. cbn [marshal_all] in EM.
    inversion HF as [|? ? Ft Fts]; subst.
    destruct (marshal big t v pos) as [b1|] eqn:EM1; [|discriminate].
    destruct (marshal_all big ts vs (pos + size b1)) as [b2|] eqn:EM2; [|discriminate]. injection EM as <-.
    rewrite size_app' in *. destruct HV as [HV1 HV2]. inversion Hw as [|fs0 t0 ts0 j0 O0 Hw0]; subst.
    destruct (IH1 Ft b1 pos EM1 HV1 ltac:(lia) T s fs0 done from meta stk link up o Hs O0 HP) as [o1 [E1 S1]].
    rewrite (enc_calls_app _ _ _ _ _ E1).
    destruct (IH2 Fts b2 (pos + size b1) EM2 HV2 ltac:(lia) T s _ _ done from meta stk link up o1 Hs Hw0 (proj1 S1)) as [o2 [E2 S2]].
    exists o2. split; [rewrite E2, N.add_assoc; reflexivity|eapply stored_app; eassumption].
Qed.
End Main.

Lemma sig_new_small fuel t sg : sig_new fuel (print t) = Ok (inr sg) -> len t < 2 ^ 61.
Proof.
  intros E. destruct (N.lt_ge_cases (len t) (2 ^ 61)) as [|H]; [assumption|].
  unfold len in H. rewrite (DbusSigRefuted.huge_example fuel _ H) in E. discriminate.
Qed.
Lemma sig_new_is fuel t sg : sig_new fuel (print t) = Ok (inr sg) -> is_sig t sg.
Proof.
  intros E. destruct (sig_new_sig _ _ _ E) as [t' [P [H _]]]. destruct (print_prefix_free t t' []) as [-> _]; [rewrite app_nil_r; exact P|exact H].
Qed.

Theorem encoded W (I : Write W) P limit fuel fmt o sg t v cs b :
  serving I P limit -> bounded I -> limit < usize -> P (o_w o) ->
  sig_new fuel (print t) = Ok (inr sg) -> encodes t v cs -> variants_up_to 31 v ->
  marshal (big_endian fmt) t v 0 = Some b -> size b <= limit ->
  exists e e', enc_new sg fmt o = Ok e /\ enc_calls I e cs = Ok (Continue tt, e') /\
    P (o_w (e_out e')) /\ written (o_mem o) 0 b (o_mem (e_out e')) /\
    forall w, w_commit I (o_w (e_out e')) (size b) = Ok w ->
    exists e'', enc_call I e' CCommit = Ok (Continue tt, e'') /\ e_out e'' = mkOut w (o_mem (e_out e')).
Proof.
  intros HS HB HL HP Esg Hcs HV EM Hb.
  pose proof (sig_new_is _ _ _ Esg) as Hs. pose proof (sig_new_small _ _ _ Esg) as Ht.
  destruct (proj1 (main I P limit HS HB HL fmt) t v cs Hcs Ht b 0 EM HV ltac:(lia) t sg [] false 0 0 [] None [] o Hs (occ_root t) HP) as [o' [E S]].
  change (size (prefix [])) with 0 in E.
  do 2 eexists. split; [unfold enc_new, frame_for; rewrite (cursor_root t sg Hs); reflexivity|].
  split; [exact E|]. cbn [st e_out]. split; [apply S|]. split; [apply store_written, S|].
  intros w Ew. cbn [enc_call]. unfold enc_commit. cbv zeta. cbn [st e_top f_cursor]. rewrite (past_root t sg Hs).
  unfold st. cbn [bind f_stk f_link f_done negb f_lvl l_idx e_out]. change (0 + size b) with (size b). rewrite Ew. cbn [bind].
  eexists. split; reflexivity.
Qed.
Lemma nth_error_ext {A} (a : list A) : forall b, (forall n, nth_error a n = nth_error b n) -> a = b.
Proof.
  induction a as [|x a IH]; intros [|y b] H; [reflexivity|specialize (H 0%nat); discriminate H..|].
  f_equal; [specialize (H 0%nat); cbn in H; congruence|]. apply IH. intros n. exact (H (S n)).
Qed.
Theorem encoded_vec grow extra fuel fmt sg t v cs b :
  extra <= isize_max -> sig_new fuel (print t) = Ok (inr sg) -> encodes t v cs -> variants_up_to 31 v ->
  marshal (big_endian fmt) t v 0 = Some b -> size b <= isize_max ->
  exists e e', enc_new sg fmt (vec_of [] extra) = Ok e /\
    enc_calls (vec_write grow) e (cs ++ [CCommit]) = Ok (Continue tt, e') /\ vec_contents (e_out e') = map Some b.
Proof.
  intros Hx Esg Hcs HV EM Hb.
  destruct (encoded vec (vec_write grow) (fun v => vec_ok v /\ v_len v = 0) isize_max fuel fmt (vec_of [] extra) sg t v cs b)
    as [e [e1 [E1 [E2 [[_ HP] [HW HC]]]]]]; try assumption.
  - apply vec_serving.
  - apply vec_bounded.
  - reflexivity.
  - unfold vec_of, vec_ok. cbn [o_w v_len v_cap]. change (size (@nil N)) with 0. repeat split; lia.
  - cbn [vec_write w_commit] in HC. rewrite HP in HC. unfold add_usize in HC.
    rewrite (proj2 (N.ltb_lt _ _)) in HC by (unfold isize_max, usize in *; lia). cbn [bind] in HC.
    destruct (HC _ eq_refl) as [e2 [E3 E4]]. exists e, e2. split; [exact E1|]. split.
    + rewrite (enc_calls_app _ _ _ _ _ E2). apply enc_calls_one. exact E3.
    + rewrite E4. unfold vec_contents. cbn [o_w o_mem v_len]. change (0 + size b) with (size b).
      apply nth_error_ext. intros n. rewrite !nth_error_map.
      destruct (Nat.lt_ge_cases n (length b)) as [L|L].
      * rewrite nth_error_nth' with (d := 0%nat) by (rewrite seq_length; unfold size; lia).
        rewrite seq_nth by (unfold size; lia). cbn [option_map Nat.add].
        destruct (nth_error b n) as [x|] eqn:En; [|apply nth_error_None in En; lia].
        destruct HW as [HW _]. specialize (HW n x En). cbn [option_map]. rewrite N.add_0_l in HW. rewrite HW. reflexivity.
      * rewrite (proj2 (nth_error_None (seq 0 _) n)) by (rewrite seq_length; unfold size; lia).
        rewrite (proj2 (nth_error_None b n)) by lia. reflexivity.
Qed.

Section ValueInd.
Context (Q : value -> Prop).
Context (Hbasic : forall v, match v with VVariant _ _ | VArray _ | VStruct _ | VDict _ _ => True | _ => Q v end).
Context (Hvariant : forall t v, Q v -> Q (VVariant t v)) (Harray : forall vs, Forall Q vs -> Q (VArray vs))
  (Hstruct : forall vs, Forall Q vs -> Q (VStruct vs)) (Hdict : forall k v, Q k -> Q v -> Q (VDict k v)).
Fixpoint value_rect' (v : value) : Q v :=
  let all := fix all vs : Forall Q vs :=
    match vs with [] => Forall_nil Q | v :: vs => @Forall_cons _ Q v vs (value_rect' v) (all vs) end in
  match v return Q v with
  | VVariant t v => Hvariant t v (value_rect' v)
  | VArray vs => Harray vs (all vs)
  | VStruct vs => Hstruct vs (all vs)
  | VDict k v => Hdict k v (value_rect' k) (value_rect' v)
  | VU16 n => Hbasic (VU16 n) | VU32 n => Hbasic (VU32 n) | VU64 n => Hbasic (VU64 n)
  | VString s => Hbasic (VString s) | VObject s => Hbasic (VObject s) | VSignature s => Hbasic (VSignature s)
  end.
End ValueInd.

Theorem describes big v : forall t pos b, marshal big t v pos = Some b -> encodes t v (describe v).
Proof.
  assert (A : forall vs, Forall (fun v => forall t pos b, marshal big t v pos = Some b -> encodes t v (describe v)) vs ->
    forall ts pos b, marshal_all big ts vs pos = Some b -> encodes_all ts vs (flat_map describe vs)).
  { induction vs as [|x vs IH]; intros F [|t ts] pos b H; cbn [marshal_all] in H; try discriminate; [constructor|].
    inversion F as [|? ? Fx Fv]; subst.
    destruct (marshal big t x pos) as [b1|] eqn:E1; [|discriminate].
    destruct (marshal_all big ts vs _) as [b2|] eqn:E2; [|discriminate].
    cbn [flat_map]. constructor; [eapply Fx; eassumption|]. eapply IH; eassumption. }
  revert v. refine (value_rect' (fun v => forall t pos b, marshal big t v pos = Some b -> encodes t v (describe v)) _ _ _ _ _); [intros v|intros u v IH|intros vs IH|intros vs IH|intros k v IHk IHv].
  - destruct v; try exact Logic.I; intros [[]| | | | |] pos b H; try discriminate H; constructor.
  - intros [[]| | | | |] pos b H; try discriminate H. cbn [marshal] in H. destruct (_ <? 2 ^ 8); [|discriminate].
    cbv zeta in H. destruct (marshal big u v _) as [b1|] eqn:E; [|discriminate]. cbn [describe]. constructor. eapply IH. exact E.
  - intros [[]| |u| | |] pos b H; try discriminate H. rewrite marshal_array in H. cbv zeta in H.
    destruct (marshal_all _ _ _ _) as [b1|] eqn:E; [|discriminate]. cbn [describe]. constructor. eapply A; eassumption.
  - intros [[]| |u| |ts|] pos b H; try discriminate H. rewrite marshal_struct in H.
    destruct (marshal_all _ _ _ _) as [b1|] eqn:E; [|discriminate]. cbn [describe]. constructor. eapply A; eassumption.
  - intros [[]| |u| |ts|kt u] pos b H; try discriminate H. rewrite marshal_dict in H.
    destruct (marshal_all _ _ _ _) as [b1|] eqn:E; [|discriminate]. cbn [describe]. constructor.
    rewrite <- (app_nil_r (describe v)). refine (A [k; v] _ _ _ _ E). repeat constructor; assumption.
Qed.
