(** Driving the decoder over arbitrary messages in which a value can be read. *)
From Verif Require Import Base DbusSpec IoMapModel IoMapSpec IoMapProofs.
From Verif Require Import DbusElement DbusSigModel DbusSigAnnot DbusSigRefine DbusSigTheory DbusCursorProofs DbusCursorQueries DbusSigResults DbusSigRefuted.
From Verif Require Import DvarModel DvarSpec DvarDecSpec DvarProofs DvarEncode DvarDecode DvarFixed.
Local Open Scope N_scope.
Local Open Scope res_scope.

Lemma padding_small pos a : a <= 3 -> size (padding pos a) < 8.
Proof.
  intros A. rewrite size_padding. pose proof (pow_pos a) as M. unfold pad_to.
  assert (B : 2 ^ a <= 8) by (change 8 with (2 ^ 3); apply N.pow_le_mono_r; lia).
  pose proof (N.mul_div_le (pos + 2 ^ a - 1) (2 ^ a) ltac:(lia)). lia.
Qed.

Section Calls.
Context {R : Type} (I : Read R) (P : R -> Prop) (msg : list N).
Context (HR : reading I P msg) (HA : reading_all I P msg) (HM : size msg + 8 < usize) (fmt : Format).
Notation big := (big_endian fmt).
Let HM' : size msg < usize.
Proof. lia. Qed.
Notation state := (dst fmt).

Lemma acall_u16 done T s fs n pos q from meta stk link up r :
  is_sig T s -> occurs T fs (TBasic BUint16) -> P r -> n < 2 ^ 16 ->
  q = pos + size (padding pos 1) -> q + 2 <= size msg -> holds msg q (int big 2 n) ->
  exists r', dec_call I (state done (mkCursor s (size (prefix fs))) (mkLevel pos from meta) stk link up r) DCU16 =
    Ok (Continue tt, DNum n, state done (mkCursor s (after fs (TBasic BUint16))) (mkLevel (q + 2) from meta) stk link up r') /\ P r'.
Proof.
  intros Hs O HP Hn -> HB H2. cbn [dec_call]. unfold dec_u16, dec_fixed. cbv zeta.
  cbn [dst d_top f_cursor f_lvl l_idx d_read d_format].
  rewrite (expects_start T s fs _ EU16 Hs O). change (e_id (ty_el (TBasic BUint16)) =? e_id EU16) with true. cbn [bind negb].
  change (e_dvar_alignment_exp EU16) with 1. rewrite io_dalign by lia.
  destruct (io_read I P msg HR HA HM' r (pos + size (padding pos 1)) (int big 2 n) HP H2) as [r' [E Q]]; [rewrite size_int; change (N.of_nat 2) with 2; lia|].
  rewrite size_int in E. change (N.of_nat 2) with 2 in E. rewrite E. cbn [seq_read bind].
  rewrite (step_start T s fs _ Hs O). cbn [bind]. exists r'. split; [|exact Q].
  unfold de_u16. rewrite de_int by exact Hn. reflexivity.
Qed.
Lemma acall_str done T s fs bt el len_el n de x pos q from meta stk link up r :
  is_sig T s -> occurs T fs (TBasic bt) -> e_id (ty_el (TBasic bt)) = e_id el -> e_dvar_alignment_exp len_el < 31 ->
  (forall v, v < 256 ^ N.of_nat n -> de fmt (int big n v) = v) -> size x < 256 ^ N.of_nat n ->
  P r -> text x -> q = pos + size (padding pos (e_dvar_alignment_exp len_el)) ->
  q + N.of_nat n + size x <= size msg -> holds msg q (int big n (size x) ++ x) ->
  exists r', dec_str I (state done (mkCursor s (size (prefix fs))) (mkLevel pos from meta) stk link up r) el len_el (N.of_nat n) de =
    Ok (Continue tt, DText x, state done (mkCursor s (after fs (TBasic bt))) (mkLevel (q + N.of_nat n + size x + 1) from meta) stk link up r') /\ P r'.
Proof.
  intros Hs O Eel Hal Hde Hx HP Ht -> HB H2.
  apply holds_app in H2; [|rewrite size_app', size_int; lia]. destruct H2 as [H2 H3]. rewrite size_int in H3.
  unfold dec_str. cbv zeta. cbn [dst d_top f_cursor f_lvl l_idx d_read d_format].
  rewrite (expects_start T s fs _ el Hs O), Eel, N.eqb_refl. cbn [bind negb].
  rewrite io_dalign by lia.
  destruct (io_read I P msg HR HA HM' r (pos + size (padding pos (e_dvar_alignment_exp len_el))) (int big n (size x)) HP H2) as [r1 [E1 Q1]]; [rewrite size_int; lia|].
  rewrite size_int in E1. rewrite E1. cbn [seq_read bind]. rewrite Hde by exact Hx.
  destruct (io_read I P msg HR HA HM' r1 _ x Q1 H3) as [r2 [E2 Q2]]; [lia|]. rewrite E2. cbn [seq_read bind].
  rewrite (text_valid x Ht). cbn [negb]. unfold add_usize. rewrite (proj2 (N.ltb_lt _ _)) by lia. cbn [bind].
  rewrite (step_start T s fs _ Hs O). cbn [bind]. exists r2. split; [|exact Q2]. reflexivity.
Qed.
Lemma acall_array done T s fs u pos q from meta stk link up r :
  is_sig T s -> occurs T fs (TArray u) -> P r -> q = pos + size (padding pos 2) -> q + 4 <= size msg ->
  exists n r', dec_call I (state done (mkCursor s (size (prefix fs))) (mkLevel pos from meta) stk link up r) DCArray =
    Ok (Continue tt, DUnit, state done (mkCursor s (size (prefix (FArray :: fs)))) (mkLevel (q + 4 + size (padding (q + 4) (dvar_align u))) from n)
          ((EArray, mkLevel pos from meta, None) :: stk) link up r') /\ P r'.
Proof.
  intros Hs O HP -> HB. cbn [dec_call]. unfold dec_array. cbv zeta.
  cbn [dst d_top f_cursor f_lvl l_idx d_read d_format].
  rewrite (expects_start T s fs _ EArray Hs O). change (e_id (ty_el (TArray u)) =? e_id EArray) with true. cbn [bind negb].
  unfold c_down. rewrite (start_down T s Hs fs _ O). cbn [is_container bind].
  pose proof (occ_array T fs u O) as O'.
  assert (EI : size (prefix fs) + 1 = size (prefix (FArray :: fs))) by (rewrite prefix_fs; cbn; change (size (@nil N)) with 0; lia).
  rewrite EI. change (element_at (mkCursor s (size (prefix fs)))) with (element_at (mkCursor s (size (prefix (FArray :: fs))))).
  rewrite (start_element T s Hs _ _ O'). cbn [unwrap bind].
  assert (EA : e_dvar_alignment_exp (ty_el u) = dvar_align u).
  { destruct u as [b| | | | |]; try reflexivity. destruct b; reflexivity. }
  rewrite EA. change (e_dvar_alignment_exp EU32) with 2. rewrite io_dalign by lia.
  destruct (read_all I P msg r (pos + size (padding pos 2)) 4 HR HA HM' HP HB) as [r1 [E1 Q1]].
  rewrite E1. cbn [seq_read bind].
  rewrite io_dalign; [|pose proof (align_up_to u); lia|pose proof (padding_small (pos + size (padding pos 2) + 4) _ (align_up_to u)); lia].
  rewrite (down_start T s fs _ Hs O eq_refl). cbn [bind]. do 2 eexists. split; [|exact Q1].
  unfold dput_read, dput, dst. cbn [d_format d_top d_up f_done f_stk f_link f_lvl f_cursor l_from]. rewrite EI. reflexivity.
Qed.

Definition avalue_ok (t : ty) (v : value) (cs : list dcall) (ds : list datum) : Prop :=
  forall pos p', reads big msg t v pos p' ->
  forall T s fs done from meta stk link up r, is_sig T s -> occurs T fs t -> P r ->
  exists r', dec_calls I (state done (mkCursor s (size (prefix fs))) (mkLevel pos from meta) stk link up r) cs =
    Ok (Continue tt, ds, state done (mkCursor s (after fs t)) (mkLevel p' from meta) stk link up r') /\ P r'.
Definition avalues_ok (t : ty) (vs : list value) (cs : list dcall) (ds : list datum) : Prop :=
  forall pos p', reads_all big msg t vs pos p' ->
  forall T s fs done from meta stk link up r, is_sig T s -> occurs T (FArray :: fs) t -> P r ->
  exists r', dec_calls I (state done (mkCursor s (size (prefix (FArray :: fs)))) (mkLevel pos from meta) stk link up r) cs =
    Ok (Continue tt, ds, state done (mkCursor s (size (prefix (FArray :: fs)))) (mkLevel p' from meta) stk link up r') /\ P r'.

Lemma asub_ok c : forall t v cs ds, (c = DCDec \/ c = DCDecWith (print t)) -> avalue_ok t v cs ds -> len t < 2 ^ 61 ->
  avalue_ok t v (c :: cs ++ [DCCommit; DCDrop]) (DUnit :: ds ++ [DUnit; DUnit]).
Proof.
  intros t v cs ds Hc IH Ht pos p' EM T s fs done from meta stk link up r Hs O HP.
  destruct (sub_start T s fs t Hs O) as [s' [ES Hs']].
  assert (E1 : dec_dec (state done (mkCursor s (size (prefix fs))) (mkLevel pos from meta) stk link up r) =
    Ok (Continue tt, DUnit, state false (mkCursor s' 0) (mkLevel pos pos pos) [] (Some (step_of fs t))
       (mkFrame done (mkCursor s (size (prefix fs))) (mkLevel pos from meta) stk link :: up) r)).
  { unfold dec_dec. cbv zeta. cbn [dst d_top f_cursor]. rewrite (start_step T s Hs fs t O), ES. cbn [bind].
    unfold frame_for. rewrite (cursor_root t s' Hs'). reflexivity. }
  assert (E2 : dec_call I (state done (mkCursor s (size (prefix fs))) (mkLevel pos from meta) stk link up r) c =
    Ok (Continue tt, DUnit, state false (mkCursor s' 0) (mkLevel pos pos pos) [] (Some (step_of fs t))
       (mkFrame done (mkCursor s (size (prefix fs))) (mkLevel pos from meta) stk link :: up) r)).
  { destruct Hc as [-> | ->]; cbn [dec_call]; [exact E1|].
    destruct (make_sig_ok t Ht) as [s0 [E0 [Hs0 _]]]. rewrite E0. cbn [bind]. unfold dec_dec_with.
    change (f_cursor (d_top (state done (mkCursor s (size (prefix fs))) (mkLevel pos from meta) stk link up r))) with (mkCursor s (size (prefix fs))).
    rewrite ES. cbn [bind]. rewrite (sig_eq_same t s0 s' Hs0 Hs'). cbn [bind]. exact E1. }
  destruct (IH pos p' EM t s' [] false pos pos [] (Some (step_of fs t))
    (mkFrame done (mkCursor s (size (prefix fs))) (mkLevel pos from meta) stk link :: up) r Hs' (occ_root t) HP) as [r' [E3 S3]].
  change (size (prefix [])) with 0 in E3.
  exists r'. split; [|exact S3]. cbn [dec_calls]. rewrite E2. cbn [bind]. rewrite (dec_calls_app I _ _ _ _ _ E3).
  cbn [dec_calls dec_call]. unfold dec_commit. cbv zeta.
  cbn [dst d_top f_cursor]. rewrite (past_root t s' Hs'). cbn [bind f_stk f_link d_up].
  unfold dec_drop. cbn [d_up bind f_lvl l_idx]. do 2 f_equal.
  unfold dst. f_equal.
  unfold commit_up, with_level, with_cursor, set_idx, after, move_to. cbn [f_lvl f_cursor f_done f_stk f_link l_from l_meta c_sig].
  destruct (step_of fs t); reflexivity.
Qed.

Lemma amain : (forall t v cs ds, decodes t v cs ds -> (len t < 2 ^ 61 -> avalue_ok t v cs ds)) /\
  (forall t vs cs ds, decodes_all t vs cs ds -> (len t < 2 ^ 61 -> avalues_ok t vs cs ds)).
Proof.
  apply decodes_both.
  - intros n _ pos p' EM T s fs done from meta stk link up r Hs O HP. inversion EM as [? ? q Eq Hn HH HB| | | ]; subst.
    destruct (acall_u16 done T s fs n pos _ from meta stk link up r Hs O HP Hn eq_refl HB HH) as [r' [E Q]].
    exists r'. split; [|exact Q]. cbn [dec_calls]. rewrite E. reflexivity.
  - intros x Hx _ pos p' EM T s fs done from meta stk link up r Hs O HP. inversion EM as [|? ? q Eq Ht Hn HH HB| | ]; subst.
    destruct (acall_str done T s fs BString EString EU32 4 de_u32 x pos _ from meta stk link up r Hs O eq_refl ltac:(cbn; lia)
      (fun v Hv => de_int big 4 v Hv) Hn HP Hx eq_refl HB HH) as [r' [E Q]].
    exists r'. split; [|exact Q]. cbn [dec_calls dec_call]. change (N.of_nat 4) with 4 in E. unfold dec_string. rewrite E. reflexivity.
  - intros x Hx _ pos p' EM T s fs done from meta stk link up r Hs O HP. inversion EM as [| |? ? Ht Hn HH HB| ]; subst.
    destruct (acall_str done T s fs BSignature ESignature EU8 1 de_u8 x pos pos from meta stk link up r Hs O eq_refl ltac:(cbn; lia)
      (fun v Hv => de_int big 1 v Hv) Hn HP Hx) as [r' [E Q]].
    { change (e_dvar_alignment_exp EU8) with 0. rewrite padding_0. change (size (@nil N)) with 0. lia. }
    { exact HB. } { exact HH. }
    exists r'. split; [|exact Q]. cbn [dec_calls dec_call]. change (N.of_nat 1) with 1 in E. unfold dec_signature. rewrite E. reflexivity.
  - intros t vs cs ds Hcs IH Ht pos p' EM T s fs done from meta stk link up r Hs O HP. inversion EM as [| | |? ? ? q ? Eq HB HH]; subst.
    destruct (acall_array done T s fs t pos _ from meta stk link up r Hs O HP eq_refl HB) as [n [r1 [E1 Q1]]].
    pose proof (occ_array T fs t O) as O'.
    destruct (IH ltac:(rewrite len_array in Ht; lia) _ _ HH T s fs done from n
      ((EArray, mkLevel pos from meta, None) :: stk) link up r1 Hs O' Q1) as [r2 [E2 Q2]].
    exists r2. split; [|exact Q2]. cbn [dec_calls]. rewrite E1. cbn [bind]. rewrite (dec_calls_app I _ _ _ _ _ E2).
    cbn [dec_calls]. rewrite (dcall_close I fmt done T s fs t _ _ _ _ _ _ _ _ _ _ Hs O). reflexivity.
  - intros t v cs ds Hcs IH Ht. apply asub_ok; [left; reflexivity|apply IH, Ht|exact Ht].
  - intros t v cs ds Hcs IH Ht. apply asub_ok; [right; reflexivity|apply IH, Ht|exact Ht].
  - intros t _ pos p' EM T s fs done from meta stk link up r Hs O HP. inversion EM; subst.
    exists r. split; [|exact HP]. reflexivity.
  - intros t v vs cs ds cs' ds' H1 IH1 H2 IH2 Ht pos p' EM T s fs done from meta stk link up r Hs O HP. inversion EM as [|? ? ? ? p1 ? R1 R2]; subst.
    destruct (IH1 Ht _ _ R1 T s _ done from meta stk link up r Hs O HP) as [r1 [E1 Q1]].
    destruct (IH2 Ht _ _ R2 T s fs done from meta stk link up r1 Hs O Q1) as [r2 [E2 Q2]].
    exists r2. split; [|exact Q2]. rewrite (dec_calls_app I _ _ _ _ _ E1).
    change (after (FArray :: fs) t) with (size (prefix (FArray :: fs))). rewrite E2. reflexivity.
Qed.
End Calls.

Theorem accepted R (I : Read R) P fuel fmt sg t v cs ds p r msg :
  reading I P msg -> reading_all I P msg -> size msg + 8 < usize -> P r ->
  sig_new fuel (print t) = Ok (inr sg) -> decodes t v cs ds -> reads (big_endian fmt) msg t v 0 p ->
  exists d d', dec_new sg fmt r = Ok d /\ dec_calls I d (cs ++ [DCCommit]) = Ok (Continue tt, ds ++ [DUnit], d') /\
    position d' = p /\ P (d_read d').
Proof.
  intros HR HA HM HP Es Hd EM. pose proof (sig_new_is _ _ _ Es) as Hs. pose proof (sig_new_small _ _ _ Es) as Ht.
  destruct (proj1 (amain I P msg HR HA HM fmt) t v cs ds Hd Ht 0 p EM t sg [] false 0 0 [] None [] r Hs (occ_root t) HP) as [r' [E Q]].
  change (size (prefix [])) with 0 in E.
  do 2 eexists. split; [unfold dec_new, frame_for; rewrite (cursor_root t sg Hs); reflexivity|].
  split.
  - unfold dst in E. rewrite (dec_calls_app I _ _ _ _ _ E). cbn [dec_calls dec_call]. unfold dec_commit. cbv zeta.
    cbn [d_top f_cursor]. rewrite (past_root t sg Hs). cbn [bind f_stk f_link]. reflexivity.
  - unfold position. cbn [d_top f_lvl l_idx d_read]. split; [reflexivity|exact Q].
Qed.
