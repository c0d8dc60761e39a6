(** Proofs about the streaming JSON tokenizer: numbers at the end of the stream. *)
From Verif Require Import Base StreamSpec StreamModel StreamProofs TokModel TokProofs TokSafe TokSession TokLex TokString TokNumber TokMore.
From Verif Require TokSpec.
Local Open Scope res_scope.

Definition plain (n : TokSpec.numeral) : bool :=
  match TokSpec.n_signs n, TokSpec.n_frac n, TokSpec.n_exp n with [], None, None => true | _, _, _ => false end.
Definition early (n : TokSpec.numeral) : list Error :=
  (match TokSpec.n_signs n with c :: _ => if (c =? 0x2b)%N then [NumberLeadingPlus] else [] | [] => [] end) ++
  (match TokSpec.n_signs n with _ :: _ :: _ => [NumberMultipleSigns] | _ => [] end) ++
  (match TokSpec.n_exp n with Some (_, ss, _) => map (fun _ => NumberMultipleSigns) (tl ss) | _ => [] end).

(** All but the digits at the end is read. *)
Lemma number_opens n d : TokSpec.numeral_ok n -> idle d -> exists d' P D st,
  TokSpec.written n = P ++ D /\ Forall TokSpec.digit D /\ at_number d' P st /\
  leads (TokSpec.written n) d (map TError (early n)) (TokSpec.written n) d' /\
  if plain n then st = mkNum Plus (0, 1) (0, 0) Plus (0, 0) else lacks st = true.
Proof.
  intros OK ID. destruct n as [S I fr ex]. destruct OK as (FS & FI & NE & FF & FX).
  unfold plain, early, TokSpec.written in *. cbn [TokSpec.n_signs TokSpec.n_int TokSpec.n_frac TokSpec.n_exp] in *.
  set (E1 := match S with [] => [] | c :: _ => _ end). set (E2 := match S with _ :: _ :: _ => _ | _ => _ end).
  set (rest := TokSpec.frac_text fr ++ TokSpec.exp_text ex). set (buf := S ++ I ++ rest).
  destruct (starts S I rest d ID FS FI NE) as (d1 & I1 & I2 & j & EI & EJ & A1 & L1). cbv zeta in L1. fold buf in L1. fold E1 E2 in L1.
  assert (W1 : wf buf d1) by (apply L1, idle_wf, ID).
  assert (NE1 : S ++ I1 <> []).
  { destruct A1 as (SD1 & ID1 & DN1). unfold wf in W1. rewrite DN1 in W1. unfold inv in W1. rewrite SD1 in W1.
    intros Z. rewrite Z in ID1. cbn in ID1. lia. }
  assert (F2 : Forall TokSpec.digit I2) by (rewrite EI in FI; apply Forall_app in FI; apply FI).
  assert (BI : forall x y, rest = x :: y -> buf = (S ++ I1) ++ I2 ++ x :: y).
  { intros x y Q. unfold buf. rewrite EI, Q, <- !app_assoc. reflexivity. }
  assert (LI : length I = length I1 + length I2) by (rewrite EI; apply app_length).
  assert (EXP : forall d3 X el ss ds f, ex = Some (el, ss, ds) -> leads buf d1 [] buf d3 ->
    buf = (X ++ ss) ++ ds -> frac_at_end S I X f -> at_number d3 X (int_n S I Plus f (length X, length X)) ->
    exists d' P D st, buf = P ++ D /\ Forall TokSpec.digit D /\ at_number d' P st /\
      leads buf d (map TError (E1 ++ E2 ++ map (fun _ => NumberMultipleSigns) (tl ss))) buf d' /\ lacks st = true).
  { intros d3 X el ss ds f -> L3 BX FE A3. destruct (FX el ss ds eq_refl) as (EL & FSS & FDS).
    destruct (exp_signs ss buf d3 S I X [] ds f) as (d4 & L4 & A4); [rewrite app_nil_r, app_assoc; exact BX|exact FE|exact FSS| |].
    { rewrite app_nil_r. unfold exp_n. rewrite app_nil_r. exact A3. }
    cbn [app] in A4. exists d4, (X ++ ss), ds. eexists. split; [exact BX|]. split; [exact FDS|]. split; [exact A4|]. split.
    - rewrite app_assoc, map_app. eapply leads_trans; [exact L1|]. exact (leads_trans _ _ _ _ _ _ _ _ L3 L4).
    - unfold lacks, exp_n, int_n. cbn [n_exp n_frac n_int fst snd].
      assert (1 <= length X) by (destruct FE as [[_ Z]|Z]; lia).
      rewrite (proj2 (Nat.eqb_neq (length (X ++ ss)) 0)) by (rewrite app_length; lia). rewrite Nat.leb_refl. apply orb_true_r. }
  destruct fr as [D|]; [|destruct ex as [[[el ss] ds]|]].
  - cbn [TokSpec.frac_text] in *. pose proof (FF D eq_refl) as FD.
    destruct (int_point buf d1 S I1 I2 j 0x2e%N (D ++ TokSpec.exp_text ex)) as (d2 & L2 & A2);
      [apply BI; reflexivity|exact A1|exact F2|unfold TokSpec.digit; lia|reflexivity|].
    rewrite <- EI in A2. set (Q := S ++ I ++ [0x2e%N]) in *.
    assert (LQ : length Q = length S + length I + 1) by (unfold Q; rewrite !app_length; cbn; lia).
    replace (length (S ++ I1) + length I2 + 1) with (length Q) in A2 by (rewrite LQ, LI, app_length; lia).
    assert (BQ : buf = Q ++ D ++ TokSpec.exp_text ex).
    { unfold buf, rest, Q. cbn. rewrite <- !app_assoc. reflexivity. }
    destruct ex as [[[el ss] ds]|].
    + destruct (FX el ss ds eq_refl) as (EL & FSS & FDS). cbn [TokSpec.exp_text] in *.
      destruct (frac_exp buf d2 S I Q D el (ss ++ ds)) as (d3 & L3 & A3);
        [exact BQ|exact LQ|exact A2|exact FD|unfold TokSpec.digit; lia|exact EL|].
      set (X := Q ++ D ++ [el]) in *. assert (LX : length X = length Q + length D + 1) by (unfold X; rewrite !app_length; cbn; lia).
      destruct (EXP d3 X el ss ds (length Q, length Q + length D)) as (d' & P & D' & st & R); [reflexivity| | | | |].
      * exact (leads_trans _ _ _ _ _ _ _ _ L2 L3).
      * rewrite BQ. unfold X. rewrite <- !app_assoc. reflexivity.
      * right. cbn. lia.
      * rewrite LX. exact A3.
      * exists d', P, D', st. destruct S; exact R.
    + cbn [TokSpec.exp_text] in *. exists d2, Q, D. eexists. split; [rewrite BQ, app_nil_r; reflexivity|]. split; [exact FD|].
      split; [exact A2|]. split.
      * rewrite app_nil_r. rewrite <- (app_nil_r (map TError _)). eapply leads_trans; [exact L1|exact L2].
      * assert (K : lacks (int_n S I Plus (length Q, length Q) (0, 0)) = true).
        { unfold lacks, int_n. cbn [n_exp n_frac n_int fst snd]. rewrite (proj2 (Nat.eqb_neq (length Q) 0)) by lia.
          rewrite Nat.leb_refl, orb_true_r. reflexivity. }
        destruct S; exact K.
  - destruct (FX el ss ds eq_refl) as (EL & FSS & FDS). cbn [TokSpec.exp_text TokSpec.frac_text app] in *.
    destruct (int_exp buf d1 S I1 I2 j el (ss ++ ds)) as (d3 & L3 & A3);
      [apply BI; reflexivity|exact A1|exact F2|unfold TokSpec.digit; lia|exact NE1|exact EL|].
    rewrite <- EI in A3. set (X := S ++ I ++ [el]) in *.
    assert (LX : length X = length S + length I + 1) by (unfold X; rewrite !app_length; cbn; lia).
    replace (length (S ++ I1) + length I2 + 1) with (length X) in A3 by (rewrite LX, LI, app_length; lia).
    destruct (EXP d3 X el ss ds (0, 0)) as (d' & P & D' & st & R); [reflexivity|exact L3| | |exact A3|].
    + unfold buf, rest, X. rewrite <- !app_assoc. reflexivity.
    + left. split; [reflexivity|exact LX].
    + exists d', P, D', st. destruct S; exact R.
  - cbn [TokSpec.exp_text TokSpec.frac_text app] in *. exists d1, (S ++ I1), I2. eexists.
    split; [unfold buf, rest; rewrite app_nil_r, EI, <- !app_assoc; reflexivity|]. split; [exact F2|]. split; [exact A1|]. split.
    + rewrite app_nil_r. exact L1.
    + subst j. destruct S as [|c S]; [reflexivity|]. unfold lacks. cbn [n_exp n_frac n_int fst snd length].
      replace (Nat.max 1 (Datatypes.S (length S))) with (Datatypes.S (length S)) by lia. rewrite Nat.leb_refl. reflexivity.
Qed.

(** The digits at the end are read, and then more is asked for. *)
Lemma number_waits buf d P D st : buf = P ++ D -> Forall TokSpec.digit D -> at_number d P st ->
  canon buf d [] (mkMore (length buf + 1) None, buf, set_idx d (length buf)).
Proof.
  intros -> F (SD & ID & DN). eapply canon_end.
  assert (LE : Nat.max (idx d) (length (P ++ D)) = length (P ++ D)) by (rewrite ID, app_length; lia).
  pose proof (st_more (P ++ D) d None (fun _ c => is_digit c) (number st)) as X. rewrite LE in X.
  eapply pop_more; [apply clear_none, DN|]. apply X.
  - rewrite SD. reflexivity.
  - split; [|exact I]. rewrite LE, ID, app_length. rewrite <- (app_nil_r D) at 1. apply run_mid.
    intros i y _ Hy. apply digit_iff. apply (proj1 (Forall_forall _ _) F y Hy).
Qed.

(** What [complete] says about it. *)
Lemma number_completes v vs buf d P D st : buf = P ++ D -> P <> [] -> at_number d P st -> wf buf d -> Forall honest (v :: vs) ->
  completes (v :: vs) buf (set_idx d (length buf)) =
    if lacks st then match vs with [] => Ok [Some (TError NumberRangeEmpty)] | _ => Panic end
    else Ok (Some (num_token buf st) :: map (fun _ => None) vs).
Proof.
  intros B NE (SD & ID & DN) W HV. pose proof (Forall_inv HV) as H1. pose proof (Forall_inv_tail HV) as H2.
  assert (RN : raise_number buf st = Ok (num_token buf st)).
  { unfold wf in W. rewrite DN in W. unfold inv in W. rewrite SD in W. destruct W as (LI & NO & _).
    apply (raise_number_ok buf _ _ (idx d)); [exists []; rewrite app_nil_r; reflexivity|exact NO|lia]. }
  cbn [completes]. unfold complete at 1. rewrite clear_none by exact DN. cbn [bind state set_idx idx].
  rewrite SD, (whole v buf H1). unfold number_done. cbn [state set_idx]. rewrite SD. fold (lacks st). destruct (lacks st).
  - cbn [bind]. destruct vs as [|v2 vs]; [reflexivity|]. pose proof (Forall_inv H2) as H3. cbn [completes].
    unfold complete at 1. rewrite clear_none by exact DN. cbn [bind state set_state idx set_idx]. rewrite (whole v2 buf H3). reflexivity.
  - rewrite RN. cbn [bind]. destruct vs as [|v2 vs]; [reflexivity|]. cbn [completes]. unfold complete at 1, clear_done. cbn [done set_done idx set_idx].
    unfold read_advance. rewrite Nat.leb_refl. cbn [bind state]. rewrite skipn_all. cbn [read_map length Nat.leb bind].
    rewrite nothing by reflexivity. reflexivity.
Qed.
