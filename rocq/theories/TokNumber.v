(** Proofs about the streaming JSON tokenizer: numbers, and all lexemes. *)
From Verif Require Import Base StreamSpec StreamModel StreamProofs TokModel TokProofs TokSafe TokSession TokLex TokString.
From Verif Require TokSpec.
Local Open Scope res_scope.

Lemma number_leads buf d n P D c r d' t : buf = P ++ D ++ c :: r -> state d = SNumber n -> idx d = length P -> done d = None ->
  Forall TokSpec.digit D -> ~ TokSpec.digit c -> number n (set_idx d (length P + length D)) buf = Ok (d', t) ->
  leads buf d (opt t) buf d'.
Proof.
  intros B SD ID DN F NC E. eapply leads_found; [exact DN|rewrite SD; reflexivity| |exact E].
  rewrite ID, B. apply ends_mid.
  - intros i y Hy. apply digit_iff. apply (proj1 (Forall_forall _ _) F y Hy).
  - exact I.
  - apply not_true. intros H. apply NC, digit_iff, H.
Qed.

(** The number is over. *)
Definition lacks (n : num) : bool :=
  (snd (n_int n) <=? fst (n_int n))
  || negb (fst (n_frac n) =? 0) && (snd (n_frac n) <=? fst (n_frac n))
  || negb (fst (n_exp n) =? 0) && (snd (n_exp n) <=? fst (n_exp n)).
Lemma finish_leads buf d n P D c r nf : buf = P ++ D ++ c :: r -> state d = SNumber n -> idx d = length P -> done d = None ->
  Forall TokSpec.digit D -> ~ TokSpec.digit c -> wf buf d -> fst (extend n (length P + length D)) = nf ->
  number n (set_idx d (length P + length D)) buf =
    number_ends (set_state (set_idx d (length P + length D)) (SNumber nf)) buf ->
  exists d', leads buf d ((if lacks nf then [TError NumberRangeEmpty] else []) ++ [num_token (P ++ D) nf]) buf d' /\
    done d' = Some (length (P ++ D)).
Proof.
  intros B SD ID DN F NC W EX E. set (e := length P + length D) in *.
  assert (LE : e = length (P ++ D)) by (unfold e; rewrite app_length; reflexivity).
  assert (BE : buf = (P ++ D) ++ c :: r) by (rewrite B, app_assoc; reflexivity).
  assert (LB : e < length buf) by (rewrite BE, app_length, <- LE; cbn; lia).
  assert (OK : num_ok buf nf e).
  { unfold wf in W. rewrite DN in W. unfold inv in W. rewrite SD in W. destruct W as (L & NO & R).
    assert (R2 : run digit_p buf (idx d) e).
    { rewrite ID, B. apply run_mid. intros i y _ Hy. apply digit_iff. apply (proj1 (Forall_forall _ _) F y Hy). }
    pose proof (extend_ok buf n (idx d) e NO R R2 ltac:(rewrite ID; unfold e; lia)) as X.
    destruct (extend n e) as [n' r']. cbn in EX. subst n'. apply X. }
  assert (PT : part buf 0 e = Ok (P ++ D)) by (rewrite BE, LE; apply part_front).
  assert (RN : raise_number (P ++ D) nf = Ok (num_token (P ++ D) nf)).
  { apply (raise_number_ok buf _ _ e); [exists (c :: r); exact BE|exact OK|lia]. }
  set (d1 := set_state (set_idx d e) (SNumber nf)) in *.
  unfold number_ends in E. change (idx d1) with e in E. rewrite PT in E. cbn [bind] in E.
  unfold number_done in E. cbn [state d1 set_state] in E. fold (lacks nf) in E.
  destruct (lacks nf) eqn:LK.
  - cbn [bind] in E. pose proof (number_leads buf d n P D c r _ _ B SD ID DN F NC E) as L1.
    set (d2 := set_state d1 (SNumberDone nf)) in *.
    exists (set_done d2 (length (P ++ D))). split; [|reflexivity].
    eapply leads_trans; [exact L1|]. rewrite <- LE. apply (leads_step buf d2 _ (Some _)); [exact DN|].
    apply (st_again buf d2 nf); [reflexivity|]. unfold number_again. cbn [idx set_done]. change (idx d2) with e. rewrite PT. cbn [bind]. rewrite RN. reflexivity.
  - cbv iota in E. rewrite RN in E. cbn [bind] in E. pose proof (number_leads buf d n P D c r _ _ B SD ID DN F NC E) as L1.
    eexists. split; [exact L1|]. cbn. rewrite LE. reflexivity.
Qed.

(** ** The stages *)

Definition at_number (d : dec) (P : list N) (n : num) : Prop := state d = SNumber n /\ idx d = length P /\ done d = None.

Lemma sign_of_snoc ss c : TokSpec.sign_of (ss ++ [c]) = if (c =? 0x2d)%N then Minus else Plus.
Proof.
  induction ss as [|x ss IH]; [reflexivity|]. cbn [app TokSpec.sign_of]. destruct (ss ++ [c]) eqn:E; [destruct ss; discriminate|exact IH].
Qed.
Lemma range_eqb_false a b : fst a <> fst b \/ snd a <> snd b -> range_eqb a b = false.
Proof. intros H. unfold range_eqb. apply andb_false_iff. destruct H; [left|right]; apply Nat.eqb_neq; assumption. Qed.
Lemma range_eqb_refl a : range_eqb a a = true.
Proof. unfold range_eqb. rewrite !Nat.eqb_refl. reflexivity. Qed.
Lemma sign_not_digit c : TokSpec.sign_char c -> ~ TokSpec.digit c.
Proof. unfold TokSpec.sign_char, TokSpec.digit. lia. Qed.
Lemma sign_true c : TokSpec.sign_char c -> ((c =? 0x2b) || (c =? 0x2d))%N = true.
Proof. unfold TokSpec.sign_char. lia. Qed.
Lemma sign_value c : TokSpec.sign_char c -> (if (c =? 0x2b)%N then Plus else Minus) = (if (c =? 0x2d)%N then Minus else Plus).
Proof. intros [ -> | -> ]; reflexivity. Qed.

(** Signs in front. *)
Definition signed (S : list N) : num := mkNum (TokSpec.sign_of S) (length S, length S) (0, 0) Plus (0, 0).
Lemma lead_sign buf d S c r : buf = S ++ c :: r -> S <> [] -> TokSpec.sign_char c -> at_number d S (signed S) ->
  exists d', leads buf d (map TError (if length S =? 1 then [NumberMultipleSigns] else [])) buf d' /\ at_number d' (S ++ [c]) (signed (S ++ [c])).
Proof.
  intros B NE SC (SD & ID & DN). destruct S as [|s0 S']; [congruence|]. set (S := s0 :: S') in *.
  assert (LS : 1 <= length S) by (cbn; lia).
  set (i := length S + 1).
  exists (set_idx (set_state d (SNumber (signed (S ++ [c])))) i). split.
  - assert (X : number (signed S) (set_idx d (length S + 0)) buf =
      Ok (set_idx (set_state d (SNumber (signed (S ++ [c])))) i, if i <=? 2 then Some (TError NumberMultipleSigns) else None)).
    { unfold number, extend, signed. cbn [n_exp n_frac n_int n_sign n_esign fst snd]. cbn [Nat.eqb negb idx set_idx set_state].
      rewrite Nat.add_0_r. rewrite (at_ok buf (length S) c) by (rewrite B; apply nth_mid). cbn [bind].
      rewrite sign_true by exact SC. rewrite range_eqb_refl, Nat.leb_refl. cbn [andb].
      rewrite sign_of_snoc, sign_value by exact SC. rewrite app_length. cbn [length]. reflexivity. }
    pose proof (number_leads buf d (signed S) S [] c r _ _ B SD ID DN (Forall_nil _) (sign_not_digit c SC) X) as L.
    replace (map TError (if length S =? 1 then [NumberMultipleSigns] else [])) with (opt (if i <=? 2 then Some (TError NumberMultipleSigns) else None)); [exact L|].
    unfold i. destruct (Nat.eqb_spec (length S) 1) as [Q|Q].
    + rewrite Q. reflexivity.
    + rewrite (proj2 (Nat.leb_gt _ _)) by lia. reflexivity.
  - unfold at_number. cbn [state idx done set_idx set_state]. rewrite app_length. repeat split. exact DN.
Qed.
Lemma lead_signs ss : forall buf d S r, buf = S ++ ss ++ r -> S <> [] -> Forall TokSpec.sign_char ss -> at_number d S (signed S) ->
  exists d', leads buf d (map TError (if length S =? 1 then match ss with [] => [] | _ => [NumberMultipleSigns] end else [])) buf d' /\
    at_number d' (S ++ ss) (signed (S ++ ss)).
Proof.
  induction ss as [|c ss IH]; intros buf d S r B NE F A.
  - exists d. rewrite app_nil_r. split; [destruct (length S =? 1); apply leads_refl|exact A].
  - inversion F as [|? ? SC F']; subst.
    destruct (lead_sign _ d S c (ss ++ r) eq_refl NE SC A) as (d1 & L1 & A1).
    destruct (IH (S ++ c :: ss ++ r) d1 (S ++ [c]) r) as (d2 & L2 & A2); [rewrite <- app_assoc; reflexivity|destruct S; discriminate|exact F'|exact A1|].
    exists d2. split; [|rewrite <- app_assoc in A2; exact A2].
    replace (length (S ++ [c]) =? 1) with false in L2 by (symmetry; apply Nat.eqb_neq; rewrite app_length; destruct S; [congruence|cbn; lia]).
    pose proof (leads_trans _ _ _ _ _ _ _ _ L1 L2) as L. cbn [map] in L. rewrite app_nil_r in L. exact L.
Qed.
(** The beginning: signs or a digit. *)
Lemma starts S I rest d : idle d -> Forall TokSpec.sign_char S -> Forall TokSpec.digit I -> (S = [] -> I <> []) ->
  let buf := S ++ I ++ rest in
  exists d' I1 I2 j, I = I1 ++ I2 /\ j = Nat.max 1 (length S) /\ at_number d' (S ++ I1) (mkNum (TokSpec.sign_of S) (length S, j) (0, 0) Plus (0, 0)) /\
    leads buf d (map TError ((match S with c :: _ => if (c =? 0x2b)%N then [NumberLeadingPlus] else [] | [] => [] end) ++
      (match S with _ :: _ :: _ => [NumberMultipleSigns] | _ => [] end))) buf d'.
Proof.
  intros ID FS FI NE buf. pose proof ID as (DN & SD & AC). destruct S as [|c S].
  - destruct I as [|c I]; [exfalso; apply NE; reflexivity|]. inversion FI as [|? ? DC FI']; subst.
    exists (begin d (SNumber (mkNum Plus (0, 1) (0, 0) Plus (0, 0)))), [c], I, 1. split; [reflexivity|]. split; [reflexivity|]. split.
    + split; [reflexivity|]. split; [reflexivity|exact DN].
    + cbn [app map]. apply (start_step buf d _ None ID). unfold start, buf. cbn [app at_ nth_error bind].
      unfold TokSpec.digit in DC.
      replace (is_ws c) with false by (unfold is_ws; lia).
      repeat match goal with |- context[(c =? ?k)%N] => replace (c =? k)%N with false by lia end. cbn [orb].
      replace ((0x30 <=? c) && (c <=? 0x39))%N with true by lia. reflexivity.
  - inversion FS as [|? ? SC FS']; subst.
    assert (L1 : leads buf d (map TError (if (c =? 0x2b)%N then [NumberLeadingPlus] else [])) buf (begin d (SNumber (signed [c])))).
    { replace (map TError (if (c =? 0x2b)%N then [NumberLeadingPlus] else [])) with
        (opt (if (c =? 0x2b)%N then Some (TError NumberLeadingPlus) else None)) by (destruct (c =? 0x2b)%N; reflexivity).
      apply (start_step buf d _ _ ID). unfold start, buf. cbn [app at_ nth_error bind].
      destruct SC as [ -> | -> ]; reflexivity. }
    destruct (lead_signs S buf (begin d (SNumber (signed [c]))) [c] (I ++ rest)) as (d2 & L2 & A2); [reflexivity|discriminate|exact FS'| |].
    { split; [reflexivity|]. split; [reflexivity|exact DN]. }
    exists d2, [], I, (length (c :: S)). split; [reflexivity|]. split; [cbn [length]; lia|]. rewrite app_nil_r. split; [exact A2|].
    rewrite map_app. eapply leads_trans; [exact L1|]. cbn [length Nat.eqb] in L2. exact L2.
Qed.

(** Behind the digits of the integer part. *)
Definition int_n (S I : list N) (esign : Sign) (f e : range) : num :=
  mkNum (TokSpec.sign_of S) (length S, length S + length I) f esign e.
Section Int.
Context (buf : list N) (d : dec) (S I1 I2 : list N) (j : nat) (c : N) (r : list N).
Context (B : buf = (S ++ I1) ++ I2 ++ c :: r)
  (A : at_number d (S ++ I1) (mkNum (TokSpec.sign_of S) (length S, j) (0, 0) Plus (0, 0)))
  (F : Forall TokSpec.digit I2) (NC : ~ TokSpec.digit c) (NE : S ++ I1 <> []).
Let e := length (S ++ I1) + length I2.
Let nf := int_n S (I1 ++ I2) Plus (0, 0) (0, 0).
Lemma int_extend : extend (mkNum (TokSpec.sign_of S) (length S, j) (0, 0) Plus (0, 0)) e = (nf, n_int nf).
Proof.
  unfold extend, nf, int_n, e. cbn [n_exp n_frac n_int n_sign n_esign fst snd Nat.eqb negb].
  rewrite !app_length. replace (length S + length I1 + length I2) with (length S + (length I1 + length I2)) by lia. reflexivity.
Qed.
Lemma int_at : at_ buf e = Ok c.
Proof. apply at_ok. rewrite B, app_assoc. unfold e. rewrite <- app_length. apply nth_mid. Qed.
Lemma int_pos : 1 <= e.
Proof. unfold e. destruct (S ++ I1); [congruence|cbn; lia]. Qed.
Lemma int_e : e = length S + length (I1 ++ I2).
Proof. unfold e. rewrite !app_length. lia. Qed.
Lemma int_point : c = 0x2e%N -> exists d', leads buf d [] buf d' /\
  at_number d' (S ++ (I1 ++ I2) ++ [c]) (int_n S (I1 ++ I2) Plus (e + 1, e + 1) (0, 0)).
Proof.
  intros EC. destruct A as (SD & ID & DN).
  exists (set_idx (set_state d (SNumber (int_n S (I1 ++ I2) Plus (e + 1, e + 1) (0, 0)))) (e + 1)). split.
  - eapply (number_leads buf d _ (S ++ I1) I2 _ r _ None B SD ID DN F NC). fold e. unfold number.
    cbn [idx set_idx set_state]. rewrite int_extend. cbn [idx set_idx set_state]. rewrite int_at. cbn [bind]. rewrite EC.
    rewrite range_eqb_refl. reflexivity.
  - split; [reflexivity|]. split; [|exact DN]. cbn [idx set_idx]. rewrite int_e, !app_length. cbn. lia.
Qed.
Lemma int_exp : c = 0x65%N \/ c = 0x45%N -> exists d', leads buf d [] buf d' /\
  at_number d' (S ++ (I1 ++ I2) ++ [c]) (int_n S (I1 ++ I2) Plus (0, 0) (e + 1, e + 1)).
Proof.
  intros EC. destruct A as (SD & ID & DN). pose proof int_pos as EP.
  exists (set_idx (set_state d (SNumber (int_n S (I1 ++ I2) Plus (0, 0) (e + 1, e + 1)))) (e + 1)). split.
  - eapply (number_leads buf d _ (S ++ I1) I2 _ r _ None B SD ID DN F NC). fold e. unfold number.
    cbn [idx set_idx set_state]. rewrite int_extend. cbn [idx set_idx set_state]. rewrite int_at. cbn [bind].
    replace ((c =? 0x2b) || (c =? 0x2d))%N with false by lia. replace (c =? 0x2e)%N with false by lia.
    replace ((c =? 0x65) || (c =? 0x45))%N with true by lia.
    rewrite (range_eqb_false (n_int nf)) by (right; cbn; rewrite <- int_e; lia). reflexivity.
  - split; [reflexivity|]. split; [|exact DN]. cbn [idx set_idx]. rewrite int_e, !app_length. cbn. lia.
Qed.
Lemma int_over : c <> 0x2e%N -> c <> 0x65%N -> c <> 0x45%N -> (TokSpec.sign_char c -> I1 ++ I2 <> []) -> wf buf d ->
  exists d', leads buf d ((if lacks nf then [TError NumberRangeEmpty] else []) ++ [num_token (S ++ I1 ++ I2) nf]) buf d' /\
    done d' = Some (length (S ++ I1 ++ I2)).
Proof.
  intros C1 C2 C3 C4 W. destruct A as (SD & ID & DN). pose proof int_pos as EP. rewrite (app_assoc S I1 I2).
  apply (finish_leads buf d _ (S ++ I1) I2 c r nf B SD ID DN F NC W); [fold e; rewrite int_extend; reflexivity|].
  fold e. unfold number. cbn [idx set_idx set_state]. rewrite int_extend. cbn [idx set_idx set_state]. rewrite int_at. cbn [bind].
  rewrite (proj2 (N.eqb_neq c 0x2e) C1), (proj2 (N.eqb_neq c 0x65) C2), (proj2 (N.eqb_neq c 0x45) C3).
  destruct ((c =? 0x2b) || (c =? 0x2d))%N eqn:SG; [|reflexivity].
  assert (NI : I1 ++ I2 <> []) by (apply C4; unfold TokSpec.sign_char; lia).
  rewrite range_eqb_refl. cbn [n_int nf int_n fst snd].
  rewrite (proj2 (Nat.leb_gt _ _)) by (destruct (I1 ++ I2); [congruence|cbn; lia]). cbn [andb].
  rewrite (range_eqb_false (n_int nf)) by (right; cbn; rewrite <- int_e; lia). reflexivity.
Qed.
End Int.

(** Behind the digits of the fraction: [Q] is the text up to the point. *)
Section Frac.
Context (buf : list N) (d : dec) (S I Q D : list N) (c : N) (r : list N).
Context (B : buf = Q ++ D ++ c :: r) (LQ : length Q = length S + length I + 1)
  (A : at_number d Q (int_n S I Plus (length Q, length Q) (0, 0)))
  (F : Forall TokSpec.digit D) (NC : ~ TokSpec.digit c).
Let e := length Q + length D.
Let nf := int_n S I Plus (length Q, e) (0, 0).
Lemma frac_extend : extend (int_n S I Plus (length Q, length Q) (0, 0)) e = (nf, n_frac nf).
Proof.
  unfold extend, nf, int_n. cbn [n_exp n_frac n_int n_sign n_esign fst snd Nat.eqb negb].
  rewrite (proj2 (Nat.eqb_neq _ _)) by lia. reflexivity.
Qed.
Lemma frac_at : at_ buf e = Ok c.
Proof. apply at_ok. rewrite B, app_assoc. unfold e. rewrite <- app_length. apply nth_mid. Qed.
Lemma frac_exp : c = 0x65%N \/ c = 0x45%N -> exists d', leads buf d [] buf d' /\
  at_number d' (Q ++ D ++ [c]) (int_n S I Plus (length Q, e) (e + 1, e + 1)).
Proof.
  intros EC. destruct A as (SD & ID & DN).
  exists (set_idx (set_state d (SNumber (int_n S I Plus (length Q, e) (e + 1, e + 1)))) (e + 1)). split.
  - eapply (number_leads buf d _ Q D _ r _ None B SD ID DN F NC). fold e. unfold number.
    cbn [idx set_idx set_state]. rewrite frac_extend. cbn [idx set_idx set_state]. rewrite frac_at. cbn [bind].
    replace ((c =? 0x2b) || (c =? 0x2d))%N with false by lia. replace (c =? 0x2e)%N with false by lia.
    replace ((c =? 0x65) || (c =? 0x45))%N with true by lia.
    rewrite (range_eqb_false (n_frac nf)) by (left; cbn; lia). reflexivity.
  - split; [reflexivity|]. split; [|exact DN]. cbn [idx set_idx]. unfold e. rewrite !app_length. cbn. lia.
Qed.
Lemma frac_over : c <> 0x65%N -> c <> 0x45%N -> wf buf d ->
  exists d', leads buf d ((if lacks nf then [TError NumberRangeEmpty] else []) ++ [num_token (Q ++ D) nf]) buf d' /\
    done d' = Some (length (Q ++ D)).
Proof.
  intros C2 C3 W. destruct A as (SD & ID & DN).
  apply (finish_leads buf d _ Q D c r nf B SD ID DN F NC W); [fold e; rewrite frac_extend; reflexivity|].
  fold e. unfold number. cbn [idx set_idx set_state]. rewrite frac_extend. cbn [idx set_idx set_state]. rewrite frac_at. cbn [bind].
  rewrite (proj2 (N.eqb_neq c 0x65) C2), (proj2 (N.eqb_neq c 0x45) C3).
  rewrite (range_eqb_false (n_frac nf) (n_int nf)) by (left; cbn; lia).
  rewrite (range_eqb_false (n_frac nf) (n_exp nf)) by (left; cbn; lia). cbn [andb orb].
  destruct ((c =? 0x2b) || (c =? 0x2d))%N; [reflexivity|]. destruct (c =? 0x2e)%N; reflexivity.
Qed.
End Frac.

(** The exponent: [Q] is the text up to the letter, [f] the fraction. *)
Definition exp_n (S I ss Q : list N) (f : range) : num := int_n S I (TokSpec.sign_of ss) f (length (Q ++ ss), length (Q ++ ss)).
Definition frac_at_end (S I Q : list N) (f : range) : Prop :=
  (f = (0, 0) /\ length Q = length S + length I + 1) \/
  (fst f <> 0 /\ length S + length I < fst f /\ fst f <= snd f /\ length Q = snd f + 1).
Lemma exp_sign buf d S I Q ss c r f : buf = (Q ++ ss) ++ c :: r -> frac_at_end S I Q f -> TokSpec.sign_char c ->
  at_number d (Q ++ ss) (exp_n S I ss Q f) ->
  exists d', leads buf d (map TError (match ss with [] => [] | _ => [NumberMultipleSigns] end)) buf d' /\
    at_number d' (Q ++ ss ++ [c]) (exp_n S I (ss ++ [c]) Q f).
Proof.
  intros B FE SC (SD & ID & DN). set (x := length (Q ++ ss)) in *.
  assert (LX : x = length Q + length ss) by apply app_length.
  assert (XP : length S + length I < x) by (destruct FE as [[_ L]|(_ & L1 & L2 & L)]; lia).
  exists (set_idx (set_state d (SNumber (exp_n S I (ss ++ [c]) Q f))) (x + 1)). split.
  - assert (X : number (exp_n S I ss Q f) (set_idx d (x + 0)) buf =
      Ok (set_idx (set_state d (SNumber (exp_n S I (ss ++ [c]) Q f))) (x + 1),
          match ss with [] => None | _ => Some (TError NumberMultipleSigns) end)).
    { unfold number, extend, exp_n, int_n. cbn [n_exp n_frac n_int n_sign n_esign fst snd].
      fold x. rewrite (proj2 (Nat.eqb_neq x 0)) by lia. cbn [negb idx set_idx set_state n_exp n_frac n_int n_sign n_esign fst snd].
      rewrite Nat.add_0_r. rewrite (at_ok buf x c) by (rewrite B; apply nth_mid). cbn [bind].
      rewrite sign_true by exact SC. rewrite (range_eqb_false (x, x)) by (left; cbn; lia). rewrite range_eqb_refl, Nat.leb_refl. cbn [andb].
      rewrite sign_of_snoc, sign_value by exact SC.
      replace (length (Q ++ ss ++ [c])) with (x + 1) by (rewrite LX, !app_length; cbn; lia).
      f_equal. f_equal. destruct ss as [|s0 ss].
      - destruct FE as [[-> L]|(_ & L1 & L2 & L)]; cbn [snd].
        + rewrite (proj2 (Nat.eqb_eq (x + 1) (length S + length I + 2))) by (cbn in LX; lia). rewrite andb_false_r. reflexivity.
        + rewrite (proj2 (Nat.eqb_eq (x + 1) (snd f + 2))) by (cbn in LX; lia). reflexivity.
      - cbn [length] in LX. rewrite (proj2 (Nat.eqb_neq (x + 1) (snd f + 2))), (proj2 (Nat.eqb_neq (x + 1) (length S + length I + 2)));
          [reflexivity|destruct FE as [[-> L]|(_ & L1 & L2 & L)]; cbn [snd]; lia..]. }
    pose proof (number_leads buf d _ (Q ++ ss) [] c r _ _ B SD ID DN (Forall_nil _) (sign_not_digit c SC) X) as L.
    destruct ss; exact L.
  - split; [reflexivity|]. split; [|exact DN]. cbn [idx set_idx]. rewrite LX, !app_length. cbn. lia.
Qed.
Lemma exp_signs more : forall buf d S I Q ss r f, buf = (Q ++ ss) ++ more ++ r -> frac_at_end S I Q f -> Forall TokSpec.sign_char more ->
  at_number d (Q ++ ss) (exp_n S I ss Q f) ->
  exists d', leads buf d (map TError (map (fun _ => NumberMultipleSigns) (match ss with [] => tl more | _ => more end))) buf d' /\
    at_number d' (Q ++ ss ++ more) (exp_n S I (ss ++ more) Q f).
Proof.
  induction more as [|c more IH]; intros buf d S I Q ss r f B FE F A.
  - exists d. rewrite app_nil_r. split; [destruct ss; apply leads_refl|exact A].
  - inversion F as [|? ? SC F']; subst.
    destruct (exp_sign _ d S I Q ss c (more ++ r) f eq_refl FE SC A) as (d1 & L1 & A1).
    destruct (IH ((Q ++ ss) ++ c :: more ++ r) d1 S I Q (ss ++ [c]) r f) as (d2 & L2 & A2);
      [rewrite <- !app_assoc; reflexivity|exact FE|exact F'|exact A1|].
    exists d2. rewrite <- !app_assoc in A2. split; [|exact A2].
    replace (match ss ++ [c] with [] => tl more | _ => more end) with more in L2 by (destruct ss; reflexivity).
    pose proof (leads_trans _ _ _ _ _ _ _ _ L1 L2) as L. destruct ss; exact L.
Qed.
Lemma exp_over buf d S I Q ss D c r f : buf = (Q ++ ss) ++ D ++ c :: r -> frac_at_end S I Q f ->
  at_number d (Q ++ ss) (exp_n S I ss Q f) -> Forall TokSpec.digit D -> ~ TokSpec.digit c -> (TokSpec.sign_char c -> D <> []) -> wf buf d ->
  let nf := int_n S I (TokSpec.sign_of ss) f (length (Q ++ ss), length (Q ++ ss) + length D) in
  exists d', leads buf d ((if lacks nf then [TError NumberRangeEmpty] else []) ++ [num_token ((Q ++ ss) ++ D) nf]) buf d' /\
    done d' = Some (length ((Q ++ ss) ++ D)).
Proof.
  intros B FE (SD & ID & DN) F NC SGN W nf. set (x := length (Q ++ ss)) in *. set (e := x + length D).
  assert (LX : x = length Q + length ss) by apply app_length.
  assert (XP : length S + length I < x) by (destruct FE as [[_ L]|(_ & L1 & L2 & L)]; lia).
  assert (EX : extend (exp_n S I ss Q f) e = (nf, n_exp nf)).
  { unfold extend, exp_n, nf, int_n. cbn [n_exp n_frac n_int n_sign n_esign fst snd]. fold x.
    rewrite (proj2 (Nat.eqb_neq x 0)) by lia. reflexivity. }
  apply (finish_leads buf d _ (Q ++ ss) D c r nf B SD ID DN F NC W); [fold x; fold e; rewrite EX; reflexivity|].
  fold x. fold e. unfold number. cbn [idx set_idx set_state]. rewrite EX. cbn [idx set_idx set_state].
  rewrite (at_ok buf e c) by (rewrite B, app_assoc; unfold e, x; rewrite <- app_length; apply nth_mid). cbn [bind].
  rewrite (range_eqb_false (n_exp nf) (n_int nf)) by (left; cbn; lia). rewrite range_eqb_refl. cbn [andb negb].
  destruct ((c =? 0x2b) || (c =? 0x2d))%N eqn:SG.
  - assert (ND : D <> []) by (apply SGN; unfold TokSpec.sign_char; lia). cbn [n_exp nf int_n fst snd].
    rewrite (proj2 (Nat.leb_gt _ _)) by (destruct D; [congruence|cbn; lia]). reflexivity.
  - destruct (c =? 0x2e)%N; [reflexivity|]. destruct ((c =? 0x65) || (c =? 0x45))%N; reflexivity.
Qed.

(** ** Numbers *)

Lemma idle_wf buf d : idle d -> wf buf d.
Proof. intros (D & SD & _). unfold wf, inv. rewrite D, SD. exact I. Qed.
Lemma empty_len {A} (l : list A) n : (n + length l <=? n) = match l with [] => true | _ => false end.
Proof. destruct l; cbn; [apply Nat.leb_le; lia|apply Nat.leb_gt; lia]. Qed.
Lemma slice_at {A} (a b c : list A) i j : length a = i -> j = i + length b -> slice (a ++ b ++ c) i j = b.
Proof. intros <- ->. apply slice_mid. Qed.

Lemma number_consumes n next : TokSpec.numeral_ok n -> TokSpec.stops (TokSpec.continues n) next ->
  consumes (TokSpec.written n) (map TError (TokSpec.number_errors n) ++ [TNumber (TokSpec.number_of n)]) next.
Proof.
  intros OK (c & r & -> & STOP) d ID. destruct n as [S I fr ex]. destruct OK as (FS & FI & NE & FF & FX). cbn [TokSpec.n_signs TokSpec.n_int TokSpec.n_frac TokSpec.n_exp] in *.
  unfold TokSpec.continues in STOP. cbn [TokSpec.n_signs TokSpec.n_int TokSpec.n_frac TokSpec.n_exp] in STOP.
  assert (NC : ~ TokSpec.digit c) by tauto.
  unfold TokSpec.written, TokSpec.number_errors, TokSpec.number_of. cbn [TokSpec.n_signs TokSpec.n_int TokSpec.n_frac TokSpec.n_exp].
  set (raw := TokSpec.written _). set (E1 := match S with [] => [] | c :: _ => _ end). set (E2 := match S with _ :: _ :: _ => _ | _ => _ end).
  set (buf := (S ++ I ++ TokSpec.frac_text fr ++ TokSpec.exp_text ex) ++ c :: r).
  set (rest := (TokSpec.frac_text fr ++ TokSpec.exp_text ex) ++ c :: r).
  assert (B0 : buf = S ++ I ++ rest) by (unfold buf, rest; rewrite <- !app_assoc; reflexivity).
  destruct (starts S I rest d ID FS FI NE) as (d1 & I1 & I2 & j & EI & EJ & A1 & L1). cbv zeta in L1. rewrite <- B0 in L1. fold E1 E2 in L1.
  assert (W1 : wf buf d1) by (apply L1, idle_wf, ID).
  assert (NE1 : S ++ I1 <> []).
  { destruct A1 as (SD1 & ID1 & DN1). unfold wf in W1. rewrite DN1 in W1. unfold inv in W1. rewrite SD1 in W1.
    intros Z. rewrite Z in ID1. cbn in ID1. lia. }
  assert (F2 : Forall TokSpec.digit I2) by (rewrite EI in FI; apply Forall_app in FI; apply FI).
  assert (BI : forall x y, rest = x :: y -> buf = (S ++ I1) ++ I2 ++ x :: y) by (intros x y Q; rewrite B0, EI, Q, <- !app_assoc; reflexivity).
  (* put together *)
  assert (GO : forall es tok d', leads buf d1 (map TError es ++ [tok]) buf d' -> done d' = Some (length raw) ->
    exists d', leads buf d (map TError (E1 ++ E2 ++ es) ++ [tok]) buf d' /\ ready buf d' (c :: r)).
  { intros es tok d' L D. exists d'. split.
    - rewrite app_assoc, map_app, <- app_assoc. eapply leads_trans; [exact L1|exact L].
    - apply (ready_done raw (c :: r)), D. }
  assert (LI : length I = length I1 + length I2) by (rewrite EI; apply app_length).
  destruct fr as [D|]; [|destruct ex as [[[el ss] ds]|]].
  - (* fraction *)
    cbn [TokSpec.frac_text] in *. pose proof (FF D eq_refl) as FD.
    destruct (int_point buf d1 S I1 I2 j 0x2e%N (D ++ TokSpec.exp_text ex ++ c :: r)) as (d2 & L2 & A2);
      [apply BI; unfold rest; cbn; rewrite <- app_assoc; reflexivity|exact A1|exact F2|unfold TokSpec.digit; lia|reflexivity|].
    rewrite <- EI in A2. set (Q := S ++ I ++ [0x2e%N]) in *.
    assert (LQ : length Q = length S + length I + 1) by (unfold Q; rewrite !app_length; cbn; lia).
    replace (length (S ++ I1) + length I2 + 1) with (length Q) in A2 by (rewrite LQ, LI, app_length; lia).
    assert (W2 : wf buf d2) by (apply L2, W1).
    assert (BQ : forall x y, TokSpec.exp_text ex ++ c :: r = x :: y -> buf = Q ++ D ++ x :: y).
    { intros x y H. rewrite B0. unfold rest, Q. rewrite <- H. cbn. rewrite <- !app_assoc. reflexivity. }
    destruct ex as [[[el ss] ds]|].
    + destruct (FX el ss ds eq_refl) as (EL & FSS & FDS). cbn [TokSpec.exp_text] in *.
      destruct (frac_exp buf d2 S I Q D el ((ss ++ ds) ++ c :: r)) as (d3 & L3 & A3);
        [apply BQ; reflexivity|exact LQ|exact A2|exact FD|unfold TokSpec.digit; lia|exact EL|].
      set (X := Q ++ D ++ [el]) in *. assert (LX : length X = length Q + length D + 1) by (unfold X; rewrite !app_length; cbn; lia).
      set (f := (length Q, length Q + length D)) in *.
      assert (FE : frac_at_end S I X f) by (right; cbn; lia).
      assert (BX : buf = (X ++ []) ++ ss ++ ds ++ c :: r).
      { rewrite (BQ el ((ss ++ ds) ++ c :: r) eq_refl). unfold X. rewrite app_nil_r, <- !app_assoc. reflexivity. }
      destruct (exp_signs ss buf d3 S I X [] (ds ++ c :: r) f BX FE FSS) as (d4 & L4 & A4).
      { rewrite app_nil_r. unfold exp_n. rewrite app_nil_r, LX. exact A3. }
      cbn [app] in A4.
      destruct (exp_over buf d4 S I X ss ds c r f) as (d5 & L5 & D5); try assumption.
      { rewrite BX, app_nil_r, <- app_assoc. reflexivity. }
      { intros SC ->. apply STOP. right. auto. }
      { apply L4, L3, W2. }
      assert (RAW : (X ++ ss) ++ ds = raw) by (unfold raw, X, Q, TokSpec.written; cbn; rewrite <- !app_assoc; reflexivity).
      rewrite RAW in L5, D5.
      pose proof (leads_trans _ _ _ _ _ _ _ _ L2 (leads_trans _ _ _ _ _ _ _ _ L3 (leads_trans _ _ _ _ _ _ _ _ L4 L5))) as L.
      cbn [app] in L. rewrite app_assoc in L.
      match type of L with leads _ _ ((?a ++ ?b) ++ [?t]) _ _ =>
        destruct (GO (map (fun _ => NumberMultipleSigns) (tl ss) ++ (if lacks (int_n S I (TokSpec.sign_of ss) f (length (X ++ ss), length (X ++ ss) + length ds)) then [NumberRangeEmpty] else [])) t d5) as (d' & LL & RR) end;
        [rewrite map_app; destruct (lacks _); exact L|exact D5|].
      exists d'. split; [|exact RR].
      replace (lacks _) with ((match I with [] => true | _ => false end) || (match D with [] => true | _ => false end) || (match ds with [] => true | _ => false end)) in LL.
      2:{ unfold lacks, int_n, f. cbn [n_exp n_frac n_int fst snd].
          rewrite (proj2 (Nat.eqb_neq (length Q) 0)) by lia. rewrite (proj2 (Nat.eqb_neq (length (X ++ ss)) 0)) by (rewrite app_length; lia).
          rewrite !empty_len. reflexivity. }
      replace (num_token _ _) with (TNumber (mkNumber raw (TokSpec.sign_of S) I (Some D) (Some (TokSpec.sign_of ss, ds)))) in LL.
      2:{ unfold num_token, int_n, f. cbn [n_exp n_frac n_int n_sign n_esign fst snd].
          rewrite (proj2 (Nat.eqb_neq (length Q) 0)) by lia. rewrite (proj2 (Nat.eqb_neq (length (X ++ ss)) 0)) by (rewrite app_length; lia). cbn [negb].
          f_equal. f_equal.
          - rewrite <- RAW. unfold X, Q. rewrite <- !app_assoc. symmetry. apply slice_at; reflexivity.
          - f_equal. rewrite <- RAW. unfold X. rewrite <- !app_assoc. symmetry. apply slice_at; reflexivity.
          - f_equal. f_equal. rewrite <- RAW. rewrite <- (app_nil_r ds) at 2. symmetry. apply slice_at; reflexivity. }
      destruct ss as [|s0 ss]; [cbn [tl map app] in LL|cbn [tl] in LL]; exact LL.
    + cbn [TokSpec.exp_text app] in *.
      destruct (frac_over buf d2 S I Q D c r) as (d3 & L3 & D3); try assumption; [apply BQ; reflexivity|intros Z; apply STOP; auto..|].
      assert (RAW : Q ++ D = raw) by (unfold raw, Q, TokSpec.written; cbn; rewrite app_nil_r, <- !app_assoc; reflexivity).
      rewrite RAW in L3, D3. pose proof (leads_trans _ _ _ _ _ _ _ _ L2 L3) as L. cbn [app] in L.
      match type of L with leads _ _ (_ ++ [?t]) _ _ =>
        destruct (GO (if lacks (int_n S I Plus (length Q, length Q + length D) (0, 0)) then [NumberRangeEmpty] else []) t d3) as (d' & LL & RR) end;
        [destruct (lacks _); exact L|exact D3|].
      exists d'. split; [|exact RR].
      replace (lacks _) with ((match I with [] => true | _ => false end) || (match D with [] => true | _ => false end) || false) in LL.
      2:{ unfold lacks, int_n. cbn [n_exp n_frac n_int fst snd].
          rewrite (proj2 (Nat.eqb_neq (length Q) 0)) by lia. rewrite !empty_len. reflexivity. }
      replace (num_token _ _) with (TNumber (mkNumber raw (TokSpec.sign_of S) I (Some D) None)) in LL.
      2:{ unfold num_token, int_n. cbn [n_exp n_frac n_int n_sign n_esign fst snd].
          rewrite (proj2 (Nat.eqb_neq (length Q) 0)) by lia. cbn [negb Nat.eqb].
          f_equal. f_equal.
          - rewrite <- RAW. unfold Q. rewrite <- !app_assoc. symmetry. apply slice_at; reflexivity.
          - f_equal. rewrite <- RAW. rewrite <- (app_nil_r D) at 2. symmetry. apply slice_at; reflexivity. }
      exact LL.
  - (* exponent without fraction *)
    destruct (FX el ss ds eq_refl) as (EL & FSS & FDS). cbn [TokSpec.exp_text TokSpec.frac_text app] in *.
    destruct (int_exp buf d1 S I1 I2 j el ((ss ++ ds) ++ c :: r)) as (d3 & L3 & A3);
      [apply BI; reflexivity|exact A1|exact F2|unfold TokSpec.digit; lia|exact NE1|exact EL|].
    rewrite <- EI in A3. set (X := S ++ I ++ [el]) in *.
    assert (LX : length X = length S + length I + 1) by (unfold X; rewrite !app_length; cbn; lia).
    replace (length (S ++ I1) + length I2 + 1) with (length X) in A3 by (rewrite LX, LI, app_length; lia).
    set (f := (0, 0)) in *. assert (FE : frac_at_end S I X f) by (left; split; [reflexivity|exact LX]).
    assert (BX : buf = (X ++ []) ++ ss ++ ds ++ c :: r).
    { rewrite B0. unfold rest, X. cbn. rewrite app_nil_r, <- !app_assoc. reflexivity. }
    destruct (exp_signs ss buf d3 S I X [] (ds ++ c :: r) f BX FE FSS) as (d4 & L4 & A4).
    { rewrite app_nil_r. unfold exp_n. rewrite app_nil_r. exact A3. }
    cbn [app] in A4.
    destruct (exp_over buf d4 S I X ss ds c r f) as (d5 & L5 & D5); try assumption.
    { rewrite BX, app_nil_r, <- app_assoc. reflexivity. }
    { intros SC ->. apply STOP. right. auto. }
    { apply L4, L3, W1. }
    assert (RAW : (X ++ ss) ++ ds = raw) by (unfold raw, X, TokSpec.written; cbn; rewrite <- !app_assoc; reflexivity).
    rewrite RAW in L5, D5.
    pose proof (leads_trans _ _ _ _ _ _ _ _ L3 (leads_trans _ _ _ _ _ _ _ _ L4 L5)) as L.
    cbn [app] in L. rewrite app_assoc in L.
    match type of L with leads _ _ ((?a ++ ?b) ++ [?t]) _ _ =>
      destruct (GO (map (fun _ => NumberMultipleSigns) (tl ss) ++ (if lacks (int_n S I (TokSpec.sign_of ss) f (length (X ++ ss), length (X ++ ss) + length ds)) then [NumberRangeEmpty] else [])) t d5) as (d' & LL & RR) end;
      [rewrite map_app; destruct (lacks _); exact L|exact D5|].
    exists d'. split; [|exact RR].
    replace (lacks _) with ((match I with [] => true | _ => false end) || false || (match ds with [] => true | _ => false end)) in LL.
    2:{ unfold lacks, int_n, f. cbn [n_exp n_frac n_int fst snd Nat.eqb negb andb].
        rewrite (proj2 (Nat.eqb_neq (length (X ++ ss)) 0)) by (rewrite app_length; lia).
        rewrite !empty_len. reflexivity. }
    replace (num_token _ _) with (TNumber (mkNumber raw (TokSpec.sign_of S) I None (Some (TokSpec.sign_of ss, ds)))) in LL.
    2:{ unfold num_token, int_n, f. cbn [n_exp n_frac n_int n_sign n_esign fst snd Nat.eqb negb].
        rewrite (proj2 (Nat.eqb_neq (length (X ++ ss)) 0)) by (rewrite app_length; lia). cbn [negb].
        f_equal. f_equal.
        - rewrite <- RAW. unfold X. rewrite <- !app_assoc. symmetry. apply slice_at; reflexivity.
        - f_equal. f_equal. rewrite <- RAW. rewrite <- (app_nil_r ds) at 2. symmetry. apply slice_at; reflexivity. }
    destruct ss as [|s0 ss]; [cbn [tl map app] in LL|cbn [tl] in LL]; exact LL.
  - (* integer *)
    cbn [TokSpec.exp_text TokSpec.frac_text app] in *.
    destruct (int_over buf d1 S I1 I2 j c r) as (d3 & L3 & D3); try assumption;
      [apply BI; reflexivity|intros Z; apply STOP; tauto..| |].
    { rewrite <- EI. intros SC Z. apply STOP. right. right. right. right. auto. }
    rewrite <- EI in L3, D3.
    assert (RAW : S ++ I = raw) by (unfold raw, TokSpec.written; cbn; rewrite app_nil_r; reflexivity).
    rewrite RAW in L3, D3.
    match type of L3 with leads _ _ (_ ++ [?t]) _ _ =>
      destruct (GO (if lacks (int_n S I Plus (0, 0) (0, 0)) then [NumberRangeEmpty] else []) t d3) as (d' & LL & RR) end;
      [destruct (lacks _); exact L3|exact D3|].
    exists d'. split; [|exact RR].
    replace (lacks _) with ((match I with [] => true | _ => false end) || false || false) in LL.
    2:{ unfold lacks, int_n. cbn [n_exp n_frac n_int fst snd Nat.eqb negb andb]. rewrite !empty_len. reflexivity. }
    replace (num_token _ _) with (TNumber (mkNumber raw (TokSpec.sign_of S) I None None)) in LL.
    2:{ unfold num_token, int_n. cbn [n_exp n_frac n_int n_sign n_esign fst snd Nat.eqb negb].
        f_equal. f_equal. rewrite <- RAW. rewrite <- (app_nil_r I) at 2. symmetry. apply slice_at; reflexivity. }
    exact LL.
Qed.
