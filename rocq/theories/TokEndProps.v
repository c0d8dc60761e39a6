(** Properties C60 and C61: numbers at the end of the stream, malformed numbers. *)
From Verif Require Import Base StreamSpec StreamModel StreamProofs TokModel TokProofs TokSafe TokSession TokLex TokString TokNumber TokMore TokEnd TokExact TokProps.
From Verif Require Import TokSpec TokExactSpec.
Local Open Scope res_scope.

(** ** C61: malformed numbers *)

(** A number without its superfluous zeros in front. *)
Fixpoint strip (ds : list N) : list N :=
  match ds with
  | d :: ds' => if (d =? 0x30)%N then match ds' with [] => ds | _ => strip ds' end else ds
  | [] => []
  end.
Definition without_zeros (n : numeral) : numeral := mkNumeral (n_signs n) (strip (n_int n)) (n_frac n) (n_exp n).

Lemma strip_facts ds : (strip ds = [] <-> ds = []) /\ (forall P : N -> Prop, Forall P ds -> Forall P (strip ds)) /\
  (forall d e, strip ds <> 0x30%N :: d :: e).
Proof.
  induction ds as [|c ds (A & B & C)].
  - repeat split; auto; discriminate.
  - cbn [strip]. destruct (N.eqb_spec c 0x30) as [->|NZ].
    + destruct ds as [|c2 ds].
      * repeat split; auto; discriminate.
      * split; [split; [intros H; apply A in H; discriminate|discriminate]|]. split; [|exact C].
        intros P F. apply B. exact (Forall_inv_tail F).
    + repeat split; auto; try discriminate. intros d e H. injection H as -> _. congruence.
Qed.
Lemma errors_exact n : numeral_ok n -> (number_errors n = [] <-> rfc_number (without_zeros n)).
Proof.
  destruct n as [S I fr ex]. intros OK. destruct (strip_facts I) as (A & B & C). split.
  - intros E. pose proof OK as (FS & FI & NE & FF & FX). unfold number_errors in E. unfold rfc_number, without_zeros, numeral_ok.
    cbn [n_signs n_int n_frac n_exp] in *.
    apply app_eq_nil in E as (E1 & E). apply app_eq_nil in E as (E2 & E). apply app_eq_nil in E as (E3 & E4).
    assert (NI : I <> []) by (intros ->; discriminate). 
    assert (NF : fr <> Some []) by (intros ->; rewrite orb_true_r in E4; discriminate).
    split; [split; [exact FS|split; [apply B, FI|split; [intros _ H; apply NI, A, H|split; assumption]]]|].
    split.
    { destruct S as [|c [|c2 S]]; [left; reflexivity| |discriminate]. right. destruct (Forall_inv FS) as [-> | ->]; [discriminate|reflexivity]. }
    split; [intros H; apply NI, A, H|]. split; [exact NF|]. split; [|intros d ds H; exact (C _ _ H)].
    intros e ss ds ->. split.
    + destruct ss as [|s1 [|s2 ss]]; cbn; [lia|lia|discriminate].
    + intros ->. rewrite orb_true_r in E4. discriminate.
  - intros R. apply rfc_number_errors in R. unfold number_errors, without_zeros in *. cbn [n_signs n_int n_frac n_exp] in *.
    replace (match strip I with [] => true | _ => false end) with (match I with [] => true | _ => false end) in R; [exact R|].
    destruct I as [|i I]; [reflexivity|]. destruct (strip (i :: I)) eqn:K; [discriminate (proj1 A eq_refl)|reflexivity].
Qed.
Lemma telling_snoc data us s ts next : telling data us (s ++ next) -> told s ts next -> telling data (us ++ ts) next.
Proof.
  intros L X. remember (s ++ next) as r eqn:E. induction L as [r|s' ts0 next' ts' r LX L IH].
  - subst r. cbn. rewrite <- (app_nil_r ts). apply telling_cons; [exact X|constructor].
  - rewrite <- app_assoc. apply telling_cons; [exact LX|]. apply IH, E.
Qed.

(** Full statement: every number that is none of RFC 8259 is reported with an
    error.  That is so up to zeros in front: the number [n] is reported after
    everything before it, with its value, and with errors just before it exactly
    if, without these zeros, it is none of the RFC. *)
Theorem tok_malformed_partial : forall h ts m buf d us n next,
  drained h ts m buf d -> telling (fed h) us (written n ++ next) -> numeral_ok n -> stops (continues n) next ->
  exists es more, ts = us ++ map TError es ++ TNumber (number_of n) :: more /\ (es = [] <-> rfc_number (without_zeros n)).
Proof.
  intros h ts m buf d us n next D L OK ST. exists (number_errors n).
  apply drained_canon in D.
  destruct (telling_canon _ _ _ _ (telling_snoc _ _ _ _ _ L (told_lexeme _ _ _ (lx_number none n next OK ST))) _ D) as (more & E & _).
  exists more. split; [|apply errors_exact, OK]. rewrite E, <- !app_assoc. reflexivity.
Qed.
Print Assumptions tok_malformed_partial.

(** ** C60: numbers at the end of the stream *)

Definition digits_only (n : numeral) : Prop := n_signs n = [] /\ n_frac n = None /\ n_exp n = None.

(** Full statement: [complete] reports the number with its value.  What is
    reported, for every number, whatever came before: a number of digits only is
    reported with its first digit alone, every other one as an empty number; the
    loop to call [complete] in ends in the first case and panics in the second. *)
Theorem tok_complete_number_partial : forall h ts m buf d us n v vs,
  drained h ts m buf d -> telling (fed h) us (written n) -> numeral_ok n -> Forall honest (v :: vs) ->
  ts = us ++ map TError (sign_errors n) /\
  (digits_only n -> completes (v :: vs) buf d =
     Ok (Some (TNumber (mkNumber (written n) Plus (firstn 1 (n_int n)) None None)) :: map (fun _ => None) vs)) /\
  (~ digits_only n -> completes [v] buf d = Ok [Some (TError NumberRangeEmpty)] /\
     (vs <> [] -> completes (v :: vs) buf d = Panic)).
Proof.
  intros h ts m buf d us n v vs D L OK HV. apply drained_canon in D.
  destruct (telling_leads _ _ _ L (fed h) new (ready_new _)) as (b0 & d0 & [W0 K0] & (d1 & C & DN & SD & AC)).
  pose proof (leads_clear _ _ _ _ C DN) as [W1 K1].
  destruct (number_opens n d1 OK (conj DN (conj SD AC))) as (d2 & P & Dg & st & B & FD & A & [W2 K2] & ST).
  pose proof (W2 (idle_wf _ _ (conj DN (conj SD AC)))) as W.
  pose proof (number_waits _ _ _ _ _ B FD A) as E.
  pose proof (K0 _ _ (K1 _ _ (K2 _ _ E))) as Z. rewrite app_nil_r in Z. cbn [app] in Z.
  destruct (canon_det _ _ _ _ _ _ D Z) as (-> & Q). injection Q as -> -> ->. rewrite early_eq.
  split; [reflexivity|].
  assert (NP : P <> []).
  { intros ->. destruct A as (S2 & I2 & N2). unfold wf in W. rewrite N2 in W. unfold inv in W. rewrite S2 in W. cbn in I2. lia. }
  assert (CO : forall vs, Forall honest vs -> completes (v :: vs) (written n) (set_idx d2 (length (written n))) =
    if lacks st then match vs with [] => Ok [Some (TError NumberRangeEmpty)] | _ => Panic end
    else Ok (Some (num_token (written n) st) :: map (fun _ => None) vs)).
  { intros vs' F. apply (number_completes v vs' _ _ _ _ _ B NP A W). constructor; [exact (Forall_inv HV)|exact F]. }
  unfold plain in ST. split.
  - intros (S0 & F0 & X0). rewrite S0, F0, X0 in ST. subst st. rewrite CO by exact (Forall_inv_tail HV).
    unfold lacks. cbn [TokModel.n_exp TokModel.n_frac TokModel.n_int fst snd Nat.leb Nat.eqb negb andb orb].
    unfold num_token. cbn [TokModel.n_exp TokModel.n_frac TokModel.n_int TokModel.n_sign fst snd Nat.eqb negb].
    repeat f_equal. unfold written, slice. rewrite S0, F0, X0. cbn [app frac_text exp_text]. rewrite app_nil_r. reflexivity.
  - intros ND. assert (LK : lacks st = true).
    { destruct (n_signs n) eqn:S0, (n_frac n) eqn:F0, (n_exp n) eqn:X0; try exact ST. exfalso. apply ND. repeat split; assumption. }
    split; [rewrite CO by constructor; rewrite LK; reflexivity|]. intros NV. rewrite CO by exact (Forall_inv_tail HV).
    rewrite LK. destruct vs; [congruence|reflexivity].
Qed.
Print Assumptions tok_complete_number_partial.

(** So the number is reported with its value exactly if it is a single digit. *)
Theorem tok_complete_number_exact : forall h ts m buf d us n v,
  drained h ts m buf d -> telling (fed h) us (written n) -> numeral_ok n -> honest v ->
  (completes [v] buf d = Ok [Some (TNumber (number_of n))] <-> exists c, n = mkNumeral [] [c] None None).
Proof.
  intros h ts m buf d us n v D L OK HV.
  destruct (tok_complete_number_partial h ts m buf d us n v [] D L OK ltac:(constructor; [exact HV|constructor])) as (_ & A & B).
  assert (DO : digits_only n \/ ~ digits_only n).
  { unfold digits_only. destruct (n_signs n), (n_frac n), (n_exp n); try (right; intros (? & ? & ?); discriminate). left. auto. }
  split.
  - intros E. destruct DO as [Y|NY]; [|destruct (B NY) as (K & _); rewrite K in E; discriminate].
    rewrite (A Y) in E. destruct Y as (S0 & F0 & X0). destruct n as [S I fr ex]. cbn [n_signs n_int n_frac n_exp] in *. subst.
    unfold number_of in E. cbn [n_signs n_int n_frac n_exp] in E. injection E as E.
    destruct OK as (_ & _ & NE & _). cbn in NE. destruct I as [|c [|c2 I]]; [exfalso; apply NE; reflexivity|exists c; reflexivity|discriminate].
  - intros (c & ->). rewrite A by (repeat split). reflexivity.
Qed.
Print Assumptions tok_complete_number_exact.

(** "[12.5" and "12" at the end of the stream. *)
Section Cases.
Import String.
Open Scope string_scope. Open Scope list_scope.
Definition twelve_half : numeral := mkNumeral [] (of_ascii "12") (Some (of_ascii "5")) None.
Example end_case : exists m buf d, drained [Feed (of_ascii "[12.5"); Pop slice_view; Pop slice_view] [TArrayOpen] m buf d /\
  telling (of_ascii "[12.5") [TArrayOpen] (written twelve_half) /\ numeral_ok twelve_half /\ ~ digits_only twelve_half /\
  completes [slice_view] buf d = Ok [Some (TError NumberRangeEmpty)].
Proof.
  do 3 eexists. split; [|split; [|split; [|split]]].
  - exists [Feed (of_ascii "[12.5"); Pop slice_view], slice_view, [Cont TArrayOpen].
    split; [reflexivity|]. split; [|reflexivity]. split; [|vm_compute; reflexivity].
    pose proof slice_honest. repeat (constructor; [first [exact I|assumption]|]). constructor.
  - apply (telling_cons (of_ascii "[") [TArrayOpen] _ []); [apply told_lexeme, lx_structural; constructor|constructor].
  - unfold numeral_ok, twelve_half. cbn. repeat split; try discriminate; auto.
    + repeat constructor; lia.
    + intros ds E. injection E as <-. repeat constructor; lia.
  - intros (_ & H & _). discriminate.
  - vm_compute. reflexivity.
Qed.
(** "007e+," is malformed, "007," is taken for 7. *)
Example zeros_case : rfc_number (without_zeros (mkNumeral [] (of_ascii "007") None None)) /\
  ~ rfc_number (mkNumeral [] (of_ascii "007") None None) /\
  ~ rfc_number (without_zeros (mkNumeral [] (of_ascii "007") None (Some (0x65, of_ascii "+", [])%N))).
Proof.
  split; [|split].
  - apply errors_exact; [|reflexivity]. unfold numeral_ok. cbn. repeat split; try discriminate; auto. repeat constructor; lia.
  - intros (_ & _ & _ & _ & _ & H). eapply H. reflexivity.
  - intros (_ & _ & _ & _ & H & _). destruct (H _ _ _ eq_refl) as (_ & K). congruence.
Qed.
End Cases.
