(** Numbers: the tokenizer reads a numeral up to the first character that does
    not continue it. *)
From Verif Require Import Base JsonSyntax JsonModel JsonSpec JsonProofs JsonLex.
Local Open Scope N_scope.

Definition len (l : list N) : N := N.of_nat (length l).
Definition int_state (sg : Sign) (ds : list N) : State :=
  match ds with
  | [] => SIntegerNone sg
  | [0x30] => SIntegerZero sg
  | _ => SIntegerSome sg (len ds)
  end.
Definition num_state (n : numeral) : State :=
  let sg := sign_value (n_sign n) in
  let i := len (n_int n) in
  let fr := match n_frac n with None => [] | Some ds => ds end in
  match n_exp n with
  | Some (_, [], []) => SExponentNone sg i (len fr)
  | Some (_, s, []) => SExponentSign sg i (len fr) (sign_value s)
  | Some (_, s, ds) => SExponentSome sg i (len fr) (sign_value s) (len ds)
  | None =>
      match n_frac n with
      | Some [] => SFractionNone sg i
      | Some ds => SFractionSome sg i (len ds)
      | None => int_state sg (n_int n)
      end
  end.
Definition num_digits (n : numeral) : list N :=
  values (n_int n) ++ values (match n_frac n with None => [] | Some ds => ds end) ++
  values (match n_exp n with None => [] | Some (_, _, ds) => ds end).
Definition num_tk (f : N) (n : numeral) : Tokenizer := mkTk f (num_state n) (written n) [] (num_digits n).

Definition zero_ev (f : N) (ds : list N) : list event :=
  match ds with
  | 0x30 :: d :: _ => if N.land f ALLOW_LEADING_ZERO =? ALLOW_LEADING_ZERO then [] else [Err (CharacterStray d)]
  | _ => []
  end.

Definition zero_step (f : N) (ds : list N) (d : N) : list event :=
  match ds with [0x30] => zero_ev f [0x30; d] | _ => [] end.
Lemma zero_step_no f ds d : ds <> [0x30] -> zero_step f ds d = [].
Proof.
  intros Ne. destruct ds as [|c [|e r]]; [reflexivity| |].
  - assert (c <> 0x30) by congruence.
    destruct c as [|p]; [reflexivity|]. do 6 (destruct p as [p|p|]; try reflexivity). congruence.
  - destruct c as [|p]; [reflexivity|]. do 6 (destruct p as [p|p|]; try reflexivity).
Qed.

Lemma land_has flag f : has flag f <-> (N.land f flag =? flag) = true.
Proof. unfold has. now rewrite N.eqb_eq. Qed.

(** Three kinds of digit sequences. *)
Inductive kind3 : list N -> Prop :=
| k3_nil : kind3 []
| k3_zero : kind3 [0x30]
| k3_one c : c <> 0x30 -> kind3 [c]
| k3_more c d r : kind3 (c :: d :: r).
Lemma kinds l : kind3 l.
Proof.
  destruct l as [|c [|d r]]; [constructor| |constructor].
  destruct (N.eq_dec c 0x30) as [->|Ne]; constructor; exact Ne.
Qed.
Lemma int_state_some l sg : l <> [] -> l <> [0x30] ->
  int_state sg l = SIntegerSome sg (len l).
Proof.
  intros A B. destruct l as [|c [|d r]]; [congruence| |].
  - assert (Ne : c <> 0x30) by congruence.
    destruct c as [|p]; [reflexivity|]. do 6 (destruct p as [p|p|]; try reflexivity). congruence.
  - destruct c as [|p]; [reflexivity|]. do 6 (destruct p as [p|p|]; try reflexivity).
Qed.

Ltac numstep := apply step_eat; unfold advance_rest; trs; unfold advance_number; trs.

Lemma values_app a b : values (a ++ b) = values a ++ values b.
Proof. apply map_app. Qed.
Lemma len_app a b : len (a ++ b) = len a + len b.
Proof. unfold len. rewrite app_length. lia. Qed.

Definition int_only sg ds := mkNumeral sg ds None None.
Lemma written_int sg ds : written (int_only sg ds) = sg ++ ds.
Proof. unfold written. cbn. now rewrite app_nil_r. Qed.
Lemma digits_int sg ds : num_digits (int_only sg ds) = values ds.
Proof. unfold num_digits. cbn. now rewrite app_nil_r. Qed.

Lemma state_int sg ds : num_state (int_only sg ds) = int_state (sign_value sg) ds.
Proof. reflexivity. Qed.

Lemma step_int f sg ds d : digit d ->
  step (num_tk f (int_only sg ds)) (Some d) =
  Some (zero_step f ds d, num_tk f (int_only sg (ds ++ [d]))).
Proof.
  intros D. rewrite digit_iff in D. unfold num_tk. rewrite !written_int, !digits_int, values_app, app_assoc, !state_int.
  set (w := sg ++ ds). clearbody w.
  destruct (list_eq_dec N.eq_dec ds []) as [->|N1].
  { change (int_state (sign_value sg) []) with (SIntegerNone (sign_value sg)).
    numstep. rewrite digit_of_yes by exact D. trs.
    destruct (N.eqb_spec d 48) as [->|Ne]; trs; [reflexivity|].
    change ([] ++ [d]) with [d]. rewrite int_state_some by congruence. reflexivity. }
  destruct (list_eq_dec N.eq_dec ds [48]) as [->|N2].
  { change (int_state (sign_value sg) [48]) with (SIntegerZero (sign_value sg)).
    rewrite int_state_some by (cbn; congruence).
    numstep. rewrite digit_of_yes by exact D.
    replace (is_char (Some d) 46) with false by (unfold is_digit in D; cbn; lia).
    replace (is_exp (Some d)) with false by (unfold is_digit in D; unfold is_exp; cbn; lia).
    trs. unfold zero_step, zero_ev. destruct (N.land f ALLOW_LEADING_ZERO =? ALLOW_LEADING_ZERO); cbn [negb]; trs; reflexivity. }
  rewrite zero_step_no by exact N2. rewrite !int_state_some; try assumption.
  - numstep. rewrite digit_of_yes by exact D. trs. rewrite len_app. reflexivity.
  - destruct ds; discriminate.
  - destruct ds as [|? [|]]; try congruence; discriminate.
Qed.

Lemma zero_ev_snoc f ds d : zero_ev f (ds ++ [d]) = zero_ev f ds ++ zero_step f ds d.
Proof.
  destruct (kinds ds) as [| |c Ne|c e r].
  - cbn. destruct d as [|p]; [reflexivity|]. do 6 (destruct p as [p|p|]; try reflexivity).
  - reflexivity.
  - rewrite zero_step_no by congruence. cbn [app].
    destruct c as [|p]; [reflexivity|]. do 6 (destruct p as [p|p|]; try reflexivity). congruence.
  - rewrite zero_step_no by congruence. rewrite app_nil_r. reflexivity.
Qed.

Lemma feed_snoc t w c e t' e2 t2 : feed t w = Some (e, t') -> step t' (Some c) = Some (e2, t2) ->
  feed t (w ++ [c]) = Some (e ++ e2, t2).
Proof. intros A B. rewrite feed_app, A. cbn [feed]. rewrite B. cbn. now rewrite app_nil_r. Qed.

Lemma start_digit f d : digit d -> step (with_flags f) (Some d) = Some ([], num_tk f (int_only [] [d])).
Proof.
  intros D. pose proof D as D'. rewrite digit_iff in D'. unfold digit in D.
  unfold num_tk. rewrite written_int, digits_int, state_int. cbn [app values map].
  rewrite step_init. destruct (N.eq_dec d 48) as [->|Ne]; [reflexivity|].
  rewrite int_state_some by congruence.
  unfold advance_start.
  repeat match goal with |- context [if ?b then _ else _] =>
    first [ replace b with true by (symmetry; unfold is_blank, is_digit, is_whitespace; lia)
          | replace b with false by (symmetry; unfold is_blank, is_digit, is_whitespace; lia) ]
  end. unfold with_flags. trs. reflexivity.
Qed.
Lemma feed_int f sg ds : sign_ok f sg -> Forall digit ds -> (sg <> [] \/ ds <> []) ->
  feed (with_flags f) (sg ++ ds) = Some (zero_ev f ds, num_tk f (int_only sg ds)).
Proof.
  intros S. induction ds as [|d ds IH] using rev_ind; intros F NE.
  - destruct NE as [NE|NE]; [|congruence]. rewrite app_nil_r.
    destruct S as [->|[->|[-> P]]]; [congruence| |].
    + reflexivity.
    + cbn [feed]. rewrite step_init. cbn -[N.land]. rewrite (proj1 (land_has _ _) P). reflexivity.
  - apply Forall_app in F as [F D]. inversion D as [|? ? D1 _]; subst.
    destruct (list_eq_dec N.eq_dec sg []) as [->|Ns].
    + destruct ds as [|e ds].
      * cbn [app feed]. rewrite start_digit by exact D1. cbn [ecat app].
        f_equal. f_equal. destruct d as [|p]; [reflexivity|]. do 6 (destruct p as [p|p|]; try reflexivity).
      * assert (I : feed (with_flags f) ([] ++ e :: ds) = Some (zero_ev f (e :: ds), num_tk f (int_only [] (e :: ds))))
          by (apply IH; [exact F|right; discriminate]).
        rewrite app_assoc. rewrite (feed_snoc _ _ _ _ _ _ _ I (step_int f [] (e :: ds) d D1)).
        now rewrite zero_ev_snoc.
    + assert (I : feed (with_flags f) (sg ++ ds) = Some (zero_ev f ds, num_tk f (int_only sg ds)))
        by (apply IH; [exact F|now left]).
      rewrite app_assoc. rewrite (feed_snoc _ _ _ _ _ _ _ I (step_int f sg ds d D1)).
      now rewrite zero_ev_snoc.
Qed.

(** Fraction. *)
Definition with_frac sg ds fr := mkNumeral sg ds (Some fr) None.
Lemma written_frac sg ds fr : written (with_frac sg ds fr) = sg ++ ds ++ 46 :: fr.
Proof. unfold written. cbn. now rewrite app_nil_r. Qed.
Lemma digits_frac sg ds fr : num_digits (with_frac sg ds fr) = values ds ++ values fr.
Proof. unfold num_digits. cbn. now rewrite app_nil_r. Qed.
Lemma step_dot f sg ds : ds <> [] ->
  step (num_tk f (int_only sg ds)) (Some 46) = Some ([], num_tk f (with_frac sg ds [])).
Proof.
  intros NE. unfold num_tk. rewrite written_int, written_frac, digits_int, digits_frac, state_int. cbn [values map].
  rewrite app_nil_r, app_assoc. change (num_state (with_frac sg ds [])) with (SFractionNone (sign_value sg) (len ds)).
  set (w := sg ++ ds). clearbody w.
  destruct (list_eq_dec N.eq_dec ds [48]) as [->|N0].
  - numstep. reflexivity.
  - rewrite int_state_some by assumption. numstep. cbn [digit_of is_digit]. trs. reflexivity.
Qed.
Lemma step_frac f sg ds fr d : digit d ->
  step (num_tk f (with_frac sg ds fr)) (Some d) = Some ([], num_tk f (with_frac sg ds (fr ++ [d]))).
Proof.
  intros D. rewrite digit_iff in D. unfold num_tk. rewrite !written_frac, !digits_frac, values_app.
  replace (sg ++ ds ++ 46 :: fr ++ [d]) with ((sg ++ ds ++ 46 :: fr) ++ [d]) by (rewrite <- !app_assoc; reflexivity).
  rewrite (app_assoc (values ds)).
  set (w := sg ++ ds ++ 46 :: fr). clearbody w.
  destruct fr as [|x fr].
  - cbn. numstep. rewrite digit_of_yes by exact D. trs. reflexivity.
  - change (num_state (with_frac sg ds (x :: fr))) with (SFractionSome (sign_value sg) (len ds) (len (x :: fr))).
    change (num_state (with_frac sg ds ((x :: fr) ++ [d]))) with
      (SFractionSome (sign_value sg) (len ds) (len ((x :: fr) ++ [d]))).
    numstep. replace (is_exp (Some d)) with false by (unfold is_digit in D; unfold is_exp; cbn; lia).
    rewrite digit_of_yes by exact D. trs. rewrite len_app. reflexivity.
Qed.
Lemma feed_frac f sg ds fr : sign_ok f sg -> Forall digit ds -> ds <> [] -> Forall digit fr ->
  feed (with_flags f) (sg ++ ds ++ 46 :: fr) = Some (zero_ev f ds, num_tk f (with_frac sg ds fr)).
Proof.
  intros S D NE. induction fr as [|d fr IH] using rev_ind; intros F.
  - rewrite app_assoc. rewrite (feed_snoc _ _ _ _ _ _ _ (feed_int f sg ds S D (or_intror NE)) (step_dot f sg ds NE)).
    now rewrite app_nil_r.
  - apply Forall_app in F as [F D2]. inversion D2 as [|? ? D1 _]; subst.
    replace (sg ++ ds ++ 46 :: fr ++ [d]) with ((sg ++ ds ++ 46 :: fr) ++ [d]) by (rewrite <- !app_assoc; reflexivity).
    rewrite (feed_snoc _ _ _ _ _ _ _ (IH F) (step_frac f sg ds fr d D1)). now rewrite app_nil_r.
Qed.

(** Exponent. *)
Lemma is_exp_in e : In e [0x65; 0x45] -> is_exp (Some e) = true /\ is_digit e = false /\ (e =? 46) = false.
Proof. cbn. intros [<-|[<-|[]]]; repeat split. Qed.
Definition frac_digits (fr : option (list N)) : list N := match fr with None => [] | Some ds => ds end.
Lemma written_exp sg ds fr e s x : written (mkNumeral sg ds fr (Some (e, s, x))) =
  (sg ++ ds ++ frac_text fr) ++ e :: s ++ x.
Proof. unfold written. cbn [n_sign n_int n_frac n_exp exp_text]. now rewrite !app_assoc. Qed.
Lemma digits_exp sg ds fr e s x : num_digits (mkNumeral sg ds fr (Some (e, s, x))) =
  (values ds ++ values (frac_digits fr)) ++ values x.
Proof. unfold num_digits. cbn [n_sign n_int n_frac n_exp]. unfold frac_digits. now rewrite !app_assoc. Qed.
Lemma step_e f sg ds fr e : In e [0x65; 0x45] -> ds <> [] -> fr <> Some [] ->
  step (num_tk f (mkNumeral sg ds fr None)) (Some e) = Some ([], num_tk f (mkNumeral sg ds fr (Some (e, [], [])))).
Proof.
  intros E NE NF. destruct (is_exp_in e E) as (X & D & P).
  unfold num_tk. rewrite written_exp, digits_exp. cbn [app values map]. rewrite app_nil_r.
  destruct fr as [[|y fr]|]; [congruence| |].
  - change (mkNumeral sg ds (Some (y :: fr)) None) with (with_frac sg ds (y :: fr)).
    rewrite written_frac, digits_frac. cbn [frac_text frac_digits].
    change (num_state (with_frac sg ds (y :: fr))) with (SFractionSome (sign_value sg) (len ds) (len (y :: fr))).
    numstep. rewrite X. trs. reflexivity.
  - change (mkNumeral sg ds None None) with (int_only sg ds).
    rewrite written_int, digits_int, state_int. cbn [frac_text frac_digits values map]. rewrite !app_nil_r.
    set (w := sg ++ ds). clearbody w.
    destruct (list_eq_dec N.eq_dec ds [48]) as [->|N0].
    + numstep. cbn [is_char]. rewrite P, X. trs. reflexivity.
    + rewrite int_state_some by assumption. numstep. rewrite digit_of_no by exact D. cbn [is_char]. rewrite P, X. trs. reflexivity.
Qed.
Lemma step_exp_sign f sg ds fr e s : In s [0x2b; 0x2d] ->
  step (num_tk f (mkNumeral sg ds fr (Some (e, [], [])))) (Some s) =
  Some ([], num_tk f (mkNumeral sg ds fr (Some (e, [s], [])))).
Proof.
  intros S. unfold num_tk. rewrite !written_exp, !digits_exp. rewrite app_nil_r. cbn [app].
  replace ((sg ++ ds ++ frac_text fr) ++ [e; s]) with (((sg ++ ds ++ frac_text fr) ++ [e]) ++ [s])
    by (rewrite <- app_assoc; reflexivity).
  set (w := (sg ++ ds ++ frac_text fr) ++ [e]). clearbody w.
  destruct S as [<-|[<-|[]]]; numstep; reflexivity.
Qed.
Lemma step_exp f sg ds fr e s x d : In s [[]; [0x2b]; [0x2d]] -> digit d ->
  step (num_tk f (mkNumeral sg ds fr (Some (e, s, x)))) (Some d) =
  Some ([], num_tk f (mkNumeral sg ds fr (Some (e, s, x ++ [d])))).
Proof.
  intros S D. rewrite digit_iff in D. unfold num_tk. rewrite !written_exp, !digits_exp, values_app, (app_assoc _ (values x)).
  replace ((sg ++ ds ++ frac_text fr) ++ e :: s ++ x ++ [d]) with (((sg ++ ds ++ frac_text fr) ++ e :: s ++ x) ++ [d])
    by (rewrite <- !app_assoc; cbn; rewrite <- !app_assoc; reflexivity).
  set (w := (sg ++ ds ++ frac_text fr) ++ e :: s ++ x). clearbody w.
  assert (P : is_char (Some d) 43 = false) by (unfold is_digit in D; cbn; lia).
  assert (Q : is_char (Some d) 45 = false) by (unfold is_digit in D; cbn; lia).
  destruct x as [|y x].
  - destruct S as [<-|[<-|[<-|[]]]]; cbn [num_state n_exp n_sign n_int n_frac app]; numstep; rewrite ?P, ?Q;
      rewrite digit_of_yes by exact D; trs; reflexivity.
  - assert (ST : forall y x, num_state (mkNumeral sg ds fr (Some (e, s, y :: x))) =
      SExponentSome (sign_value sg) (len ds) (len (frac_digits fr)) (sign_value s) (len (y :: x))).
    { intros y' x'. destruct S as [<-|[<-|[<-|[]]]]; reflexivity. }
    cbn [app]. rewrite !ST. numstep. rewrite digit_of_yes by exact D. trs.
    change (len (y :: x ++ [d])) with (len ((y :: x) ++ [d])). rewrite len_app. reflexivity.
Qed.
Lemma feed_mant f sg ds fr : sign_ok f sg -> Forall digit ds -> ds <> [] ->
  (forall x, fr = Some x -> Forall digit x) ->
  feed (with_flags f) (sg ++ ds ++ frac_text fr) = Some (zero_ev f ds, num_tk f (mkNumeral sg ds fr None)).
Proof.
  intros S D NE F. destruct fr as [x|]; cbn [frac_text].
  - apply feed_frac; auto.
  - rewrite app_nil_r. apply feed_int; auto.
Qed.
Lemma feed_exp f sg ds fr e s x : sign_ok f sg -> Forall digit ds -> ds <> [] ->
  (forall x, fr = Some x -> Forall digit x) -> fr <> Some [] ->
  In e [0x65; 0x45] -> In s [[]; [0x2b]; [0x2d]] -> Forall digit x ->
  feed (with_flags f) ((sg ++ ds ++ frac_text fr) ++ e :: s ++ x) =
  Some (zero_ev f ds, num_tk f (mkNumeral sg ds fr (Some (e, s, x)))).
Proof.
  intros S D NE F NF E SS. induction x as [|d x IH] using rev_ind; intros FX.
  - rewrite app_nil_r. pose proof (feed_mant f sg ds fr S D NE F) as M0.
    pose proof (feed_snoc _ _ _ _ _ _ _ M0 (step_e f sg ds fr e E NE NF)) as M1. rewrite app_nil_r in M1.
    destruct SS as [<-|SS]; [exact M1|].
    assert (SI : exists c, s = [c] /\ In c [0x2b; 0x2d]).
    { destruct SS as [<-|[<-|[]]]; eexists; (split; [reflexivity|cbn; auto]). }
    destruct SI as (c & -> & C).
    replace ((sg ++ ds ++ frac_text fr) ++ [e; c]) with (((sg ++ ds ++ frac_text fr) ++ [e]) ++ [c])
      by (rewrite <- app_assoc; reflexivity).
    rewrite (feed_snoc _ _ _ _ _ _ _ M1 (step_exp_sign f sg ds fr e c C)). now rewrite app_nil_r.
  - apply Forall_app in FX as [FX D2]. inversion D2 as [|? ? D1 _]; subst.
    replace ((sg ++ ds ++ frac_text fr) ++ e :: s ++ x ++ [d]) with (((sg ++ ds ++ frac_text fr) ++ e :: s ++ x) ++ [d])
      by (rewrite <- !app_assoc; cbn; rewrite <- !app_assoc; reflexivity).
    rewrite (feed_snoc _ _ _ _ _ _ _ (IH FX) (step_exp f sg ds fr e s x d SS D1)). now rewrite app_nil_r.
Qed.

Theorem feed_numeral f n : numeral_shape f n ->
  feed (with_flags f) (written n) = Some (zero_ev f (n_int n), num_tk f n).
Proof.
  intros ((S & D & F & E) & I & FE). destruct n as [sg ds fr ex]. cbn [n_sign n_int n_frac n_exp] in *.
  destruct ds as [|d0 ds].
  - destruct (I eq_refl) as (NS & -> & ->). change (mkNumeral sg [] None None) with (int_only sg []).
    rewrite written_int. apply feed_int; auto.
  - destruct ex as [[[e s] x]|].
    + destruct (E e s x eq_refl) as (E1 & E2 & E3). rewrite written_exp. apply feed_exp; auto; try discriminate.
      intros ->. discriminate (FE eq_refl).
    + unfold written. cbn [n_sign n_int n_frac n_exp exp_text]. rewrite app_nil_r. apply feed_mant; auto. discriminate.
Qed.

(** ** The end of a number *)

Lemma values_length l : length (values l) = length l.
Proof. apply map_length. Qed.
Lemma tr_number_parts sg es t i fr ex : acc_num t = values i ++ values fr ++ values ex ->
  tr (report_number sg (len i) (len fr) es) t =
  Some ([Tok (Number (acc t) (values i) (values fr) (values ex) sg es)], t, tt).
Proof.
  intros E. rewrite tr_number.
  - rewrite E. unfold len. rewrite !Nat2N.id, N2Nat.inj_add, !Nat2N.id.
    rewrite firstn_app, values_length, Nat.sub_diag, firstn_O, app_nil_r, firstn_all2 by (rewrite values_length; lia).
    rewrite skipn_app, values_length, Nat.sub_diag, skipn_O, skipn_all2 by (rewrite values_length; lia).
    cbn [app]. rewrite firstn_app, values_length, Nat.sub_diag, firstn_O, app_nil_r, firstn_all2 by (rewrite values_length; lia).
    rewrite skipn_app, values_length, skipn_all2 by (rewrite values_length; lia). cbn [app].
    replace (length i + length fr - length i)%nat with (length fr) by lia.
    rewrite skipn_app, values_length, Nat.sub_diag, skipn_O, skipn_all2 by (rewrite values_length; lia). reflexivity.
  - rewrite E, !app_length, !values_length. unfold len. lia.
Qed.

(** [NumberIncomplete] is reported if a part is missing. *)
Definition lacks (n : numeral) : bool :=
  match n_int n with [] => true | _ => false end ||
  match n_frac n with Some [] => true | _ => false end ||
  match n_exp n with Some (_, _, []) => true | _ => false end.
Lemma lacks_whole n : lacks n = false <-> whole n.
Proof.
  unfold lacks, whole. destruct n as [sg ds fr ex]; cbn [n_int n_frac n_exp]. split.
  - intros L. repeat split.
    + intros ->. discriminate.
    + intros ->. destruct ds; discriminate.
    + intros e s ->. rewrite orb_true_r in L. discriminate.
  - intros (A & B & C). destruct ds; [congruence|]. destruct fr as [[|]|]; [congruence| |];
    (destruct ex as [[[e s] [|]]|]; [exfalso; eapply C; reflexivity| |]); reflexivity.
Qed.
Definition missing_ev (n : numeral) : list event := if lacks n then [Err NumberIncomplete] else [].
Lemma missing_ev_iff n m : missing_events n m <-> m = missing_ev n.
Proof.
  unfold missing_ev. destruct (lacks n) eqn:L.
  - assert (W : ~ whole n) by (rewrite <- lacks_whole; congruence).
    split; [intros [H|H]; [contradiction|reflexivity]|intros ->; now constructor].
  - apply lacks_whole in L. split; [intros [H|H]; [reflexivity|contradiction]|intros ->; now constructor].
Qed.
Lemma zero_ev_iff f n z : zero_events f n z <-> z = zero_ev f (n_int n).
Proof.
  split.
  - intros [[H|H]|d ds H I].
    + unfold zero_ev. destruct (n_int n) as [|c [|d ds]]; [reflexivity| |].
      * destruct c as [|p]; [reflexivity|]. do 6 (destruct p as [p|p|]; try reflexivity).
      * rewrite (proj1 (land_has _ _) H).
        destruct c as [|p]; [reflexivity|]. do 6 (destruct p as [p|p|]; try reflexivity).
    + unfold leading_zero in H. unfold zero_ev. destruct (n_int n) as [|c [|d ds]]; [reflexivity| |].
      * destruct c as [|p]; [reflexivity|]. do 6 (destruct p as [p|p|]; try reflexivity).
      * assert (c <> 0x30) by (intros ->; apply H; eauto).
        destruct c as [|p]; [reflexivity|]. do 6 (destruct p as [p|p|]; try reflexivity). congruence.
    + rewrite I. cbn -[N.land]. rewrite land_has in H. destruct (N.land f ALLOW_LEADING_ZERO =? ALLOW_LEADING_ZERO); [congruence|reflexivity].
  - intros ->. destruct (has_dec ALLOW_LEADING_ZERO f) as [H|H].
    + replace (zero_ev f (n_int n)) with (@nil event); [constructor; now left|].
      unfold zero_ev. rewrite (proj1 (land_has _ _) H). destruct (n_int n) as [|c [|d ds]]; [reflexivity| |];
      (destruct c as [|p]; [reflexivity|]; do 6 (destruct p as [p|p|]; try reflexivity)).
    + destruct (n_int n) as [|c [|d ds]] eqn:I.
      * constructor. right. intros (d & ds & E). congruence.
      * replace (zero_ev f [c]) with (@nil event).
        -- constructor. right. intros (d & ds & E). congruence.
        -- destruct c as [|p]; [reflexivity|]. do 6 (destruct p as [p|p|]; try reflexivity).
      * destruct (N.eq_dec c 0x30) as [->|Ne].
        -- cbn -[N.land]. pose proof H as H'. rewrite land_has in H'.
           destruct (N.land f ALLOW_LEADING_ZERO =? ALLOW_LEADING_ZERO); [congruence|]. eapply ze_stray; [exact H|exact I].
        -- replace (zero_ev f (c :: d :: ds)) with (@nil event).
           ++ constructor. right. intros (d' & ds' & E). congruence.
           ++ destruct c as [|p]; [reflexivity|]. do 6 (destruct p as [p|p|]; try reflexivity). congruence.
Qed.

Definition opt_digits (x : option (N * list N * list N)) : list N :=
  match x with None => [] | Some (_, _, ds) => ds end.
Lemma digits_split n : num_digits n = values (n_int n) ++ values (frac_digits (n_frac n)) ++ values (opt_digits (n_exp n)).
Proof. reflexivity. Qed.

(** A state of [advance_number] that finishes the number. *)
Lemma number_finish n f ch : numeral_shape f n ->
  (forall c, ch = Some c -> ~ continues n c) ->
  tr (advance_rest ch) (num_tk f n) = Some (missing_ev n ++ [Tok (number_token n)], with_flags f, ch).
Proof.
  intros SH NC.
  assert (TOK : number_token n = Number (written n) (values (n_int n)) (values (frac_digits (n_frac n)))
    (values (opt_digits (n_exp n))) (sign_value (n_sign n))
    (match n_exp n with None => Plus | Some (_, s, _) => sign_value s end)).
  { unfold number_token, frac_digits, opt_digits. destruct (n_frac n); destruct (n_exp n) as [[[? ?] ?]|]; reflexivity. }
  assert (ND : digit_of ch = None).
  { destruct ch as [c|]; [|reflexivity]. apply digit_of_no. destruct (is_digit c) eqn:D; [|reflexivity].
    exfalso. apply (NC c eq_refl). left. now apply digit_iff. }
  destruct n as [sg ds fr ex]. unfold num_tk. rewrite digits_split.
  set (w := written (mkNumeral sg ds fr ex)) in *. clearbody w.
  cbn [n_sign n_int n_frac n_exp] in *.
  destruct SH as ((S & D & F & E) & I & FE). cbn [n_sign n_int n_frac n_exp] in *.
  unfold continues in NC. cbn [n_int n_frac n_exp] in NC.
  unfold missing_ev, lacks. cbn [n_int n_frac n_exp].
  destruct ex as [[[e s] x]|].
  - assert (NE : ds <> []) by (intros ->; destruct (I eq_refl) as (_ & _ & ?); discriminate).
    assert (NF : fr <> Some []) by (intros ->; discriminate (FE eq_refl)).
    destruct (E e s x eq_refl) as (E1 & E2 & E3).
    replace (match ds with [] => true | _ => false end) with false by (destruct ds; [congruence|reflexivity]).
    replace (match fr with Some [] => true | _ => false end) with false by (destruct fr as [[|]|]; [congruence| |]; reflexivity).
    destruct x as [|y x].
    + destruct s as [|sc s].
      * assert (NS : is_char ch 43 = false /\ is_char ch 45 = false).
        { destruct ch as [c|]; [|split; reflexivity]. cbn. specialize (NC c eq_refl).
          split; apply N.eqb_neq; intros ->; apply NC; right; right; right; exists e; (split; [reflexivity|cbn; auto]). }
        destruct NS as [P Q].
        unfold advance_rest. trs. unfold num_state. cbn [n_exp n_sign n_int n_frac]. unfold advance_number. trs.
        rewrite P, Q, ND. trs. change (len match fr with Some ds0 => ds0 | None => [] end) with (len (frac_digits fr)).
        try (rewrite (tr_number_parts _ _ _ ds (frac_digits fr) []) by reflexivity; trs). rewrite TOK. reflexivity.
      * unfold advance_rest. trs. unfold num_state. cbn [n_exp n_sign n_int n_frac]. unfold advance_number. trs.
        rewrite ND. trs. change (len match fr with Some ds0 => ds0 | None => [] end) with (len (frac_digits fr)).
        try (rewrite (tr_number_parts _ _ _ ds (frac_digits fr) []) by reflexivity; trs). rewrite TOK. reflexivity.
    + assert (ST : num_state (mkNumeral sg ds fr (Some (e, s, y :: x))) =
        SExponentSome (sign_value sg) (len ds) (len (frac_digits fr)) (sign_value s) (len (y :: x))).
      { destruct s; reflexivity. }
      rewrite ST. unfold advance_rest. trs. unfold advance_number. trs. rewrite ND. trs.
      rewrite (tr_number_parts _ _ _ ds (frac_digits fr) (y :: x)) by reflexivity. trs. rewrite TOK. reflexivity.
  - destruct fr as [[|y fr]|].
    + assert (NE : ds <> []) by (intros ->; destruct (I eq_refl) as (_ & ? & _); discriminate).
      replace (match ds with [] => true | _ => false end) with false by (destruct ds; [congruence|reflexivity]).
      unfold advance_rest. trs. unfold num_state. cbn [n_exp n_sign n_int n_frac]. unfold advance_number. trs.
      rewrite ND. trs. change 0 with (len []).
      try (rewrite (tr_number_parts _ _ _ ds [] []) by reflexivity; trs). rewrite TOK. reflexivity.
    + assert (NE : ds <> []) by (intros ->; destruct (I eq_refl) as (_ & ? & _); discriminate).
      replace (match ds with [] => true | _ => false end) with false by (destruct ds; [congruence|reflexivity]).
      assert (NX : is_exp ch = false).
      { destruct ch as [c|]; [|reflexivity]. destruct (is_exp (Some c)) eqn:X; [|reflexivity].
        exfalso. apply (NC c eq_refl). right. right. left. repeat split; try assumption; try discriminate.
        unfold is_exp in X. cbn in *. lia. }
      unfold advance_rest. trs. unfold num_state. cbn [n_exp n_sign n_int n_frac]. unfold advance_number. trs.
      rewrite ND, NX. trs. change (len ds) with (len ds).
      try (rewrite (tr_number_parts _ _ _ ds (y :: fr) []) by reflexivity; trs). rewrite TOK. reflexivity.
    + destruct (list_eq_dec N.eq_dec ds []) as [->|NE].
      { unfold advance_rest. trs. unfold num_state. cbn [n_exp n_sign n_int n_frac int_state]. unfold advance_number. trs.
        rewrite ND. trs. change 0 with (len []).
        try (rewrite (tr_number_parts _ _ _ [] [] []) by reflexivity; trs). rewrite TOK. reflexivity. }
      assert (NX : is_exp ch = false).
      { destruct ch as [c|]; [|reflexivity]. destruct (is_exp (Some c)) eqn:X; [|reflexivity].
        exfalso. apply (NC c eq_refl). right. right. left. repeat split; try assumption; try discriminate.
        unfold is_exp in X. cbn in *. lia. }
      assert (NP : is_char ch 46 = false).
      { destruct ch as [c|]; [|reflexivity]. cbn. apply N.eqb_neq. intros ->. apply (NC 46 eq_refl).
        right. left. repeat split; assumption. }
      replace (match ds with [] => true | _ => false end) with false by (destruct ds; [congruence|reflexivity]).
      unfold num_state. cbn [n_exp n_sign n_int n_frac].
      destruct (list_eq_dec N.eq_dec ds [48]) as [->|N0].
      { unfold advance_rest. trs. cbn [int_state]. unfold advance_number. trs. rewrite NP, NX, ND. trs.
        change 1 with (len [48]). change 0 with (len []).
        try (rewrite (tr_number_parts _ _ _ [48] [] []) by reflexivity; trs). rewrite TOK. reflexivity. }
      rewrite int_state_some by assumption.
      unfold advance_rest. trs. unfold advance_number. trs. rewrite ND, NP, NX. trs.
      change 0 with (len []).
      try (rewrite (tr_number_parts _ _ _ ds [] []) by reflexivity; trs). rewrite TOK. reflexivity.
Qed.

Theorem full_number f n rest : numeral_shape f n -> ~ starts (continues n) rest ->
  full (with_flags f) (written n ++ rest) =
  ecat (zero_ev f (n_int n) ++ missing_ev n ++ [Tok (number_token n)]) (full (with_flags f) rest).
Proof.
  intros SH NC. rewrite (full_cat _ _ _ _ _ (feed_numeral f n SH)).
  rewrite <- ecat_app. f_equal. apply hand_off.
  - apply step_eat. apply (number_finish n f None SH). discriminate.
  - intros c r ->. apply step_leave. apply (number_finish n f (Some c) SH).
    intros ? [= <-] C. apply NC. exists c, r. auto.
Qed.
