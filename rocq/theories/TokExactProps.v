(** Property C123: what is reported for every sequence of bytes. *)
From Coq Require String Ascii.
From Verif Require Import Base StreamSpec StreamModel StreamProofs TokModel TokProofs TokSafe TokSession TokLex TokString TokMore TokEnd TokExact.
From Verif Require Import TokSpec TokExactSpec TokProps TokTextSpec TokTextProps TokEndProps TokRemainProps.
Local Open Scope res_scope.

(** ** Every sequence of bytes has exactly one reading *)

(** There is always one: lexemes, and a rest that is the beginning of one. *)
Theorem tok_reading : forall data, exists us rest es, telling data us rest /\ unfinished rest es.
Proof. intros data. exact (telling_total (length data) data (le_n _)). Qed.
Print Assumptions tok_reading.
(** The tokens of a reading, and then the errors that are already known of the
    rest, are what is reported, whatever the bytes are and however they arrive;
    the rest is what is kept. *)
Theorem tok_exact : forall h ts m buf d us rest es,
  drained h ts m buf d -> telling (fed h) us rest -> unfinished rest es -> ts = us ++ map TError es /\ buf = rest.
Proof.
  intros h ts m buf d us rest es D T U. apply drained_canon in D.
  destruct (telling_ends _ _ _ _ T U) as (m' & d' & C). destruct (canon_det _ _ _ _ _ _ D C) as [-> Q].
  injection Q as _ -> _. auto.
Qed.
Print Assumptions tok_exact.
(** At any time before, it is the beginning of that. *)
Theorem tok_exact_prefix : forall h rs buf d more us rest es,
  runs h rs buf d -> telling (fed h ++ more) us rest -> unfinished rest es -> exists ts, us ++ map TError es = tokens rs ++ ts.
Proof.
  intros h rs buf d more us rest es [F R] T U. destruct (telling_ends _ _ _ _ T U) as (m' & d' & C).
  exact (before h rs buf d F R more _ _ C).
Qed.
Print Assumptions tok_exact_prefix.
(** So two readings say the same. *)
Theorem tok_reading_unique : forall data us rest es us' rest' es',
  telling data us rest -> unfinished rest es -> telling data us' rest' -> unfinished rest' es' ->
  us ++ map TError es = us' ++ map TError es' /\ rest = rest'.
Proof.
  intros data us rest es us' rest' es' T U T' U'.
  destruct (telling_ends _ _ _ _ T U) as (m & d & C). destruct (telling_ends _ _ _ _ T' U') as (m' & d' & C').
  destruct (canon_det _ _ _ _ _ _ C C') as [-> Q]. injection Q as _ -> _. auto.
Qed.
Print Assumptions tok_reading_unique.

(** ** Where strings are not reported as RFC 8259 has it: exactly there *)

(** A control character other than U+001F comes after an escape. *)
Definition late_control (ps : list piece) : Prop :=
  exists a p b c, ps = a ++ p :: b /\ ~ verbatim p /\ In (Control c) b /\ (c < 0x1f)%N.

Lemma given_longer ps : forall g, length (value ps) <= length (given g ps).
Proof.
  induction ps as [|p ps IH]; intros g; [exact (le_n _)|]. rewrite value_cons, app_length.
  destruct p; cbn [given piece_value]; rewrite ?app_length; cbn [length];
    try (specialize (IH (Some [])); lia); try (specialize (IH (option_map (fun s => s ++ [c]) g)); rewrite ?app_length; lia).
Qed.
Lemma given_late ps g : g <> None -> (given g ps = value ps <-> forall c, In (Control c) ps -> ~ (c < 0x1f)%N).
Proof.
  revert g. induction ps as [|p ps IH]; intros g G; [split; [intros _ c []|reflexivity]|]. rewrite value_cons.
  assert (NO : forall g', g' <> None -> (forall c, p <> Control c) ->
    (piece_value p ++ given g' ps = piece_value p ++ value ps <-> forall c, In (Control c) (p :: ps) -> ~ (c < 0x1f)%N)).
  { intros g' G' NP. split.
    - intros E. apply app_inv_head in E. intros c [Q|Q]; [destruct (NP c Q)|]. exact (proj1 (IH g' G') E c Q).
    - intros K. f_equal. apply IH; [exact G'|]. intros c Q. apply K. right. exact Q. }
  assert (GM : forall c, option_map (fun s => s ++ [c]) g <> None) by (intros c; destruct g; [discriminate|congruence]).
  destruct p; cbn [given]; try (apply NO; [discriminate|discriminate]).
  - apply (NO _ (GM c)). discriminate.
  - cbn [piece_value app]. destruct (N.ltb_spec c 0x1f) as [LT|GE].
    + split; [|intros K; destruct (K c (or_introl eq_refl) LT)]. intros E. exfalso. destruct g as [s|]; [|congruence].
      apply (f_equal (@length N)) in E. cbn [length] in E. rewrite !app_length in E. cbn [length] in E.
      pose proof (given_longer ps (option_map (fun s => s ++ [c]) (Some s))). lia.
    + cbn [app]. split.
      * intros E. injection E as E. intros c' [Q|Q]; [injection Q as <-; lia|]. exact (proj1 (IH _ (GM c)) E c' Q).
      * intros K. f_equal. apply IH; [apply GM|]. intros c' Q. apply K. right. exact Q.
Qed.
Lemma given_early ps : given None ps = value ps <-> ~ late_control ps.
Proof.
  induction ps as [|p ps IH].
  { split; [|reflexivity]. intros _ (a & p & b & c & E & _). destruct a; discriminate. }
  rewrite value_cons. destruct (match p with Plain _ | Control _ => true | _ => false end) eqn:V.
  - assert (E : given None (p :: ps) = piece_value p ++ given None ps).
    { destruct p; try discriminate; cbn [given option_map piece_value app]; [|destruct (c <? 0x1f)%N]; reflexivity. }
    rewrite E. assert (L : late_control (p :: ps) <-> late_control ps).
    { split.
      - intros (a & q & b & c & Q & NV & I & LT). destruct a as [|x a]; cbn in Q.
        + injection Q as <- <-. destruct NV. destruct p; try discriminate; exact Logic.I.
        + injection Q as <- ->. exists a, q, b, c. auto.
      - intros (a & q & b & c & -> & NV & I & LT). exists (p :: a), q, b, c. auto. }
    rewrite L, <- IH. split; [apply app_inv_head|intros ->; reflexivity].
  - assert (E : given None (p :: ps) = piece_value p ++ given (Some []) ps) by (destruct p; try discriminate; reflexivity).
    rewrite E.
    split.
    + intros Q (a & q & b & c & X & NV & I & LT). apply app_inv_head in Q.
      apply (proj1 (given_late ps (Some []) ltac:(discriminate)) Q c); [|exact LT].
      destruct a as [|x a]; cbn in X; injection X as -> ->; [exact I|]. apply in_or_app. right. right. exact I.
    + intros NL. f_equal. apply given_late; [discriminate|]. intros c I LT. apply NL. exists [], p, ps, c.
      split; [reflexivity|]. split; [|auto]. destruct p; try discriminate; exact (fun x => x).
Qed.
(** The value of a string is right, unless a control character other than U+001F
    comes after an escape in it. *)
Theorem tok_value_exact : forall ps, given None ps = value ps <-> ~ late_control ps.
Proof. exact given_early. Qed.
Print Assumptions tok_value_exact.
(** Its errors are right, unless it has the control character U+001F. *)
Theorem tok_errors_exact : forall ps, given_errors ps = errors ps <-> ~ In (Control 0x1f) ps.
Proof.
  assert (LE : forall ps, length (given_errors ps) <= length (errors ps)).
  { induction ps as [|p ps IH]; [exact (le_n _)|]. rewrite given_errors_cons, errors_cons, !app_length.
    destruct p; cbn; try lia. destruct (c =? 0x1f)%N; cbn; lia. }
  induction ps as [|p ps IH]; [split; [intros _ []|reflexivity]|]. rewrite given_errors_cons, errors_cons.
  assert (NO : p <> Control 0x1f -> given_error p = piece_errors p).
  { intros NP. destruct p; try reflexivity. cbn. destruct (N.eqb_spec c 0x1f) as [->|]; [congruence|reflexivity]. }
  assert (DEC : p = Control 0x1f \/ p <> Control 0x1f).
  { destruct p; try (right; discriminate). destruct (N.eq_dec c 0x1f) as [->|]; [left; reflexivity|right; congruence]. }
  destruct DEC as [-> |NP].
  - split; [|intros K; destruct K; left; reflexivity]. intros E. exfalso. cbn in E. apply (f_equal (@length Error)) in E. cbn in E.
    specialize (LE ps). lia.
  - rewrite (NO NP). split.
    + intros E. apply app_inv_head in E. intros [Q|Q]; [congruence|]. exact (proj1 IH E Q).
    + intros K. f_equal. apply IH. intros Q. apply K. right. exact Q.
Qed.
Print Assumptions tok_errors_exact.

(** ** The end of the stream, whatever was sent *)

(** What [complete] says at every call, for every sequence of bytes. *)
Inductive ending (buf : list N) (d : dec) (vs : list view) : Prop :=
| at_end : buf = [] -> completes vs buf d = Ok (map (fun _ => None) vs) -> ending buf d vs
| in_space : buf <> [] -> Forall ws buf ->
    completes vs buf d = Ok (map (fun _ => Some (TWhitespace buf)) vs) -> ending buf d vs
| in_word t : lexeme tame buf [t] [0x2c]%N -> (exists c w, buf = c :: w /\ word_start c) ->
    completes vs buf d = Ok (map (fun _ => Some t) vs) -> ending buf d vs
| in_digits : buf <> [] -> Forall digit buf ->
    completes vs buf d = Ok (match vs with [] => [] | _ :: vs =>
      Some (TNumber (mkNumber buf Plus (firstn 1 buf) None None)) :: map (fun _ => None) vs end) -> ending buf d vs
| in_number n : numeral_ok n -> buf = written n -> ~ digits_only n ->
    completes vs buf d = (match vs with [] => Ok [] | [_] => Ok [Some (TError NumberRangeEmpty)] | _ => Panic end) -> ending buf d vs
| in_quotes r : buf = 0x22%N :: r ->
    completes vs buf d = Ok (map (fun _ => Some (TError StringIncomplete)) vs) -> ending buf d vs.
Theorem tok_complete_exact : forall h ts m buf d vs, drained h ts m buf d -> Forall honest vs -> ending buf d vs.
Proof.
  intros h ts m buf d vs D HV. destruct (tok_reading (fed h)) as (us & rest & es & T & U).
  destruct (tok_exact _ _ _ _ _ _ _ _ D T U) as [E ->].
  destruct vs as [|v vs].
  { destruct U as [|s NE F|c s WS F|n OK|ps w PB OE].
    - apply at_end; reflexivity.
    - apply in_space; [exact NE|exact F|reflexivity].
    - destruct (literal_dec (c :: s)) as [[t LT]|NL]; [|destruct (utf8_dec (c :: s)) as [X|X]].
      + eapply in_word; [apply lx_literal; [exact LT|]|eauto|reflexivity]. exists 0x2c%N, []. split; [reflexivity|]. unfold word_char, letter, digit, sign_char. lia.
      + eapply in_word; [apply lx_word; [exact WS|exact F|exact NL| |exact X]|eauto|reflexivity]. exists 0x2c%N, []. split; [reflexivity|]. unfold word_char, letter, digit, sign_char. lia.
      + eapply in_word; [apply lx_bytes; [exact WS|exact F| |exact X]|eauto|reflexivity]. exists 0x2c%N, []. split; [reflexivity|]. unfold word_char, letter, digit, sign_char. lia.
    - assert (DO : digits_only n \/ ~ digits_only n).
      { unfold digits_only. destruct (n_signs n), (n_frac n), (n_exp n); try (right; intros (? & ? & ?); discriminate). left. auto. }
      destruct DO as [DO|ND]; [|eapply in_number; [exact OK|reflexivity|exact ND|reflexivity]].
      destruct DO as (A & B & C). destruct n as [ss ds fr ex]. cbn in A, B, C. subst. unfold written. cbn. rewrite app_nil_r.
      destruct OK as (_ & FD & NE & _). cbn in FD, NE. apply in_digits; [apply NE; reflexivity|exact FD|reflexivity].
    - eapply in_quotes; reflexivity. }
  destruct U as [|s NE F|c s WS F|n OK|ps w PB OE].
  - destruct (tok_complete_partial h ts m [] d v vs D HV) as [[_ C]|[M _]]; [apply at_end; [reflexivity|exact C]|].
    exfalso. pose proof (tok_pop_asks _ _ _ _ _ D) as A. cbn in A. lia.
  - destruct (tok_complete_middle_partial h ts m s d us s (TWhitespace s) v vs D T) as (_ & _ & C); [|left; exact F|exact HV|].
    + apply lx_ws; [exact NE|exact F|]. exists 0x2c%N, []. split; [reflexivity|]. unfold ws. cbn. lia.
    + apply in_space; [exact NE|exact F|exact C].
  - assert (X : exists t, lexeme tame (c :: s) [t] [0x2c]%N).
    { assert (ST : stops word_char [0x2c]%N) by (exists 0x2c%N, []; split; [reflexivity|]; unfold word_char, letter, digit, sign_char; lia).
      destruct (literal_dec (c :: s)) as [[t LT]|NL]; [|destruct (utf8_dec (c :: s)) as [X|X]]; eexists.
      - apply lx_literal; [exact LT|exact ST].
      - apply lx_word; assumption.
      - apply lx_bytes; assumption. }
    destruct X as [t X]. destruct (tok_complete_middle_partial h ts m _ d us _ t v vs D T X) as (_ & _ & C); [right; eauto|exact HV|].
    eapply in_word; [exact X|eauto|exact C].
  - destruct (tok_complete_number_partial h ts m _ d us n v vs D T OK HV) as (_ & A & B).
    assert (DO : digits_only n \/ ~ digits_only n).
    { unfold digits_only. destruct (n_signs n), (n_frac n), (n_exp n); try (right; intros (? & ? & ?); discriminate). left. auto. }
    destruct DO as [DO|ND].
    + specialize (A DO). destruct DO as (P & Q & R). destruct n as [ss ds fr ex]. cbn in P, Q, R. subst.
      unfold written in *. cbn in A |- *. rewrite app_nil_r in *.
      destruct OK as (_ & FD & NE & _). cbn in FD, NE. apply in_digits; [apply NE; reflexivity|exact FD|exact A].
    + destruct (B ND) as [B1 B2]. eapply in_number; [exact OK|reflexivity|exact ND|].
      destruct vs as [|v2 vs]; [exact B1|]. apply B2. discriminate.
  - eapply in_quotes; [reflexivity|]. eapply tok_complete_string; eassumption.
Qed.
Print Assumptions tok_complete_exact.

(** ** A case *)

Section Cases.
Import String.
Open Scope string_scope. Open Scope list_scope.
(** A string with an escape and then a tab and U+001F, a comma, and a string that
    is not closed after a control character and half a surrogate pair. *)
Definition odd : list piece := [Escaped 0x6e 0x0a; Plain 0x61; Control 0x09; Control 0x1f]%N.
Definition open_rest : list N := 0x22%N :: TokSpec.text [Control 0x01]%N ++ u_text (of_ascii "d800") ++ of_ascii "\u0".
Definition odd_text : list N := 0x22%N :: TokSpec.text odd ++ [0x22; 0x2c]%N ++ open_rest.
Example exact_case :
  telling odd_text [TError (StringUnescaped 0x09); TString (0x22%N :: TokSpec.text odd ++ [0x22]%N) [0x0a; 0x61; 0x09; 0x61; 0x09; 0x1f]%N; TComma] open_rest /\
  unfinished open_rest [StringUnescaped 0x01] /\
  late_control odd /\ In (Control 0x1f) odd /\
  exists m buf d, drained (Feed odd_text :: repeat (Pop slice_view) 5)
    [TError (StringUnescaped 0x09); TString (0x22%N :: TokSpec.text odd ++ [0x22]%N) [0x0a; 0x61; 0x09; 0x61; 0x09; 0x1f]%N; TComma; TError (StringUnescaped 0x01)] m buf d.
Proof.
  split; [|split; [|split; [|split]]].
  - apply (telling_cons (0x22%N :: TokSpec.text odd ++ [0x22]%N) [TError (StringUnescaped 0x09); TString (0x22%N :: TokSpec.text odd ++ [0x22]%N) [0x0a; 0x61; 0x09; 0x61; 0x09; 0x1f]%N]
      (0x2c%N :: open_rest) [TComma]).
    + apply (told_string odd (0x2c%N :: open_rest)).
      * repeat split; try discriminate; try constructor; lia.
      * apply utf8_iff. reflexivity.
    + apply (telling_cons [0x2c]%N [TComma] open_rest []); [apply told_lexeme, lx_structural; constructor|constructor].
  - apply (uf_string [Control 0x01]%N (u_text (of_ascii "d800") ++ of_ascii "\u0")).
    + split; [reflexivity|]. split; [discriminate|exact I].
    + right. right. right. exists (of_ascii "d800"), (of_ascii "\u0").
      split; [split; [reflexivity|]; repeat (apply Forall_cons; [unfold hex_digit; cbn; lia|]); apply Forall_nil|].
      split; [unfold lead; vm_compute; split; discriminate|]. split; [|reflexivity].
      exact (begun_u [0x30]%N ltac:(repeat constructor; unfold hex_digit; lia) ltac:(cbn; lia)).
  - exists [], (Escaped 0x6e 0x0a)%N, (tl odd), 0x09%N. split; [reflexivity|]. split; [exact (fun x => x)|]. split; [right; left; reflexivity|reflexivity].
  - right. right. right. left. reflexivity.
  - do 3 eexists. exists (Feed odd_text :: repeat (Pop slice_view) 4), slice_view.
    exists (map Cont [TError (StringUnescaped 0x09); TString (0x22%N :: TokSpec.text odd ++ [0x22]%N) [0x0a; 0x61; 0x09; 0x61; 0x09; 0x1f]%N; TComma; TError (StringUnescaped 0x01)]).
    split; [reflexivity|]. split; [|reflexivity]. split; [|vm_compute; reflexivity].
    pose proof slice_honest. repeat (constructor; [first [exact I|assumption]|]). constructor.
Qed.
End Cases.
