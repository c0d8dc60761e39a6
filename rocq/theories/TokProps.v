(** Properties C37-C39 and C58-C60: the streaming JSON tokenizer. *)
From Coq Require String Ascii.
From Verif Require Import Base StreamSpec StreamModel StreamProofs TokModel TokProofs TokSafe TokSession TokLex TokString TokNumber TokMore.
From Verif Require Import TokSpec.
Local Open Scope res_scope.

(** ** Vocabulary *)

(** A new decoder goes through the history [h] (data arriving and pops, each on
    a reader that keeps its contract) and answers with [rs]; the reader and the
    decoder are left as [buf] and [d]. *)
Definition runs (h : list event) (rs : list (flow Token)) (buf : list N) (d : dec) : Prop :=
  Forall fair h /\ session h [] new = Ok (rs, buf, d).
(** As before, and the last event is a pop that asks for more, with [m]. *)
Definition drained (h : list event) (ts : list Token) (m : More) (buf : list N) (d : dec) : Prop :=
  exists h' v rs, h = h' ++ [Pop v] /\ runs h (rs ++ [Break m]) buf d /\ ts = tokens rs.

Lemma drained_canon h ts m buf d : drained h ts m buf d -> canon (fed h) new ts (m, buf, d).
Proof.
  intros (h' & v & rs & -> & [F E] & ->). apply Forall_app in F. destruct F as [F FV]. inversion FV; subst.
  rewrite fed_app. cbn [fed]. rewrite app_nil_r. eapply exhausted; eassumption.
Qed.
Lemma drained_pending h ts m buf d : drained h ts m buf d -> pending buf d m.
Proof.
  intros (h' & v & rs & -> & [F E] & ->). apply Forall_app in F. destruct F as [F FV]. inversion FV; subst.
  exact (session_pending h' v rs m buf d F ltac:(assumption) E).
Qed.

(** ** C58: every call to [pop] returns *)

(** No history makes the decoder panic, and its fuel (which stands for the
    loops of [pop]) never runs out. *)
Theorem tok_pop_returns : forall h, Forall fair h -> exists rs buf d, session h [] new = Ok (rs, buf, d).
Proof.
  intros h F. destruct (session_ok h F [] new (wf_new [])) as (rs & buf & d & E & _). exists rs, buf, d. exact E.
Qed.
(** Popping often enough leads to a request for more data, after any history. *)
Theorem tok_pop_drains : forall h rs buf d v, runs h rs buf d -> honest v ->
  exists n ts m buf' d', drained (h ++ repeat (Pop v) (S n)) ts m buf' d'.
Proof.
  intros h rs buf d v [F E] HV.
  destruct (session_ok h F [] new (wf_new [])) as (rs1 & buf1 & d1 & E1 & W1 & _). rewrite E in E1. injection E1 as <- <- <-.
  destruct (drains v HV (S (phi buf d)) buf d W1 (Nat.lt_succ_diag_r _)) as (rs' & m & buf' & d' & E').
  exists (phi buf d), (tokens (rs ++ rs')), m, buf', d'. exists (h ++ repeat (Pop v) (phi buf d)), v, (rs ++ rs').
  split; [|split; [split|reflexivity]].
  - rewrite <- app_assoc. f_equal. change [Pop v] with (repeat (Pop v) 1). rewrite <- repeat_app. f_equal. lia.
  - apply Forall_app. split; [exact F|]. apply Forall_forall. intros e He. apply repeat_spec in He. subst e. exact HV.
  - rewrite session_app, E. cbn [bind]. rewrite E'. cbn [bind]. rewrite app_assoc. reflexivity.
Qed.
(** A request asks for one byte more than is there. *)
Theorem tok_pop_asks : forall h ts m buf d, drained h ts m buf d -> more_min m = length buf + 1.
Proof. intros h ts m buf d D. apply (drained_pending _ _ _ _ _ D). Qed.

(** ** C37: chunking *)

(** Two histories that feed the same data, in whatever pieces, with whatever
    pops in between and on whatever readers, report the same tokens once they
    ask for more, ask for the same, and leave the same behind (so that what
    comes later, and [complete], are the same, too). *)
Theorem tok_chunking : forall h1 h2 ts1 ts2 m1 m2 buf1 d1 buf2 d2,
  drained h1 ts1 m1 buf1 d1 -> drained h2 ts2 m2 buf2 d2 -> fed h1 = fed h2 ->
  ts1 = ts2 /\ m1 = m2 /\ buf1 = buf2 /\ d1 = d2.
Proof.
  intros h1 h2 ts1 ts2 m1 m2 buf1 d1 buf2 d2 A B E. apply drained_canon in A, B. rewrite E in A.
  destruct (canon_det _ _ _ _ _ _ A B) as [-> Q]. injection Q as -> -> ->. auto.
Qed.
(** And at any other time what was reported is the beginning of that, also if
    only the beginning of the data has arrived. *)
Theorem tok_chunking_prefix : forall h1 h2 rs1 ts2 m2 buf1 d1 buf2 d2 more,
  runs h1 rs1 buf1 d1 -> drained h2 ts2 m2 buf2 d2 -> fed h1 ++ more = fed h2 -> exists ts, ts2 = tokens rs1 ++ ts.
Proof.
  intros h1 h2 rs1 ts2 m2 buf1 d1 buf2 d2 more [F E] B Q. apply drained_canon in B. rewrite <- Q in B.
  eapply before; eassumption.
Qed.

(** ** C38 and C59: texts *)

(** For every text made of lexemes (TokSpec.v): the tokens and errors of all of
    them, in order.  Missing from the full statement are strings with the control
    character U+001F, and strings with a control character after an escape:
    [tok_control_refuted], [tok_segments_refuted]. *)
Theorem tok_text_partial : forall h ts m buf d text us rest,
  drained h ts m buf d -> fed h = text -> lexed tame text us rest ->
  exists more, ts = us ++ more /\ (rest = [] -> more = [] /\ buf = []).
Proof.
  intros h ts m buf d text us rest D <- L. apply drained_canon in D.
  destruct (lexed_canon _ _ _ _ L _ D) as (more & E & K). exists more. split; [exact E|]. intros R. destruct (K R) as [-> Q].
  injection Q as _ ->. auto.
Qed.
(** Texts of RFC 8259: one token for every lexeme, with its value, and no errors. *)
Theorem tok_rfc : forall h ts m buf d text us rest,
  drained h ts m buf d -> fed h = text -> rfc_lexed text us rest ->
  (exists more, ts = us ++ more /\ (rest = [] -> more = [] /\ buf = [])) /\ Forall (fun t => forall e, t <> TError e) us.
Proof.
  intros h ts m buf d text us rest D E L. split.
  - eapply tok_text_partial; [exact D|exact E|]. apply rfc_lexed_ok, L.
  - clear -L. induction L as [|s t next ts rest LX L IH]; constructor; [|exact IH]. intros e. eapply rfc_no_error, LX.
Qed.
(** The same at any time before, when only the beginning of the text has arrived
    or has been asked for. *)
Theorem tok_rfc_prefix : forall h rs buf d text us rest more,
  runs h rs buf d -> fed h ++ more = text -> rfc_lexed text us rest ->
  (exists ts, us = tokens rs ++ ts) \/ (exists ts, tokens rs = us ++ ts).
Proof.
  intros h rs buf d text us rest more [F E] Q L. destruct (canon_total text new (wf_new text)) as (ts & q & C).
  destruct (lexed_canon text us rest ts (rfc_lexed_ok _ _ _ L) q C) as (us' & -> & _). rewrite <- Q in C.
  destruct (before h rs buf d F E more _ _ C) as (ts' & X).
  destruct (Nat.le_gt_cases (List.length us) (List.length (tokens rs))) as [G|G].
  - right. exists (skipn (List.length us) (tokens rs)).
    rewrite <- (firstn_skipn (List.length us) (tokens rs)) at 1. f_equal.
    assert (Y : firstn (List.length us) (us ++ us') = firstn (List.length us) (tokens rs ++ ts')) by (rewrite X; reflexivity).
    rewrite firstn_app, firstn_all, Nat.sub_diag in Y. cbn in Y. rewrite app_nil_r in Y. rewrite Y at 2. rewrite firstn_app.
    replace (List.length us - List.length (tokens rs)) with 0 by lia. cbn. rewrite app_nil_r. reflexivity.
  - left. exists (skipn (List.length (tokens rs)) us).
    rewrite <- (firstn_skipn (List.length (tokens rs)) us) at 1. f_equal.
    assert (Y : firstn (List.length (tokens rs)) (us ++ us') = firstn (List.length (tokens rs)) (tokens rs ++ ts')) by (rewrite X; reflexivity).
    rewrite (firstn_app _ (tokens rs)), firstn_all, Nat.sub_diag in Y. cbn in Y. rewrite app_nil_r in Y. rewrite <- Y at 2. rewrite firstn_app.
    replace (List.length (tokens rs) - List.length us) with 0 by lia. cbn. rewrite app_nil_r. reflexivity.
Qed.

(** ** C39: the end of the stream *)

(** Full statement: calling [complete] until it yields [None] ends, without a
    panic.  That holds when no token is open, or when the open one is a number
    without errors; in every other case it is false.  This is what happens, for
    every history and any number of calls: *)
Theorem tok_complete_partial : forall h ts m buf d v vs, drained h ts m buf d -> Forall honest (v :: vs) ->
  (more_min m = 1 /\ completes (v :: vs) buf d = Ok (None :: map (fun _ => None) vs)) \/
  (2 <= more_min m /\
   ((exists x, completes (v :: vs) buf d = Ok (Some (TNumber x) :: map (fun _ => None) vs)) \/
    (exists t, t <> TError NumberRangeEmpty /\ (forall x, t <> TNumber x) /\
       completes (v :: vs) buf d = Ok (Some t :: map (fun _ => Some t) vs)) \/
    (completes [v] buf d = Ok [Some (TError NumberRangeEmpty)] /\ (vs <> [] -> completes (v :: vs) buf d = Panic)))).
Proof. intros h ts m buf d v vs D F. apply completes_pending; [eapply drained_pending, D|exact F]. Qed.
(** A text that ends with a complete lexeme has nothing left to complete. *)
Theorem tok_complete_text : forall h ts m buf d text us vs, drained h ts m buf d -> fed h = text -> lexed tame text us [] ->
  Forall honest vs -> completes vs buf d = Ok (map (fun _ => None) vs).
Proof.
  intros h ts m buf d text us vs D E L F.
  assert (M : more_min m = 1).
  { pose proof (drained_canon _ _ _ _ _ D) as C. rewrite E in C.
    destruct (lexed_canon _ _ _ _ L _ C) as (more & _ & K). destruct (K eq_refl) as [_ Q]. injection Q as -> _. reflexivity. }
  destruct vs as [|v vs]; [reflexivity|].
  destruct (tok_complete_partial h ts m buf d v vs D F) as [[_ K]|[K _]]; [exact K|lia].
Qed.

(** ** Cases *)

Definition of_ascii (s : String.string) : list N := map Ascii.N_of_ascii (String.list_ascii_of_string s).
Section Cases.
Import String.
Open Scope string_scope. Open Scope list_scope.
(** An array of a number and a string with escapes, in two pieces, shown byte by byte. *)
Definition small : view := fun buf min _ => Nat.min (List.length buf) min.
Lemma small_honest : honest small.
Proof. intros data min max L. unfold small. lia. Qed.
Definition text : list N := of_ascii "[-1.5e5,""a\n\ud83d\ude00""]".
Definition tokens_of_text : list Token :=
  [TArrayOpen; TNumber (mkNumber (of_ascii "-1.5e5") Minus (of_ascii "1") (Some (of_ascii "5")) (Some (Plus, of_ascii "5")));
   TComma; TString (of_ascii """a\n\ud83d\ude00""") [0x61; 0x0a; 0xf0; 0x9f; 0x98; 0x80]%N; TArrayClose].
Definition history : list event :=
  [Feed (firstn 4 text); Pop slice_view; Pop small; Feed (skipn 4 text)] ++ repeat (Pop small) 5.
Example drained_case : exists buf d, drained history tokens_of_text (mkMore 1 (Some 1)) buf d /\ fed history = text.
Proof.
  eexists. eexists. split; [|reflexivity]. exists ([Feed (firstn 4 text); Pop slice_view; Pop small; Feed (skipn 4 text)] ++ repeat (Pop small) 4), small.
  exists [Cont TArrayOpen; Break (mkMore 4 None); Cont (nth 1 tokens_of_text TNull); Cont TComma; Cont (nth 3 tokens_of_text TNull); Cont TArrayClose].
  split; [reflexivity|]. split; [|reflexivity]. split; [|vm_compute; reflexivity].
  pose proof small_honest. pose proof slice_honest. cbn. repeat (constructor; [first [exact I|assumption]|]). constructor.
Qed.
Example rfc_case : rfc_lexed text tokens_of_text [].
Proof.
  unfold text, tokens_of_text.
  apply (rfc_lexed_cons (of_ascii "[") TArrayOpen (of_ascii "-1.5e5,""a\n\ud83d\ude00""]")); [apply rl_structural; constructor|].
  apply (rfc_lexed_cons (of_ascii "-1.5e5") _ (of_ascii ",""a\n\ud83d\ude00""]")).
  { apply (rl_number (mkNumeral [0x2d] [0x31] (Some [0x35]) (Some (0x65, [], [0x35])))%N).
    - unfold rfc_number, numeral_ok. cbn. repeat split; try discriminate; auto.
      + constructor; [right; reflexivity|constructor].
      + repeat constructor; lia.
      + intros ds E. injection E as <-. repeat constructor; lia.
      + injection H as <- <- <-. auto.
      + injection H as <- <- <-. constructor.
      + injection H as <- <- <-. repeat constructor; lia.
      + injection H as <- <- <-. cbn. lia.
      + injection H as <- <- <-. discriminate.
    - eexists. eexists. split; [reflexivity|]. unfold continues, digit, sign_char. cbn. intros [H|[_ H]]; [lia|discriminate]. }
  apply (rfc_lexed_cons (of_ascii ",") TComma (of_ascii """a\n\ud83d\ude00""]")); [apply rl_structural; constructor|].
  apply (rfc_lexed_cons (of_ascii """a\n\ud83d\ude00""") _ (of_ascii "]")).
  { apply (rl_string [Raw 0x61; Short 0x6e 0x0a; Surrogates [0x64; 0x38; 0x33; 0x64] [0x64; 0x65; 0x30; 0x30]]%N).
    constructor; [right; right; unfold DvarDecSpec.scalar; lia|]. constructor; [constructor|]. constructor; [|constructor].
    assert (HD : forall a b c d : N, hex_digit a -> hex_digit b -> hex_digit c -> hex_digit d -> hex4 [a; b; c; d]).
    { intros. split; [reflexivity|]. repeat (constructor; [assumption|]). constructor. }
    split; [apply HD; unfold hex_digit; lia|]. split; [apply HD; unfold hex_digit; lia|].
    split; split; vm_compute; discriminate. }
  apply (rfc_lexed_cons (of_ascii "]") TArrayClose []); [apply rl_structural; constructor|]. constructor.
Qed.

(** Errors: "++01.e", a control character, an unknown escape and a lone surrogate. *)
Definition bad : list N := of_ascii "++01.e,""" ++ [0x09%N] ++ of_ascii "\x\ud800""".
Example tame_case : lexed tame bad
  [TError NumberLeadingPlus; TError NumberMultipleSigns; TError NumberRangeEmpty;
   TNumber (mkNumber (of_ascii "++01.e") Plus (of_ascii "01") (Some []) (Some (Plus, []))); TComma;
   TError (StringUnescaped 0x09); TError (StringEscapeUnknown 0x78); TError (StringEscapeUnpairedLeadSurrogate 0xd800);
   TString (of_ascii """" ++ [0x09%N] ++ of_ascii "\x\ud800""") [0x09; 0x78; 0xef; 0xbf; 0xbd]%N] [].
Proof.
  apply (lexed_cons tame (of_ascii "++01.e") [TError NumberLeadingPlus; TError NumberMultipleSigns; TError NumberRangeEmpty;
     TNumber (mkNumber (of_ascii "++01.e") Plus (of_ascii "01") (Some []) (Some (Plus, [])))] (of_ascii ",""" ++ [0x09%N] ++ of_ascii "\x\ud800""")).
  { apply (lx_number tame (mkNumeral [0x2b; 0x2b] [0x30; 0x31] (Some []) (Some (0x65, [], [])))%N).
    - unfold numeral_ok, sign_char, digit. cbn. repeat split; try discriminate.
      + repeat (constructor; [left; reflexivity|]). constructor.
      + repeat constructor; lia.
      + intros ds E. injection E as <-. constructor.
      + injection H as <- <- <-. auto.
      + injection H as <- <- <-. constructor.
      + injection H as <- <- <-. constructor.
    - eexists. eexists. split; [reflexivity|]. unfold continues, digit, sign_char. cbn. intros [H|[[H|H] _]]; [lia|discriminate|discriminate]. }
  apply (lexed_cons tame (of_ascii ",") [TComma]); [apply lx_structural; constructor|].
  apply (lexed_cons tame (of_ascii """" ++ [0x09%N] ++ of_ascii "\x\ud800""") [TError (StringUnescaped 0x09); TError (StringEscapeUnknown 0x78); TError (StringEscapeUnpairedLeadSurrogate 0xd800);
    TString (of_ascii """" ++ [0x09%N] ++ of_ascii "\x\ud800""") [0x09; 0x78; 0xef; 0xbf; 0xbd]%N] [] []); [|constructor].
  apply (lx_string tame [Control 0x09; UnknownEscape 0x78; LoneLead [0x64; 0x38; 0x30; 0x30]]%N []).
  - split; [cbn; intuition discriminate|]. exists [Control 0x09%N], [UnknownEscape 0x78; LoneLead [0x64; 0x38; 0x30; 0x30]]%N.
    split; [reflexivity|]. split; [repeat constructor|]. intros c. cbn. intuition discriminate.
  - cbn. repeat split; try lia; try discriminate.
    + intros c H. inversion H.
    + repeat (constructor; [unfold hex_digit; lia|]). constructor.
  - exists [0x09; 0x78; 0xfffd]%N. split; [repeat (constructor; [unfold DvarDecSpec.scalar; lia|]); constructor|reflexivity].
Qed.
End Cases.

(** ** Where the code is wrong *)

Section Wrong.
Import String.
Open Scope string_scope. Open Scope list_scope.

(** C38: U+001F is accepted, as if it were an ordinary character. *)
Theorem tok_control_refuted : exists h buf d, drained h [TString ([0x22; 0x1f; 0x22])%N [0x1f]%N] (mkMore 1 (Some 1)) buf d /\
  fed h = [0x22; 0x1f; 0x22]%N.
Proof.
  exists [Feed [0x22; 0x1f; 0x22]%N; Pop slice_view; Pop slice_view]. eexists. eexists. split; [|reflexivity].
  exists [Feed [0x22; 0x1f; 0x22]%N; Pop slice_view], slice_view, [Cont (TString ([0x22; 0x1f; 0x22])%N [0x1f]%N)].
  split; [reflexivity|]. split; [|reflexivity]. split; [|vm_compute; reflexivity].
  pose proof slice_honest. repeat (constructor; [first [exact I|assumption]|]). constructor.
Qed.
(** C38: after an escape, the text up to a control character is taken twice:
    the string [\nab<tab>c] is reported as [<newline>ab<tab>ab<tab>c]. *)
Definition twice : list N := (of_ascii """\nab" ++ [0x09%N] ++ of_ascii "c""").
Theorem tok_segments_refuted : exists h buf d,
  drained h [TError (StringUnescaped 0x09); TString twice [0x0a; 0x61; 0x62; 0x09; 0x61; 0x62; 0x09; 0x63]%N] (mkMore 1 (Some 1)) buf d /\
  fed h = twice.
Proof.
  exists [Feed twice; Pop slice_view; Pop slice_view; Pop slice_view]. eexists. eexists. split; [|reflexivity].
  exists [Feed twice; Pop slice_view; Pop slice_view], slice_view,
    [Cont (TError (StringUnescaped 0x09)); Cont (TString twice [0x0a; 0x61; 0x62; 0x09; 0x61; 0x62; 0x09; 0x63]%N)].
  split; [reflexivity|]. split; [|reflexivity]. split; [|vm_compute; reflexivity].
  pose proof slice_honest. repeat (constructor; [first [exact I|assumption]|]). constructor.
Qed.
Lemma open_text data m buf d : session [Feed data; Pop slice_view] [] new = Ok ([Break m], buf, d) ->
  drained [Feed data; Pop slice_view] [] m buf d.
Proof.
  intros E. exists [Feed data], slice_view, []. split; [reflexivity|]. split; [|reflexivity]. split; [|exact E].
  pose proof slice_honest. repeat (constructor; [first [exact I|assumption]|]). constructor.
Qed.
(** C39: a space at the end of the stream is reported again and again. *)
Theorem tok_complete_loops_refuted : exists h m buf d, drained h [] m buf d /\ fed h = [0x20]%N /\
  forall n, completes (repeat slice_view n) buf d = Ok (repeat (Some (TWhitespace [0x20]%N)) n).
Proof.
  exists [Feed [0x20]%N; Pop slice_view]. eexists. eexists. eexists. split; [apply open_text; vm_compute; reflexivity|].
  split; [reflexivity|]. induction n as [|n IH]; [reflexivity|]. cbn [repeat completes]. cbn [repeat] in IH.
  change (complete slice_view [0x20%N] _) with (Ok ([0x20%N], mkDec SWhitespace 1 None [], Some (TWhitespace [0x20%N]))).
  cbn [bind]. rewrite IH. reflexivity.
Qed.
(** C39: a negative number such as -5 at the end of the stream makes the second call panic. *)
Theorem tok_complete_panics_refuted : exists h m buf d, drained h [] m buf d /\ fed h = of_ascii "-5" /\
  completes [slice_view; slice_view] buf d = Panic.
Proof.
  exists [Feed (of_ascii "-5"); Pop slice_view]. eexists. eexists. eexists. split; [apply open_text; vm_compute; reflexivity|].
  split; vm_compute; reflexivity.
Qed.
(** C60: a number at the end of the stream loses its last digits. *)
Theorem tok_complete_number_refuted : exists h m buf d, drained h [] m buf d /\ fed h = of_ascii "12" /\
  completes [slice_view] buf d = Ok [Some (TNumber (mkNumber (of_ascii "12") Plus (of_ascii "1") None None))].
Proof.
  exists [Feed (of_ascii "12"); Pop slice_view]. eexists. eexists. eexists. split; [apply open_text; vm_compute; reflexivity|].
  split; vm_compute; reflexivity.
Qed.
(** C59: a leading zero, which the RFC forbids, is not an error. *)
Theorem tok_leading_zero_refuted : exists h m buf d,
  drained h [TNumber (mkNumber (of_ascii "01") Plus (of_ascii "01") None None); TComma] m buf d /\ fed h = of_ascii "01,".
Proof.
  exists [Feed (of_ascii "01,"); Pop slice_view; Pop slice_view; Pop slice_view]. eexists. eexists. eexists. split; [|reflexivity].
  exists [Feed (of_ascii "01,"); Pop slice_view; Pop slice_view], slice_view,
    [Cont (TNumber (mkNumber (of_ascii "01") Plus (of_ascii "01") None None)); Cont TComma].
  split; [reflexivity|]. split; [|reflexivity]. split; [|vm_compute; reflexivity].
  pose proof slice_honest. repeat (constructor; [first [exact I|assumption]|]). constructor.
Qed.
End Wrong.

Print Assumptions tok_pop_returns.
Print Assumptions tok_pop_drains.
Print Assumptions tok_pop_asks.
Print Assumptions tok_chunking.
Print Assumptions tok_chunking_prefix.
Print Assumptions tok_text_partial.
Print Assumptions tok_rfc.
Print Assumptions tok_rfc_prefix.
Print Assumptions tok_complete_partial.
Print Assumptions tok_complete_text.
Print Assumptions tok_control_refuted.
Print Assumptions tok_segments_refuted.
Print Assumptions tok_complete_loops_refuted.
Print Assumptions tok_complete_panics_refuted.
Print Assumptions tok_complete_number_refuted.
Print Assumptions tok_leading_zero_refuted.
