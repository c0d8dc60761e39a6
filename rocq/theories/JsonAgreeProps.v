(** Property C120: the two JSON tokenizers agree. *)
From Verif Require Import Base JsonSyntax JsonModel JsonSpec JsonRfc JsonHist JsonProps JsonAgreeSpec JsonAgree.
From Verif Require TokSyntax TokSpec TokModel TokMore TokSession StreamSpec StreamModel StreamProofs TokProps TokRemainProps.
Local Open Scope N_scope.

(** Whenever the tokenizer of osi, without flags, reports tokens and no errors,
    the streaming tokenizer of tmp reports the same tokens for the same text in
    UTF-8, in whatever pieces it arrives, if a structural character follows the
    text.  Names directly followed by a number are an exception. *)
Theorem json_agree_partial : forall text ks next h ts m buf d, Forall scalar_value text ->
  reports 0 text (map Tok ks) -> spaced ks -> punctuated next ->
  TokProps.drained h ts m buf d -> TokSession.fed h = utf8s text ++ next ->
  exists us more, ts = us ++ more /\ Forall2 same_token ks us.
Proof.
  intros text ks next h ts m buf d SC R S P D E. apply json_rfc in R; [|exact SC].
  destruct (lexemes text ks next R S P) as (us & F & L).
  destruct (TokProps.tok_rfc h ts m buf d _ us next D E L) as ((more & -> & _) & _). eauto.
Qed.
(** The same while the text arrives: what was reported before is the beginning of that. *)
Theorem json_agree_prefix : forall text ks next h rs buf d later, Forall scalar_value text ->
  reports 0 text (map Tok ks) -> spaced ks -> punctuated next ->
  TokProps.runs h rs buf d -> TokSession.fed h ++ later = utf8s text ++ next ->
  exists us, Forall2 same_token ks us /\
    ((exists ts, us = TokSession.tokens rs ++ ts) \/ (exists ts, TokSession.tokens rs = us ++ ts)).
Proof.
  intros text ks next h rs buf d later SC R S P D E. apply json_rfc in R; [|exact SC].
  destruct (lexemes text ks next R S P) as (us & F & L). exists us. split; [exact F|].
  exact (TokProps.tok_rfc_prefix h rs buf d _ us next later D E L).
Qed.
(** For JSON texts there is no exception, and the flags do not matter. *)
Theorem json_agree_texts : forall f text ks next h ts m buf d, json_padded text ks -> punctuated next ->
  TokProps.drained h ts m buf d -> TokSession.fed h = utf8s text ++ next ->
  reports f text (map Tok ks) /\ exists us more, ts = us ++ more /\ Forall2 same_token ks us.
Proof.
  intros f text ks next h ts m buf d J P D E. split; [now apply json_rfc_texts|].
  destruct (lexemes text ks next (json_tokens 0 _ _ J) (json_spaced _ _ J) P) as (us & F & L).
  destruct (TokProps.tok_rfc h ts m buf d _ us next D E L) as ((more & -> & _) & _). eauto.
Qed.

(** What has been reported when all of the text has arrived, but nothing after
    it: all tokens, or all but the last, if more of that one could follow. *)
Lemma end_agree text ks h ts m buf d : tokens_text 0 text ks -> spaced ks ->
  TokProps.drained h ts m buf d -> TokSession.fed h = utf8s text ->
  (Forall2 same_token ks ts /\ buf = []) \/ exists ks' k, ks = ks' ++ [k] /\ open_ended k /\ Forall2 same_token ks' ts.
Proof.
  intros T S D E. destruct (lexemes_end text ks T S) as [(us & F & L)|(ks' & k & us & u & s & -> & O & K & F & L & X)].
  { destruct (TokProps.tok_rfc h ts m buf d _ us [] D E L) as ((more & -> & Z) & _). destruct (Z eq_refl) as [-> ->].
    rewrite app_nil_r. auto. }
  right. exists ks', k. split; [reflexivity|]. split; [exact O|].
  destruct (TokProps.tok_rfc h ts m buf d _ us s D E L) as ((more & -> & _) & _).
  enough (more = []) as -> by now rewrite app_nil_r.
  destruct (open_more k u s _ K O X) as (x & v & NE & V).
  assert (A : forall tail w, TokSpec.lexed TokSpec.tame (s ++ tail) [w] [0x2c] -> exists z w', more ++ z = w :: w').
  { intros tail w W.
    assert (LL : TokSpec.lexed TokSpec.tame (utf8s text ++ tail) (us ++ [w]) [0x2c]).
    { pose proof (lexed_more _ _ _ tail L) as L'. apply TokMore.rfc_lexed_ok in L'. revert L' W.
      generalize (utf8s text ++ tail), (s ++ tail). clear. intros l r L W.
      induction L as [|a b c e g H L IH]; [exact W|]. rewrite <- app_assoc. constructor; auto. }
    destruct D as (h' & v0 & rs & -> & [FA SE] & Q).
    destruct (TokProps.tok_pop_returns ((h' ++ [TokModel.Pop v0]) ++ [TokModel.Feed tail])) as (rs2 & buf2 & d2 & SE2).
    { apply Forall_app. split; [exact FA|]. constructor; [exact I|constructor]. }
    assert (R2 : TokProps.runs ((h' ++ [TokModel.Pop v0]) ++ [TokModel.Feed tail]) rs2 buf2 d2).
    { split; [|exact SE2]. apply Forall_app. split; [exact FA|]. constructor; [exact I|constructor]. }
    apply Forall_app in FA as (FA1 & FV). inversion FV as [|? ? HV _]; subst.
    destruct (TokProps.tok_pop_drains _ _ _ _ v0 R2 HV) as (n & ts2 & m2 & buf3 & d3 & D2).
    assert (FE : forall w n, TokSession.fed (repeat (TokModel.Pop w) n) = []) by (intros w' n'; induction n'; auto).
    assert (EF : TokSession.fed (((h' ++ [TokModel.Pop v0]) ++ [TokModel.Feed tail]) ++ repeat (TokModel.Pop v0) (Datatypes.S n)) = utf8s text ++ tail).
    { rewrite TokSession.fed_app, FE, app_nil_r, TokSession.fed_app, E. cbn. now rewrite app_nil_r. }
    destruct (TokProps.tok_text_partial _ _ _ _ _ _ _ _ D2 EF LL) as (z2 & -> & _).
    assert (R1 : TokProps.runs (h' ++ [TokModel.Pop v0]) (rs ++ [StreamModel.Break m]) buf d).
    { split; [|exact SE]. apply Forall_app. auto. }
    destruct (TokProps.tok_chunking_prefix _ _ _ _ _ _ _ _ _ tail R1 D2) as (z3 & Z3).
    { rewrite EF, E. reflexivity. }
    assert (TK : TokSession.tokens (rs ++ [StreamModel.Break m]) = TokSession.tokens rs).
    { clear. induction rs as [|[t|b] rs IH]; cbn; congruence. }
    rewrite TK, <- Q, <- !app_assoc in Z3. apply app_inv_head in Z3. exists z3, z2. now rewrite <- Z3. }
  assert (U : TokSpec.lexed TokSpec.tame (s ++ [0x2c]) [u] [0x2c]).
  { apply TokMore.rfc_lexed_ok. constructor; [exact X|constructor]. }
  destruct (A [0x2c] u U) as (z & w & Z). rewrite <- app_assoc in V. destruct (A _ v V) as (z' & w' & Z').
  destruct more as [|y more]; [reflexivity|]. exfalso. injection Z as -> _. injection Z' as -> _. congruence.
Qed.
Theorem json_agree_end : forall text ks h ts m buf d, json_padded text ks ->
  TokProps.drained h ts m buf d -> TokSession.fed h = utf8s text ->
  (Forall2 same_token ks ts /\ buf = []) \/ exists ks' k, ks = ks' ++ [k] /\ open_ended k /\ Forall2 same_token ks' ts.
Proof.
  intros text ks h ts m buf d J. apply end_agree; [now apply json_tokens|now apply (json_spaced text)].
Qed.
(** A name or white space that was left is reported by [complete]. *)
Theorem json_agree_complete : forall text ks k h ts m buf d v, json_padded text (ks ++ [k]) ->
  is_name k \/ (exists raw, k = Whitespace raw) -> StreamSpec.honest v ->
  TokProps.drained h ts m buf d -> TokSession.fed h = utf8s text ->
  exists u, same_token k u /\ Forall2 same_token ks ts /\ TokModel.completes [v] buf d = Ok [Some u].
Proof.
  intros text ks k h ts m buf d v J K HV D E.
  destruct (lexemes_end text _ (json_tokens 0 _ _ J) (json_spaced _ _ J)) as [(us & F & L)|(ks' & k' & us & u & s & Q & _ & S & F & L & X)].
  - exfalso. apply Forall2_app_inv_l in F as (u1 & u2 & _ & F2 & ->). inversion F2 as [|? u ? ? S N]; subst. inversion N; subst.
    destruct (last_closed _ _ _ L eq_refl u1 u eq_refl) as (s & X). destruct K as [K|(raw & ->)].
    + inversion X as [? ? ? ? (c & r & Z & _)|? ? ? C|? ? ? ? (c & r & Z & _)|? ? ? (c & r & Z & _)|]; subst; try discriminate Z.
      * destruct C, k; easy.
      * destruct k; easy.
    + inversion X as [? ? ? ? (c & r & Z & _)|? ? ? C|? ? ? ? (c & r & Z & _)|? ? ? (c & r & Z & _)|]; subst; try discriminate Z.
      * now destruct C.
      * easy.
  - apply app_inj_tail in Q as [<- <-]. exists u. split; [exact S|].
    destruct (TokRemainProps.tok_complete_middle_partial h ts m buf d us s u v [] D) as (-> & _ & C).
    + rewrite E. now apply TokMore.lexed_telling, TokMore.rfc_lexed_ok.
    + now apply TokMore.rfc_lexeme_ok.
    + destruct X as [s next NE W _|c t next C|s t next Li _|n next R _|xs next Fx].
      * now left.
      * exfalso. destruct K as [K|(raw & ->)]; [|now destruct C]. destruct C, k; easy.
      * right. destruct (TokLex.literal_starts s t Li) as (c & w & -> & WS & _). eauto.
      * exfalso. destruct K as [K|(raw & ->)]; [|easy]. now destruct k.
      * exfalso. destruct K as [K|(raw & ->)]; [|easy]. now destruct k.
    + constructor; [exact HV|constructor].
    + auto.
Qed.
Print Assumptions json_agree_complete.
Print Assumptions json_agree_partial.
Print Assumptions json_agree_prefix.
Print Assumptions json_agree_texts.
Print Assumptions json_agree_end.

(** ** Cases *)

Ltac drain :=
  match goal with |- TokProps.drained ?h ?ts _ _ _ =>
    exists (firstn (length h - 1) h), StreamModel.slice_view, (map StreamModel.Cont ts) end;
  (split; [reflexivity|]); (split; [|reflexivity]); (split; [|vm_compute; reflexivity]);
  pose proof StreamProofs.slice_honest; repeat (constructor; [first [exact I|assumption]|]); constructor.
(** All of the data at once, then [n] calls. *)
Definition at_once (data : list N) (n : nat) : list TokModel.event :=
  TokModel.Feed data :: repeat (TokModel.Pop StreamModel.slice_view) n.

(** A string with characters of two and four bytes, a number and a name, and a comma after them. *)
Example json_agree_case :
  let text := 0x22 :: 0xe9 :: 0x1f600 :: J "\n""-1.5e2 true" in
  let ks := [Text (0xe9 :: 0x1f600 :: J "\n") [0xe9; 0x1f600; 0x0a]; Number (J "-1.5e2") [1] [5] [2] Minus Plus; Whitespace [32]; True_] in
  let us := [TokSyntax.TString (0x22 :: [0xc3; 0xa9; 0xf0; 0x9f; 0x98; 0x80] ++ J "\n""") [0xc3; 0xa9; 0xf0; 0x9f; 0x98; 0x80; 0x0a];
    TokSyntax.TNumber (TokSyntax.mkNumber (J "-1.5e2") TokSyntax.Minus (J "1") (Some (J "5")) (Some (TokSyntax.Plus, J "2")));
    TokSyntax.TWhitespace [32]; TokSyntax.TTrue] in
  Forall scalar_value text /\ reports 0 text (map Tok ks) /\ spaced ks /\ punctuated [0x2c]
  /\ (exists m buf d, TokProps.drained (at_once (utf8s text ++ [0x2c]) 6) (us ++ [TokSyntax.TComma]) m buf d)
  /\ TokSession.fed (at_once (utf8s text ++ [0x2c]) 6) = utf8s text ++ [0x2c] /\ Forall2 same_token ks us.
Proof.
  cbn zeta. split;
  [match goal with |- Forall _ ?l => let l' := eval vm_compute in l in change l with l' end; repeat (constructor; [unfold scalar_value; lia|]); constructor|].
  split; [reflexivity|]. split; [cbn; tauto|]. split; [cbn; tauto|]. split; [do 3 eexists; drain|]. split; [reflexivity|].
  repeat constructor.
Qed.
Ltac number := split; [|split; [split; [discriminate|split; [discriminate|intros ? ? [=]]]|right; intros (? & ? & ?); discriminate]];
  (split; [now left|]); (split; [repeat constructor; unfold digit; lia|]); split; discriminate.
(** JSON texts at the end of the stream: a number is not reported yet, an array is. *)
Example json_agree_end_open :
  json_padded (J "12") [Number (J "12") [1; 2] [] [] Plus Plus] /\ open_ended (Number (J "12") [1; 2] [] [] Plus Plus)
  /\ exists m buf d, TokProps.drained (at_once (utf8s (J "12")) 1) [] m buf d /\ buf = J "12".
Proof.
  split.
  { apply (jp [] [] (J "12") [Number (J "12") [1; 2] [] [] Plus Plus] [] []); [constructor| |constructor].
    apply (jv_number (mkNumeral [] [49; 50] None None)). number. }
  split; [right; now left|]. do 3 eexists. split; [drain|reflexivity].
Qed.
Example json_agree_complete_case :
  json_padded (J "null") ([] ++ [Null]) /\ is_name Null
  /\ exists m buf d, TokProps.drained (at_once (utf8s (J "null")) 1) [] m buf d
     /\ TokModel.completes [StreamModel.slice_view] buf d = Ok [Some TokSyntax.TNull].
Proof.
  split; [apply (jp [] [] (J "null") [Null] [] []); [constructor|apply jv_literal; constructor|constructor]|].
  split; [exact I|]. do 3 eexists. split; [drain|reflexivity].
Qed.
Example json_agree_end_closed :
  let ks := [ArrayOpen; Number (J "0") [0] [] [] Plus Plus; ArrayClose] in
  json_padded (J "[0]") ks
  /\ exists ts m buf d, TokProps.drained (at_once (utf8s (J "[0]")) 4) ts m buf d /\ Forall2 same_token ks ts.
Proof.
  cbn zeta. split.
  { apply (jp [] [] (J "[0]") [ArrayOpen; Number (J "0") [0] [] [] Plus Plus; ArrayClose] [] []); [constructor| |constructor].
    apply (jv_array (J "0") [Number (J "0") [0] [] [] Plus Plus]). apply je_one.
    apply (jp [] [] (J "0") [Number (J "0") [0] [] [] Plus Plus] [] []); [constructor| |constructor].
    apply (jv_number (mkNumeral [] [48] None None)). number. }
  exists [TokSyntax.TArrayOpen; TokSyntax.TNumber (TokSyntax.mkNumber (J "0") TokSyntax.Plus (J "0") None None); TokSyntax.TArrayClose].
  do 3 eexists. split; [drain|]. repeat constructor.
Qed.

(** ** Where they do not agree *)

(** A name directly followed by a number: osi reports both, tmp neither. *)
Theorem json_agree_names_refuted :
  reports 0 (J "null-1") (map Tok [Null; Number (J "-1") [1] [] [] Minus Plus])
  /\ exists m buf d, TokProps.drained (at_once (utf8s (J "null-1") ++ [0x2c]) 3)
       [TokSyntax.TError (TokSyntax.ItemUnknown (J "null-1")); TokSyntax.TComma] m buf d.
Proof. split; [reflexivity|]. do 3 eexists. drain. Qed.
(** Texts that only osi finds fault with: leading zeros, and the control character U+001F in a string. *)
Theorem json_agree_zero_refuted :
  reports 0 (J "01,") [Err (CharacterStray 49); Tok (Number (J "01") [0; 1] [] [] Plus Plus); Tok Comma]
  /\ exists m buf d, TokProps.drained (at_once (utf8s (J "01,")) 3)
       [TokSyntax.TNumber (TokSyntax.mkNumber (J "01") TokSyntax.Plus (J "01") None None); TokSyntax.TComma] m buf d.
Proof. split; [reflexivity|]. do 3 eexists. drain. Qed.
Theorem json_agree_control_refuted :
  (exists e es, reports 0 [0x22; 0x1f; 0x22] (Err e :: es))
  /\ exists m buf d, TokProps.drained (at_once (utf8s [0x22; 0x1f; 0x22]) 2)
       [TokSyntax.TString [0x22; 0x1f; 0x22] [0x1f]] m buf d.
Proof. split; [do 2 eexists; reflexivity|]. do 3 eexists. drain. Qed.
Print Assumptions json_agree_names_refuted.
Print Assumptions json_agree_zero_refuted.
Print Assumptions json_agree_control_refuted.
