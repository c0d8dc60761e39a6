(** Properties C31 to C36: the JSON tokenizer of osi. *)
From Verif Require Import Base JsonSyntax JsonModel JsonSpec JsonProofs JsonLex JsonLexNum JsonLexStr JsonLexTotal JsonRfc JsonHist.
Local Open Scope N_scope.

(** Handlers for the examples: one breaks at the first error, one counts. *)
Definition strict : handler (list Token) Error := fun s e =>
  match e with Tok k => (s ++ [k], None) | Err x => (s, Some x) end.
Notation J := chars_of (only parsing).

(** ** C31: no panic. *)

(** Whatever calls are made on a tokenizer, with whatever flags, characters and
    handlers, and also when it is used further after a handler broke. *)
Theorem json_never_panics : forall (H R : Type) (cs : list (call H R)) f s,
  Forall (fun c => Forall scalar_value (call_chars c)) cs ->
  exists t' s', do_calls (with_flags f) s cs = Ok (t', s').
Proof.
  intros H R cs f s S. destruct (calls_ok cs (with_flags f) s (wf_fresh f) S) as (t' & s' & E & _). eauto.
Qed.
Print Assumptions json_never_panics.
(** Stopped in the middle of an escape, with an error, and used again. *)
Example json_never_panics_example :
  let cs := [CallPushStr strict (J "[""\uD8"); CallPush strict (Some 0x78); CallParseStr strict (J "-1.e+")] in
  Forall (fun c => Forall scalar_value (call_chars c)) cs /\
  do_calls (with_flags 0) [] cs = Ok (with_flags 0, [ArrayOpen]).
Proof. cbn zeta. split; [repeat constructor; unfold scalar_value; cbn; lia|reflexivity]. Qed.

(** ** C32: chunking. *)

(** At any point of any history, with any handler, pieces are the same as the
    whole: same events in the same order until the handler breaks, same
    result, same state afterwards. *)
Theorem json_pieces : forall (H R : Type) (h : handler H R) t s ps,
  push_pieces h t s ps = push_str h t s (concat ps).
Proof. intros. apply push_pieces_concat. Qed.
Print Assumptions json_pieces.
Theorem json_chars : forall (H R : Type) (h : handler H R) t s text,
  push_chars h t s (map Some text) = push_str h t s text.
Proof. intros. apply push_chars_str. Qed.
Print Assumptions json_chars.
(** Pieces followed by the end of the input are the same as parsing the whole,
    also in the middle of a history. *)
Theorem json_pieces_parse : forall (H R : Type) (h : handler H R) (cs : list (call H R)) f s ps t' s',
  Forall (fun c => Forall scalar_value (call_chars c)) cs -> Forall (Forall scalar_value) ps ->
  do_calls (with_flags f) s cs = Ok (t', s') ->
  finish h (push_pieces h t' s' ps) = parse_str h t' s' (concat ps).
Proof.
  intros H R h cs f s ps t' s' S P E. destruct (calls_ok cs (with_flags f) s (wf_fresh f) S) as (t1 & s1 & E1 & W & _).
  rewrite E in E1. injection E1 as <- <-. rewrite push_pieces_concat. apply finish_parse; [exact W|].
  clear -P. induction P; cbn; [constructor|]. apply Forall_app. auto.
Qed.
Print Assumptions json_pieces_parse.
Example json_pieces_example :
  finish collect (push_pieces collect (with_flags 0) [] [J "[tr"; J "ue,1"; []; J "2"; J "]"]) =
    Ok (with_flags 0, map Tok [ArrayOpen; True_; Comma; Number (J "12") [1; 2] [] [] Plus Plus; ArrayClose], Continued SDone).
Proof. reflexivity. Qed.

(** ** C33: like new. *)

(** After any history, a call that ends the input, or whose handler breaks,
    leaves the tokenizer equal to a new one with the same flags. *)
Theorem json_like_new : forall (H R : Type) (cs : list (call H R)) c f s t1 s1 t2 s2 o,
  Forall (fun c => Forall scalar_value (call_chars c)) (cs ++ [c]) ->
  do_calls (with_flags f) s cs = Ok (t1, s1) -> do_call t1 s1 c = Ok (t2, s2, o) ->
  ends_input c \/ (exists r, o = Some (Broke r)) -> t2 = with_flags f.
Proof.
  intros H R cs c f s t1 s1 t2 s2 o S E1 E2 O. apply Forall_app in S as [S Sc]. inversion Sc; subst.
  destruct (calls_ok cs (with_flags f) s (wf_fresh f) S) as (t1' & s1' & E1' & W & F).
  rewrite E1 in E1'. injection E1' as <- <-.
  destruct (call_ok t1 s1 c W) as (t2' & s2' & o' & E2' & _ & _ & N & _); [assumption|].
  rewrite E2 in E2'. injection E2' as <- <- <-. rewrite (N O), F. reflexivity.
Qed.
Print Assumptions json_like_new.
(** The reported status is done exactly if the tokenizer is like new. *)
Theorem json_status : forall (H R : Type) (cs : list (call H R)) c f s t1 s1 t2 s2 st,
  Forall (fun c => Forall scalar_value (call_chars c)) (cs ++ [c]) ->
  do_calls (with_flags f) s cs = Ok (t1, s1) -> do_call t1 s1 c = Ok (t2, s2, Some (Continued st)) ->
  st = status t2 /\ (st = SDone <-> t2 = with_flags f).
Proof.
  intros H R cs c f s t1 s1 t2 s2 st S E1 E2. apply Forall_app in S as [S Sc]. inversion Sc; subst.
  destruct (calls_ok cs (with_flags f) s (wf_fresh f) S) as (t1' & s1' & E1' & W & F).
  rewrite E1 in E1'. injection E1' as <- <-.
  destruct (call_ok t1 s1 c W) as (t2' & s2' & o' & E2' & W2 & F2 & _ & ST); [assumption|].
  rewrite E2 in E2'. injection E2' as <- <- <-. rewrite (ST st eq_refl). split; [reflexivity|]. split.
  - intros D. rewrite (fresh_done t2 W2 D), F2, F. reflexivity.
  - intros ->. reflexivity.
Qed.
Print Assumptions json_status.
Example json_like_new_example :
  do_call (with_flags 3) [] (CallPushStr strict (J "+01 ""ab\x")) =
    Ok (with_flags 3, [Number (J "+01") [0; 1] [] [] Plus Plus; Whitespace [32]], Some (Broke (StringEscapeInvalid 120))) /\
  (exists t, do_call (with_flags 3) [] (CallPushStr strict (J "tr")) = Ok (t, [], Some (Continued SBusy))).
Proof. split; [reflexivity|]. eexists. reflexivity. Qed.

(** ** C34: RFC 8259. *)

(** A text is reported as tokens without an error exactly if it is the sequence
    of these tokens. *)
Theorem json_rfc : forall f text ks, Forall scalar_value text ->
  (reports f text (map Tok ks) <-> tokens_text f text ks).
Proof. intros f text ks S. now rewrite tokens_iff, reports_iff. Qed.
Print Assumptions json_rfc.
(** A JSON text, as defined by the grammar of RFC 8259, is reported as its
    tokens, whatever the flags. *)
Theorem json_rfc_texts : forall f text ks, json_padded text ks -> reports f text (map Tok ks).
Proof. exact json_scalar_tokens. Qed.
Print Assumptions json_rfc_texts.
(** Any text at all is reported as its segmentation, which exists and is unique. *)
Theorem json_segmentation : forall f text, Forall scalar_value text ->
  exists ev, reports f text ev /\ forall ev', lexed f text ev' <-> ev' = ev.
Proof.
  intros f text S. destruct (lexed_total f text S) as [ev L]. exists ev. split; [now apply lexed_reports|].
  intros ev'. split; [intros L'; now apply (lexed_fun f text)|now intros ->].
Qed.
Print Assumptions json_segmentation.
(** Every handler is told these events, one after the other, until it breaks. *)
Theorem json_any_handler : forall (H R : Type) (h : handler H R) f text ev s,
  Forall scalar_value text -> reports f text ev ->
  parse_str h (with_flags f) s text = match tell h s ev with
    | (s', None) => Ok (with_flags f, s', Continued SDone)
    | (s', Some r) => Ok (with_flags f, s', Broke r)
    end.
Proof. intros. now apply reports_any. Qed.
Print Assumptions json_any_handler.
Example json_rfc_example :
  let text := J "{ ""a\n"" : [-1.50e+3, null]}" in
  let ks := [ObjectOpen; Whitespace [32]; Text (J "a\n") [97; 10]; Whitespace [32]; Colon; Whitespace [32];
    ArrayOpen; Number (J "-1.50e+3") [1] [5; 0] [3] Minus Plus; Comma; Whitespace [32]; Null; ArrayClose; ObjectClose] in
  json_padded text ks /\ tokens_text 0 text ks /\ reports 0 text (map Tok ks).
Proof.
  cbn zeta. match goal with |- ?j /\ _ => assert (P : j) end.
  { assert (B0 : blank_run [] []) by constructor.
    assert (B1 : blank_run [32] [Whitespace [32]]) by (constructor; [discriminate|repeat constructor; cbn; auto]).
    assert (S : string_body (J "a\n") [97; 10]).
    { apply (sb_cons [97] 97); [apply sp_plain; split; [lia|unfold scalar_value; lia]|].
      apply (sb_cons [92; 110] 10 []); [apply sp_escape, e_n|constructor]. }
    assert (Nm : json_padded (J "-1.50e+3") [Number (J "-1.50e+3") [1] [5; 0] [3] Minus Plus]).
    { apply (jp [] [] (J "-1.50e+3") [Number (J "-1.50e+3") [1] [5; 0] [3] Minus Plus] [] [] B0); [|exact B0].
      apply (jv_number (mkNumeral [45] [49] (Some [53; 48]) (Some (101, [43], [51])))).
      split; [|split].
      - split; [right; now left|]. split; [repeat constructor; unfold digit; lia|].
        split; [intros ds [= <-]; repeat constructor; unfold digit; lia|].
        intros e s ds [= <- <- <-]. split; [cbn; auto|]. split; [cbn; auto|]. repeat constructor; unfold digit; lia.
      - split; [discriminate|]. split; [discriminate|]. cbn. intros e s [= E]. 
      - right. intros (d & ds & E). discriminate. }
    assert (Nl : json_padded (J " null") [Whitespace [32]; Null]).
    { apply (jp [32] [Whitespace [32]] (J "null") [Null] [] [] B1); [|exact B0]. apply jv_literal. constructor. }
    assert (Ar : json_padded (J " [-1.50e+3, null]") (Whitespace [32] :: ArrayOpen ::
      [Number (J "-1.50e+3") [1] [5; 0] [3] Minus Plus; Comma; Whitespace [32]; Null] ++ [ArrayClose])).
    { apply (jp [32] [Whitespace [32]] (J "[-1.50e+3, null]") (ArrayOpen ::
      [Number (J "-1.50e+3") [1] [5; 0] [3] Minus Plus; Comma; Whitespace [32]; Null] ++ [ArrayClose]) [] [] B1); [|exact B0].
      apply (jv_array (J "-1.50e+3, null") _). apply (je_more (J "-1.50e+3") _ (J " null") _ Nm).
      now apply je1_one. }
    apply (jp [] [] (J "{ ""a\n"" : [-1.50e+3, null]}")
      [ObjectOpen; Whitespace [32]; Text (J "a\n") [97; 10]; Whitespace [32]; Colon; Whitespace [32]; ArrayOpen;
       Number (J "-1.50e+3") [1] [5; 0] [3] Minus Plus; Comma; Whitespace [32]; Null; ArrayClose; ObjectClose] [] [] B0); [|exact B0].
    apply (jv_object (J " ""a\n"" : [-1.50e+3, null]")
      [Whitespace [32]; Text (J "a\n") [97; 10]; Whitespace [32]; Colon; Whitespace [32];
       ArrayOpen; Number (J "-1.50e+3") [1] [5; 0] [3] Minus Plus; Comma; Whitespace [32]; Null; ArrayClose]).
    apply jm_one. apply (jmem [32] [Whitespace [32]] (J "a\n") [97; 10] [32] [Whitespace [32]] _ _ B1 S B1 Ar). }
  split; [exact P|]. split; [now apply json_tokens|reflexivity].
Qed.
(** Some texts that are not. *)
Example json_rfc_errors :
  reports 0 (J "nul 1.e +2") [Err (KeywordUnknown (J "nul")); Tok (Whitespace [32]);
    Err NumberIncomplete; Tok (Number (J "1.") [1] [] [] Plus Plus); Err (KeywordUnknown (J "e")); Tok (Whitespace [32]);
    Err (CharacterStray 43); Tok (Number (J "2") [2] [] [] Plus Plus)] /\
  reports 0 (J "01=#x") [Err (CharacterStray 49); Tok (Number (J "01") [0; 1] [] [] Plus Plus);
    Err (CharacterStray 61); Tok Colon; Err (Comment (J "x"))].
Proof. split; reflexivity. Qed.

(** ** C35: strings. *)

(** Every spelling of every string is reported as this string, whatever follows. *)
Theorem json_strings : forall f raw chars rest ev, string_body raw chars -> reports f rest ev ->
  Forall scalar_value rest ->
  reports f (0x22 :: raw ++ 0x22 :: rest) (Tok (Text raw chars) :: ev).
Proof.
  intros f raw chars rest ev S R SC. apply reports_iff in R; [|exact SC]. apply lexed_reports.
  change (Tok (Text raw chars) :: ev) with (map Err [] ++ Tok (Text raw chars) :: ev).
  apply lx_string; [now apply body_pieces|exact R].
Qed.
Print Assumptions json_strings.
(** A string token that is reported without errors is spelled this way. *)
Theorem json_strings_only : forall f text ks raw chars, Forall scalar_value text ->
  reports f text (map Tok ks) -> In (Text raw chars) ks -> string_body raw chars.
Proof. intros f text ks raw chars S R. apply json_rfc in R; [|exact S]. now apply (tokens_string f text ks). Qed.
Print Assumptions json_strings_only.
(** Every string has a spelling, even one in printable ASCII only. *)
Theorem json_strings_spelled : forall chars, Forall scalar_value chars ->
  exists raw, string_body raw chars /\ (forall c, In c raw -> 0x20 <= c < 0x7f).
Proof. exact spelled. Qed.
Print Assumptions json_strings_spelled.
Example json_strings_example :
  reports 0 (J """\uD83D\uDE00\u00e9\/""") [Tok (Text (J "\uD83D\uDE00\u00e9\/") [0x1f600; 0xe9; 47])].
Proof. reflexivity. Qed.

(** ** C36: accounting. *)

(** A text without errors can be put together again from the tokens. *)
Theorem json_lossless : forall f text ks, Forall scalar_value text ->
  reports f text (map Tok ks) -> concat (map token_source ks) = text.
Proof. intros f text ks S R. apply json_rfc in R; [|exact S]. now apply (tokens_source f). Qed.
Print Assumptions json_lossless.
(** With errors, the events cover the text in order, apart from the text of a
    string that is not closed. *)
Theorem json_accounts_partial : forall f text ev, Forall scalar_value text ->
  reports f text ev -> accounts ev text.
Proof. intros f text ev S R. apply reports_iff in R; [|exact S]. now apply (lexed_accounts f). Qed.
Print Assumptions json_accounts_partial.
Example json_accounts_example : reports 0 (J "[ 1.,tru #x") [Tok ArrayOpen; Tok (Whitespace [32]);
  Err NumberIncomplete; Tok (Number (J "1.") [1] [] [] Plus Plus); Tok Comma; Err (KeywordUnknown (J "tru"));
  Tok (Whitespace [32]); Err (Comment (J "x"))].
Proof. reflexivity. Qed.
(** The text of such a string is lost, and the two kinds of comments cannot be
    told apart: different texts with the same events. *)
Theorem json_accounts_refuted : exists a b c d ev ev', a <> b /\ c <> d /\
  Forall scalar_value (a ++ b ++ c ++ d) /\
  reports 0 a ev /\ reports 0 b ev /\ reports 0 c ev' /\ reports 0 d ev'.
Proof.
  exists (J """abc"), (J """"), (J "//x"), (J "#//x"). do 2 eexists. split; [discriminate|]. split; [discriminate|].
  split; [repeat constructor; unfold scalar_value; cbn; lia|]. repeat split; reflexivity.
Qed.
Print Assumptions json_accounts_refuted.
(** The second digit of a number with a leading zero, and the character in
    place of a colon, are reported twice. *)
Theorem json_accounts_twice_refuted : exists d ds, 
  reports 0 (0x30 :: d :: ds) [Err (CharacterStray d); Tok (Number (0x30 :: d :: ds) (0 :: values (d :: ds)) [] [] Plus Plus)] /\
  reports 0 [0x3d] [Err (CharacterStray 0x3d); Tok Colon].
Proof. exists 0x31, []. split; reflexivity. Qed.
Print Assumptions json_accounts_twice_refuted.
