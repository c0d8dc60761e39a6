(** RFC 8259: texts that are sequences of tokens are reported as these tokens,
    and a text reported without an error is such a sequence. *)
From Verif Require Import Base JsonSyntax JsonModel JsonSpec JsonProofs JsonLex JsonLexNum JsonLexStr JsonLexTotal.
Local Open Scope N_scope.

(** ** Strings *)

Lemma body_pieces raw chars next : string_body raw chars -> pieces raw chars [] next.
Proof.
  induction 1 as [|p c raw chars S _ IH]; [constructor|].
  change (c :: chars) with ([c] ++ chars). change (@nil Error) with (@nil Error ++ []).
  constructor; [now apply pc_ok|exact IH].
Qed.
Lemma pieces_body raw chars errs next : pieces raw chars errs next -> errs = [] -> string_body raw chars.
Proof.
  induction 1 as [|p d e ps ds es next P _ IH]; intros E; [constructor|].
  apply app_eq_nil in E as [-> ->]. specialize (IH eq_refl).
  inversion P; subst. cbn. now constructor.
Qed.

(** ** The first character of a token *)

Definition first_char (c : N) : Prop :=
  In c (chars_of "[]{}:,fnt-+") \/ ws c \/ digit c \/ c = 0x22.
Lemma token_first f k t : token_text f k t -> exists c r, t = c :: r /\ first_char c.
Proof.
  unfold first_char. destruct 1 as [c k S|w k L|raw NE F|n ((SG & D & _) & (W & _) & _)|raw chars S].
  - exists c, []. split; [reflexivity|]. left. destruct S; cbn; tauto.
  - destruct L; do 2 eexists; (split; [reflexivity|]); left; cbn; tauto.
  - destruct raw as [|c r]; [congruence|]. exists c, r. split; [reflexivity|]. right. left. now inversion F.
  - unfold written. destruct (n_sign n) as [|s sg] eqn:E.
    + destruct (n_int n) as [|d ds]; [congruence|]. cbn. do 2 eexists. split; [reflexivity|].
      right. right. left. now inversion D.
    + exists s. cbn. eexists. split; [reflexivity|]. left.
      destruct SG as [G|[G|[G _]]]; [discriminate| |]; injection G as -> ->; cbn; tauto.
  - do 2 eexists. split; [reflexivity|]. auto.
Qed.
Lemma tokens_first f rest ks : tokens_text f rest ks -> rest = [] \/ starts first_char rest.
Proof.
  destruct 1 as [|k t rest ks T _ _]; [now left|right].
  destruct (token_first _ _ _ T) as (c & r & -> & F). exists c, (r ++ rest). split; [reflexivity|exact F].
Qed.
Ltac cases_in H := cbn in H; repeat (destruct H as [H|H]; [try (subst; cbn; auto; fail)|]); try contradiction.

Lemma literal_word w k : literal w k -> word w.
Proof.
  assert (L : forall c, 0x61 <= c <= 0x7a -> ~ word_end c).
  { intros c Hc H. apply word_end_iff in H. unfold ends, starts_valid, starts_invalid, is_blank, is_whitespace in H.
    repeat rewrite Bool.orb_true_iff in H. lia. }
  destruct 1; cbn; (constructor; [split; [unfold digit; lia|right; apply L; lia]|]);
  repeat (apply Forall_cons; [apply L; lia|]); apply Forall_nil.
Qed.

Lemma forward f text ks : tokens_text f text ks -> lexed f text (map Tok ks).
Proof.
  induction 1 as [|k t rest ks T A TT IH]; [constructor|].
  pose proof (tokens_first _ _ _ TT) as FC.
  destruct T as [c k S|w k L|raw NE F|n (OK & W & Z)|raw chars S]; cbn [map].
  - cbn. now apply lx_structural.
  - apply lx_word; [now apply (literal_word w k)| |now constructor|exact IH].
    destruct FC as [->|(c & r & -> & C)]; [now left|right]. split.
    + exists c, r. split; [reflexivity|].
      assert (NA : ~ (letter c \/ digit c)).
      { intros H. assert (A' : ~ starts (fun c => letter c \/ digit c) (c :: r)) by (destruct L; exact A).
        apply A'. now apply starts_cons. }
      destruct C as [C|[C|[C| ->]]].
      * cbn in C. unfold letter, digit in NA. right. left. cbn.
        destruct C as [<-|[<-|[<-|[<-|[<-|[<-|[<-|[<-|[<-|[<-|[<-|[]]]]]]]]]]]]; try tauto; exfalso; lia.
      * left. cbn in C. unfold white_space. cbn. intuition.
      * exfalso. tauto.
      * right. now right.
    + intros [-> _]. inversion L.
  - change (Tok (Whitespace raw) :: map Tok ks)
      with (map (fun c => Err (CharacterStray c)) [] ++ Tok (Whitespace raw) :: map Tok ks).
    apply lx_blanks; [exact NE| | |exact IH].
    + clear NE A. induction F; constructor; auto.
    + intros (c & r & -> & WS). destruct FC as [?|(c' & r' & [= <- <-] & C)]; [discriminate|].
      cbn in A. rewrite starts_cons in A. apply A. destruct C as [C|[C|[C| ->]]].
      * exfalso. unfold white_space in WS. cbn in C, WS. lia.
      * exact C.
      * exfalso. unfold white_space in WS. cbn in WS. unfold digit in C. lia.
      * exfalso. unfold white_space in WS. cbn in WS. lia.
  - change (Tok (number_token n) :: map Tok ks) with ([] ++ [] ++ Tok (number_token n) :: map Tok ks).
    apply lx_number; [|  |now constructor|now constructor|exact IH].
    + split; [exact OK|]. destruct W as (W1 & W2 & _). split; [congruence|]. intros E. congruence.
    + intros (c & r & -> & C). cbn in A. rewrite starts_cons in A.
      destruct FC as [?|(c' & r' & [= <- <-] & FC)]; [discriminate|].
      destruct C as [C|[(_ & _ & _ & ->)|[(_ & _ & _ & C)|(e & E & _)]]].
      * contradiction.
      * unfold first_char, ws, digit in FC. cbn in FC. lia.
      * unfold first_char, ws, digit in FC. cbn in FC, C. lia.
      * destruct W as (_ & _ & W). now apply (W e []).
  - cbn [app]. rewrite <- app_assoc. cbn [app].
    change (Tok (Text raw chars) :: map Tok ks) with (map Err [] ++ Tok (Text raw chars) :: map Tok ks).
    apply lx_string; [now apply body_pieces|exact IH].
Qed.

(** ** Conversely *)

Lemma map_tok_inv e ev ks : e :: ev = map Tok ks -> exists k ks', ks = k :: ks' /\ e = Tok k /\ ev = map Tok ks'.
Proof. destruct ks; [discriminate|]. intros [= -> ->]. eauto. Qed.
Lemma blanks_clean run raw : blanks run [] raw -> run = raw /\ Forall ws raw.
Proof.
  remember [] as st eqn:E. induction 1 as [|c run st raw W B IH|c run st raw]; try discriminate; [auto|].
  destruct (IH E) as [-> F]. auto.
Qed.
Lemma word_end_not_alnum c : word_end c -> ~ (letter c \/ digit c).
Proof.
  intros H A. apply word_end_iff in H. unfold ends, starts_valid, starts_invalid, is_blank, is_whitespace in H.
  repeat rewrite Bool.orb_true_iff in H. unfold letter, digit in A. lia.
Qed.

Lemma backward f text ev : lexed f text ev -> forall ks, ev = map Tok ks -> tokens_text f text ks.
Proof.
  induction 1 as [|c k rest ev S L IH|rest ev L IH|rest ev NP L IH|run st raw rest ev NE B NS L IH
    |w e rest ev W O WE L IH|body rest ev NI O L IH|body rest ev NI O L IH
    |n z m rest ev SH NC Z M L IH|raw chars errs rest ev P L IH|raw chars errs tail P D];
  intros ks E; try (apply map_tok_inv in E as (k' & ks' & -> & E' & Ev); try discriminate; subst ev).
  - destruct ks; [constructor|discriminate].
  - injection E' as <-. change (c :: rest) with ([c] ++ rest). constructor; [now constructor| |now apply IH].
    destruct S; exact I.
  - destruct st as [|x st]; [|apply map_tok_inv in E as (? & ? & _ & ? & _); discriminate].
    apply blanks_clean in B as [-> F]. cbn in E. apply map_tok_inv in E as (k & ks' & -> & [= <-] & ->).
    constructor; [now constructor| |now apply IH]. cbn. intros (c & r & -> & C). apply NS.
    apply starts_cons. cbn in C. unfold white_space. cbn. intuition.
  - subst e. inversion WE; subst. constructor; [now constructor| |now apply IH].
    assert (A : ~ starts (fun c => letter c \/ digit c) rest).
    { destruct O as [->|[(c & r & -> & C) _]]; [apply starts_nil|]. rewrite starts_cons. now apply word_end_not_alnum. }
    match goal with H : literal _ _ |- _ => destruct H; exact A end.
  - destruct Z as [Z|d ds NZ Zi]; [|apply map_tok_inv in E as (? & ? & _ & ? & _); discriminate].
    destruct M as [M|M]; [|apply map_tok_inv in E as (? & ? & _ & ? & _); discriminate].
    cbn in E. apply map_tok_inv in E as (k & ks' & -> & [= <-] & ->).
    constructor; [| |now apply IH].
    + apply tt_number. split; [exact (proj1 SH)|auto].
    + cbn. intros (c & r & -> & C). apply NC. apply starts_cons. now left.
  - destruct errs; [|apply map_tok_inv in E as (? & ? & _ & ? & _); discriminate]. cbn in E. apply map_tok_inv in E as (k & ks' & -> & [= <-] & ->).
    change (0x22 :: raw ++ 0x22 :: rest) with ((0x22 :: raw) ++ [0x22] ++ rest). rewrite app_assoc.
    change ((0x22 :: raw) ++ [0x22]) with (0x22 :: raw ++ [0x22]).
    constructor; [|exact I|now apply IH]. apply tt_string. now apply (pieces_body _ _ _ _ P).
  - destruct errs; apply map_tok_inv in E as (? & ? & _ & ? & _); discriminate.
Qed.

Theorem tokens_iff f text ks : tokens_text f text ks <-> lexed f text (map Tok ks).
Proof. split; [apply forward|]. intros L. now apply (backward f text (map Tok ks)). Qed.

(** ** JSON texts *)

Definition sep (rest : list N) : Prop := rest = [] \/ starts (fun c => In c [0x2c; 0x5d; 0x7d; 0x3a]) rest.
Definition calm (rest : list N) : Prop := ~ starts (fun c => letter c \/ digit c) rest.
Definition extends (f : N) (ok : list N -> Prop) (s : list N) (e : list Token) : Prop :=
  forall rest ks, ok rest -> tokens_text f rest ks -> tokens_text f (s ++ rest) (e ++ ks).
Lemma sep_calm rest : sep rest -> calm rest.
Proof. intros [->|(c & r & -> & C)]; [apply starts_nil|]. unfold calm. rewrite starts_cons. cbn in C. unfold letter, digit. lia. Qed.
Lemma sep_blank rest : sep rest -> ~ starts ws rest.
Proof. intros [->|(c & r & -> & C)]; [apply starts_nil|]. rewrite starts_cons. unfold ws. cbn in C |- *. lia. Qed.
Lemma blank_extends f w b : blank_run w b -> extends f (fun rest => ~ starts ws rest) w b.
Proof.
  intros [|raw NE F] rest ks O T; [exact T|].
  cbn. constructor; [now constructor|exact O|exact T].
Qed.
Lemma blank_calm w b rest : blank_run w b -> calm rest -> calm (w ++ rest).
Proof.
  intros [|raw NE F] C; [exact C|]. destruct raw as [|c r]; [congruence|]. unfold calm. cbn. rewrite starts_cons.
  inversion F as [|? ? W _]; subst. unfold ws in W. cbn in W. unfold letter, digit. lia.
Qed.
Lemma value_start s e rest : json_value s e -> ~ starts ws (s ++ rest).
Proof.
  intros V (c & r & E & W). unfold ws in W. destruct V as [w k L|n R|raw chars S|s e J|s e J].
  - destruct L; injection E as <- _; cbn in W; lia.
  - destruct (token_first 0 (number_token n) (written n)) as (c' & r' & E' & F); [now constructor|].
    rewrite E' in E. injection E as -> _. destruct R as ((SG & D & _) & (I & _) & _).
    unfold written in E'. destruct (n_sign n) as [|s sg].
    + destruct (n_int n) as [|d ds]; [congruence|]. injection E' as <- _. inversion D; subst. unfold digit in *. cbn in W. lia.
    + injection E' as <- _. destruct SG as [G|[G|[G _]]]; [discriminate| |]; injection G as -> ->; cbn in W; lia.
  - injection E as <- _. cbn in W. lia.
  - injection E as <- _. cbn in W. lia.
  - injection E as <- _. cbn in W. lia.
Qed.
Lemma structural_cons f c k rest ks : structural c k -> tokens_text f rest ks -> tokens_text f (c :: rest) (k :: ks).
Proof. intros S T. change (c :: rest) with ([c] ++ rest). constructor; [now constructor|destruct S; exact I|exact T]. Qed.
Lemma string_cons f raw chars rest ks : string_body raw chars -> tokens_text f rest ks ->
  tokens_text f ((0x22 :: raw ++ [0x22]) ++ rest) (Text raw chars :: ks).
Proof. intros S T. constructor; [now constructor|exact I|exact T]. Qed.
Lemma sep_cons c rest : In c [0x2c; 0x5d; 0x7d; 0x3a] -> sep (c :: rest).
Proof. right. exists c, rest. auto. Qed.

Scheme jv_min := Minimality for json_value Sort Prop
  with je_min := Minimality for json_elements Sort Prop
  with je1_min := Minimality for json_elements1 Sort Prop
  with jm_min := Minimality for json_members Sort Prop
  with jm1_min := Minimality for json_members1 Sort Prop
  with jmem_min := Minimality for json_member Sort Prop
  with jp_min := Minimality for json_padded Sort Prop.

Lemma rfc_any f n : rfc_numeral 0 n -> rfc_numeral f n.
Proof.
  intros ((S & R) & W & Z). split; [split; [|exact R]|split; [exact W|]].
  - destruct S as [S|[S|[_ H]]]; [now left|right; now left|discriminate].
  - destruct Z as [H|Z]; [discriminate|now right].
Qed.

Ltac flat := repeat (rewrite <- app_assoc || cbn [app]).
Lemma padded_extends f s e : json_padded s e -> extends f sep s e.
Proof.
  apply (jp_min (fun s e => extends f calm s e /\ forall rest, ~ starts ws (s ++ rest)) (extends f sep) (extends f sep) (extends f sep)
    (extends f sep) (extends f sep) (extends f sep)).
  - intros w k L. split; [|intros; now apply (value_start w [k]), jv_literal].
    intros rest ks O T. cbn. constructor; [now constructor| |exact T]. destruct L; exact O.
  - intros n R. split; [|intros; now apply (value_start _ [number_token n]), jv_number].
    intros rest ks O T. cbn. constructor; [apply tt_number; now apply rfc_any| |exact T]. cbn.
    intros (c & r & -> & C). apply O. apply starts_cons. now right.
  - intros raw chars S. split; [|intros; now apply (value_start _ [Text raw chars]), jv_string].
    intros rest ks _ T. now apply string_cons.
  - intros s0 e0 J IH. split; [|intros; now apply (value_start _ (ArrayOpen :: e0 ++ [ArrayClose])), jv_array].
    intros rest ks _ T. flat. apply structural_cons; [constructor|]. apply IH; [apply sep_cons; cbn; auto|].
    apply structural_cons; [constructor|exact T].
  - intros s0 e0 J IH. split; [|intros; now apply (value_start _ (ObjectOpen :: e0 ++ [ObjectClose])), jv_object].
    intros rest ks _ T. flat. apply structural_cons; [constructor|]. apply IH; [apply sep_cons; cbn; auto|].
    apply structural_cons; [constructor|exact T].
  - intros w b B rest ks O T. apply blank_extends; auto. now apply sep_blank.
  - auto.
  - intros s0 e0 ss es _ IH _ IHs rest ks O T. flat. apply IH; [apply sep_cons; cbn; auto|].
    apply structural_cons; [constructor|]. now apply IHs.
  - auto.
  - intros s0 e0 ss es _ IH _ IHs rest ks O T. flat. apply IH; [apply sep_cons; cbn; auto|].
    apply structural_cons; [constructor|]. now apply IHs.
  - intros w b B rest ks O T. apply blank_extends; auto. now apply sep_blank.
  - auto.
  - intros s0 e0 ss es _ IH _ IHs rest ks O T. flat. apply IH; [apply sep_cons; cbn; auto|].
    apply structural_cons; [constructor|]. now apply IHs.
  - auto.
  - intros s0 e0 ss es _ IH _ IHs rest ks O T. flat. apply IH; [apply sep_cons; cbn; auto|].
    apply structural_cons; [constructor|]. now apply IHs.
  - intros w1 b1 raw chars w2 b2 s0 e0 B1 S B2 _ IH rest ks O T. rewrite <- !app_assoc.
    apply blank_extends; [exact B1| |].
    + cbn. rewrite starts_cons. unfold ws. cbn. lia.
    + cbn [app]. rewrite <- !app_assoc. cbn [app].
      assert (T2 : tokens_text f (w2 ++ 58 :: s0 ++ rest) (b2 ++ Colon :: e0 ++ ks)).
      { apply blank_extends; [exact B2| |].
        - rewrite starts_cons. unfold ws. cbn. lia.
        - apply structural_cons; [constructor|]. now apply IH. }
      pose proof (string_cons f raw chars _ _ S T2) as Q. cbn [app] in Q. rewrite <- app_assoc in Q. exact Q.
  - intros w1 b1 s0 e0 w2 b2 B1 _ [IH ST] B2 rest ks O T. rewrite <- !app_assoc.
    apply blank_extends; [exact B1|apply ST|]. apply IH.
    + apply (blank_calm w2 b2); [exact B2|now apply sep_calm].
    + apply blank_extends; [exact B2|now apply sep_blank|exact T].
Qed.
Theorem json_tokens f s e : json_padded s e -> tokens_text f s e.
Proof.
  intros J. rewrite <- (app_nil_r s), <- (app_nil_r e). apply padded_extends; [exact J|now left|constructor].
Qed.

(** ** Accounting *)

Lemma blanks_merged run st raw : blanks run st raw -> merged st raw run.
Proof. induction 1; constructor; auto. Qed.
Lemma pieces_about raw chars errs next : pieces raw chars errs next -> Forall about_string errs.
Proof.
  induction 1 as [|p d e ps ds es next P _ IH]; [constructor|]. apply Forall_app. split; [|exact IH].
  destruct P; repeat constructor.
Qed.
Theorem lexed_accounts f text ev : lexed f text ev -> accounts ev text.
Proof.
  induction 1 as [|c k rest ev S L IH|rest ev L IH|rest ev NP L IH|run st raw rest ev NE B NS L IH
    |w e rest ev W O WE L IH|body rest ev NI O L IH|body rest ev NI O L IH
    |n z m rest ev SH NC Z M L IH|raw chars errs rest ev P L IH|raw chars errs tail P D].
  - constructor.
  - change (c :: rest) with ([c] ++ rest). replace [c] with (token_source k) by (destruct S; reflexivity). now constructor.
  - now constructor.
  - now constructor.
  - apply ac_blanks; [now apply blanks_merged|exact IH].
  - destruct WE as [w k K|w K].
    + replace w with (token_source k) by (destruct K; reflexivity). now constructor.
    + now constructor.
  - now constructor.
  - now constructor.
  - rewrite app_assoc. unfold number_token. apply ac_number; [|exact IH]. apply Forall_app. split.
    + destruct Z as [Z|d ds NZ Zi]; constructor; [|constructor]. right. exists d. split; [reflexivity|].
      unfold written. rewrite Zi. apply in_or_app. right. cbn. auto.
    + destruct M; constructor; [|constructor]. now left.
  - constructor; [now apply (pieces_about _ _ _ _ P)|exact IH].
  - constructor. now apply (pieces_about _ _ _ _ P).
Qed.
