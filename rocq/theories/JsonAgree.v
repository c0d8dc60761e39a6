(** The two JSON tokenizers: tokens of one grammar are lexemes of the other. *)
From Coq Require Import Lia.
From Verif Require Import Base JsonSyntax JsonSpec JsonRfc JsonAgreeSpec.
From Verif Require TokSyntax TokSpec DvarDecSpec TokLex TokMore.
Local Open Scope N_scope.

Lemma utf8s_app a b : utf8s (a ++ b) = utf8s a ++ utf8s b.
Proof. apply flat_map_app. Qed.
Lemma utf8_ascii c : c < 128 -> DvarDecSpec.utf8 c = [c].
Proof. intros H. unfold DvarDecSpec.utf8. now apply N.ltb_lt in H as ->. Qed.
Lemma utf8s_ascii l : Forall (fun c => c < 128) l -> utf8s l = l.
Proof. induction 1 as [|c l H _ IH]; [reflexivity|]. unfold utf8s in *. cbn. now rewrite utf8_ascii, IH. Qed.
Lemma forall_impl {A} (P Q : A -> Prop) l : (forall x, P x -> Q x) -> Forall P l -> Forall Q l.
Proof. intros H F. eapply Forall_impl; eauto. Qed.

(** ** Strings *)

Lemma escape_same e c : escape e c -> TokSpec.escape e c.
Proof. destruct 1; constructor. Qed.
Lemma escape_ascii e c : escape e c -> e < 128.
Proof. now destruct 1. Qed.
Lemma hex_same c v : hex_digit c v -> TokSpec.hex_digit c /\ TokSpec.hex_val c = v.
Proof.
  unfold TokSpec.hex_digit, TokSpec.hex_val. destruct 1 as [c H|c H|c H].
  - destruct (N.leb_spec c 0x39); lia.
  - destruct (N.leb_spec c 0x39); [lia|]. destruct (N.leb_spec c 0x46); lia.
  - destruct (N.leb_spec c 0x39); [lia|]. destruct (N.leb_spec c 0x46); lia.
Qed.
Lemma hexes_same h vs a : Forall2 hex_digit h vs ->
  Forall TokSpec.hex_digit h /\ fold_left (fun x c => x * 16 + TokSpec.hex_val c) h a = fold_left (fun x d => 16 * x + d) vs a.
Proof.
  intros F. revert a. induction F as [|c v h vs C F IH]; intros a; [now cbn|].
  destruct (hex_same _ _ C) as (D & E). destruct (IH (a * 16 + v)) as (G & I). split; [now constructor|].
  cbn [fold_left]. rewrite E, I. f_equal. lia.
Qed.
Lemma hex4_same h v : hex4 h v -> TokSpec.hex4 h /\ TokSpec.code h = v.
Proof.
  intros (L & vs & F & ->). destruct (hexes_same h vs 0 F) as (G & E). split; [now split|exact E].
Qed.
Lemma hex_ascii h : TokSpec.hex4 h -> Forall (fun c => c < 128) h.
Proof. intros (_ & F). eapply forall_impl; [|exact F]. unfold TokSpec.hex_digit. lia. Qed.
Lemma u_ascii h : TokSpec.hex4 h -> Forall (fun c => c < 128) (TokSpec.u_text h).
Proof. intros H. unfold TokSpec.u_text. constructor; [easy|]. constructor; [easy|]. now apply hex_ascii. Qed.

Lemma spelling_same p c : spelling p c ->
  exists x, TokSpec.rfc_char_ok x /\ TokSpec.rfc_char_text x = utf8s p /\ TokSpec.code_point x = c.
Proof.
  destruct 1 as [c U|e c E|h v H NL NT|h k l t H L K T].
  - exists (TokSpec.Raw c). destruct U as (U & S). split; [|split; [cbn; now rewrite app_nil_r|reflexivity]].
    cbn. unfold DvarDecSpec.scalar, scalar_value in *. lia.
  - exists (TokSpec.Short e c). split; [now apply escape_same|]. split; [|reflexivity].
    rewrite utf8s_ascii; [reflexivity|]. constructor; [easy|]. constructor; [now apply (escape_ascii e c)|constructor].
  - destruct (hex4_same h v H) as (H' & <-). exists (TokSpec.Hex h). split; [now split|]. split; [|reflexivity].
    rewrite utf8s_ascii; [reflexivity|]. now apply u_ascii.
  - destruct (hex4_same h l H) as (H' & <-). destruct (hex4_same k t K) as (K' & <-).
    exists (TokSpec.Surrogates h k). split; [exact (conj H' (conj K' (conj L T)))|]. split; [|reflexivity].
    change (backslash :: letter_u :: h ++ backslash :: letter_u :: k) with (TokSpec.u_text h ++ TokSpec.u_text k).
    rewrite utf8s_ascii; [reflexivity|]. apply Forall_app. split; now apply u_ascii.
Qed.
Lemma body_same raw chars : string_body raw chars ->
  exists xs, Forall TokSpec.rfc_char_ok xs /\ flat_map TokSpec.rfc_char_text xs = utf8s raw /\ map TokSpec.code_point xs = chars.
Proof.
  induction 1 as [|p c raw chars S _ (xs & F & T & C)]; [exists []; repeat split; constructor|].
  destruct (spelling_same p c S) as (x & X & E & <-). exists (x :: xs). cbn. rewrite E, T, C, utf8s_app. repeat split. now constructor.
Qed.

(** ** Numbers *)

Definition numeral_as (n : numeral) : TokSpec.numeral := TokSpec.mkNumeral (n_sign n) (n_int n) (n_frac n) (n_exp n).
Lemma written_as n : TokSpec.written (numeral_as n) = written n.
Proof. reflexivity. Qed.
Lemma digit_ascii c : digit c -> c < 128.
Proof. unfold digit. lia. Qed.
Lemma written_ascii f n : numeral_ok f n -> Forall (fun c => c < 128) (written n).
Proof.
  intros (S & D & F & E). unfold written. rewrite !Forall_app. repeat split.
  - destruct S as [->|[->|[-> _]]]; repeat constructor.
  - eapply forall_impl; [apply digit_ascii|exact D].
  - destruct (n_frac n) as [ds|]; [|constructor]. cbn. constructor; [easy|]. eapply forall_impl; [apply digit_ascii|auto].
  - destruct (n_exp n) as [((e & s) & ds)|]; [|constructor]. destruct (E e s ds eq_refl) as (A & B & C). cbn.
    constructor; [cbn in A; destruct A as [<-|[<-|[]]]; easy|]. apply Forall_app. split.
    + cbn in B. destruct B as [<-|[<-|[<-|[]]]]; repeat constructor.
    + eapply forall_impl; [apply digit_ascii|exact C].
Qed.
Lemma number_same n : rfc_numeral 0 n -> TokSpec.rfc_number (numeral_as n).
Proof.
  intros ((S & D & F & E) & (I & NF & NE) & Z).
  assert (SG : n_sign n = [] \/ n_sign n = [0x2d]) by (destruct S as [S|[S|[_ H]]]; [auto..|discriminate]).
  split; [|split; [exact SG|split; [exact I|split; [exact NF|split]]]].
  - split; [|split; [exact D|split; [intros _; exact I|split; [exact F|]]]].
    + cbn. destruct SG as [->| ->]; constructor; [now right|constructor].
    + intros e ss ds X. destruct (E e ss ds X) as (A & B & C). split; [cbn in A; destruct A as [<-|[<-|[]]]; auto|].
      split; [|exact C]. cbn in B. destruct B as [<-|[<-|[<-|[]]]]; constructor; unfold TokSpec.sign_char; auto.
  - intros e ss ds X. destruct (E e ss ds X) as (_ & B & _). split.
    + cbn in B. destruct B as [<-|[<-|[<-|[]]]]; cbn; lia.
    + intros ->. now apply (NE e ss).
  - intros d ds X. destruct Z as [H|Z]; [discriminate|]. apply Z. now exists d, ds.
Qed.
Lemma sign_same s : s = [] \/ s = [0x2b] \/ s = [0x2d] -> same_sign (sign_value s) (TokSpec.sign_of s).
Proof. intros [->|[->| ->]]; exact I. Qed.
Lemma token_same n : rfc_numeral 0 n -> same_token (number_token n) (TokSyntax.TNumber (TokSpec.number_of (numeral_as n))).
Proof.
  intros R. pose proof R as ((S & D & F & E) & _). cbn. split; [|split; [|split; [|split]]].
  - rewrite utf8s_ascii; [reflexivity|]. apply (written_ascii 0 n). now apply R.
  - apply sign_same. destruct S as [S|[S|[S _]]]; auto.
  - reflexivity.
  - cbn. now destruct (n_frac n).
  - cbn. destruct (n_exp n) as [((e & s) & ds)|]; [|easy]. destruct (E e s ds eq_refl) as (_ & B & _).
    split; [|reflexivity]. apply sign_same. cbn in B. destruct B as [<-|[<-|[<-|[]]]]; auto.
Qed.

(** ** What follows a token *)

(** The characters a token can start with, for the flags of the RFC. *)
Definition head_char (c : N) : Prop := In c (chars_of "[]{}:,fnt-") \/ ws c \/ digit c \/ c = 0x22.
Lemma token_head k t : token_text 0 k t ->
  exists c r, t = c :: r /\ head_char c /\ (c = 0x2d \/ digit c -> is_number k).
Proof.
  destruct 1 as [c k S|w k L|raw NE F|n R|raw chars S].
  - exists c, []. split; [reflexivity|]. destruct S; unfold head_char, digit; cbn; (split; [tauto|lia]).
  - destruct L; do 2 eexists; (split; [reflexivity|]); unfold head_char, digit; cbn; (split; [tauto|lia]).
  - destruct raw as [|c r]; [easy|]. exists c, r. split; [reflexivity|]. inversion F as [|? ? W _]; subst.
    split; [unfold head_char; tauto|]. unfold ws in W. cbn in W. unfold digit. lia.
  - destruct R as ((SG & D & _) & (W & _) & _). unfold written. destruct (n_sign n) as [|s sg] eqn:E.
    + destruct (n_int n) as [|d ds]; [easy|]. do 2 eexists. split; [reflexivity|]. inversion D; subst.
      split; [unfold head_char; tauto|easy].
    + destruct SG as [G|[G|[_ H]]]; [discriminate| |discriminate]. injection G as -> ->.
      do 2 eexists. split; [reflexivity|]. split; [unfold head_char; cbn; tauto|easy].
  - do 2 eexists. split; [reflexivity|]. unfold head_char, digit. split; [tauto|lia].
Qed.
Lemma head_ascii c : head_char c -> c < 128.
Proof. unfold head_char, ws, digit. cbn. lia. Qed.

(** What comes behind the text starts with a structural character. *)
Lemma punctuated_head next : punctuated next -> exists c r, next = c :: r /\ In c (chars_of "[]{}:,").
Proof. destruct next as [|c r]; [easy|]. intros P. exists c, r. split; [reflexivity|]. cbn in P |- *. tauto. Qed.
Lemma next_head rest ks next : tokens_text 0 rest ks -> punctuated next ->
  exists c r, utf8s rest ++ next = c :: r /\ head_char c
    /\ (rest = [] -> In c (chars_of "[]{}:,")) /\ (forall c' r', rest = c' :: r' -> c' = c)
    /\ (c = 0x2d \/ digit c -> exists k ks', ks = k :: ks' /\ is_number k).
Proof.
  intros T P. destruct (punctuated_head next P) as (c & r & -> & C). destruct T as [|k t rest ks T A TT].
  - exists c, r. repeat split; auto; [|discriminate|].
    + unfold head_char. left. cbn in C |- *. tauto.
    + unfold digit. cbn in C. lia.
  - destruct (token_head k t T) as (x & y & -> & H & Nm). exists x, (utf8s (y ++ rest) ++ c :: r).
    split; [|split; [exact H|split; [discriminate|split]]].
    + cbn. rewrite utf8_ascii by now apply head_ascii. reflexivity.
    + intros c' r' Q. now injection Q.
    + intros X. exists k, ks. auto.
Qed.

Lemma apart_rest (P : N -> Prop) rest c : ~ starts P rest -> (forall c' r', rest = c' :: r' -> c' = c) ->
  (rest = [] -> ~ P c) -> ~ P c.
Proof.
  intros A E N. destruct rest as [|c' r']; [auto|]. rewrite <- (E c' r' eq_refl). intros X. apply A. exists c', r'. auto.
Qed.

Lemma lexemes text ks next : tokens_text 0 text ks -> spaced ks -> punctuated next ->
  exists us, Forall2 same_token ks us /\ TokSpec.rfc_lexed (utf8s text ++ next) us next.
Proof.
  intros T S P. revert S. induction T as [|k t rest ks T A TT IH]; intros S.
  { exists []. split; constructor. }
  cbn in S. destruct S as (S1 & S2). destruct (IH S2) as (us & F & L).
  destruct (next_head rest ks next TT P) as (c & r & Q & H & E0 & E1 & Nm).
  assert (ST : forall P : N -> Prop, ~ P c -> TokSpec.stops P (utf8s rest ++ next)) by (intros P' X; exists c, r; auto).
  enough (X : exists u, same_token k u /\ TokSpec.rfc_lexeme (utf8s t) u (utf8s rest ++ next)).
  { destruct X as (u & U & X). exists (u :: us). split; [now constructor|]. rewrite utf8s_app, <- app_assoc. now constructor. }
  destruct T as [x k St|w k Li|raw NE Fo|n R|raw chars Bo].
  - destruct St; (eexists; split; [|apply TokSpec.rl_structural; constructor]; exact I).
  - assert (X : ~ TokSpec.word_char c).
    { assert (~ (letter c \/ digit c)).
      { apply (apart_rest (fun c => letter c \/ digit c) rest); auto; [destruct Li; exact A|]. intros E. specialize (E0 E). unfold letter, digit. cbn in E0. lia. }
      assert (c <> 0x2d).
      { intros ->. destruct Nm as (k' & ks' & -> & Nm); [now left|]. apply S1. split; [now destruct Li|exact Nm]. }
      unfold TokSpec.word_char, TokSpec.letter, TokSpec.digit, TokSpec.sign_char, letter, digit in *.
      unfold head_char, ws, digit in H. cbn in H. lia. }
    destruct Li; (eexists; split; [|apply TokSpec.rl_literal; [constructor|now apply ST]]; exact I).
  - exists (TokSyntax.TWhitespace raw).
    assert (AS : utf8s raw = raw) by (apply utf8s_ascii; eapply forall_impl; [|exact Fo]; unfold ws; cbn; lia).
    split; [cbn; now rewrite AS|]. rewrite AS. apply TokSpec.rl_ws; [exact NE|exact Fo|]. apply ST.
    apply (apart_rest TokSpec.ws rest); auto. intros E. specialize (E0 E). unfold TokSpec.ws. cbn in E0 |- *. lia.
  - exists (TokSyntax.TNumber (TokSpec.number_of (numeral_as n))). split; [now apply token_same|].
    rewrite utf8s_ascii by (apply (written_ascii 0); apply R). rewrite <- written_as.
    apply TokSpec.rl_number; [now apply number_same|]. apply ST.
    assert (~ digit c) by (apply (apart_rest digit rest); auto; intros E; specialize (E0 E); unfold digit; cbn in E0; lia).
    destruct R as ((_ & _ & _ & _) & (I1 & _ & I2) & _).
    intros [X|X]; [easy|]. cbn in X. destruct (n_exp n) as [((e & ss) & ds)|] eqn:EX.
    + destruct X as (_ & ->). now apply (I2 e ss).
    + unfold head_char, ws, digit in *. cbn in H. destruct (n_frac n); [lia|].
      destruct X as [X|[X|[X|(_ & X)]]]; [lia..|easy].
  - destruct (body_same raw chars Bo) as (xs & Fx & Tx & Cx).
    eexists. split; [|].
    2:{ change (0x22 :: raw ++ [0x22]) with ([0x22] ++ raw ++ [0x22]). rewrite !utf8s_app. change (utf8s [0x22]) with [0x22].
        rewrite <- Tx. cbn [app]. now apply TokSpec.rl_string. }
    cbn. rewrite Tx, Cx. auto.
Qed.

(** ** JSON texts *)

Definition calm_head (ks : list Token) : Prop := match ks with k :: _ => ~ is_number k | [] => True end.
Definition fits (e : list Token) : Prop := forall ks, calm_head ks -> spaced ks -> spaced (e ++ ks).
Lemma spaced_cons k ks : ~ is_name k -> spaced ks -> spaced (k :: ks).
Proof. intros K S. cbn. split; [destruct ks; tauto|exact S]. Qed.
Lemma blank_fits w b ks : blank_run w b -> spaced ks -> spaced (b ++ ks).
Proof. intros [|raw N F] S; [exact S|]. now apply spaced_cons. Qed.
Lemma blank_head w b ks : blank_run w b -> calm_head ks -> calm_head (b ++ ks).
Proof. now intros [|raw N F] S. Qed.
Lemma comma_fits e es : fits e -> fits es -> fits (e ++ Comma :: es).
Proof. intros E Es ks C S. rewrite <- app_assoc. apply E; [easy|]. cbn [app]. apply spaced_cons; [easy|]. now apply Es. Qed.
Lemma padded_fits s e : json_padded s e -> fits e.
Proof.
  assert (B0 : forall w b, blank_run w b -> fits b) by (intros w b B ks _ S; now apply (blank_fits w)).
  apply (jp_min (fun _ e => fits e) (fun _ e => fits e) (fun _ e => fits e) (fun _ e => fits e)
    (fun _ e => fits e) (fun _ e => fits e) (fun _ e => fits e)); try (intros; eauto using comma_fits; fail).
  - intros w k L ks C S. cbn. split; [|exact S]. destruct ks; [exact I|]. now intros [_ X].
  - intros n _ ks C S. now apply spaced_cons.
  - intros raw chars _ ks C S. now apply spaced_cons.
  - intros s0 e0 _ IH ks C S. cbn [app]. rewrite <- app_assoc. apply spaced_cons; [easy|]. apply IH; [easy|]. now apply spaced_cons.
  - intros s0 e0 _ IH ks C S. cbn [app]. rewrite <- app_assoc. apply spaced_cons; [easy|]. apply IH; [easy|]. now apply spaced_cons.
  - intros w1 b1 raw chars w2 b2 s0 e0 B1 _ B2 _ IH ks C S. rewrite <- app_assoc. apply (blank_fits w1); [exact B1|].
    cbn [app]. apply spaced_cons; [easy|]. rewrite <- app_assoc. apply (blank_fits w2); [exact B2|]. cbn [app]. apply spaced_cons; [easy|]. now apply IH.
  - intros w1 b1 s0 e0 w2 b2 B1 _ IH B2 ks C S. rewrite <- !app_assoc. apply (blank_fits w1); [exact B1|].
    apply IH; [now apply (blank_head w2)|now apply (blank_fits w2)].
Qed.
Lemma json_spaced s e : json_padded s e -> spaced e.
Proof. intros J. rewrite <- (app_nil_r e). now apply (padded_fits s e J). Qed.

(** ** The end of the text *)

Lemma stops_app (P : N -> Prop) x y c : TokSpec.stops P ((x :: y) ++ c) -> TokSpec.stops P (x :: y).
Proof. intros (a & r & E & H). injection E as <- _. exists x, y. auto. Qed.
Lemma lexeme_app s t x y c : TokSpec.rfc_lexeme s t ((x :: y) ++ c) -> TokSpec.rfc_lexeme s t (x :: y).
Proof. inversion 1; subst; constructor; auto; eapply stops_app; eassumption. Qed.
Lemma lexeme_nonempty s t next : TokSpec.rfc_lexeme s t next -> s <> [].
Proof.
  destruct 1 as [s next NE _ _|c t next _|s t next L _|n next R _|xs next _]; try easy.
  - now destruct L.
  - destruct R as (_ & _ & I & _). unfold TokSpec.written. intros E. apply app_eq_nil in E as [_ E]. now apply app_eq_nil in E as [E _].
Qed.

Lemma lexed_suffix l us r : TokSpec.rfc_lexed l us r -> exists p, l = p ++ r.
Proof.
  induction 1 as [rest|s t next ts rest X L (p & ->)]; [now exists []|]. exists (s ++ p). apply app_assoc.
Qed.
Lemma lexed_nil ts r : TokSpec.rfc_lexed [] ts r -> ts = [] /\ r = [].
Proof.
  intros L. remember [] as l eqn:E in L. destruct L as [|s t n ts r X _]; [now subst|].
  apply lexeme_nonempty in X. now destruct s.
Qed.
Lemma shorten l us r0 : TokSpec.rfc_lexed l us r0 -> forall text c, l = text ++ [c] -> r0 = [c] ->
  (TokSpec.rfc_lexed text us []) \/
  (exists us' u s, us = us' ++ [u] /\ TokSpec.rfc_lexed text us' s /\ TokSpec.rfc_lexeme s u [c]).
Proof.
  induction 1 as [rest|s t next ts rest X L IH]; intros text c E R.
  - subst rest. destruct text as [|a [|b r]]; [left; constructor|discriminate..].
  - subst rest. assert (NX : exists next', next = next' ++ [c]).
    { exact (lexed_suffix _ _ _ L). }
    destruct NX as (next' & ->). rewrite app_assoc in E. apply app_inj_tail in E as [<- _].
    destruct (IH next' c eq_refl eq_refl) as [A|(us' & u & s' & -> & A & B)].
    + destruct next' as [|x y].
      * rewrite app_nil_r. right. exists [], t, s. cbn [app] in *. split; [|split; [constructor|exact X]].
        now apply lexed_nil in A as [-> _].
      * left. constructor; [now apply lexeme_app in X|exact A].
    + right. destruct next' as [|x y].
      * exfalso. apply lexed_nil in A as [_ ->]. now apply lexeme_nonempty in B.
      * exists (t :: us'), u, s'. split; [reflexivity|]. split; [|exact B]. constructor; [now apply lexeme_app in X|exact A].
Qed.

Lemma forall2_last {A B} (R : A -> B -> Prop) l us u : Forall2 R l (us ++ [u]) ->
  exists ks k, l = ks ++ [k] /\ Forall2 R ks us /\ R k u.
Proof.
  intros F. apply Forall2_app_inv_r in F as (ks & l2 & F1 & F2 & ->). inversion F2 as [|k ? r ? K N]; subst. inversion N; subst. eauto 6.
Qed.
Lemma same_open k u s next : same_token k u -> TokSpec.rfc_lexeme s u next ->
  open_ended k \/ forall n', TokSpec.rfc_lexeme s u n'.
Proof.
  intros S X. destruct X as [s next NE _ _|c t next C|s t next L _|n next R _|xs next F].
  - left. destruct k; try easy. right. now right.
  - right. intros n'. now constructor.
  - left. destruct L, k; try easy; now left.
  - left. destruct k; try easy. right. now left.
  - right. intros n'. now constructor.
Qed.

Lemma rfc_lexed_snoc l us rest u : TokSpec.rfc_lexed l us rest -> TokSpec.rfc_lexeme rest u [] ->
  TokSpec.rfc_lexed l (us ++ [u]) [].
Proof.
  induction 1 as [rest|s t next ts rest X L IH]; intros U.
  - cbn. rewrite <- (app_nil_r rest) at 1. constructor; [exact U|constructor].
  - cbn. constructor; auto.
Qed.
(** Behind the last complete lexeme of a text, at most one token is left. *)
Lemma lexemes_end text ks : tokens_text 0 text ks -> spaced ks ->
  (exists us, Forall2 same_token ks us /\ TokSpec.rfc_lexed (utf8s text) us []) \/
  (exists ks' k us u rest, ks = ks' ++ [k] /\ open_ended k /\ same_token k u /\ Forall2 same_token ks' us
     /\ TokSpec.rfc_lexed (utf8s text) us rest /\ TokSpec.rfc_lexeme rest u [0x2c]).
Proof.
  intros T S. destruct (lexemes text ks [0x2c] T S) as (us & F & L); [cbn; tauto|].
  destruct (shorten _ _ _ L _ _ eq_refl eq_refl) as [A|(us' & u & s & -> & A & B)]; [left; eauto|].
  destruct (forall2_last _ _ _ _ F) as (ks' & k & -> & F' & K).
  destruct (same_open k u s _ K B) as [O|O].
  - right. exists ks', k, us', u, s. auto 7.
  - left. exists (us' ++ [u]). split; [exact F|]. now apply (rfc_lexed_snoc _ _ s).
Qed.

(** ** More of an open token *)

Lemma stops_more (P : N -> Prop) next y : TokSpec.stops P next -> TokSpec.stops P (next ++ y).
Proof. intros (c & r & -> & H). exists c, (r ++ y). auto. Qed.
Lemma lexeme_more s t next y : TokSpec.rfc_lexeme s t next -> TokSpec.rfc_lexeme s t (next ++ y).
Proof.
  destruct 1; [apply TokSpec.rl_ws|apply TokSpec.rl_structural|apply TokSpec.rl_literal|apply TokSpec.rl_number|apply TokSpec.rl_string];
  auto using stops_more.
Qed.
Lemma lexed_more l us r y : TokSpec.rfc_lexed l us r -> TokSpec.rfc_lexed (l ++ y) us (r ++ y).
Proof.
  induction 1 as [rest|s t next ts rest X L IH]; [constructor|]. rewrite <- app_assoc. constructor; [now apply lexeme_more|exact IH].
Qed.
Lemma comma_stops (P : N -> Prop) : ~ P 0x2c -> TokSpec.stops P [0x2c].
Proof. intros H. exists 0x2c, []. auto. Qed.

Lemma one s v c : TokSpec.lexeme TokSpec.tame s [v] [c] -> TokSpec.lexed TokSpec.tame (s ++ [c]) [v] [c].
Proof. intros X. change [v] with ([v] ++ []). constructor; [exact X|constructor]. Qed.
Lemma one_number n : TokSpec.rfc_number n ->
  TokSpec.lexed TokSpec.tame (TokSpec.written n ++ [0x2c]) [TokSyntax.TNumber (TokSpec.number_of n)] [0x2c].
Proof.
  intros R. apply TokMore.rfc_lexed_ok. constructor; [|constructor]. apply TokSpec.rl_number; [exact R|]. apply comma_stops.
  unfold TokSpec.continues, TokSpec.digit, TokSpec.sign_char.
  destruct (TokSpec.n_exp n) as [((e & ss) & ds)|]; [lia|]. destruct (TokSpec.n_frac n); lia.
Qed.
Lemma with_exp n e ss ds : TokSpec.rfc_number n -> e = 0x65 \/ e = 0x45 -> Forall TokSpec.sign_char ss -> (length ss <= 1)%nat ->
  Forall TokSpec.digit ds -> ds <> [] ->
  TokSpec.rfc_number (TokSpec.mkNumeral (TokSpec.n_signs n) (TokSpec.n_int n) (TokSpec.n_frac n) (Some (e, ss, ds))).
Proof.
  intros ((N1 & N2 & N3 & N4 & N5) & SG & NI & NF & NE & NZ) A B C D E.
  refine (conj (conj N1 (conj N2 (conj N3 (conj N4 _)))) (conj SG (conj NI (conj NF (conj _ NZ)))));
  cbn; intros e' ss' ds' [= <- <- <-]; auto.
Qed.
(** Some more characters make another token of it. *)
Lemma open_more k u s next : same_token k u -> open_ended k -> TokSpec.rfc_lexeme s u next ->
  exists x v, v <> u /\ TokSpec.lexed TokSpec.tame ((s ++ x) ++ [0x2c]) [v] [0x2c].
Proof.
  intros S O X. destruct X as [s next NE W _|c t next C|s t next L _|n next R _|xs next F].
  - exists [0x20], (TokSyntax.TWhitespace (s ++ [0x20])). split.
    + intros [= E]. apply (f_equal (@length N)) in E. rewrite app_length in E. cbn in E. lia.
    + apply one. apply TokSpec.lx_ws; [now destruct s| |apply comma_stops; unfold TokSpec.ws; cbn; lia].
      apply Forall_app. split; [exact W|]. constructor; [cbn; auto|constructor].
  - exfalso. destruct C, k; try easy; destruct O as [[]|[[]|[]]].
  - exists [0x78], (TokSyntax.TError (TokSyntax.ItemUnknown (s ++ [0x78]))). split; [destruct L; discriminate|].
    apply one. destruct L; cbn [app]; (apply TokSpec.lx_word;
      [unfold TokSpec.word_start, TokSpec.ws, TokSpec.digit, TokSpec.sign_char; cbn; repeat split; try lia; intros t Q; inversion Q
      |repeat (constructor; [unfold TokSpec.word_char, TokSpec.letter; lia|]); constructor
      |intros t Q; inversion Q
      |apply comma_stops; unfold TokSpec.word_char, TokSpec.letter, TokSpec.digit, TokSpec.sign_char; lia
      |]);
    match goal with |- TokSpec.utf8_text ?l => exists l end; (split; [|reflexivity]);
    repeat (constructor; [unfold DvarDecSpec.scalar; lia|]); constructor.
  - pose proof R as ((N1 & N2 & N3 & N4 & N5) & SG & NI & NF & NE & NZ).
    destruct (TokSpec.n_exp n) as [((e & ss) & ds)|] eqn:EX.
    + set (n' := TokSpec.mkNumeral (TokSpec.n_signs n) (TokSpec.n_int n) (TokSpec.n_frac n) (Some (e, ss, ds ++ [0x30]))).
      exists [0x30], (TokSyntax.TNumber (TokSpec.number_of n')).
      assert (W : TokSpec.written n ++ [0x30] = TokSpec.written n').
      { unfold TokSpec.written, n'. rewrite EX. cbn. rewrite <- !app_assoc. cbn. rewrite <- ?app_assoc. reflexivity. }
      split.
      * intros E. apply (f_equal (fun t => match t with TokSyntax.TNumber x => TokSyntax.raw x | _ => [] end)) in E.
        change (TokSpec.written n' = TokSpec.written n) in E. rewrite <- W in E.
        apply (f_equal (@length N)) in E. rewrite app_length in E. cbn in E. lia.
      * rewrite W. apply one_number. destruct (N5 e ss ds eq_refl) as (A & B & C). destruct (NE e ss ds eq_refl) as (D & _).
        apply with_exp; auto; [|now destruct ds]. apply Forall_app. split; [exact C|].
        constructor; [unfold TokSpec.digit; lia|constructor].
    + set (n' := TokSpec.mkNumeral (TokSpec.n_signs n) (TokSpec.n_int n) (TokSpec.n_frac n) (Some (0x65, [], [0x30]))).
      exists [0x65; 0x30], (TokSyntax.TNumber (TokSpec.number_of n')).
      assert (W : TokSpec.written n ++ [0x65; 0x30] = TokSpec.written n').
      { unfold TokSpec.written, n'. rewrite EX. cbn. rewrite <- !app_assoc. cbn. rewrite <- ?app_assoc. reflexivity. }
      split.
      * intros E. apply (f_equal (fun t => match t with TokSyntax.TNumber x => TokSyntax.raw x | _ => [] end)) in E.
        change (TokSpec.written n' = TokSpec.written n) in E. rewrite <- W in E.
        apply (f_equal (@length N)) in E. rewrite app_length in E. cbn in E. lia.
      * rewrite W. apply one_number.
        apply with_exp; auto; [|easy]. constructor; [unfold TokSpec.digit; lia|constructor].
  - exfalso. destruct k; try easy; destruct O as [[]|[[]|[]]].
Qed.

Lemma last_closed l us r : TokSpec.rfc_lexed l us r -> r = [] -> forall us' u, us = us' ++ [u] ->
  exists s, TokSpec.rfc_lexeme s u [].
Proof.
  induction 1 as [rest|s t next ts rest X L IH]; intros R us' u E; [now destruct us'|].
  destruct us' as [|a us']; injection E as -> ->; [|now apply (IH R us')].
  exists s. inversion L; subst. exact X.
Qed.
