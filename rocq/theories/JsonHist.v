(** Histories of calls on one tokenizer. *)
From Verif Require Import Base JsonSyntax JsonModel JsonSpec JsonProofs JsonLex JsonLexNum JsonLexStr JsonLexTotal JsonRfc.
Local Open Scope N_scope.

(** The public calls, each with a handler of its own. *)
Inductive call (H R : Type) :=
| CallPush (h : handler H R) (ch : option N)
| CallPushStr (h : handler H R) (text : list N)
| CallParseStr (h : handler H R) (text : list N)
| CallReset.
Arguments CallPush {H R} h ch.
Arguments CallPushStr {H R} h text.
Arguments CallParseStr {H R} h text.
Arguments CallReset {H R}.
(** The arguments are Rust [char]s. *)
Definition call_chars {H R} (c : call H R) : list N :=
  match c with
  | CallPush _ (Some v) => [v]
  | CallPushStr _ text | CallParseStr _ text => text
  | _ => []
  end.
Definition do_call {H R} (t : Tokenizer) (s : H) (c : call H R) : res (Tokenizer * H * option (outcome R Status)) :=
  match c with
  | CallPush h ch => match push h t s ch with Ok (t', s', o) => Ok (t', s', Some o) | Panic => Panic | NoFuel => NoFuel end
  | CallPushStr h x => match push_str h t s x with Ok (t', s', o) => Ok (t', s', Some o) | Panic => Panic | NoFuel => NoFuel end
  | CallParseStr h x => match parse_str h t s x with Ok (t', s', o) => Ok (t', s', Some o) | Panic => Panic | NoFuel => NoFuel end
  | CallReset => Ok (reset t, s, None)
  end.
(** A handler that breaks ends its call, but not the history. *)
Fixpoint do_calls {H R} (t : Tokenizer) (s : H) (cs : list (call H R)) : res (Tokenizer * H) :=
  match cs with
  | [] => Ok (t, s)
  | c :: more =>
      match do_call t s c with
      | Ok (t', s', _) => do_calls t' s' more
      | Panic => Panic
      | NoFuel => NoFuel
      end
  end.
(** The calls that end what is being tokenized. *)
Definition ends_input {H R} (c : call H R) : Prop :=
  match c with
  | CallPush _ None | CallParseStr _ _ | CallReset => True
  | _ => False
  end.

(** Pieces pushed one after the other, until the handler breaks. *)
Fixpoint push_pieces {H R} (h : handler H R) (t : Tokenizer) (s : H) (ps : list (list N))
  : res (Tokenizer * H * outcome R Status) :=
  match ps with
  | [] => Ok (t, s, Continued (status t))
  | p :: more =>
      match push_str h t s p with
      | Ok (t', s', Continued _) => push_pieces h t' s' more
      | other => other
      end
  end.
Fixpoint push_chars {H R} (h : handler H R) (t : Tokenizer) (s : H) (cs : list (option N))
  : res (Tokenizer * H * outcome R Status) :=
  match cs with
  | [] => Ok (t, s, Continued (status t))
  | c :: more =>
      match push h t s c with
      | Ok (t', s', Continued _) => push_chars h t' s' more
      | other => other
      end
  end.
Definition finish {H R} (h : handler H R) (x : res (Tokenizer * H * outcome R Status))
  : res (Tokenizer * H * outcome R Status) :=
  match x with
  | Ok (t, s, Continued _) => push h t s None
  | other => other
  end.

(** A handler that writes down everything and never breaks. *)
Definition collect : handler (list event) Empty_set := fun s e => (s ++ [e], None).
(** A fresh tokenizer with flags [f] given [text] reports [ev] and is fresh
    again. *)
Definition reports (f : N) (text : list N) (ev : list event) : Prop :=
  parse_str collect (with_flags f) [] text = Ok (with_flags f, ev, Continued SDone).

(** ** Proofs *)

Lemma wf_fresh f : wf (with_flags f).
Proof. cbn. auto. Qed.
Lemma flags_fresh f : flags (with_flags f) = f.
Proof. reflexivity. Qed.
Lemma fresh_done t : wf t -> status t = SDone -> t = with_flags (flags t).
Proof.
  destruct t as [f st a b c]. unfold wf, status, with_flags. cbn. destruct st; try discriminate.
  intros (-> & -> & ->). reflexivity.
Qed.

Lemma call_ok {H R} t s (c : call H R) : wf t -> Forall scalar_value (call_chars c) ->
  exists t' s' o, do_call t s c = Ok (t', s', o) /\ wf t' /\ flags t' = flags t /\
    (ends_input c \/ (exists r, o = Some (Broke r)) -> t' = with_flags (flags t)) /\
    (forall st, o = Some (Continued st) -> st = status t').
Proof.
  intros W S. destruct c as [h ch|h x|h x|]; cbn [do_call ends_input].
  - destruct (step_wf t ch W) as (e & t' & E & W' & F & N0).
    { intros c ->. now inversion S. }
    rewrite (push_tell h t s ch e t' E). destruct (tell h s e) as [s' [r|]].
    + do 3 eexists. split; [reflexivity|]. split; [apply wf_fresh|]. split; [reflexivity|]. split; [reflexivity|]. discriminate.
    + do 3 eexists. split; [reflexivity|]. split; [exact W'|]. split; [exact F|]. split.
      * intros [C|[r C]]; [|discriminate]. destruct ch; [contradiction|auto].
      * intros st [= <-]. reflexivity.
  - destruct (feed_wf t x W S) as (e & t' & E & W' & F).
    rewrite (push_str_tell h x t s e t' E). destruct (tell h s e) as [s' [r|]].
    + do 3 eexists. split; [reflexivity|]. split; [apply wf_fresh|]. split; [reflexivity|]. split; [reflexivity|]. discriminate.
    + do 3 eexists. split; [reflexivity|]. split; [exact W'|]. split; [exact F|]. split.
      * intros [C|[r C]]; [contradiction|discriminate].
      * intros st [= <-]. reflexivity.
  - destruct (full_wf t x W S) as (e & E).
    rewrite (parse_str_tell h x t s e _ E). destruct (tell h s e) as [s' [r|]];
    do 3 eexists; (split; [reflexivity|]); (split; [apply wf_fresh|]); (split; [reflexivity|]); (split; [reflexivity|]).
    + discriminate.
    + intros st [= <-]. reflexivity.
  - do 3 eexists. split; [reflexivity|]. split; [apply (wf_fresh (flags t))|]. split; [reflexivity|].
    split; [reflexivity|discriminate].
Qed.
Lemma calls_ok {H R} (cs : list (call H R)) : forall t s, wf t -> Forall (fun c => Forall scalar_value (call_chars c)) cs ->
  exists t' s', do_calls t s cs = Ok (t', s') /\ wf t' /\ flags t' = flags t.
Proof.
  induction cs as [|c cs IH]; intros t s W S.
  - exists t, s. auto.
  - inversion S as [|? ? S1 S2]; subst. destruct (call_ok t s c W S1) as (t1 & s1 & o & E & W1 & F1 & _).
    cbn [do_calls]. rewrite E. destruct (IH t1 s1 W1 S2) as (t2 & s2 & E2 & W2 & F2).
    exists t2, s2. split; [exact E2|]. split; [exact W2|congruence].
Qed.

Lemma push_str_app {H R} (h : handler H R) a : forall b t s,
  push_str h t s (a ++ b) = match push_str h t s a with
    | Ok (t', s', Continued _) => push_str h t' s' b
    | other => other
    end.
Proof.
  induction a as [|c a IH]; intros b t s; cbn; [reflexivity|].
  destruct (push h t s (Some c)) as [[[t' s'] [x|r]]| |]; auto.
Qed.
Lemma push_pieces_concat {H R} (h : handler H R) ps : forall t s, push_pieces h t s ps = push_str h t s (concat ps).
Proof.
  induction ps as [|p ps IH]; intros t s; cbn; [reflexivity|]. rewrite push_str_app.
  destruct (push_str h t s p) as [[[t' s'] [x|r]]| |]; auto.
Qed.
Lemma push_chars_str {H R} (h : handler H R) cs : forall t s, push_chars h t s (map Some cs) = push_str h t s cs.
Proof.
  induction cs as [|c cs IH]; intros t s; cbn; [reflexivity|].
  destruct (push h t s (Some c)) as [[[t' s'] [x|r]]| |]; auto.
Qed.
Lemma push_none_status {H R} (h : handler H R) t s t' s' st : wf t ->
  push h t s None = Ok (t', s', Continued st) -> st = SDone.
Proof.
  intros W E. destruct (step_wf t None W) as (e & t1 & E1 & W1 & F & N0); [discriminate|].
  rewrite (push_tell h t s None e t1 E1) in E. destruct (tell h s e) as [s1 [r|]]; [discriminate|].
  injection E as _ _ <-. rewrite (N0 eq_refl). reflexivity.
Qed.
Lemma finish_parse {H R} (h : handler H R) t s text : wf t -> Forall scalar_value text ->
  finish h (push_str h t s text) = parse_str h t s text.
Proof.
  intros W S. unfold parse_str, finish. destruct (feed_wf t text W S) as (e & t' & E & W' & _).
  rewrite (push_str_tell h text t s e t' E). destruct (tell h s e) as [s' [r|]]; [reflexivity|].
  destruct (push h t' s' None) as [[[t2 s2] [x|r]]| |] eqn:P; auto.
  now rewrite (push_none_status h t' s' t2 s2 x W' P).
Qed.

Lemma tell_collect ev : forall s, tell collect s ev = (s ++ ev, None).
Proof. induction ev as [|e ev IH]; intros s; cbn; [now rewrite app_nil_r|]. now rewrite IH, <- app_assoc. Qed.
Lemma lexed_reports f text ev : lexed f text ev -> reports f text ev.
Proof.
  intros L. unfold reports. now rewrite (parse_str_tell collect text _ [] ev _ (lexed_full f text ev L)), tell_collect.
Qed.
Lemma reports_iff f text ev : Forall scalar_value text -> (reports f text ev <-> lexed f text ev).
Proof.
  intros S. split; [|apply lexed_reports]. intros R. destruct (lexed_total f text S) as [ev' L].
  pose proof (lexed_reports f text ev' L) as R'. unfold reports in R, R'. rewrite R in R'. now injection R' as ->.
Qed.
Lemma reports_any {H R} (h : handler H R) f text ev s : Forall scalar_value text -> reports f text ev ->
  parse_str h (with_flags f) s text = match tell h s ev with
    | (s', None) => Ok (with_flags f, s', Continued SDone)
    | (s', Some r) => Ok (with_flags f, s', Broke r)
    end.
Proof.
  intros S E. apply reports_iff in E; [|exact S].
  now rewrite (parse_str_tell h text (with_flags f) s ev _ (lexed_full f text ev E)).
Qed.

(** Every character has a spelling. *)
Lemma hex_digit_of d : d < 16 -> exists c, hex_digit c d.
Proof.
  intros L. destruct (N.lt_ge_cases d 10) as [D|D].
  - exists (d + 0x30). replace d with (d + 0x30 - 0x30) at 2 by lia. constructor. lia.
  - exists (d + 0x61 - 10). replace d with ((d + 0x61 - 10) - 0x61 + 10) at 2 by lia. constructor. lia.
Qed.
Lemma hex4_of v : v < 65536 -> exists h, hex4 h v.
Proof.
  intros L.
  destruct (hex_digit_of (v / 4096)) as [a A]; [apply N.div_lt_upper_bound; lia|].
  destruct (hex_digit_of (v / 256 mod 16)) as [b B]; [apply N.mod_lt; lia|].
  destruct (hex_digit_of (v / 16 mod 16)) as [c C]; [apply N.mod_lt; lia|].
  destruct (hex_digit_of (v mod 16)) as [d D]; [apply N.mod_lt; lia|].
  exists [a; b; c; d]. split; [reflexivity|].
  exists [v / 4096; v / 256 mod 16; v / 16 mod 16; v mod 16]. split; [repeat constructor; assumption|].
  cbn [fold_left].
  pose proof (N.div_mod v 16). pose proof (N.div_mod (v / 16) 16). pose proof (N.div_mod (v / 256) 16).
  replace (v / 256) with (v / 16 / 16) in * by (rewrite N.div_div by lia; reflexivity).
  replace (v / 4096) with (v / 16 / 16 / 16) in * by (rewrite !N.div_div by lia; reflexivity). lia.
Qed.
Lemma spelled_escaped c : scalar_value c -> exists p, spelling (backslash :: letter_u :: p) c.
Proof.
  unfold scalar_value. intros S. destruct (N.lt_ge_cases c 65536) as [L|L].
  - destruct (hex4_of c L) as [h H]. exists h. apply sp_unicode; [exact H| |]; unfold lead, trail; lia.
  - destruct (hex4_of (0xd800 + (c - 65536) / 1024)) as [h H].
    { assert ((c - 65536) / 1024 < 1024) by (apply N.div_lt_upper_bound; lia). lia. }
    assert (B : (c - 65536) / 1024 < 1024) by (apply N.div_lt_upper_bound; lia).
    assert (Q : (c - 65536) mod 1024 < 1024) by (apply N.mod_lt; lia).
    destruct (hex4_of (0xdc00 + (c - 65536) mod 1024)) as [k K]; [lia|].
    exists (h ++ backslash :: letter_u :: k).
    assert (E : c = paired (0xd800 + (c - 65536) / 1024) (0xdc00 + (c - 65536) mod 1024)).
    { unfold paired. pose proof (N.div_mod (c - 65536) 1024). lia. }
    assert (P : spelling (backslash :: letter_u :: h ++ backslash :: letter_u :: k)
      (paired (0xd800 + (c - 65536) / 1024) (0xdc00 + (c - 65536) mod 1024))).
    { apply sp_pair; auto; unfold lead, trail; lia. }
    rewrite <- E in P. exact P.
Qed.
Lemma spelled chars : Forall scalar_value chars -> exists raw, string_body raw chars /\ (forall c, In c raw -> 0x20 <= c < 0x7f).
Proof.
  assert (X : forall x v, hex_digit x v -> 0x20 <= x < 0x7f) by (destruct 1; lia).
  assert (Y : forall h v, hex4 h v -> forall c, In c h -> 0x20 <= c < 0x7f).
  { intros h v (_ & vs & F & _). clear v. induction F; intros c; [intros []|]. intros [<-|I]; eauto. }
  assert (Z : forall p c, spelling (backslash :: letter_u :: p) c -> forall x, In x (backslash :: letter_u :: p) -> 0x20 <= x < 0x7f).
  { intros p c Sp x I. inversion Sp; subst.
    - match goal with E : escape 117 _ |- _ => inversion E end.
    - destruct I as [<-|[<-|I]]; [lia|lia|]. (eapply Y; [|exact I]; eassumption).
    - destruct I as [<-|[<-|I]]; [lia|lia|]. apply in_app_or in I. destruct I as [I|[<-|[<-|I]]]; [|lia|lia|]; (eapply Y; [|exact I]; eassumption). }
  induction 1 as [|c chars S _ (raw & B & A)]; [exists []; split; [constructor|intros ? []]|].
  destruct (spelled_escaped c S) as [p P]. exists ((backslash :: letter_u :: p) ++ raw). split; [now constructor|].
  intros x I. apply in_app_or in I as [I|I]; [now apply (Z p c P)|now apply A].
Qed.
Lemma tokens_source f text ks : tokens_text f text ks -> concat (map token_source ks) = text.
Proof.
  induction 1 as [|k t rest ks T _ _ IH]; [reflexivity|]. cbn. rewrite IH. f_equal.
  destruct T as [c k S|w k L| | |]; try reflexivity; [destruct S|destruct L]; reflexivity.
Qed.
Lemma tokens_string f text ks : tokens_text f text ks -> forall raw chars, In (Text raw chars) ks -> string_body raw chars.
Proof.
  induction 1 as [|k t rest ks T _ _ IH]; intros raw chars; [intros []|]. intros [->|I]; [|now apply IH].
  inversion T as [c k S|w k L| | |]; subst; [inversion S|inversion L|assumption].
Qed.
Lemma json_scalar_tokens f text ks : json_padded text ks -> reports f text (map Tok ks).
Proof. intros J. now apply lexed_reports, forward, json_tokens. Qed.
