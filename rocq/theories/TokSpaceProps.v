(** Property C128: white space between the tokens of JSON. *)
From Verif Require Import Base StreamSpec StreamModel TokSyntax TokSpec TokExactSpec.
From Verif Require TokModel TokSafe TokSession TokExact TokProps TokExactProps DocModel DocSpec DocProofs DocProps DocRecoverProps.
From Coq Require Import Lia.
Local Open Scope N_scope.

(** ** Proofs *)

Lemma up_to_quote (q : N) x : forall n' y r, x ++ q :: n' = y ++ r -> ~ In q y -> exists r0, x = y ++ r0.
Proof.
  induction x as [|c x IH]; intros n' [|c' y] r E N; [exists []; reflexivity| |eexists; reflexivity|].
  - cbn in E. injection E as E _. exfalso. apply N. left. symmetry. exact E.
  - cbn in E. injection E as -> E. destruct (IH n' y r E ltac:(intros H; apply N; right; exact H)) as [r0 ->]. exists r0. reflexivity.
Qed.
Lemma hex_no_quote h : Forall hex_digit h -> ~ In 0x22 h.
Proof. intros F H. rewrite Forall_forall in F. specialize (F _ H). unfold hex_digit in F. lia. Qed.
Lemma pieces_next ps next next' : pieces_ok ps next -> pieces_ok ps next'.
Proof.
  induction ps as [|p ps IH]; cbn [pieces_ok]; [auto|]. intros [P H]. split; [|apply IH, H]. destruct p; cbn [piece_ok] in *; try exact P.
  - destruct P as (F & L & c & r & E & N). split; [exact F|]. split; [exact L|]. destruct (text ps) as [|c' t]; cbn in *; injection E as -> _; eauto.
  - destruct P as (F & L & N). split; [exact F|]. split; [exact L|]. intros h2 r H2 T E.
    destruct (up_to_quote 0x22 (text ps) next' (u_text h2) r E) as [r0 E0].
    + intros [X|[X|X]]; [discriminate X|discriminate X|]. exact (hex_no_quote h2 (proj2 H2) X).
    + apply (N h2 (r0 ++ 0x22 :: next) H2 T). rewrite E0, <- app_assoc. reflexivity.
Qed.
(** What follows matters by its first character only. *)
Definition like (next next' : list N) : Prop :=
  match next, next' with [], _ => True | c :: _, c' :: _ => c = c' | _ :: _, [] => False end.
Lemma stops_like p next next' : stops p next -> like next next' -> stops p next'.
Proof. intros (c & r & -> & N) L. destruct next' as [|c' r']; [destruct L|]. cbn in L. subst c'. exists c, r'. auto. Qed.
Lemma told_like s ts next next' : told s ts next -> like next next' -> told s ts next'.
Proof.
  intros T L. destruct T as [s ts next X|ps next P U|ps next P U].
  - apply told_lexeme. destruct X;
      [apply lx_ws|apply lx_structural|apply lx_literal|apply lx_word|apply lx_bytes|apply lx_number|contradiction|contradiction]; eauto using stops_like.
  - apply told_string; [eapply pieces_next; exact P|exact U].
  - apply told_string_bytes; [eapply pieces_next; exact P|exact U].
Qed.
Lemma ws_stops_word c : ws c -> ~ word_char c.
Proof. unfold word_char, letter, digit, sign_char. intros [<-|[<-|[<-|[<-|[]]]]]; lia. Qed.
Lemma ws_stops_number n c : ws c -> ~ continues n c.
Proof.
  unfold continues, digit, sign_char. intros W. assert (c <= 0x20) by (destruct W as [<-|[<-|[<-|[<-|[]]]]]; lia).
  destruct (n_exp n) as [[[? ?] ?]|]; [|destruct (n_frac n)]; lia.
Qed.
Lemma told_space s ts next w r : told s ts next -> w <> [] -> Forall ws w ->
  told s ts (w ++ r) \/ (s <> [] /\ Forall ws s /\ ts = [TWhitespace s]).
Proof.
  intros T N F. destruct w as [|c w]; [congruence|]. inversion F as [|? ? Wc _]; subst.
  assert (SW : stops word_char ((c :: w) ++ r)) by (exists c, (w ++ r); split; [reflexivity|apply ws_stops_word, Wc]).
  destruct T as [s ts next X|ps next P U|ps next P U].
  - assert (SN : forall n, stops (continues n) ((c :: w) ++ r)) by (intros n; exists c, (w ++ r); split; [reflexivity|apply ws_stops_number, Wc]).
    destruct X; [right; auto|..]; left; apply told_lexeme;
      [apply lx_structural|apply lx_literal|apply lx_word|apply lx_bytes|apply lx_number|contradiction|contradiction]; auto.
  - left. apply told_string; [eapply pieces_next; exact P|exact U].
  - left. apply told_string_bytes; [eapply pieces_next; exact P|exact U].
Qed.
Lemma told_nonempty s ts next : told s ts next -> s <> [].
Proof.
  intros T. destruct T as [s ts next X|ps next P U|ps next P U]; [|discriminate|discriminate].
  destruct X as [? ? H|? ? ? H|? ? ? H|? ? ? ?|? ? ? ?|n ? (_ & _ & H & _)|ps ? H|ps ? H]; try discriminate; [exact H|destruct H; discriminate|].
  unfold written. intros E. apply app_eq_nil in E. destruct E as [E1 E]. apply app_eq_nil in E. destruct E as [E2 _]. exact (H E1 E2).
Qed.
Lemma telling_suffix data us b : telling data us b -> exists a, data = a ++ b.
Proof. induction 1 as [rest|s ts next ts' rest T Ts [a ->]]; [exists []; reflexivity|]. exists (s ++ a). now rewrite app_assoc. Qed.
Lemma telling_none b us : telling b us b -> us = [].
Proof.
  intros T. inversion T as [|s ts next ts' rest To Ts E]; subst; [reflexivity|]. destruct (telling_suffix _ _ _ Ts) as [a H].
  pose proof (told_nonempty _ _ _ To) as Ne. apply (f_equal (@length N)) in H. rewrite !app_length in H. destruct s; [congruence|]. cbn in H. lia.
Qed.
Lemma numeral_head n c s : numeral_ok n -> written n = c :: s -> ~ ws c.
Proof.
  intros (S & D & H & _) E W. unfold written in E. assert (c <= 0x20) by (destruct W as [<-|[<-|[<-|[<-|[]]]]]; lia).
  destruct (n_signs n) as [|x l]; [destruct (n_int n) as [|x l]; [exact (H eq_refl eq_refl)|]|]; injection E as -> _.
  - inversion D; subst. unfold digit in *. lia.
  - inversion S; subst. unfold sign_char in *. lia.
Qed.
Lemma told_ws c s ts next : told (c :: s) ts next -> ws c -> Forall ws (c :: s) /\ ts = [TWhitespace (c :: s)] /\ stops ws next.
Proof.
  intros T W. assert (c <= 0x20) by (destruct W as [<-|[<-|[<-|[<-|[]]]]]; lia). remember (c :: s) as cs eqn:E.
  destruct T as [cs ts next X|ps next P U|ps next P U]; [|injection E as <- _; lia|injection E as <- _; lia].
  destruct X as [? ? Ne F S|? ? ? St|? ? ? L|? ? ? Ws|? ? ? Ws|n ? Nu|ps ? Q|ps ? Q]; try contradiction; [auto|..]; exfalso.
  - injection E as -> _. destruct St; lia.
  - destruct L; injection E as <- _; lia.
  - injection E as -> _. exact (proj1 Ws W).
  - injection E as -> _. exact (proj1 Ws W).
  - exact (numeral_head n c s Nu E W).
Qed.
Lemma unfinished_ws c s es : unfinished (c :: s) es -> ws c -> Forall ws (c :: s) /\ es = [].
Proof.
  intros U W. assert (c <= 0x20) by (destruct W as [<-|[<-|[<-|[<-|[]]]]]; lia). remember (c :: s) as cs eqn:E.
  destruct U as [|cs Ne F|c' s' Ws|n Nu|ps w]; [discriminate|auto|..]; exfalso.
  - injection E as -> _. exact (proj1 Ws W).
  - exact (numeral_head n c s Nu E W).
  - injection E as <- _. lia.
Qed.
Lemma unfinished_none es : unfinished [] es -> es = [].
Proof.
  intros U. remember [] as cs eqn:E. destruct U as [|cs Ne F|c' s' Ws|n (_ & _ & H & _)|ps w]; [reflexivity|reflexivity|discriminate| |discriminate].
  unfold written in E. apply app_eq_nil in E. destruct E as [E1 E]. apply app_eq_nil in E. destruct E as [E2 _]. destruct (H E1 E2).
Qed.
(** White space before a reading. *)
Lemma space_before w b vs rest es : w <> [] -> Forall ws w -> telling b vs rest -> unfinished rest es ->
  exists vs' rest', telling (w ++ b) vs' rest' /\ unfinished rest' es /\ DocSpec.strip vs' = DocSpec.strip vs.
Proof.
  intros N F T U.
  assert (G : stops ws b -> exists vs' rest', telling (w ++ b) vs' rest' /\ unfinished rest' es /\ DocSpec.strip vs' = DocSpec.strip vs).
  { intros S. exists ([TWhitespace w] ++ vs), rest. split; [|split; [exact U|reflexivity]]. eapply telling_cons; [|exact T].
    apply told_lexeme, lx_ws; assumption. }
  destruct b as [|c b].
  - assert (vs = [] /\ rest = []) as [-> ->].
    { inversion T as [|s ts next ts' rest' To Ts E]; subst; [auto|]. apply app_eq_nil in E. destruct E as [E _]. exfalso. exact (told_nonempty _ _ _ To E). }
    rewrite (unfinished_none es U). exists [], w. rewrite app_nil_r. split; [constructor|]. split; [apply uf_ws; assumption|reflexivity].
  - destruct (in_dec N.eq_dec c [0x20; 0x09; 0x0a; 0x0d]) as [W|W]; [|apply G; exists c, b; auto].
    inversion T as [rest' E E0 E1|s ts next ts' rest' To Ts E]; subst.
    + destruct (unfinished_ws _ _ _ U W) as [F' ->]. exists [], (w ++ c :: b). split; [constructor|]. split; [|reflexivity].
      apply uf_ws; [destruct w; [congruence|discriminate]|]. apply Forall_app. auto.
    + destruct s as [|c' s]; [exfalso; exact (told_nonempty _ _ _ To eq_refl)|]. cbn in E. injection E as -> _.
      destruct (told_ws _ _ _ _ To W) as (F' & -> & S). exists ([TWhitespace (w ++ c :: s)] ++ ts'), rest. split; [|split; [exact U|reflexivity]].
      rewrite app_assoc.
      eapply telling_cons; [|exact Ts]. apply told_lexeme, lx_ws; [destruct w; [congruence|discriminate]|apply Forall_app; auto|exact S].
Qed.
(** White space within a reading. *)
Lemma space_between w data us b vs rest es : w <> [] -> Forall ws w -> telling data us b -> telling b vs rest -> unfinished rest es ->
  exists a us' rest', data = a ++ b /\ telling (a ++ w ++ b) us' rest' /\ unfinished rest' es /\ DocSpec.strip us' = DocSpec.strip (us ++ vs).
Proof.
  intros N F T Tb U. induction T as [b|s ts next us b To Ts IH].
  - exists []. destruct (space_before w b vs rest es N F Tb U) as (vs' & rest' & T' & U' & E). exists vs', rest'. auto.
  - destruct (IH Tb) as (a & us' & rest' & -> & T' & U' & E). exists (s ++ a). destruct a as [|c a].
    + cbn [app] in *. rewrite (telling_none _ _ Ts) in *. rewrite app_nil_r in *.
      destruct (told_space s ts b w b To N F) as [To'|(Ns & Fs & ->)].
      * exists (ts ++ us'), rest'. split; [reflexivity|]. split; [eapply telling_cons; eassumption|]. split; [exact U'|].
        rewrite !DocProofs.strip_app, E. cbn. now rewrite app_nil_r.
      * destruct (space_before (s ++ w) b vs rest es ltac:(destruct s; [congruence|discriminate]) ltac:(apply Forall_app; auto) Tb U) as (vs' & r' & T2 & U2 & E2).
        exists vs', r'. rewrite app_assoc. split; [reflexivity|]. split; [exact T2|]. split; [exact U2|]. exact E2.
    + exists (ts ++ us'), rest'. split; [now rewrite app_assoc|]. split; [|split; [exact U'|]].
      * rewrite <- app_assoc. eapply telling_cons; [|exact T']. eapply told_like; [exact To|]. reflexivity.
      * rewrite <- app_assoc, (DocProofs.strip_app ts us'), E, <- DocProofs.strip_app. reflexivity.
Qed.

(** ** C128: white space between tokens is insignificant *)

(** Data is sent in any way, the streaming tokenizer drained: with or without white
    space between two of its lexemes, the same tokens are found, apart from white
    space, and the same errors.  The first [a] of the data are lexemes, with what
    follows them, [b]. *)
Theorem tok_space : forall h h' ts ts' m m' buf buf' d d' a w b us,
  TokProps.drained h ts m buf d -> TokProps.drained h' ts' m' buf' d' ->
  TokSession.fed h = a ++ b -> TokSession.fed h' = a ++ w ++ b -> telling (a ++ b) us b -> Forall ws w ->
  DocSpec.strip ts = DocSpec.strip ts'.
Proof.
  intros h h' ts ts' m m' buf buf' d d' a w b us D D' E E' T F.
  destruct (TokExactProps.tok_reading b) as (vs & rest & es & Tb & U).
  assert (TT : telling (a ++ b) (us ++ vs) rest).
  { clear - T Tb. induction T as [b|s t next us b To Ts IH]; [exact Tb|]. rewrite <- app_assoc. eapply telling_cons; [exact To|apply IH, Tb]. }
  destruct w as [|c w].
  - cbn [app] in E'. rewrite <- E in TT. destruct (TokExactProps.tok_exact _ _ _ _ _ _ _ _ D TT U) as [-> _].
    rewrite E, <- E' in TT. destruct (TokExactProps.tok_exact _ _ _ _ _ _ _ _ D' TT U) as [-> _]. reflexivity.
  - destruct (space_between (c :: w) (a ++ b) us b vs rest es ltac:(discriminate) F T Tb U) as (a' & us' & rest' & Ea & T' & U' & S).
    apply app_inv_tail in Ea. subst a'. rewrite <- E in TT. rewrite <- E' in T'.
    destruct (TokExactProps.tok_exact _ _ _ _ _ _ _ _ D TT U) as [-> _]. destruct (TokExactProps.tok_exact _ _ _ _ _ _ _ _ D' T' U') as [-> _].
    rewrite !(DocProofs.strip_app _ (map TError es)), S. reflexivity.
Qed.
Print Assumptions tok_space.
(** And the document decoder reports the same. *)
Theorem doc_space : forall h h' is_ is' m m' buf buf' t t' d d' a w b us,
  DocProps.drained h is_ m buf t d -> DocProps.drained h' is' m' buf' t' d' ->
  TokSession.fed h = a ++ b -> TokSession.fed h' = a ++ w ++ b -> telling (a ++ b) us b -> Forall ws w ->
  is_ = is'.
Proof.
  intros h h' is_ is' m m' buf buf' t t' d d' a w b us D D' E E' T F.
  destruct (DocRecoverProps.doc_recovers_bytes _ _ _ _ _ _ D) as (h1 & ts & D1 & E1 & R).
  destruct (DocRecoverProps.doc_recovers_bytes _ _ _ _ _ _ D') as (h2 & ts' & D2 & E2 & R').
  apply DocRecoverProps.doc_recovers_only in R. apply DocRecoverProps.doc_recovers_only in R'. subst is_ is'.
  rewrite <- E1 in E. rewrite <- E2 in E'. pose proof (tok_space _ _ _ _ _ _ _ _ _ _ _ _ _ _ D1 D2 E E' T F) as S.
  assert (G : forall ts d, snd (DocModel.feed d (DocSpec.strip ts)) = snd (DocModel.feed d ts)).
  { clear. induction ts as [|t ts IH]; intros d; [reflexivity|].
    assert (W : DocSpec.is_ws t = true -> DocModel.advance d t = (d, None)).
    { destruct t; try discriminate. intros _. unfold DocModel.advance. destruct (DocModel.state d); reflexivity. }
    change (DocSpec.strip (t :: ts)) with (if negb (DocSpec.is_ws t) then t :: DocSpec.strip ts else DocSpec.strip ts).
    destruct (DocSpec.is_ws t); cbn [negb DocModel.feed].
    - rewrite (W eq_refl), IH. destruct (DocModel.feed d ts). reflexivity.
    - destruct (DocModel.advance d t) as [d1 i]. specialize (IH d1). destruct (DocModel.feed d1 ts) as [d2 is2], (DocModel.feed d1 (DocSpec.strip ts)) as [d3 is3].
      cbn in IH |- *. now rewrite IH. }
  unfold DocProps.reported. rewrite <- G, S, G. reflexivity.
Qed.
Print Assumptions doc_space.
(** Beside: "[null]", and "[null ]" with two characters of white space, in two pieces. *)
Example space_case : exists a b w buf1 t1 d1 buf2 t2 d2 m1 m2,
  a = [0x5b; 0x6e; 0x75; 0x6c; 0x6c] /\ b = [0x5d] /\ w = [0x20; 0x0a] /\
  telling (a ++ b) [TArrayOpen; TNull] b /\ Forall ws w /\
  DocProps.drained (TokModel.Feed (a ++ b) :: repeat (TokModel.Pop slice_view) 4)
    [DocModel.IArrayOpen; DocModel.IPrim; DocModel.IArrayClose] m1 buf1 t1 d1 /\
  DocProps.drained (TokModel.Feed a :: repeat (TokModel.Pop slice_view) 2 ++ TokModel.Feed (w ++ b) :: repeat (TokModel.Pop slice_view) 3)
    [DocModel.IArrayOpen; DocModel.IPrim; DocModel.IArrayClose] m2 buf2 t2 d2.
Proof.
  exists [0x5b; 0x6e; 0x75; 0x6c; 0x6c], [0x5d], [0x20; 0x0a]. do 8 eexists. do 3 (split; [reflexivity|]).
  pose proof StreamProofs.slice_honest. split; [|split; [|split]].
  - apply (telling_cons [0x5b] [TArrayOpen] [0x6e; 0x75; 0x6c; 0x6c; 0x5d] [TNull]); [apply told_lexeme, lx_structural; constructor|].
    apply (telling_cons [0x6e; 0x75; 0x6c; 0x6c] [TNull] [0x5d] []); [|constructor]. apply told_lexeme, lx_literal; [constructor|].
    exists 0x5d, []. split; [reflexivity|]. unfold word_char, letter, digit, sign_char. lia.
  - repeat constructor; cbn; tauto.
  - eexists [_; _; _; _], slice_view, [Cont DocModel.IArrayOpen; Cont DocModel.IPrim; Cont DocModel.IArrayClose].
    split; [reflexivity|]. split; [|reflexivity]. split; [|vm_compute; reflexivity].
    repeat (constructor; [first [exact Logic.I|assumption]|]). constructor.
  - eexists [_; _; _; _; _; _], slice_view, [Cont DocModel.IArrayOpen; Break _; Cont DocModel.IPrim; Cont DocModel.IArrayClose].
    split; [reflexivity|]. split; [|reflexivity]. split; [|vm_compute; reflexivity].
    repeat (constructor; [first [exact Logic.I|assumption]|]). constructor.
Qed.
