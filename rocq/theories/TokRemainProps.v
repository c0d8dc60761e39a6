(** Property C103: the end of a stream with data left. *)
From Coq Require String Ascii.
From Verif Require Import Base StreamSpec StreamModel StreamProofs TokModel TokProofs TokSafe TokSession TokLex TokMore.
From Verif Require Import TokSpec TokExactSpec TokProps TokTextSpec TokTextProps.
Local Open Scope res_scope.

(** A token is complete, and so is an error that is reported in its place. *)
Definition settled (r : res (dec * option Token)) : Prop :=
  forall d t, r = Ok (d, Some t) -> (forall e, t = TError e -> shown t <> []) -> done d <> None.
Ltac settle :=
  match goal with
  | |- settled (bind ?x _) => let E := fresh in destruct x eqn:E; cbn [bind]
  | |- settled (let '(_, _) := ?x in _) => destruct x
  | |- settled (if ?b then _ else _) => destruct b
  | |- settled Panic => intros ? ? Z; discriminate Z
  | |- settled NoFuel => intros ? ? Z; discriminate Z
  | |- settled (Ok (_, None)) => intros ? ? Z; discriminate Z
  | |- settled (Ok (set_done _ _, Some _)) => intros ? ? Z _; injection Z as <- <-; discriminate
  | |- settled (Ok (_, Some (TError _))) => let Z := fresh in let Q := fresh in intros ? ? Z Q; injection Z as <- <-; exfalso; apply (Q _ eq_refl); reflexivity
  | |- settled (Ok (_, if ?b then _ else _)) => destruct b
  | |- settled _ => progress cbv zeta
  end.
Lemma settled_start d m : settled (start d m).
Proof. unfold start. repeat settle. Qed.
Lemma settled_done d m : match number_done d m with Ok (d', t) => (forall e, t = TError e -> shown t <> []) -> done d' <> None | _ => True end.
Proof.
  unfold number_done. destruct (state d); auto. match goal with |- context [if ?b then _ else _] => destruct b end.
  - intros H. exfalso. now apply (H _ eq_refl).
  - destruct (raise_number m n); cbn [bind]; auto. discriminate.
Qed.
Lemma settled_ends d m : settled (number_ends d m).
Proof.
  unfold number_ends. settle; [|settle..]. match goal with |- context [number_done d ?x] => pose proof (settled_done d x) as K; destruct (number_done d x) as [[d' t]| |]; cbn [bind] end; [|settle..].
  intros d2 t2 Z N. injection Z as <- <-. now apply K.
Qed.
Lemma settled_number n d m : settled (number n d m).
Proof. unfold number. repeat first [apply settled_ends|settle]. Qed.
Lemma settled_request s max p f d m : request s = Some (max, p, f) -> settled (f d m).
Proof.
  destruct s; cbn; intros H; try discriminate H; injection H as _ _ <-.
  - unfold whitespace. repeat settle.
  - unfold item. repeat settle.
  - apply settled_number.
  - unfold string_. repeat settle.
  - unfold unicode. repeat settle.
  - unfold TokModel.trail. repeat settle.
Qed.
Lemma settled_step buf d d' t : stepped buf d d' (Cont (Some t)) -> (forall e, t = TError e -> shown t <> []) -> done d' <> None.
Proof.
  intros S N. inversion S; subst.
  - eapply settled_start; eassumption.
  - match goal with H : number_again _ _ _ = _ |- _ => revert H end. unfold number_again. cbv zeta. destruct (part buf 0 _); cbn [bind]; try discriminate.
    destruct (raise_number _ _); cbn [bind]; try discriminate. intros H. injection H as <- <-. discriminate.
  - assert (X : settled (TokModel.escape d buf)). { unfold TokModel.escape. repeat settle. } eapply X; eassumption.
  - eapply settled_request; eassumption.
Qed.
Lemma settled_pop buf d buf' d' t : popped buf d buf' d' (Cont t) -> (forall e, t = TError e -> shown t <> []) -> done d' <> None.
Proof.
  intros P. remember (Cont t) as r eqn:R. induction P; [discriminate R| |exact (IHP R)]. injection R as ->. eapply settled_step. eassumption.
Qed.

Lemma read_some v buf n : honest v -> buf <> [] -> n <= length buf -> exists m, read_map v buf n None = Cont m.
Proof. intros H NE L. unfold read_map. rewrite (proj2 (Nat.leb_le _ _)) by exact L. now eexists. Qed.
Lemma cleared_complete v buf d buf0 d0 : clear_done buf d = Ok (buf0, d0) -> done d0 = None -> complete v buf d = complete v buf0 d0.
Proof. intros C D. unfold complete. rewrite C, (clear_none buf0 d0 D). reflexivity. Qed.

(** Whenever [complete] says that there is nothing left, all data was consumed. *)
Theorem tok_complete_none : forall h rs buf d v buf' d',
  runs h rs buf d -> honest v -> complete v buf d = Ok (buf', d', None) -> buf' = [].
Proof.
  intros h rs buf d v buf' d' [F E] HV C. destruct (session_ok h F [] new (wf_new [])) as (rs1 & b1 & d1 & E1 & W & _).
  rewrite E in E1. injection E1 as <- <- <-. destruct (clear_ok buf d W) as (b0 & d0 & C0 & W0 & D0 & _).
  rewrite (cleared_complete v _ _ _ _ C0 D0) in C. unfold complete in C. rewrite (clear_none _ _ D0) in C. cbn [bind] in C.
  unfold wf in W0. rewrite D0 in W0. unfold inv in W0.
  destruct (state d0) eqn:SD.
  - destruct b0 as [|c b0]; [cbn in C; congruence|]. destruct (read_some v (c :: b0) 1 HV ltac:(discriminate) ltac:(cbn; lia)) as [m M]. rewrite M in C. discriminate.
  - exfalso. destruct (read_map _ _ _ _); [discriminate|]. destruct (raise_whitespace _); cbn [bind] in C; discriminate.
  - exfalso. destruct (read_map _ _ _ _); discriminate.
  - exfalso. destruct (read_map _ _ _ _); [discriminate|]. destruct (number_done _ _) as [[? ?]| |]; cbn [bind] in C; discriminate.
  - exfalso. destruct (read_map _ _ _ _); [discriminate|]. destruct (number_done _ _) as [[? ?]| |]; cbn [bind] in C; discriminate.
  - exfalso. destruct (read_map _ _ _ _); discriminate.
  - exfalso. destruct (read_map _ _ _ _); discriminate.
  - exfalso. destruct (read_map _ _ _ _); discriminate.
  - exfalso. destruct (read_map _ _ _ _); discriminate.
Qed.
Print Assumptions tok_complete_none.
(** Directly after a token, or an error that is reported in its place, and
    whatever arrived since: exactly what remains after it is reported. *)
Theorem tok_complete_remaining : forall h v' rs t more buf d v,
  runs (h ++ [Pop v']) (rs ++ [Cont t]) buf d -> (forall e, t = TError e -> shown t <> []) -> honest v ->
  exists rest d', buf ++ more = shown t ++ rest /\ shown t <> [] /\
    complete v (buf ++ more) d = Ok (rest, d', match rest with [] => None | _ :: _ => Some (TError BufferRemaining) end).
Proof.
  intros h v' rs t more buf d v [F E] N HV. apply Forall_app in F. destruct F as [F FV].
  rewrite session_app in E. destruct (session_ok h F [] new (wf_new [])) as (rs1 & b1 & d1 & E1 & W & _). rewrite E1 in E. cbn [bind] in E.
  cbn [session] in E. inversion FV as [|? ? HV' _]; subst. destruct (TokSession.pop_ok v' b1 d1 HV' W) as (b2 & d2 & r & EP & P & W2 & _). rewrite EP in E. cbn [bind] in E.
  injection E as E <- <-. apply app_inj_tail in E. destruct E as [<- ->].
  pose proof (settled_pop _ _ _ _ _ P N) as ND. unfold wf in W2. destruct (done d2) as [l|] eqn:D; [|congruence].
  assert (T : shown t = firstn l b2).
  { destruct (pop_tells _ _ _ _ _ P) as [_ [K|K]]; [congruence|]. unfold pending_text in K. rewrite D in K.
    rewrite <- (firstn_skipn l b2) in K at 1. now apply app_inv_tail in K. }
  exists (skipn l b2 ++ more). eexists. rewrite T.
  split; [rewrite app_assoc, firstn_skipn; reflexivity|].
  split; [destruct b2; [cbn in W2; lia|]; destruct l; [lia|]; discriminate|].
  unfold complete, clear_done. rewrite D. unfold read_advance. rewrite app_length, (proj2 (Nat.leb_le _ _)) by lia. cbn [bind state].
  rewrite skipn_app. replace (l - length b2) with 0 by lia. cbn [skipn].
  destruct (skipn l b2 ++ more) as [|c rest]; [reflexivity|].
  destruct (read_some v (c :: rest) 1 HV ltac:(discriminate) ltac:(cbn; lia)) as [m M]. rewrite M. reflexivity.
Qed.
Print Assumptions tok_complete_remaining.
(** Before anything was popped. *)
Theorem tok_complete_first : forall data v, honest v ->
  complete v data new = Ok (data, new, match data with [] => None | _ :: _ => Some (TError BufferRemaining) end).
Proof.
  intros data v HV. unfold complete. cbn. destruct data as [|c rest]; [reflexivity|].
  destruct (read_some v (c :: rest) 1 HV ltac:(discriminate) ltac:(cbn; lia)) as [m M]. rewrite M. reflexivity.
Qed.
Print Assumptions tok_complete_first.
(** In the middle of white space or of a word. *)
Lemma scan_waits c s d st p f : request st = Some (None, p, f) -> done d = None -> state d = st -> idx d = 1 ->
  (forall i y, In y s -> p i y = true) ->
  canon (c :: s) d [] (mkMore (length (c :: s) + 1) None, c :: s, set_idx d (length (c :: s))).
Proof.
  intros RQ DN SD ID P. eapply canon_end.
  assert (LE : Nat.max (idx d) (length (c :: s)) = length (c :: s)) by (rewrite ID; cbn; lia).
  pose proof (st_more (c :: s) d None p f) as X. rewrite LE in X.
  eapply pop_more; [apply clear_none, DN|]. apply X.
  - now rewrite SD.
  - split; [|exact I]. rewrite LE, ID. change (length (c :: s)) with (length [c] + length s). change 1 with (length [c]).
    change (c :: s) with ([c] ++ s). rewrite <- (app_nil_r s) at 1. apply run_mid. intros i y _. apply P.
Qed.
Lemma completes_same vs buf d t : (forall v, honest v -> complete v buf d = Ok (buf, d, Some t)) -> Forall honest vs ->
  completes vs buf d = Ok (map (fun _ => Some t) vs).
Proof.
  intros K F. induction F as [|v l H F IH]; [reflexivity|]. cbn [completes]. rewrite (K v H). cbn [bind]. rewrite IH. reflexivity.
Qed.
Lemma complete_scan v buf d : honest v -> done d = None -> idx d = length buf ->
  (state d = SWhitespace -> Forall ws buf -> complete v buf d = Ok (buf, d, Some (TWhitespace buf))) /\
  (state d = SItem -> complete v buf d = Ok (buf, d, Some (raise_item buf))).
Proof.
  intros H DN ID. unfold complete. rewrite clear_none by exact DN. cbn [bind]. rewrite ID, (whole v buf H).
  split; intros SD; rewrite SD; [|reflexivity]. intros F.
  unfold raise_whitespace, from_utf8_unwrap. rewrite ascii_utf8; [reflexivity|].
  eapply Forall_impl; [|exact F]. intros y Hy. apply (ws_ascii 0). apply ws_iff, Hy.
Qed.
(** Full statement: in the middle of a token, that token is reported, made of
    what was looked at.  It is for white space and for words, which are reported
    as they would be if something followed them, whatever came before; and they
    are again at every further call.  For numbers it is not (C60), nor if data
    arrived after the last pop ([tok_complete_anytime_refuted]). *)
Theorem tok_complete_middle_partial : forall h ts m buf d us s t v vs,
  drained h ts m buf d -> telling (fed h) us s -> lexeme tame s [t] [0x2c]%N ->
  (Forall ws s \/ (exists c w, s = c :: w /\ word_start c)) -> Forall honest (v :: vs) ->
  ts = us /\ buf = s /\ completes (v :: vs) buf d = Ok (Some t :: map (fun _ => Some t) vs).
Proof.
  intros h ts m buf d us s t v vs D L X K HV. apply drained_canon in D.
  destruct (telling_leads _ _ _ L (fed h) new (ready_new _)) as (b0 & d0 & [W0 K0] & (d1 & C & DN & SD & AC)).
  pose proof (leads_clear _ _ _ _ C DN) as [W1 K1].
  assert (G : exists c w st, s = c :: w /\ start d1 s = Ok (begin d1 st, None) /\
    ((st = SWhitespace /\ Forall ws s /\ t = TWhitespace s) \/ (st = SItem /\ Forall word_char w /\ t = raise_item s))).
  { remember [t] as l eqn:El. remember [0x2c]%N as nx eqn:En.
    destruct X as [s next NE F _|c t0 next S|s t0 next Li _|c s next WS F NL _ U|c s next WS F _ U|n next OK _|ps next _ _ _|ps next _ _ _].
    - injection El as <-. destruct s as [|c s]; [congruence|]. exists c, s, SWhitespace. split; [reflexivity|]. split; [|auto].
      unfold start. cbn [app at_ nth_error bind]. inversion F; subst. rewrite (proj2 (ws_iff c)) by assumption. reflexivity.
    - exfalso. destruct K as [K|(c0 & w & E & (_ & K & _))].
      + inversion K as [|? ? W _]; subst. unfold ws in W. destruct S; cbn in W; lia.
      + injection E as <- <-. exact (K _ S).
    - injection El as <-. destruct (literal_starts s t0 Li) as (c & w & -> & WS & F). exists c, w, SItem. split; [reflexivity|].
      split; [now apply word_starts|]. right. rewrite (raise_literal _ _ Li). auto.
    - injection El as <-. exists c, s, SItem. split; [reflexivity|]. split; [now apply word_starts|]. right. split; [reflexivity|].
      split; [exact F|]. rewrite (raise_other _ NL). now rewrite (proj2 (utf8_iff _) U).
    - injection El as <-. exists c, s, SItem. split; [reflexivity|]. split; [now apply word_starts|]. right. split; [reflexivity|].
      split; [exact F|]. rewrite raise_other; [|intros t' Li; apply U; destruct Li; apply utf8_iff; reflexivity].
      destruct (is_utf8 (c :: s)) eqn:E; [|reflexivity]. apply utf8_iff in E. contradiction.
    - exfalso. destruct OK as (SG & DG & NE & _). unfold written in K.
      assert (H : exists c w, n_signs n ++ n_int n ++ frac_text (n_frac n) ++ exp_text (n_exp n) = c :: w /\ (sign_char c \/ digit c)).
      { destruct (n_signs n) as [|c ss]; [|inversion SG; subst; eexists; eexists; split; [reflexivity|now left]].
        destruct (n_int n) as [|c ss]; [now specialize (NE eq_refl)|]. inversion DG; subst. eexists. eexists. split; [reflexivity|now right]. }
      destruct H as (c & w & EQ & H). rewrite EQ in K. destruct K as [K|(c0 & w0 & E & (_ & _ & _ & K1' & K2'))].
      + inversion K as [|? ? W _]; subst. unfold ws, sign_char, digit in *. cbn in W. lia.
      + injection E as <- <-. tauto.
    - exfalso. destruct K as [K|(c0 & w0 & E & (_ & _ & K & _))]; [inversion K as [|? ? W _]; subst; unfold ws in W; cbn in W; lia|].
      injection E as <- _. congruence.
    - exfalso. destruct K as [K|(c0 & w0 & E & (_ & _ & K & _))]; [inversion K as [|? ? W _]; subst; unfold ws in W; cbn in W; lia|].
      injection E as <- _. congruence. }
  destruct G as (c & w & st & -> & ST & G).
  pose proof (start_step (c :: w) d1 _ None (conj DN (conj SD AC)) ST) as [W2 K2].
  assert (Q : canon (c :: w) (begin d1 st) [] (mkMore (length (c :: w) + 1) None, c :: w, set_idx (begin d1 st) (length (c :: w)))).
  { destruct G as [(-> & F & _)|(-> & F & _)].
    - eapply (scan_waits c w _ SWhitespace); [reflexivity|exact DN|reflexivity|reflexivity|].
      intros i y Hy. apply ws_iff. inversion F; subst. now apply (proj1 (Forall_forall _ _) H2).
    - eapply (scan_waits c w _ SItem); [reflexivity|exact DN|reflexivity|reflexivity|].
      intros i y Hy. apply item_iff. now apply (proj1 (Forall_forall _ _) F). }
  pose proof (K0 _ _ (K1 _ _ (K2 _ _ Q))) as Z. cbn [app opt] in Z. rewrite app_nil_r in Z.
  destruct (canon_det _ _ _ _ _ _ D Z) as (-> & Q'). injection Q' as -> -> ->. split; [reflexivity|]. split; [reflexivity|].
  apply (completes_same (v :: vs)); [|exact HV]. intros v' H.
  destruct G as [(-> & F & ->)|(-> & F & ->)]; apply complete_scan; auto.
Qed.
Print Assumptions tok_complete_middle_partial.
(** In the middle of a string: what is left starts with its quotation mark. *)
Definition in_string (s : State) : bool :=
  match s with SString _ | SEscape | SUnicode _ | STrail _ _ => true | _ => false end.
Definition opened (buf : list N) (d : dec) : Prop :=
  done d = None -> state d = SNone \/ exists c r, buf = c :: r /\ (in_string (state d) = true <-> c = 0x22%N).
Definition keeps (b : bool) (r : res (dec * option Token)) : Prop :=
  forall d t, r = Ok (d, t) -> done d <> None \/ (state d <> SNone /\ in_string (state d) = b).
Ltac keep :=
  match goal with
  | |- keeps _ (bind ?x _) => let E := fresh in destruct x eqn:E; cbn [bind]
  | |- keeps _ (let '(_, _) := ?x in _) => destruct x
  | |- keeps _ (if ?b then _ else _) => destruct b
  | |- keeps _ Panic => intros ? ? Z; discriminate Z
  | |- keeps _ NoFuel => intros ? ? Z; discriminate Z
  | |- keeps _ (match state ?d with _ => _ end) => destruct (state d) eqn:?
  | |- keeps _ (Ok (_, if ?b then _ else _)) => destruct b
  | |- keeps _ (Ok _) => let Z := fresh in intros ? ? Z; injection Z as <- <-;
      first [left; discriminate|right; split; [discriminate|reflexivity]|right; unfold string_raw; try (destruct (0 <? length _)); cbn [state set_acc set_idx]; match goal with SD : state _ = _ |- _ => now rewrite SD end]
  | |- keeps _ _ => progress cbv zeta
  end.
Lemma keeps_done d m : match number_done d m with Ok (d', t) => done d' <> None \/ (state d' <> SNone /\ in_string (state d') = false) | _ => True end.
Proof.
  unfold number_done. destruct (state d); auto. match goal with |- context [if ?b then _ else _] => destruct b end.
  - right. split; [discriminate|reflexivity].
  - destruct (raise_number m n); cbn [bind]; auto. left. discriminate.
Qed.
Lemma keeps_ends d m : keeps false (number_ends d m).
Proof.
  unfold number_ends. keep; [|keep..].
  match goal with |- context [number_done d ?x] => pose proof (keeps_done d x) as K; destruct (number_done d x) as [[d' t]| |]; cbn [bind] end; [|keep..].
  intros d2 t2 Z. injection Z as <- <-. exact K.
Qed.
Lemma keeps_request s max p f d m : request s = Some (max, p, f) -> state d = s -> keeps (in_string s) (f d m).
Proof.
  destruct s; cbn; intros H SD; try discriminate H; injection H as _ _ <-.
  - unfold whitespace. repeat keep.
  - unfold item. repeat keep.
  - unfold number. repeat first [apply keeps_ends|keep].
  - unfold string_. repeat keep.
  - unfold unicode. repeat keep.
  - unfold TokModel.trail. repeat keep.
Qed.
Lemma opened_more buf d data : opened buf d -> opened (buf ++ data) d.
Proof. intros O D. destruct (O D) as [S|(c & r & -> & K)]; [now left|right]. exists c, (r ++ data). auto. Qed.
Lemma opened_keep buf d r d' t : (exists c r, buf = c :: r /\ (in_string (state d) = true <-> c = 0x22%N)) ->
  keeps (in_string (state d)) r -> r = Ok (d', t) -> opened buf d'.
Proof.
  intros (c & w & -> & O) K E DN. destruct (K _ _ E) as [H|(_ & S)]; [contradiction|]. right. exists c, w. split; [reflexivity|]. now rewrite S.
Qed.
Lemma opened_start d buf d' t : done d = None -> start d buf = Ok (d', t) -> opened buf d'.
Proof.
  intros DN. unfold start. destruct buf as [|c r]; [discriminate|]. cbn [at_ nth_error bind].
  assert (W : is_ws c = true -> c <> 0x22%N) by (unfold is_ws; lia).
  destruct (is_ws c); [intros E; injection E as <- <-; intros _; right; exists c, r; split; [reflexivity|]; split; [discriminate|intros ->; now destruct (W eq_refl)]|].
  repeat match goal with |- (if (c =? ?k)%N then _ else _) = _ -> _ => destruct (N.eqb_spec c k);
    [intros E; injection E as <- <-; intros Z; first [discriminate Z|right; exists c, r; split; [reflexivity|]; now split]|] end.
  destruct ((c =? 0x2b) || (c =? 0x2d))%N; [intros E; injection E as <- <-; intros _; right; exists c, r; split; [reflexivity|]; now split|].
  destruct ((0x30 <=? c) && (c <=? 0x39))%N; intros E; injection E as <- <-; intros _; right; exists c, r; (split; [reflexivity|]); now split.
Qed.
Lemma opened_step buf d d' r : done d = None -> opened buf d -> stepped buf d d' r -> opened buf d'.
Proof.
  intros DN O S. pose proof (O DN) as O1. destruct S as [SD E|d' t SD E|n d' t SD E|SD L|d' t SD E|max p f RQ U|max p f e d' t RQ EA E].
  - exact O.
  - now apply (opened_start d buf d' t).
  - destruct O1 as [Z|O1]; [congruence|]. eapply opened_keep; [exact O1| |exact E]. rewrite SD. unfold number_again. repeat keep.
  - exact O.
  - destruct O1 as [Z|O1]; [congruence|]. eapply opened_keep; [exact O1| |exact E]. rewrite SD. unfold TokModel.escape. repeat keep.
  - exact O.
  - destruct O1 as [Z|O1]; [rewrite Z in RQ; discriminate|]. eapply opened_keep; [exact O1| |exact E]. eapply keeps_request; [exact RQ|reflexivity].
Qed.
Lemma opened_clear buf d buf0 d0 : clear_done buf d = Ok (buf0, d0) -> opened buf d -> done d0 = None /\ opened buf0 d0.
Proof.
  unfold clear_done. destruct (done d) as [l|] eqn:D.
  - destruct (read_advance buf l); cbn [bind]; try discriminate. intros E _. injection E as <- <-. split; [reflexivity|]. now left.
  - intros E O. injection E as <- <-. auto.
Qed.
Lemma opened_pop buf d buf' d' r : popped buf d buf' d' r -> opened buf d -> opened buf' d'.
Proof.
  induction 1 as [buf d buf0 d0 d1 m C S|buf d buf0 d0 d1 t C S|buf d buf0 d0 d1 buf2 d2 r C S P IH]; intros O;
    destruct (opened_clear _ _ _ _ C O) as (DN & O0); pose proof (opened_step _ _ _ _ DN O0 S); auto.
Qed.
Lemma opened_session h : Forall fair h -> forall buf d rs buf' d', wf buf d -> opened buf d ->
  session h buf d = Ok (rs, buf', d') -> opened buf' d'.
Proof.
  induction 1 as [|e h F _ IH]; intros buf d rs buf' d' W O E.
  - injection E as _ <- <-. exact O.
  - destruct e as [data|v]; cbn [session] in E.
    + apply (IH (buf ++ data) d rs buf' d'); [|now apply opened_more|exact E]. now apply wf_more.
    + destruct (TokSession.pop_ok v buf d F W) as (b2 & d2 & r & EP & P & W2 & _). rewrite EP in E. cbn [bind] in E.
      destruct (session h b2 d2) as [[[rs' b3] d3]| |] eqn:ES; try discriminate E. cbn [bind] in E. injection E as _ <- <-.
      apply (IH b2 d2 rs' b3 d3 W2); [|exact ES]. now apply (opened_pop _ _ _ _ _ P).
Qed.
(** If the stream ends in a string, that is reported, and nothing else: when the
    decoder asked for more and left something that starts with a quotation mark. *)
Theorem tok_complete_string : forall h ts m rest d vs, drained h ts m (0x22%N :: rest) d -> Forall honest vs ->
  completes vs (0x22%N :: rest) d = Ok (map (fun _ => Some (TError StringIncomplete)) vs).
Proof.
  intros h ts m rest d vs D HV. pose proof (drained_pending _ _ _ _ _ D) as (DN & _ & _ & [(_ & Z & _)|(ID & NN & _)]); [discriminate|].
  destruct D as (h' & v & rs & -> & [F E] & _).
  destruct (opened_session _ F [] new _ _ _ (wf_new []) (fun _ => or_introl eq_refl) E DN) as [Z|(c & r & Q & K)]; [congruence|].
  injection Q as <- <-. assert (IS : in_string (state d) = true) by now apply K.
  apply completes_same; [|exact HV]. intros v' H. unfold complete. rewrite clear_none by exact DN. cbn [bind].
  rewrite ID, (whole v' _ H). destruct (state d); try discriminate IS; reflexivity.
Qed.
Print Assumptions tok_complete_string.

Section Cases.
Import String.
Open Scope string_scope. Open Scope list_scope.
Example remaining_case : exists buf d,
  runs ([Feed (of_ascii "[1"); Pop slice_view]) ([] ++ [Cont TArrayOpen]) buf d /\
  completes [slice_view] buf d = Ok [Some (TError BufferRemaining)] /\
  completes [slice_view] (buf ++ of_ascii ",") d = Ok [Some (TError BufferRemaining)].
Proof.
  do 2 eexists. split.
  - split; [|vm_compute; reflexivity]. pose proof slice_honest. repeat (constructor; [first [exact I|assumption]|]). constructor.
  - split; vm_compute; reflexivity.
Qed.
(** "[nul", and then the end of the stream. *)
Example middle_case : exists m buf d, drained [Feed (of_ascii "[nul"); Pop slice_view; Pop slice_view] [TArrayOpen] m buf d /\
  telling (of_ascii "[nul") [TArrayOpen] (of_ascii "nul") /\
  lexeme tame (of_ascii "nul") [TError (ItemUnknown (of_ascii "nul"))] [0x2c]%N /\
  (exists c w, of_ascii "nul" = c :: w /\ word_start c) /\
  completes [slice_view; slice_view] buf d = Ok [Some (TError (ItemUnknown (of_ascii "nul"))); Some (TError (ItemUnknown (of_ascii "nul")))].
Proof.
  assert (WS : word_start 0x6e%N).
  { unfold word_start, ws, digit, sign_char. cbn. repeat split; try lia. intros t Q. inversion Q. }
  do 3 eexists. split; [|split; [|split; [|split]]].
  - exists [Feed (of_ascii "[nul"); Pop slice_view], slice_view, [Cont TArrayOpen]. split; [reflexivity|]. split; [|reflexivity].
    split; [|vm_compute; reflexivity]. pose proof slice_honest. repeat (constructor; [first [exact I|assumption]|]). constructor.
  - apply (telling_cons (of_ascii "[") [TArrayOpen] (of_ascii "nul") []); [apply told_lexeme, lx_structural; constructor|constructor].
  - apply lx_word; [exact WS| | | |].
    + apply Forall_cons; [left; left; cbn; lia|]. apply Forall_cons; [left; left; cbn; lia|]. apply Forall_nil.
    + intros t Q. inversion Q.
    + exists 0x2c%N, []. split; [reflexivity|]. unfold word_char, letter, digit, sign_char. lia.
    + exists (of_ascii "nul"). split; [|reflexivity]. do 3 (apply Forall_cons; [left; cbn; lia|]). apply Forall_nil.
  - do 2 eexists. split; [reflexivity|exact WS].
  - vm_compute. reflexivity.
Qed.
(** A string that ends after an escape, and then the end of the stream. *)
Example string_case : exists m d, drained [Feed (of_ascii "[" ++ [0x22; 0x61; 0x5c]%N); Pop slice_view; Pop slice_view] [TArrayOpen] m [0x22; 0x61; 0x5c]%N d /\
  completes [slice_view; slice_view] [0x22; 0x61; 0x5c]%N d = Ok [Some (TError StringIncomplete); Some (TError StringIncomplete)].
Proof.
  do 2 eexists. split.
  - exists [Feed (of_ascii "[" ++ [0x22; 0x61; 0x5c]%N); Pop slice_view], slice_view, [Cont TArrayOpen]. split; [reflexivity|]. split; [|reflexivity].
    split; [|vm_compute; reflexivity]. pose proof slice_honest. repeat (constructor; [first [exact I|assumption]|]). constructor.
  - vm_compute. reflexivity.
Qed.
(** In the middle of a token, data that arrived after the last pop is taken
    for a part of the token whatever it is: digits for white space, and bytes
    that are no text make it panic. *)
Theorem tok_complete_anytime_refuted : exists h buf d, runs h [Break (mkMore 2 None)] buf d /\ fed h = of_ascii " " /\
  completes [slice_view] (buf ++ of_ascii "12") d = Ok [Some (TWhitespace (of_ascii " 12"))] /\
  completes [slice_view] (buf ++ [0xff]%N) d = Panic.
Proof.
  exists [Feed (of_ascii " "); Pop slice_view]. do 2 eexists. split.
  - split; [|vm_compute; reflexivity]. pose proof slice_honest. repeat (constructor; [first [exact I|assumption]|]). constructor.
  - split; [reflexivity|]. split; vm_compute; reflexivity.
Qed.
Print Assumptions tok_complete_anytime_refuted.
End Cases.
