(** Proofs about the streaming JSON tokenizer: the tokens of a text. *)
From Verif Require Import Base StreamSpec StreamModel StreamProofs TokModel TokProofs TokSafe TokSession.
From Verif Require TokSpec ArgsText.
Local Open Scope res_scope.

(** The decoder [d] reports [ts] and goes on as [d']. *)
Definition leads (buf : list N) (d : dec) (ts : list Token) (buf' : list N) (d' : dec) : Prop :=
  (wf buf d -> wf buf' d') /\ forall us q, canon buf' d' us q -> canon buf d (ts ++ us) q.
Lemma leads_refl buf d : leads buf d [] buf d.
Proof. split; auto. Qed.
Lemma leads_trans b1 d1 ts b2 d2 ts' b3 d3 : leads b1 d1 ts b2 d2 -> leads b2 d2 ts' b3 d3 ->
  leads b1 d1 (ts ++ ts') b3 d3.
Proof.
  intros [A1 A2] [B1 B2]. split; [auto|]. intros us q C. rewrite <- app_assoc. auto.
Qed.
Definition opt (t : option Token) : list Token := match t with None => [] | Some t => [t] end.
Lemma leads_step buf d d' t : done d = None -> stepped buf d d' (Cont t) -> leads buf d (opt t) buf d'.
Proof.
  intros D S. split; [intros W; eapply step_wf; eassumption|]. intros us q C. destruct t as [t|]; cbn.
  - eapply canon_token; [eapply pop_token; [apply clear_none, D|exact S]|exact C].
  - inversion C; subst.
    + eapply canon_end. eapply pop_go; [apply clear_none, D|exact S|eassumption].
    + eapply canon_token; [eapply pop_go; [apply clear_none, D|exact S|eassumption]|assumption].
Qed.
Lemma leads_found buf d max p f e d' t : done d = None -> request (state d) = Some (max, p, f) ->
  ends_at p max buf (idx d) e -> f (set_idx d e) buf = Ok (d', t) -> leads buf d (opt t) buf d'.
Proof. intros D RQ E F. apply leads_step; [exact D|]. eapply st_found; eassumption. Qed.
Lemma leads_clear buf d buf0 d0 : clear_done buf d = Ok (buf0, d0) -> done d0 = None -> leads buf d [] buf0 d0.
Proof.
  intros C D. split.
  - intros W. destruct (clear_ok buf d W) as (b & x & C' & W' & _). rewrite C in C'. injection C' as <- <-. exact W'.
  - intros us q K. cbn. inversion K; subst.
    + eapply canon_end. apply (popped_cleared _ _ _ _ _ _ _ C D). eassumption.
    + eapply canon_token; [apply (popped_cleared _ _ _ _ _ _ _ C D); eassumption|assumption].
Qed.

(** Where runs end. *)
Lemma nth_mid {A} (a : list A) c b : nth_error (a ++ c :: b) (length a) = Some c.
Proof. rewrite nth_error_app2, Nat.sub_diag by lia. reflexivity. Qed.
Lemma run_mid p (a b c : list N) : (forall i x, length a <= i < length a + length b -> In x b -> p i x = true) ->
  run p (a ++ b ++ c) (length a) (length a + length b).
Proof.
  intros H. split; [lia|]. intros i Hi. destruct (nth_error b (i - length a)) as [x|] eqn:E.
  - exists x. split; [rewrite nth_error_app2 by lia; rewrite nth_error_app1 by (apply nth_error_Some; congruence); exact E|].
    apply H; [exact Hi|]. eapply nth_error_In, E.
  - apply nth_error_None in E. lia.
Qed.
Lemma ends_mid p max (a b : list N) x c : (forall i y, In y b -> p i y = true) ->
  below (length a + length b) max -> p (length a + length b) x = false ->
  ends_at p max (a ++ b ++ x :: c) (length a) (length a + length b).
Proof.
  intros H B X. split; [apply run_mid; auto|]. left. split; [exact B|]. exists x. split; [|exact X].
  rewrite app_assoc, <- app_length. apply nth_mid.
Qed.
Lemma slice_mid {A} (a b c : list A) : slice (a ++ b ++ c) (length a) (length a + length b) = b.
Proof.
  unfold slice. rewrite skipn_app, skipn_all, Nat.sub_diag. cbn [app skipn].
  replace (length a + length b - length a) with (length b) by lia.
  rewrite firstn_app, firstn_all, Nat.sub_diag. cbn. apply app_nil_r.
Qed.
Lemma slice_front {A} (a b : list A) : slice (a ++ b) 0 (length a) = a.
Proof. exact (slice_mid [] a b). Qed.

(** Ready for a lexeme: the rest of the data is [rest]. *)
Definition ready (buf : list N) (d : dec) (rest : list N) : Prop :=
  exists d0, clear_done buf d = Ok (rest, d0) /\ done d0 = None /\ state d0 = SNone /\ acc_str d0 = [].
Lemma ready_new buf : ready buf new buf.
Proof. exists new. repeat split. Qed.
Lemma ready_done a b d : done d = Some (length a) -> ready (a ++ b) d b.
Proof.
  intros D. unfold ready, clear_done. rewrite D. unfold read_advance.
  rewrite (proj2 (Nat.leb_le _ _)) by (rewrite app_length; lia). cbn [bind].
  rewrite skipn_app, skipn_all, Nat.sub_diag. eexists. repeat split.
Qed.
Definition idle (d : dec) : Prop := done d = None /\ state d = SNone /\ acc_str d = [].
(** The tokens of a lexeme. *)
Definition consumes (s : list N) (ts : list Token) (next : list N) : Prop :=
  forall d, idle d -> exists d', leads (s ++ next) d ts (s ++ next) d' /\ ready (s ++ next) d' next.

Lemma start_step buf d d' t : idle d -> start d buf = Ok (d', t) -> leads buf d (opt t) buf d'.
Proof. intros (D & SD & _) E. apply leads_step; [exact D|]. apply st_none; assumption. Qed.

(** The classes of bytes. *)
Lemma ws_iff c : is_ws c = true <-> TokSpec.ws c.
Proof. unfold is_ws, TokSpec.ws. cbn [In]. lia. Qed.
Lemma digit_iff c : is_digit c = true <-> TokSpec.digit c.
Proof. unfold is_digit, TokSpec.digit. lia. Qed.
Lemma item_iff c : is_item c = true <-> TokSpec.word_char c.
Proof. unfold is_item, TokSpec.word_char, TokSpec.letter, TokSpec.digit, TokSpec.sign_char. lia. Qed.
Lemma hex_iff c : is_hex c = true <-> TokSpec.hex_digit c.
Proof. unfold is_hex, TokSpec.hex_digit. lia. Qed.
Lemma not_true b : b <> true -> b = false.
Proof. destruct b; congruence. Qed.
Ltac Ncmp c k := rewrite (proj2 (N.eqb_neq c k)) by congruence.

Lemma ws_consumes s next : s <> [] -> Forall TokSpec.ws s -> TokSpec.stops TokSpec.ws next ->
  consumes s [TWhitespace s] next.
Proof.
  intros NE F (x & r & -> & X) d ID. destruct s as [|c s]; [congruence|]. clear NE.
  inversion F as [|? ? W F']; subst. destruct ID as (D & SD & AC).
  set (buf := (c :: s) ++ x :: r).
  assert (S1 : leads buf d [] buf (begin d SWhitespace)).
  { apply (start_step buf d _ None); [repeat split; assumption|]. unfold start, buf. cbn [app at_ nth_error bind].
    rewrite (proj2 (ws_iff c)) by exact W. reflexivity. }
  eexists. split.
  - change [TWhitespace (c :: s)] with ([] ++ opt (Some (TWhitespace (c :: s)))).
    eapply leads_trans; [exact S1|]. eapply leads_found with (e := length (c :: s)); [exact D|reflexivity| |].
    + cbn [idx begin set_idx]. apply (ends_mid ws_p None [c] s x r).
      * intros i y Hy. apply ws_iff. apply (proj1 (Forall_forall _ _) F' y Hy).
      * exact I.
      * apply not_true. intros H. apply X, ws_iff, H.
    + unfold whitespace. cbn [idx set_idx set_done]. rewrite part_ok by (unfold buf; rewrite ?app_length; cbn; lia).
      unfold buf. rewrite slice_front. cbn [bind]. unfold raise_whitespace, from_utf8_unwrap.
      rewrite ascii_utf8; [cbn [bind]; reflexivity|].
      eapply Forall_impl; [|exact F]. intros y Hy. apply (ws_ascii 0). apply ws_iff, Hy.
  - apply ready_done. reflexivity.
Qed.
Lemma structural_consumes c t next : TokSpec.structural c t -> consumes [c] [t] next.
Proof.
  intros S d (D & SD & AC). exists (set_done d 1). split; [|apply ready_done; reflexivity].
  change [t] with (opt (Some t)). apply start_step; [repeat split; assumption|].
  unfold start. cbn [app at_ nth_error bind]. destruct S; reflexivity.
Qed.
Lemma word_starts c map d : TokSpec.word_start c -> start d (c :: map) = Ok (begin d SItem, None).
Proof.
  intros (A & B & C & E & F). unfold start. cbn [at_ nth_error bind].
  replace (is_ws c) with false by (symmetry; apply not_true; rewrite ws_iff; exact A).
  assert (B' : forall k t, TokSpec.structural k t -> (c =? k)%N = false).
  { intros k t H. apply N.eqb_neq. intros ->. exact (B _ H). }
  rewrite !(B' _ _ TokSpec.st_array_open), !(B' _ _ TokSpec.st_object_open), !(B' _ _ TokSpec.st_array_close),
    !(B' _ _ TokSpec.st_object_close), !(B' _ _ TokSpec.st_colon), !(B' _ _ TokSpec.st_comma).
  rewrite (proj2 (N.eqb_neq c _) C).
  unfold TokSpec.sign_char in F. unfold TokSpec.digit in E.
  replace ((c =? 0x2b) || (c =? 0x2d))%N with false by lia.
  replace ((0x30 <=? c) && (c <=? 0x39))%N with false by lia. reflexivity.
Qed.
Lemma word_consumes c s next : TokSpec.word_start c -> Forall TokSpec.word_char s ->
  TokSpec.stops TokSpec.word_char next -> consumes (c :: s) [raise_item (c :: s)] next.
Proof.
  intros W F (x & r & -> & X) d ID. destruct ID as (D & SD & AC).
  set (buf := (c :: s) ++ x :: r).
  assert (S1 : leads buf d [] buf (begin d SItem)).
  { apply (start_step buf d _ None); [repeat split; assumption|]. apply word_starts, W. }
  eexists. split.
  - change [raise_item (c :: s)] with ([] ++ opt (Some (raise_item (c :: s)))).
    eapply leads_trans; [exact S1|]. eapply leads_found with (e := length (c :: s)); [exact D|reflexivity| |].
    + cbn [idx begin set_idx]. apply (ends_mid item_p None [c] s x r).
      * intros i y Hy. apply item_iff. apply (proj1 (Forall_forall _ _) F y Hy).
      * exact I.
      * apply not_true. intros H. apply X, item_iff, H.
    + unfold item. cbn [idx set_idx set_done]. rewrite part_ok by (unfold buf; rewrite ?app_length; cbn; lia).
      unfold buf. rewrite slice_front. cbn [bind]. reflexivity.
  - apply ready_done. reflexivity.
Qed.
Lemma raise_literal s t : TokSpec.literal s t -> raise_item s = t.
Proof. intros H. destruct H; reflexivity. Qed.
Lemma raise_other s : (forall t, ~ TokSpec.literal s t) ->
  raise_item s = if is_utf8 s then TError (ItemUnknown s) else TError (ItemNonUtf8 s).
Proof.
  intros H. unfold raise_item, list_eqb. repeat destruct list_eq_dec; subst; try reflexivity; exfalso; eapply H; constructor.
Qed.
Lemma utf8_iff s : is_utf8 s = true <-> TokSpec.utf8_text s.
Proof. apply ArgsText.valid_iff. Qed.
Lemma literal_starts s t : TokSpec.literal s t -> exists c s', s = c :: s' /\ TokSpec.word_start c /\ Forall TokSpec.word_char s'.
Proof.
  assert (W : forall c, (0x61 <= c <= 0x7a)%N -> TokSpec.word_start c).
  { intros c L. unfold TokSpec.word_start, TokSpec.ws, TokSpec.digit, TokSpec.sign_char.
    assert (forall t, ~ TokSpec.structural c t) by (intros t' H; inversion H; subst; lia). cbn [In]. repeat split; auto; lia. }
  intros H. destruct H; eexists; eexists; (split; [reflexivity|]); (split; [apply W; lia|]);
    repeat constructor; lia.
Qed.
