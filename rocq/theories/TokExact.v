(** Proofs about the streaming JSON tokenizer: every sequence of bytes. *)
From Verif Require Import Base StreamSpec StreamModel StreamProofs TokModel TokProofs TokSafe TokSession TokLex TokString TokNumber TokMore TokEnd.
From Verif Require Import TokSpec TokExactSpec.
Local Open Scope res_scope.

(** ** Waiting for more *)

Definition waits (buf : list N) (d : dec) : Prop := exists m d', canon buf d [] (m, buf, d').
Lemma scan_more buf d max p f : done d = None -> request (state d) = Some (max, p, f) ->
  run p buf (idx d) (length buf) -> below (length buf) max -> waits buf d.
Proof.
  intros D RQ R B. destruct R as [L R]. eexists. eexists. eapply canon_end, pop_more; [apply clear_none, D|].
  eapply st_more; [exact RQ|]. unfold undetermined. rewrite Nat.max_r by exact L. split; [split; assumption|exact B].
Qed.
Lemma string_more d T V g : at_string d T V g -> waits T d.
Proof.
  intros (s & SD & ID & D & _). eapply scan_more; [exact D|rewrite SD; reflexivity|rewrite ID; apply run_refl|exact I].
Qed.
Lemma escape_more d T V : at_escape d T V -> waits (T ++ [0x5c]%N) d.
Proof.
  intros (SD & ID & D & _). eexists. eexists. eapply canon_end, pop_more; [apply clear_none, D|].
  apply st_escape_more; [exact SD|]. rewrite ID, app_length. cbn. lia.
Qed.
Lemma unicode_more d T V h : Forall hex_digit h -> length h < 4 -> at_unicode d T V -> waits (T ++ u_text h) d.
Proof.
  intros F L (SD & ID & D & _). eapply scan_more; [exact D|rewrite SD; reflexivity| |rewrite app_length; cbn; lia].
  rewrite ID. replace (T ++ u_text h) with ((T ++ [0x5c; 0x75]%N) ++ h ++ []) by (rewrite app_nil_r, <- app_assoc; reflexivity).
  replace (length ((T ++ [0x5c; 0x75]%N) ++ h ++ [])) with (length (T ++ [0x5c; 0x75]%N) + length h)
    by (rewrite app_nil_r, (app_length _ h); reflexivity).
  replace (length T + 2) with (length (T ++ [0x5c; 0x75]%N)) by (rewrite app_length; reflexivity).
  apply run_mid.
  intros i x _ I. apply hex_iff, (proj1 (Forall_forall _ _) F x I).
Qed.
Lemma begun_char v : begun v -> length v < 6 /\ forall k c, nth_error v k = Some c -> trail_char 0 k c = true.
Proof.
  intros BG. split; [apply begun_short, BG|]. destruct BG as (h & r & [L F] & NE & E). intros k c Q.
  assert (Q' : nth_error (u_text h) k = Some c) by (rewrite E, nth_error_app1; [exact Q|apply nth_error_Some; congruence]).
  unfold trail_char. rewrite Nat.sub_0_r. destruct k as [|[|k]].
  - injection Q' as <-. reflexivity.
  - injection Q' as <-. reflexivity.
  - cbn in Q'. assert (k < length h) by (apply nth_error_Some; congruence). apply andb_true_iff. split; [apply Nat.leb_le; lia|].
    apply hex_iff, (proj1 (Forall_forall _ _) F c). eapply nth_error_In, Q'.
Qed.
Lemma trail_more d T h V v : begun v -> at_trail d T h V -> waits (T ++ u_text h ++ v) d.
Proof.
  intros BG (SD & ID & D & _ & _ & H & _). destruct (begun_char v BG) as [LV C]. pose proof (len_u T h H) as LU.
  eapply scan_more; [exact D|rewrite SD; reflexivity| |rewrite app_assoc, app_length; cbn [below]; lia].
  rewrite app_assoc. split; [rewrite ID, app_length; lia|]. intros i Hi. rewrite app_length in Hi. rewrite ID in Hi.
  destruct (nth_error v (i - (length T + 6))) as [c|] eqn:Q; [|apply nth_error_None in Q; lia].
  exists c. split; [rewrite nth_error_app2 by lia; rewrite LU; exact Q|].
  rewrite <- (C _ _ Q). unfold trail_char. rewrite Nat.sub_0_r. reflexivity.
Qed.
Lemma begun_nil : begun [].
Proof.
  exists [0x30; 0x30; 0x30; 0x30]%N, (u_text [0x30; 0x30; 0x30; 0x30]%N). split; [|split; [discriminate|reflexivity]].
  split; [reflexivity|]. repeat constructor; unfold hex_digit; lia.
Qed.
Lemma begun_slash : begun [0x5c]%N.
Proof.
  exists [0x30; 0x30; 0x30; 0x30]%N, (0x75%N :: [0x30; 0x30; 0x30; 0x30]%N). split; [|split; [discriminate|reflexivity]].
  split; [reflexivity|]. repeat constructor; unfold hex_digit; lia.
Qed.
Lemma begun_u h : Forall hex_digit h -> length h < 4 -> begun (u_text h).
Proof.
  intros F L. exists (h ++ repeat 0x30%N (4 - length h)), (repeat 0x30%N (4 - length h)). split; [split|split].
  - rewrite app_length, repeat_length. lia.
  - apply Forall_app. split; [exact F|]. apply Forall_forall. intros x I. apply repeat_spec in I. subst. unfold hex_digit. lia.
  - destruct (4 - length h) eqn:E; [lia|discriminate].
  - reflexivity.
Qed.
(** A string that is not closed. *)
Lemma string_open ps w d : idle d -> pieces_before ps w -> open_end w ->
  let buf := 0x22%N :: text ps ++ w in
  exists d', leads buf d (map TError (given_errors ps)) buf d' /\ waits buf d'.
Proof.
  intros (D & SD & AC) PB OE buf.
  set (fin := fun _ _ : list N => @nil Token). set (last := fun (b : list N) (x : dec) (_ : list N) => waits b x).
  assert (A0 : after_string w fin last []).
  { intros b T V g x E AS _. cbn [text given given_errors flat_map app] in *. unfold ends, fin, last. cbn [map app].
    destruct OE as [-> |[-> |[(h & F & L & ->)|(h & v & H & LD & BG & ->)]]].
    - rewrite app_nil_r in E. subst b. exists x. split; [apply leads_refl|]. eapply string_more, AS.
    - destruct (backslash_leads b x T V g [] E AS) as (x1 & L1 & A1). exists x1. split; [exact L1|]. subst b. eapply escape_more, A1.
    - destruct (backslash_leads b x T V g (0x75%N :: h) E AS) as (x1 & L1 & A1).
      destruct (u_leads b x1 T V h E A1) as (x2 & L2 & A2).
      exists x2. split; [eapply leads_nil2; eassumption|]. subst b. eapply unicode_more; eassumption.
    - destruct (backslash_leads b x T V g (0x75%N :: h ++ v) E AS) as (x1 & L1 & A1).
      destruct (u_leads b x1 T V (h ++ v) E A1) as (x2 & L2 & A2).
      destruct (lead_leads b x2 T V h v E H LD A2) as (x3 & L3 & A3).
      exists x3. split; [eapply leads_nil2; [exact L1|]; eapply leads_nil2; eassumption|]. subst b. eapply trail_more; eassumption. }
  assert (B0 : after_lead w fin last []).
  { intros b T V h x E AT _ _ NB. cbn [text given given_errors flat_map app] in *. unfold ends, fin, last. cbn [map app].
    destruct OE as [-> |[-> |[(h2 & F & L & ->)|(h2 & v & H & LD & BG & ->)]]].
    - destruct NB. apply begun_nil.
    - destruct NB. apply begun_slash.
    - destruct NB. apply begun_u; assumption.
    - destruct (lead_lead_leads x T V h h2 v H LD AT) as (x1 & L1 & A1 & _). cbv zeta in L1. rewrite <- E in L1.
      exists x1. split; [exact L1|]. rewrite E, app_assoc. eapply trail_more; eassumption. }
  assert (S1 : leads buf d [] buf (begin d (SString 0))).
  { apply (start_step buf d _ None); [repeat split; assumption|]. reflexivity. }
  destruct (proj1 (pieces_lead w fin last A0 B0 ps) buf [0x22%N] [0x22%N] None (begin d (SString 0)) eq_refl) as (d' & L & W).
  - exists 0. cbn. split; [reflexivity|]. split; [reflexivity|]. split; [exact D|]. split; [discriminate|]. left.
    repeat split; [exact AC|lia].
  - exact PB.
  - unfold fin in L. rewrite app_nil_r in L. exists d'. split; [eapply leads_nil2; eassumption|exact W].
Qed.

(** ** What is left at the end *)

Lemma early_eq n : early n = sign_errors n.
Proof.
  destruct n as [S I fr ex]. unfold early, sign_errors, number_errors. cbn [n_signs n_int n_frac n_exp]. rewrite !filter_app.
  assert (R : forall b : bool, filter (fun e => match e with NumberRangeEmpty => false | _ => true end) (if b then [NumberRangeEmpty] else []) = [])
    by (intros []; reflexivity).
  rewrite R, app_nil_r. f_equal; [|f_equal].
  - destruct S as [|c S]; [reflexivity|]. destruct (c =? 0x2b)%N; reflexivity.
  - destruct S as [|c [|c2 S]]; reflexivity.
  - destruct ex as [[[el [|s ss]] ds]|]; try reflexivity. cbn [tl]. induction ss as [|s2 ss IH]; [reflexivity|]. cbn. f_equal. exact IH.
Qed.
Lemma first_more c s d st p f : idle d -> start d (c :: s) = Ok (begin d st, None) -> request st = Some (None, p, f) ->
  (forall i y, In y s -> p i y = true) -> exists m d', canon (c :: s) d [] (m, c :: s, d').
Proof.
  intros ID ST RQ P. pose proof (start_step (c :: s) d _ None ID ST) as [_ K].
  assert (W : waits (c :: s) (begin d st)).
  { eapply scan_more; [apply ID|exact RQ| |exact I]. change (idx (begin d st)) with 1.
    change (length (c :: s)) with (length [c] + length s). change 1 with (length [c]).
    change (c :: s) with ([c] ++ s). rewrite <- (app_nil_r s) at 1. apply run_mid. intros i y _. apply P. }
  destruct W as (m & d' & C). exists m, d'. exact (K _ _ C).
Qed.
Lemma unfinished_waits rest es d : unfinished rest es -> idle d -> exists m d', canon rest d (map TError es) (m, rest, d').
Proof.
  intros U ID. destruct U as [|s NE F|c s WS F|n OK|ps w PB OE].
  - destruct ID as (D & SD & AC). eexists. eexists. eapply canon_end, pop_more; [apply clear_none, D|].
    apply st_none_more; [exact SD|reflexivity].
  - destruct s as [|c s]; [congruence|]. inversion F as [|? ? H1 H2]; subst. eapply (first_more c s d SWhitespace); [exact ID| |reflexivity|].
    + unfold start. cbn [app at_ nth_error bind]. rewrite (proj2 (ws_iff c)) by assumption. reflexivity.
    + intros i y Hy. apply ws_iff. now apply (proj1 (Forall_forall _ _) H2).
  - eapply (first_more c s d SItem); [exact ID|now apply word_starts|reflexivity|].
    intros i y Hy. apply item_iff. now apply (proj1 (Forall_forall _ _) F).
  - destruct (number_opens n d OK ID) as (d2 & P & Dg & st & B & FD & A & [W2 K2] & ST).
    pose proof (K2 _ _ (number_waits _ _ _ _ _ B FD A)) as E. rewrite app_nil_r, early_eq in E. eexists. eexists. exact E.
  - destruct (string_open ps w d ID PB OE) as (d' & [_ K] & m & d2 & C). exists m, d2.
    rewrite <- (app_nil_r (map TError _)). apply K, C.
Qed.
Lemma telling_ends data us rest es : telling data us rest -> unfinished rest es ->
  exists m d', canon data new (us ++ map TError es) (m, rest, d').
Proof.
  intros L U. destruct (telling_leads _ _ _ L data new (ready_new _)) as (b0 & d0 & [_ K0] & (d1 & C & DN & SD & AC)).
  pose proof (leads_clear _ _ _ _ C DN) as [_ K1].
  destruct (unfinished_waits rest es d1 U (conj DN (conj SD AC))) as (m & d' & E). exists m, d'. exact (K0 _ _ (K1 _ _ E)).
Qed.

(** ** Every sequence of bytes is made of lexemes *)

Lemma span (p : N -> bool) l : exists a b, l = a ++ b /\ Forall (fun c => p c = true) a /\
  (b = [] \/ exists c r, b = c :: r /\ p c = false).
Proof.
  induction l as [|c l (a & b & -> & F & B)]; [exists [], []; auto|]. destruct (p c) eqn:E.
  - exists (c :: a), b. split; [reflexivity|]. split; [constructor; assumption|exact B].
  - exists [], (c :: a ++ b). split; [reflexivity|]. split; [constructor|]. right. eauto.
Qed.
Lemma span_of (P : N -> Prop) (p : N -> bool) l : (forall c, p c = true <-> P c) ->
  exists a b, l = a ++ b /\ Forall P a /\ (b = [] \/ stops P b).
Proof.
  intros E. destruct (span p l) as (a & b & -> & F & B). exists a, b. split; [reflexivity|]. split.
  - eapply Forall_impl; [|exact F]. intros c. apply E.
  - destruct B as [->|(c & r & -> & Q)]; [auto|]. right. exists c, r. split; [reflexivity|]. rewrite <- E. congruence.
Qed.
(** Up to [n] hexadecimal digits. *)
Lemma hex_upto n l : exists h r, l = h ++ r /\ Forall hex_digit h /\ length h <= n /\
  (length h = n \/ r = [] \/ exists c r', r = c :: r' /\ ~ hex_digit c).
Proof.
  revert l. induction n as [|n IH]; intros l; [exists [], l; cbn; auto|].
  destruct l as [|c l]; [exists [], []; cbn; repeat split; auto; lia|].
  destruct (is_hex c) eqn:E.
  - destruct (IH l) as (h & r & -> & F & L & K). exists (c :: h), r. split; [reflexivity|].
    split; [constructor; [apply hex_iff, E|exact F]|]. cbn. split; [lia|]. destruct K as [K|K]; [left; lia|auto].
  - exists [], (c :: l). cbn. repeat split; auto; [lia|]. right. right. exists c, l. split; [reflexivity|]. rewrite <- hex_iff. congruence.
Qed.
(** What follows a lead surrogate. *)
Lemma after_surrogate r : begun r \/ (exists h x, hex4 h /\ r = u_text h ++ x) \/
  (~ begun r /\ forall h x, hex4 h -> r <> u_text h ++ x).
Proof.
  destruct r as [|a r]; [left; apply begun_nil|].
  destruct (N.eq_dec a 0x5c) as [->|NA].
  2:{ right. right. split; [apply begun_backslash, NA|]. intros h x _ E. injection E as E _. congruence. }
  destruct r as [|b r]; [left; apply begun_slash|].
  destruct (N.eq_dec b 0x75) as [->|NB].
  2:{ right. right. split; [apply begun_letter, NB|]. intros h x _ E. injection E as E _. congruence. }
  destruct (hex_upto 4 r) as (h & x & -> & F & L & K).
  destruct (Nat.eq_dec (length h) 4) as [E4|N4].
  - right. left. exists h, x. split; [split; assumption|reflexivity].
  - assert (L4 : length h < 4) by lia. destruct K as [K|[->|(c & x' & -> & NH)]]; [congruence| |].
    + left. rewrite app_nil_r. apply begun_u; assumption.
    + right. right. assert (NF : ~ Forall hex_digit (h ++ c :: x')).
      { intros Q. apply Forall_app in Q. destruct Q as [_ Q]. inversion Q; subst. contradiction. }
      split; [intros BG; apply NF, (begun_hex (c :: x') h BG)|].
      intros h2 x [L2 F2] E. injection E as E. pose proof (f_equal (fun l => nth_error l (length h)) E) as Q. cbn beta in Q.
      rewrite nth_error_app2, Nat.sub_diag in Q by lia. rewrite nth_error_app1 in Q by lia. cbn in Q. symmetry in Q.
      apply nth_error_In in Q. exact (NH (proj1 (Forall_forall _ _) F2 c Q)).
Qed.
Lemma trail_dec u : trail u \/ ~ trail u.
Proof. unfold trail. lia. Qed.
Lemma lead_dec u : lead u \/ ~ lead u.
Proof. unfold lead. lia. Qed.
Lemma escape_dec l : (exists c, escape l c) \/ forall c, ~ escape l c.
Proof.
  destruct (N.eq_dec l 0x22) as [->|]; [left; eexists; constructor|]. destruct (N.eq_dec l 0x5c) as [->|]; [left; eexists; constructor|].
  destruct (N.eq_dec l 0x2f) as [->|]; [left; eexists; constructor|]. destruct (N.eq_dec l 0x62) as [->|]; [left; eexists; constructor|].
  destruct (N.eq_dec l 0x66) as [->|]; [left; eexists; constructor|]. destruct (N.eq_dec l 0x6e) as [->|]; [left; eexists; constructor|].
  destruct (N.eq_dec l 0x72) as [->|]; [left; eexists; constructor|]. destruct (N.eq_dec l 0x74) as [->|]; [left; eexists; constructor|].
  right. intros c E. destruct E; congruence.
Qed.
Lemma u_inj h1 x1 h2 x2 : hex4 h1 -> hex4 h2 -> u_text h1 ++ x1 = u_text h2 ++ x2 -> h1 = h2 /\ x1 = x2.
Proof.
  intros [L1 _] [L2 _] E. injection E as E.
  destruct h1 as [|a1 [|b1 [|c1 [|d1 [|]]]]]; try discriminate L1. destruct h2 as [|a2 [|b2 [|c2 [|d2 [|]]]]]; try discriminate L2.
  cbn in E. injection E as -> -> -> -> ->. auto.
Qed.
Lemma string_split n r : length r <= n -> exists ps w, r = text ps ++ w /\ pieces_before ps w /\
  ((exists next, w = 0x22%N :: next) \/ open_end w).
Proof.
  revert r. induction n as [|n IH]; intros r L.
  { destruct r; [|cbn in L; lia]. exists [], []. split; [reflexivity|]. split; [exact I|]. right. left. reflexivity. }
  assert (GO : forall p x, r = piece_text p ++ x -> piece_text p <> [] -> piece_ok p x ->
    (forall h, p = LoneLead h -> ~ begun x) ->
    exists ps w, r = text ps ++ w /\ pieces_before ps w /\ ((exists next, w = 0x22%N :: next) \/ open_end w)).
  { intros p x E NE PO PW. destruct (IH x) as (ps & w & -> & PB & K).
    - rewrite E, app_length in L. destruct (piece_text p); [congruence|]. cbn in L. lia.
    - exists (p :: ps), w. split; [rewrite E, text_cons, <- app_assoc; reflexivity|]. split; [|exact K].
      split; [exact PO|]. split; [exact PW|exact PB]. }
  destruct r as [|c r]; [exists [], []; split; [reflexivity|]; split; [exact I|]; right; left; reflexivity|].
  destruct (N.eq_dec c 0x22) as [->|NQ].
  { exists [], (0x22%N :: r). split; [reflexivity|]. split; [exact I|]. left. eauto. }
  destruct (N.eq_dec c 0x5c) as [->|NB].
  2:{ destruct (N.lt_ge_cases c 0x20).
      - apply (GO (Control c) r); [reflexivity|discriminate|exact H|discriminate].
      - apply (GO (Plain c) r); [reflexivity|discriminate|cbn; auto|discriminate]. }
  destruct r as [|l r]; [exists [], [0x5c%N]; split; [reflexivity|]; split; [exact I|]; right; right; left; reflexivity|].
  destruct (N.eq_dec l 0x75) as [->|NU].
  2:{ destruct (escape_dec l) as [[c E]|NE].
      - apply (GO (Escaped l c) r); [reflexivity|discriminate|exact E|discriminate].
      - apply (GO (UnknownEscape l) r); [reflexivity|discriminate|split; assumption|discriminate]. }
  destruct (hex_upto 4 r) as (h & x & -> & F & LH & K).
  destruct (Nat.eq_dec (length h) 4) as [E4|N4].
  - assert (H : hex4 h) by (split; assumption).
    destruct (trail_dec (code h)) as [TR|NT].
    { apply (GO (LoneTrail h) x); [reflexivity|discriminate|split; assumption|discriminate]. }
    destruct (lead_dec (code h)) as [LD|NL].
    2:{ apply (GO (Unicode h) x); [reflexivity|discriminate|exact (conj H (conj NL NT))|discriminate]. }
    destruct (after_surrogate x) as [BG|[(h2 & y & H2 & ->)|[NG NS]]].
    + exists [], (u_text h ++ x). split; [reflexivity|]. split; [exact I|]. right. right. right. right. exists h, x. auto.
    + destruct (trail_dec (code h2)) as [T2|N2].
      * apply (GO (Pair h h2) y); [cbn [piece_text]; rewrite <- app_assoc; reflexivity|discriminate|exact (conj H (conj H2 (conj LD T2)))|discriminate].
      * apply (GO (LoneLead h) (u_text h2 ++ y)); [reflexivity|discriminate| |].
        -- split; [exact H|]. split; [exact LD|]. intros h3 z H3 T3 E. destruct (u_inj _ _ _ _ H2 H3 E) as [-> _]. contradiction.
        -- intros _ _ BG. pose proof (begun_short _ BG) as S. rewrite app_length in S. destruct H2 as [L2 _]. cbn in S. lia.
    + apply (GO (LoneLead h) x); [reflexivity|discriminate| |intros _ _; exact NG].
      split; [exact H|]. split; [exact LD|]. intros h3 z H3 _. apply NS, H3.
  - assert (L4 : length h < 4) by lia. destruct K as [K|[->|(c & x' & -> & NH)]]; [congruence| |].
    + exists [], (u_text h). split; [cbn; rewrite app_nil_r; reflexivity|]. split; [exact I|]. right. right. right. left. exists h. auto.
    + apply (GO (ShortUnicode h) (c :: x')); [reflexivity|discriminate| |discriminate].
      split; [exact F|]. split; [exact L4|]. exists c, x'. auto.
Qed.
Lemma before_closed ps next : pieces_before ps (0x22%N :: next) -> pieces_ok ps next.
Proof. induction ps as [|p ps IH]; [exact id|]. intros (PO & _ & PB). split; [exact PO|exact (IH PB)]. Qed.
Lemma digit_sign c : digit c -> ~ sign_char c.
Proof. unfold digit, sign_char. lia. Qed.
Lemma number_split c r : digit c \/ sign_char c -> exists n next, c :: r = written n ++ next /\ numeral_ok n /\
  (next = [] \/ stops (continues n) next).
Proof.
  intros FST.
  assert (SG : forall c, ((c =? 0x2b) || (c =? 0x2d))%N = true <-> sign_char c) by (intros x; unfold sign_char; lia).
  destruct (span_of sign_char _ (c :: r) SG) as (ss & l1 & E1 & F1 & K1).
  destruct (span_of digit _ l1 digit_iff) as (ds & l2 & -> & F2 & K2).
  assert (NE : ss = [] -> ds <> []).
  { intros -> ->. cbn in E1. destruct FST as [DG|SC].
    - destruct K2 as [->|(x & y & -> & ND)]; [discriminate E1|]. injection E1 as <- _. contradiction.
    - destruct K1 as [K1|(x & y & K1 & NS)]; cbn in K1; rewrite K1 in E1; [discriminate E1|]. injection E1 as <- _. contradiction. }
  assert (NI : forall x y, l2 = x :: y -> ds = [] -> ~ sign_char x).
  { intros x y -> ->. cbn in K1. destruct K1 as [K1|(x' & y' & K1 & NS)]; [discriminate K1|]. injection K1 as <- _. exact NS. }
  rewrite E1.
  (* The fraction. *)
  assert (FR : exists fr l3, l2 = frac_text fr ++ l3 /\ (forall d, fr = Some d -> Forall digit d) /\
    (l3 = [] \/ stops digit l3) /\ (fr = None -> l3 = l2 /\ (forall x y, l3 = x :: y -> x <> 0x2e%N))).
  { destruct l2 as [|x l2]; [exists None, []; repeat split; auto; discriminate|].
    destruct (N.eq_dec x 0x2e) as [->|NX].
    - destruct (span_of digit _ l2 digit_iff) as (fd & l3 & -> & F3 & K3). exists (Some fd), l3. split; [reflexivity|].
      split; [intros d [= <-]; exact F3|]. split; [exact K3|discriminate].
    - exists None, (x :: l2). split; [reflexivity|]. split; [discriminate|]. split; [exact K2|]. intros _. split; [reflexivity|].
      intros ? ? [= <- <-]. exact NX. }
  destruct FR as (fr & l3 & -> & FF & K3 & KN).
  assert (EX : exists ex l4, l3 = exp_text ex ++ l4 /\
    (forall e s d, ex = Some (e, s, d) -> (e = 0x65%N \/ e = 0x45%N) /\ Forall sign_char s /\ Forall digit d /\ (d = [] -> forall x y, l4 = x :: y -> ~ sign_char x)) /\
    (l4 = [] \/ stops digit l4) /\ (ex = None -> l4 = l3 /\ forall x y, l4 = x :: y -> x <> 0x65%N /\ x <> 0x45%N)).
  { destruct l3 as [|x l3]; [exists None, []; repeat split; auto; discriminate|].
    assert (EE : (x = 0x65 \/ x = 0x45)%N \/ ~ (x = 0x65 \/ x = 0x45)%N) by lia. destruct EE as [EE|NX].
    - destruct (span_of sign_char _ l3 SG) as (es & l4 & -> & F4 & K4).
      destruct (span_of digit _ l4 digit_iff) as (ed & l5 & -> & F5 & K5). exists (Some (x, es, ed)), l5.
      split; [cbn; rewrite <- app_assoc; reflexivity|]. split; [|split; [exact K5|discriminate]].
      intros e s d [= <- <- <-]. split; [exact EE|]. split; [exact F4|]. split; [exact F5|]. intros -> x' y' ->. cbn in K4.
      destruct K4 as [K4|(? & ? & K4 & NS)]; [discriminate K4|]. injection K4 as <- _. exact NS.
    - exists None, (x :: l3). split; [reflexivity|]. split; [discriminate|]. split; [exact K3|]. intros _. split; [reflexivity|].
      intros ? ? [= <- <-]. split; intros ->; apply NX; auto. }
  destruct EX as (ex & l4 & -> & FE & K4 & KX).
  exists (mkNumeral ss ds fr ex), l4. split; [unfold written; cbn; rewrite <- !app_assoc; reflexivity|]. split.
  - unfold numeral_ok. cbn. split; [exact F1|]. split; [exact F2|]. split; [exact NE|]. split; [exact FF|].
    intros e s d Q. destruct (FE e s d Q) as (A & B & C & _). auto.
  - destruct K4 as [->|(x & y & -> & ND)]; [left; reflexivity|]. right. exists x, y. split; [reflexivity|].
    unfold continues. cbn. intros [Q|Q]; [contradiction|].
    destruct ex as [[[e s] d]|]; [|destruct (KX eq_refl) as (EX1 & EX2); specialize (EX2 x y eq_refl); cbn [exp_text app] in *; destruct fr as [fd|]].
    + destruct (FE _ _ _ eq_refl) as (_ & _ & _ & NS). destruct Q as [Q1 Q2]. exact (NS Q2 x y eq_refl Q1).
    + lia.
    + destruct (KN eq_refl) as (_ & KD). specialize (KD x y eq_refl). destruct Q as [Q|[Q|[Q|[Q1 Q2]]]]; [lia..|].
      exact (NI x y eq_refl Q2 Q1).
Qed.
Lemma structural_dec c : (exists t, structural c t) \/ forall t, ~ structural c t.
Proof.
  destruct (N.eq_dec c 0x5b) as [->|]; [left; eexists; constructor|]. destruct (N.eq_dec c 0x7b) as [->|]; [left; eexists; constructor|].
  destruct (N.eq_dec c 0x5d) as [->|]; [left; eexists; constructor|]. destruct (N.eq_dec c 0x7d) as [->|]; [left; eexists; constructor|].
  destruct (N.eq_dec c 0x3a) as [->|]; [left; eexists; constructor|]. destruct (N.eq_dec c 0x2c) as [->|]; [left; eexists; constructor|].
  right. intros t S. destruct S; congruence.
Qed.
Lemma literal_dec s : (exists t, literal s t) \/ forall t, ~ literal s t.
Proof.
  destruct (list_eq_dec N.eq_dec s [0x6e; 0x75; 0x6c; 0x6c]%N) as [->|]; [left; eexists; constructor|].
  destruct (list_eq_dec N.eq_dec s [0x66; 0x61; 0x6c; 0x73; 0x65]%N) as [->|]; [left; eexists; constructor|].
  destruct (list_eq_dec N.eq_dec s [0x74; 0x72; 0x75; 0x65]%N) as [->|]; [left; eexists; constructor|].
  right. intros t S. destruct S; congruence.
Qed.
Lemma utf8_dec s : utf8_text s \/ ~ utf8_text s.
Proof. rewrite <- utf8_iff. destruct (is_utf8 s); [left; reflexivity|right; discriminate]. Qed.
Lemma told_total data : (exists es, unfinished data es) \/
  exists s ts next, data = s ++ next /\ s <> [] /\ told s ts next.
Proof.
  destruct data as [|c r]; [left; exists []; constructor|].
  destruct (is_ws c) eqn:EW.
  { apply ws_iff in EW. destruct (span_of ws _ r ws_iff) as (a & b & -> & F & [->|K]).
    - left. exists []. rewrite app_nil_r. apply uf_ws; [discriminate|constructor; assumption].
    - right. exists (c :: a), [TWhitespace (c :: a)], b. split; [reflexivity|]. split; [discriminate|].
      apply told_lexeme, lx_ws; [discriminate|constructor; assumption|exact K]. }
  destruct (structural_dec c) as [[t S]|NS].
  { right. exists [c], [t], r. split; [reflexivity|]. split; [discriminate|]. apply told_lexeme, lx_structural, S. }
  destruct (N.eq_dec c 0x22) as [->|NQ].
  { destruct (string_split (length r) r (le_n _)) as (ps & w & -> & PB & [(next & ->)|OE]).
    - apply before_closed in PB. right. destruct (utf8_dec (given None ps)) as [U|U].
      + eexists (0x22%N :: text ps ++ [0x22%N]), _, next. split; [cbn; rewrite <- app_assoc; reflexivity|]. split; [discriminate|].
        apply told_string; assumption.
      + eexists (0x22%N :: text ps ++ [0x22%N]), _, next. split; [cbn; rewrite <- app_assoc; reflexivity|]. split; [discriminate|].
        apply told_string_bytes; assumption.
    - left. exists (given_errors ps). apply uf_string; assumption. }
  assert (ND : (digit c \/ sign_char c) \/ (~ digit c /\ ~ sign_char c)) by (unfold digit, sign_char; lia).
  destruct ND as [ND|[ND NC]].
  { destruct (number_split c r ND) as (n & next & E & OK & [->|K]).
    - left. exists (sign_errors n). rewrite E, app_nil_r. apply uf_number, OK.
    - right. eexists (written n), _, next. split; [exact E|]. split; [|apply told_lexeme, lx_number; assumption].
      intros Z. destruct OK as (_ & _ & NE & _). unfold written in Z. apply app_eq_nil in Z. destruct Z as [Z1 Z].
      apply app_eq_nil in Z. exact (NE Z1 (proj1 Z)). }
  assert (WS : word_start c) by (split; [rewrite <- ws_iff; congruence|auto]).
  destruct (span_of word_char _ r item_iff) as (a & b & -> & F & [->|K]).
  - left. exists []. rewrite app_nil_r. apply uf_word; assumption.
  - right. destruct (literal_dec (c :: a)) as [[t LT]|NL]; [|destruct (utf8_dec (c :: a)) as [U|U]].
    + exists (c :: a), [t], b. split; [reflexivity|]. split; [discriminate|]. apply told_lexeme, lx_literal; assumption.
    + eexists (c :: a), _, b. split; [reflexivity|]. split; [discriminate|]. apply told_lexeme, lx_word; assumption.
    + eexists (c :: a), _, b. split; [reflexivity|]. split; [discriminate|]. apply told_lexeme, lx_bytes; assumption.
Qed.
Lemma telling_total n data : length data <= n -> exists us rest es, telling data us rest /\ unfinished rest es.
Proof.
  revert data. induction n as [|n IH]; intros data L; (destruct (told_total data) as [[es U]|(s & ts & next & -> & NE & T)];
    [exists [], data, es; split; [constructor|exact U]|]).
  - destruct s; [congruence|cbn in L; lia].
  - destruct (IH next) as (us & rest & es & TL & U).
    + rewrite app_length in L. destruct s; [congruence|]. cbn in L. lia.
    + exists (ts ++ us), rest, es. split; [constructor; assumption|exact U].
Qed.
