(** Every text has a segmentation, so that the segmentation says exactly what
    the tokenizer reports. *)
From Verif Require Import Base JsonSyntax JsonModel JsonSpec JsonProofs JsonLex JsonLexNum JsonLexStr.
Local Open Scope N_scope.

Lemma span (P : N -> Prop) (b : N -> bool) : (forall c, P c <-> b c = true) ->
  forall s, exists x y, s = x ++ y /\ Forall P x /\ ~ starts P y.
Proof.
  intros R. induction s as [|c s IH].
  - exists [], []. split; [reflexivity|]. split; [constructor|]. intros (c & r & E & _). discriminate.
  - destruct (b c) eqn:B.
    + destruct IH as (x & y & -> & F & NS). exists (c :: x), y. split; [reflexivity|]. split; [|exact NS].
      constructor; [now apply R|exact F].
    + exists [], (c :: s). split; [reflexivity|]. split; [constructor|].
      intros (c' & r & [= <- <-] & Pc). apply R in Pc. congruence.
Qed.
Lemma starts_dec (P : N -> Prop) (b : N -> bool) : (forall c, P c <-> b c = true) -> forall s, {starts P s} + {~ starts P s}.
Proof.
  intros R [|c s]; [right; intros (? & ? & ? & _); discriminate|].
  destruct (b c) eqn:B; [left; exists c, s; split; [reflexivity|now apply R]|].
  right. intros (c' & r & [= <- <-] & Pc). apply R in Pc. congruence.
Qed.
Lemma not_starts (P : N -> Prop) (b : N -> bool) s : (forall c, P c <-> b c = true) ->
  ~ starts (fun c => ~ P c) s -> s = [] \/ starts P s.
Proof.
  intros R NS. destruct s as [|c s]; [now left|right]. exists c, s. split; [reflexivity|].
  destruct (b c) eqn:B; [now apply R|]. exfalso. apply NS. exists c, s. split; [reflexivity|].
  intros Pc. apply R in Pc. congruence.
Qed.

(** ** Strings *)

Lemma take_hex k s : exists h v r, s = h ++ r /\ hexes h v /\ (length h <= k)%nat /\
  (length h = k \/ r = [] \/ next_is_not is_hex_char (first_of r None)).
Proof.
  induction k as [|k IH].
  - exists [], 0, s. split; [reflexivity|]. split; [apply hexes_nil|]. cbn. auto.
  - destruct IH as (h & v & r & -> & H & L & [E|O]).
    + destruct r as [|c r].
      * exists h, v, []. split; [reflexivity|]. split; [exact H|]. split; [lia|]. right. now left.
      * destruct (is_hex c) eqn:X.
        -- destruct (to_digit16_hex c X) as (d & _ & _ & D). exists (h ++ [c]), (16 * v + d), r.
           split; [now rewrite <- app_assoc|]. split; [now apply hexes_snoc|].
           rewrite app_length. cbn. split; [lia|left; lia].
        -- exists h, v, (c :: r). split; [reflexivity|]. split; [exact H|]. split; [lia|]. right. right.
           exists c. split; [reflexivity|]. rewrite is_hex_iff. congruence.
    + exists h, v, r. split; [reflexivity|]. split; [exact H|]. split; [lia|]. now right.
Qed.

Definition scanned (s : list N) : Prop :=
  (exists raw chars errs rest, s = raw ++ 34 :: rest /\ pieces raw chars errs (Some 34)) \/
  (exists raw chars errs tail, s = raw ++ tail /\ pieces raw chars errs (first_of tail None) /\ dangling tail).
Lemma scan_piece p d e s : piece p d e (first_of s None) -> scanned s -> scanned (p ++ s).
Proof.
  intros P [(raw & chars & errs & rest & -> & PS)|(raw & chars & errs & tail & -> & PS & D)].
  - left. exists (p ++ raw), (d ++ chars), (e ++ errs), rest. split; [now rewrite app_assoc|].
    constructor; [|exact PS]. rewrite first_of_app in P. exact P.
  - right. exists (p ++ raw), (d ++ chars), (e ++ errs), tail. split; [now rewrite app_assoc|]. split; [|exact D].
    constructor; [|exact PS]. rewrite first_of_app in P. exact P.
Qed.
Lemma scan_dangling t : dangling t -> scanned t.
Proof. intros D. right. exists [], [], [], t. split; [reflexivity|]. split; [constructor|exact D]. Qed.

Lemma bad_or_simple e : e <> 117 -> (exists c, escape e c) \/ bad_escape e.
Proof.
  intros U. destruct (is_simple_escape e) eqn:S; [left; eexists; now apply escape_cases|].
  right. split; [exact U|]. intros c E. destruct (escape_fun e c E) as (S' & _). congruence.
Qed.
Lemma lead_dec v : {lead v} + {~ lead v}.
Proof. unfold lead. destruct ((0xd800 <=? v) && (v <=? 0xdbff)) eqn:E; [left|right]; lia. Qed.
Lemma trail_dec v : {trail v} + {~ trail v}.
Proof. unfold trail. destruct ((0xdc00 <=? v) && (v <=? 0xdfff)) eqn:E; [left|right]; lia. Qed.

Lemma scan s : Forall scalar_value s -> scanned s.
Proof.
  remember (length s) as n eqn:Ln. revert s Ln. induction n as [n IH] using lt_wf_ind. intros s -> SC.
  assert (REC : forall p s', s = p ++ s' -> p <> [] -> scanned s').
  { intros p s' -> NE. apply (IH (length s')); [|reflexivity|].
    - rewrite app_length. destruct p; [congruence|cbn; lia].
    - now apply Forall_app in SC as [_ SC]. }
  destruct s as [|c s]; [apply scan_dangling; constructor|].
  inversion SC as [|? ? Sc Ss]; subst. pose proof Sc as Sc'. unfold scalar_value in Sc'.
  destruct (N.eq_dec c 34) as [->|N34].
  { left. exists [], [], [], s. split; [reflexivity|constructor]. }
  destruct (N.eq_dec c 92) as [->|N92].
  2:{ assert (R : scanned s) by (apply (REC [c]); [reflexivity|discriminate]).
      change (c :: s) with ([c] ++ s). destruct (N.lt_ge_cases c 0x20) as [L|L].
      - eapply scan_piece; [apply pc_control; exact L|exact R].
      - eapply scan_piece; [apply pc_ok, sp_plain; split; [lia|exact Sc]|exact R]. }
  destruct s as [|e s]; [apply scan_dangling; constructor|].
  destruct (N.eq_dec e 117) as [->|NU].
  2:{ assert (R : scanned s) by (apply (REC [92; e]); [reflexivity|discriminate]).
      change (92 :: e :: s) with ([92; e] ++ s). destruct (bad_or_simple e NU) as [[x E]|B].
      - eapply scan_piece; [apply pc_ok, sp_escape; exact E|exact R].
      - eapply scan_piece; [apply pc_bad_escape; exact B|exact R]. }
  destruct (take_hex 4 s) as (h & v & r & -> & H & L & O).
  destruct (Nat.eq_dec (length h) 4) as [L4|NL4].
  2:{ destruct O as [O|[->|O]]; [contradiction| |].
      - rewrite app_nil_r. apply scan_dangling. apply dg_unicode; [now exists v|lia].
      - change (92 :: 117 :: h ++ r) with ((92 :: 117 :: h) ++ r).
        eapply scan_piece; [apply pc_short; [now exists v|lia|exact O]|].
        apply (REC (92 :: 117 :: h)); [reflexivity|discriminate]. }
  assert (H4 : hex4 h v) by (split; assumption).
  assert (R : scanned r) by (apply (REC (92 :: 117 :: h)); [reflexivity|discriminate]).
  change (92 :: 117 :: h ++ r) with ((92 :: 117 :: h) ++ r).
  destruct (lead_dec v) as [LD|NLD].
  2:{ destruct (trail_dec v) as [T|NT].
      - eapply scan_piece; [eapply pc_trail; eassumption|exact R].
      - eapply scan_piece; [apply pc_ok, sp_unicode; eassumption|exact R]. }
  destruct r as [|c r]; [rewrite app_nil_r; apply scan_dangling; eapply dg_lead; eassumption|].
  destruct (N.eq_dec c 92) as [->|N92].
  2:{ eapply scan_piece; [eapply pc_lead; [exact H4|exact LD|]|exact R]. exists c. split; [reflexivity|congruence]. }
  destruct r as [|e r]; [apply scan_dangling; eapply dg_lead_backslash; eassumption|].
  destruct (N.eq_dec e 117) as [->|NU].
  2:{ replace ((92 :: 117 :: h) ++ 92 :: e :: r) with ((92 :: 117 :: h ++ [92; e]) ++ r)
        by (cbn; rewrite <- app_assoc; reflexivity).
      assert (R2 : scanned r).
      { apply (REC (92 :: 117 :: h ++ [92; e])); [cbn; rewrite <- app_assoc; reflexivity|discriminate]. }
      destruct (bad_or_simple e NU) as [[x E]|B].
      - eapply scan_piece; [eapply pc_lead_escape; eassumption|exact R2].
      - eapply scan_piece; [eapply pc_lead_bad_escape; eassumption|exact R2]. }
  destruct (take_hex 4 r) as (k & w & r2 & -> & K & LK & OK).
  replace ((92 :: 117 :: h) ++ 92 :: 117 :: k ++ r2) with ((92 :: 117 :: h ++ 92 :: 117 :: k) ++ r2)
    by (cbn; rewrite <- app_assoc; reflexivity).
  assert (R2 : scanned r2).
  { apply (REC (92 :: 117 :: h ++ 92 :: 117 :: k)); [cbn; rewrite <- app_assoc; reflexivity|discriminate]. }
  destruct (Nat.eq_dec (length k) 4) as [LK4|NK4].
  - assert (K4 : hex4 k w) by (split; assumption). destruct (trail_dec w) as [T|NT].
    + eapply scan_piece; [apply pc_ok; eapply sp_pair; eassumption|exact R2].
    + eapply scan_piece; [eapply pc_lead_other; eassumption|exact R2].
  - destruct OK as [OK|[->|OK]]; [contradiction| |].
    + rewrite app_nil_r. apply scan_dangling. eapply dg_lead_unicode; [exact H4|exact LD|now exists w|lia].
    + eapply scan_piece; [eapply pc_lead_short; [exact H4|exact LD|now exists w|lia|exact OK]|exact R2].
Qed.

(** ** Numbers *)

Definition is_e (c : N) : bool := (c =? 0x65) || (c =? 0x45).
Lemma is_e_iff c : In c [0x65; 0x45] <-> is_e c = true.
Proof. unfold is_e. cbn. lia. Qed.
Lemma starts_cons (P : N -> Prop) c r : starts P (c :: r) <-> P c.
Proof. split; [intros (? & ? & [= <- <-] & H); exact H|]. intros H. exists c, r. auto. Qed.
Lemma starts_nil (P : N -> Prop) : ~ starts P [].
Proof. intros (? & ? & ? & _). discriminate. Qed.

Lemma shape_plain f sg ds fr : sign_ok f sg -> Forall digit ds -> (forall x, fr = Some x -> Forall digit x) ->
  ds <> [] \/ (sg <> [] /\ fr = None) -> numeral_shape f (mkNumeral sg ds fr None).
Proof.
  intros S D F O. split; [|split]; cbn [n_sign n_int n_frac n_exp].
  - split; [exact S|]. split; [exact D|]. split; [exact F|]. cbn. discriminate.
  - intros ->. destruct O as [O|[? ?]]; [congruence|auto].
  - auto.
Qed.
(** After the mantissa. *)
Lemma take_exp f sg ds fr s : numeral_shape f (mkNumeral sg ds fr None) -> ds <> [] -> fr <> Some [] ->
  ~ starts digit s -> (fr = None -> ~ starts (eq 46) s) ->
  exists ex r, s = exp_text ex ++ r /\ numeral_shape f (mkNumeral sg ds fr ex) /\
    ~ starts (continues (mkNumeral sg ds fr ex)) r.
Proof.
  intros ((S & D & F & _) & I & _) NE NF ND NP. cbn [n_sign n_int n_frac n_exp] in *.
  destruct (starts_dec _ _ is_e_iff s) as [(e & r & -> & E)|NEx].
  2:{ exists None, s. split; [reflexivity|]. split.
      - apply shape_plain; auto.
      - intros (c & r & -> & C). rewrite starts_cons in *. unfold continues in C. cbn [n_int n_frac n_exp] in C.
        destruct C as [C|[(_ & -> & _ & ->)|[(_ & _ & _ & C)|(e & C & _)]]]; [contradiction| |contradiction|discriminate].
        specialize (NP eq_refl). now apply NP. }
  assert (SH : forall si di, In si [[]; [0x2b]; [0x2d]] -> Forall digit di ->
    numeral_shape f (mkNumeral sg ds fr (Some (e, si, di)))).
  { intros si di SI DI. split; [|split].
    - split; [exact S|]. split; [exact D|]. split; [exact F|]. intros ? ? ? [= <- <- <-]. auto.
    - cbn. intros ->. congruence.
    - cbn. intros ->. congruence. }
  assert (DG : forall si r', In si [[]; [0x2b]; [0x2d]] -> (si = [] -> ~ starts (fun c => In c [0x2b; 0x2d]) r') ->
    exists ex r0, e :: si ++ r' = exp_text ex ++ r0 /\ numeral_shape f (mkNumeral sg ds fr ex) /\
      ~ starts (continues (mkNumeral sg ds fr ex)) r0).
  { intros si r' SI NS. destruct (span digit is_digit digit_iff r') as (di & r0 & -> & FD & ND0).
    exists (Some (e, si, di)), r0. split; [cbn; now rewrite <- app_assoc|]. split; [now apply SH|].
    intros (c & r9 & -> & C). rewrite starts_cons in ND0. unfold continues in C. cbn [n_int n_frac n_exp] in C.
    destruct C as [C|[(_ & _ & ? & _)|[(_ & _ & ? & _)|(e' & [= <- -> ->] & C)]]]; try discriminate; [contradiction|].
    specialize (NS eq_refl). cbn [app] in NS. rewrite starts_cons in NS. contradiction. }
  destruct (starts_dec (fun c => In c [0x2b; 0x2d]) (fun c => (c =? 0x2b) || (c =? 0x2d))) with (s := r) as [(g & r' & -> & G)|NG].
  { intros c. cbn. lia. }
  - apply (DG [g] r'); [cbn in G |- *; destruct G as [<-|[<-|[]]]; auto|discriminate].
  - apply (DG [] r); [cbn; auto|intros _; exact NG].
Qed.

Lemma take_number f sg d s : sign_ok f sg -> ~ (sg = [] /\ ~ digit d) ->
  exists n r, sg ++ (if (match sg with [] => true | _ => false end) then d :: s else s) = written n ++ r /\
    numeral_shape f n /\ ~ starts (continues n) r /\ written n <> [].
Proof.
  intros S NZ. set (t := if match sg with [] => true | _ => false end then d :: s else s).
  destruct (span digit is_digit digit_iff t) as (ds & r & Et & FD & ND).
  destruct (list_eq_dec N.eq_dec ds []) as [->|NE].
  { assert (NS : sg <> []).
    { intros ->. cbn in t. subst t. cbn [app] in Et. subst r. apply NZ. split; [reflexivity|].
      intros D. apply ND. now apply starts_cons. }
    exists (int_only sg []), r. rewrite written_int, app_nil_r, Et. split; [reflexivity|]. split.
    - apply shape_plain; auto. discriminate.
    - split; [|exact NS]. intros (c & r' & -> & C). rewrite starts_cons in ND. unfold continues in C. cbn in C.
      destruct C as [C|[(C & _)|[(C & _)|(e & C & _)]]]; [contradiction|congruence|congruence|discriminate]. }
  assert (SHI : numeral_shape f (mkNumeral sg ds None None)).
  { apply shape_plain; auto. discriminate. }
  rewrite Et. destruct (N.eq_dec 46 (match r with c :: _ => c | [] => 0 end)) as [P|P].
  - destruct r as [|c r]; [discriminate|]. subst c.
    destruct (span digit is_digit digit_iff r) as (fr & r2 & -> & FF & ND2).
    assert (SHF : numeral_shape f (mkNumeral sg ds (Some fr) None)).
    { apply shape_plain; auto. intros x [= <-]. exact FF. }
    destruct (list_eq_dec N.eq_dec fr []) as [->|NF].
    + exists (with_frac sg ds []), r2. rewrite written_frac. split; [now rewrite <- !app_assoc|]. split; [exact SHF|].
      split; [|destruct sg; [destruct ds; [congruence|discriminate]|discriminate]].
      intros (c & r' & -> & C). rewrite starts_cons in ND2. unfold continues in C. cbn in C.
      destruct C as [C|[(_ & C & _)|[(_ & C & _)|(e & C & _)]]]; [contradiction|discriminate|congruence|discriminate].
    + destruct (take_exp f sg ds (Some fr) r2 SHF NE ltac:(congruence) ND2 ltac:(discriminate)) as (ex & r3 & -> & SH & NC).
      exists (mkNumeral sg ds (Some fr) ex), r3. split; [unfold written; cbn; rewrite <- !app_assoc; cbn; now rewrite <- app_assoc|].
      split; [exact SH|]. split; [exact NC|]. unfold written. cbn. destruct sg; [destruct ds; [congruence|discriminate]|discriminate].
  - assert (NP : @None (list N) = None -> ~ starts (eq 46) r).
    { intros _ (c & r' & -> & <-). now apply P. }
    destruct (take_exp f sg ds None r SHI NE ltac:(discriminate) ND NP) as (ex & r3 & -> & SH & NC).
    exists (mkNumeral sg ds None ex), r3. split; [unfold written; cbn; now rewrite <- !app_assoc|].
    split; [exact SH|]. split; [exact NC|]. unfold written. cbn. destruct sg; [destruct ds; [congruence|discriminate]|discriminate].
Qed.

(** ** Whitespace, words, comments *)

Lemma take_blanks run : Forall white_space run -> exists strays raw, blanks run strays raw.
Proof.
  induction 1 as [|c run W _ (st & raw & B)]; [exists [], []; constructor|].
  destruct (is_blank c) eqn:E.
  - exists st, (c :: raw). constructor; [now apply ws_iff|exact B].
  - exists (c :: st), raw. constructor; [exact W| |exact B]. rewrite ws_iff. congruence.
Qed.
Lemma word_end_neg c : ~ word_end c <-> negb (ends c) = true.
Proof. rewrite word_end_iff. destruct (ends c); cbn; split; congruence. Qed.
Lemma word_event_total w : exists e, word_event w e.
Proof. exists (keyword_ev w). now apply keyword_ev_iff. Qed.

Theorem lexed_total f text : Forall scalar_value text -> exists ev, lexed f text ev.
Proof.
  remember (length text) as n eqn:Ln. revert text Ln. induction n as [n IH] using lt_wf_ind. intros s -> SC.
  assert (REC : forall p s', s = p ++ s' -> p <> [] -> exists ev, lexed f s' ev).
  { intros p s' -> NE. apply (IH (length s')); [|reflexivity|].
    - rewrite app_length. destruct p; [congruence|cbn; lia].
    - now apply Forall_app in SC as [_ SC]. }
  destruct s as [|c s]; [exists []; constructor|].
  assert (R1 : exists ev, lexed f s ev) by (apply (REC [c]); [reflexivity|discriminate]).
  (* structural characters *)
  destruct ((c =? 0x5b) || (c =? 0x7b) || (c =? 0x5d) || (c =? 0x7d) || (c =? 0x3a) || (c =? 0x2c)) eqn:ST.
  { assert (K : exists k, structural c k).
    { assert (C : c = 0x5b \/ c = 0x7b \/ c = 0x5d \/ c = 0x7d \/ c = 0x3a \/ c = 0x2c) by lia.
      destruct C as [->|[->|[->|[->|[->| ->]]]]]; eexists; constructor. }
    destruct K as [k K]. destruct R1 as [ev R1]. eexists. eapply lx_structural; eassumption. }
  destruct (N.eq_dec c 0x3d) as [->|NEq]; [destruct R1 as [ev R1]; eexists; apply lx_equal; exact R1|].
  (* whitespace *)
  destruct (is_whitespace c) eqn:WS.
  { destruct (span white_space is_whitespace white_space_iff (c :: s)) as (run & rest & E & F & NS).
    assert (NE : run <> []).
    { intros ->. cbn in E. subst rest. apply NS. apply starts_cons. now apply white_space_iff. }
    destruct (take_blanks run F) as (st & raw & B). destruct (REC run rest E NE) as [ev L].
    rewrite E. eexists. eapply lx_blanks; eassumption. }
  (* numbers *)
  destruct (is_digit c) eqn:DG.
  { destruct (take_number f [] c s) as (nm & r & E & SH & NC & NE);
      [now left|intros [_ ND]; apply ND; now apply digit_iff|]. cbn in E.
    destruct (REC _ _ E NE) as [ev L]. rewrite E. eexists.
    eapply lx_number; [exact SH|exact NC|now apply zero_ev_iff|now apply missing_ev_iff|exact L]. }
  destruct (N.eq_dec c 0x2d) as [->|NM].
  { destruct (take_number f [0x2d] 0 s) as (nm & r & E & SH & NC & NE);
      [right; now left|intros [? _]; discriminate|]. cbn [app] in E.
    destruct (REC _ _ E NE) as [ev L]. rewrite E. eexists.
    eapply lx_number; [exact SH|exact NC|now apply zero_ev_iff|now apply missing_ev_iff|exact L]. }
  destruct (N.eq_dec c 0x2b) as [->|NP].
  { destruct (has_dec ALLOW_PLUS_SIGN f) as [H|H]; [|destruct R1 as [ev R1]; eexists; apply lx_plus; [exact H|exact R1]].
    destruct (take_number f [0x2b] 0 s) as (nm & r & E & SH & NC & NE);
      [right; right; auto|intros [? _]; discriminate|]. cbn [app] in E.
    destruct (REC _ _ E NE) as [ev L]. rewrite E. eexists.
    eapply lx_number; [exact SH|exact NC|now apply zero_ev_iff|now apply missing_ev_iff|exact L]. }
  (* strings *)
  destruct (N.eq_dec c 0x22) as [->|NQ].
  { inversion SC as [|? ? _ Ss]; subst.
    destruct (scan s Ss) as [(raw & chars & errs & rest & -> & P)|(raw & chars & errs & tail & -> & P & D)].
    - destruct (REC (0x22 :: raw ++ [0x22]) rest) as [ev L]; [cbn; now rewrite <- app_assoc|discriminate|].
      eexists. eapply lx_string; eassumption.
    - eexists. eapply lx_unterminated; eassumption. }
  (* comments *)
  assert (LINE : forall b, exists body rest, b = body ++ rest /\ ~ In 0x0a body /\ (rest = [] \/ starts (eq 0x0a) rest)).
  { intros b. destruct (span (fun c => ~ 0x0a = c) (fun c => negb (c =? 0x0a))) with (s := b) as (body & rest & -> & F & NS).
    { intros x. lia. }
    exists body, rest. split; [reflexivity|]. split.
    - intros I. rewrite Forall_forall in F. now apply (F _ I).
    - apply (not_starts (eq 0x0a) (fun c => c =? 0x0a)); [intros x; lia|exact NS]. }
  destruct (N.eq_dec c 0x23) as [->|NH].
  { destruct (LINE s) as (body & rest & -> & NI & O).
    destruct (REC (0x23 :: body) rest) as [ev L]; [reflexivity|discriminate|].
    eexists. eapply lx_hash_comment; eassumption. }
  (* words *)
  assert (WORD : word_start c -> (c = 0x2f -> ~ starts (eq 0x2f) s) -> exists ev, lexed f (c :: s) ev).
  { intros WSt NSl. destruct (span _ _ word_end_neg s) as (w & rest & -> & F & NS).
    destruct (REC (c :: w) rest) as [ev L]; [reflexivity|discriminate|].
    destruct (word_event_total (c :: w)) as [e WE]. exists (e :: ev).
    change (c :: w ++ rest) with ((c :: w) ++ rest). apply lx_word; [now constructor| |exact WE|exact L].
    destruct (not_starts word_end ends rest word_end_iff NS) as [->|St]; [now left|right].
    split; [exact St|]. intros [[= -> ->] St2]. now apply NSl. }
  destruct (N.eq_dec c 0x2f) as [->|NSl].
  { destruct (starts_dec (eq 0x2f) (fun c => c =? 0x2f)) with (s := s) as [(c' & s' & -> & <-)|NS]; [intros x; lia| |].
    - destruct (LINE s') as (body & rest & -> & NI & O).
      destruct (REC (0x2f :: 0x2f :: body) rest) as [ev L]; [reflexivity|discriminate|].
      eexists. eapply lx_slash_comment; eassumption.
    - apply WORD; [|intros _; exact NS]. split; [unfold digit; lia|now left]. }
  apply WORD; [|congruence]. split; [rewrite digit_iff; congruence|right].
  rewrite word_end_iff. unfold ends, starts_valid, starts_invalid. rewrite WS. 
  assert (BL : is_blank c = false) by (destruct (is_blank c) eqn:B; [rewrite (blank_white c B) in WS; discriminate|reflexivity]).
  rewrite BL. lia.
Qed.

Theorem lexed_iff f text ev : Forall scalar_value text ->
  (lexed f text ev <-> full (with_flags f) text = Some (ev, with_flags f)).
Proof.
  intros SC. split; [apply lexed_full|]. intros E. destruct (lexed_total f text SC) as [ev' L].
  pose proof (lexed_full _ _ _ L) as E'. rewrite E in E'. injection E' as ->. exact L.
Qed.
Corollary lexed_fun f text ev ev' : lexed f text ev -> lexed f text ev' -> ev = ev'.
Proof. intros A B. apply lexed_full in A, B. congruence. Qed.
