(** Proofs about the streaming JSON tokenizer: texts, and the end of the stream. *)
From Verif Require Import Base StreamSpec StreamModel StreamProofs TokModel TokProofs TokSafe TokSession TokLex TokString TokNumber.
From Verif Require TokSpec TokExactSpec DvarDecSpec.
Local Open Scope res_scope.

(** ** Texts *)

Lemma final_ok raw s : TokSpec.utf8_text s -> final raw s = TString raw s.
Proof. intros H. unfold final. rewrite (proj2 (utf8_iff s) H). reflexivity. Qed.
Lemma final_bytes raw s : ~ TokSpec.utf8_text s -> final raw s = TError (StringNonUtf8 raw s).
Proof. intros H. unfold final. replace (is_utf8 s) with false; [reflexivity|]. symmetry. apply not_true. rewrite utf8_iff. exact H. Qed.
Lemma told_consumes s ts next : TokExactSpec.told s ts next -> consumes s ts next.
Proof.
  intros L. destruct L as [s ts next L|ps next PO U|ps next PO U].
  - destruct L as [| | | | | |ps next []|ps next []].
    + apply ws_consumes; assumption.
    + apply structural_consumes; assumption.
    + destruct (literal_starts s t) as (c & s' & -> & W & F); [assumption|].
      rewrite <- (raise_literal (c :: s') t) by assumption. apply word_consumes; assumption.
    + replace (TError (ItemUnknown (c :: s))) with (raise_item (c :: s)); [apply word_consumes; assumption|].
      rewrite raise_other by assumption. rewrite (proj2 (utf8_iff _)) by assumption. reflexivity.
    + replace (TError (ItemNonUtf8 (c :: s))) with (raise_item (c :: s)); [apply word_consumes; assumption|].
      rewrite raise_other.
      * replace (is_utf8 (c :: s)) with false; [reflexivity|]. symmetry. apply not_true. rewrite utf8_iff. assumption.
      * intros t Ht. match goal with H : ~ TokSpec.utf8_text _ |- _ => apply H end. apply utf8_iff.
        inversion Ht; subst; reflexivity.
    + apply number_consumes; assumption.
  - rewrite <- final_ok by assumption. apply string_told; assumption.
  - rewrite <- final_bytes by assumption. apply string_told; assumption.
Qed.
Lemma telling_leads data ts rest : TokExactSpec.telling data ts rest -> forall buf d, ready buf d data ->
  exists buf' d', leads buf d ts buf' d' /\ ready buf' d' rest.
Proof.
  induction 1 as [rest|s ts next ts' rest LX L IH]; intros buf d (d0 & C & D & SD & AC).
  - exists buf, d. split; [apply leads_refl|]. exists d0. auto.
  - destruct (told_consumes s ts next LX d0 (conj D (conj SD AC))) as (d1 & L1 & R1).
    destruct (IH _ _ R1) as (buf2 & d2 & L2 & R2). exists buf2, d2. split; [|exact R2].
    eapply leads_trans; [|exact L2]. pose proof (leads_clear _ _ _ _ C D) as L0.
    exact (leads_trans _ _ _ _ _ _ _ _ L0 L1).
Qed.
(** Lexemes with tame strings are reported as they are. *)
Lemma lexeme_told s ts next : TokSpec.lexeme TokSpec.tame s ts next -> TokExactSpec.told s ts next.
Proof.
  intros L. destruct L as [| | | | | |ps next TM PO U|ps next TM PO U].
  7,8: destruct (given_tame ps TM) as [E1 E2]; rewrite <- E1 in U |- *; rewrite <- E2.
  - apply TokExactSpec.told_lexeme, TokSpec.lx_ws; assumption.
  - apply TokExactSpec.told_lexeme, TokSpec.lx_structural; assumption.
  - apply TokExactSpec.told_lexeme, TokSpec.lx_literal; assumption.
  - apply TokExactSpec.told_lexeme, TokSpec.lx_word; assumption.
  - apply TokExactSpec.told_lexeme, TokSpec.lx_bytes; assumption.
  - apply TokExactSpec.told_lexeme, TokSpec.lx_number; assumption.
  - apply TokExactSpec.told_string; assumption.
  - apply TokExactSpec.told_string_bytes; assumption.
Qed.
Lemma lexed_telling data ts rest : TokSpec.lexed TokSpec.tame data ts rest -> TokExactSpec.telling data ts rest.
Proof.
  induction 1 as [rest|s ts next ts' rest LX L IH]; [constructor|]. constructor; [apply lexeme_told, LX|exact IH].
Qed.
Lemma ready_end buf d : ready buf d [] -> exists d', canon buf d [] (mkMore 1 (Some 1), [], d').
Proof.
  intros (d0 & C & D & SD & AC). eexists. eapply canon_end, pop_more; [exact C|]. apply st_none_more; [exact SD|reflexivity].
Qed.
Lemma telling_canon data ts rest us : TokExactSpec.telling data ts rest -> forall q, canon data new us q ->
  exists us', us = ts ++ us' /\ (rest = [] -> us' = [] /\ fst q = (mkMore 1 (Some 1), [])).
Proof.
  intros L q C. destruct (telling_leads data ts rest L data new (ready_new data)) as (buf & d & [W K] & R).
  destruct (canon_total buf d (W (wf_new data))) as (us' & q' & C').
  destruct (canon_det _ _ _ _ _ _ C (K _ _ C')) as [-> ->].
  exists us'. split; [reflexivity|]. intros ->. destruct (ready_end _ _ R) as [d2 C2].
  destruct (canon_det _ _ _ _ _ _ C' C2) as [-> ->]. split; reflexivity.
Qed.
Lemma lexed_canon data ts rest us : TokSpec.lexed TokSpec.tame data ts rest -> forall q, canon data new us q ->
  exists us', us = ts ++ us' /\ (rest = [] -> us' = [] /\ fst q = (mkMore 1 (Some 1), [])).
Proof. intros L. apply telling_canon, lexed_telling, L. Qed.

(** ** Texts of the RFC *)

Definition pieces_of (x : TokSpec.rfc_char) : list TokSpec.piece :=
  match x with
  | TokSpec.Raw c => map TokSpec.Plain (DvarDecSpec.utf8 c)
  | TokSpec.Short l c => [TokSpec.Escaped l c]
  | TokSpec.Hex h => [TokSpec.Unicode h]
  | TokSpec.Surrogates h1 h2 => [TokSpec.Pair h1 h2]
  end.
Lemma plain_text l : TokSpec.text (map TokSpec.Plain l) = l /\ TokSpec.value (map TokSpec.Plain l) = l /\ TokSpec.errors (map TokSpec.Plain l) = [].
Proof.
  induction l as [|c l (A & B & C)]; [repeat split|]. cbn [map]. rewrite text_cons, value_cons, errors_cons, A, B, C. repeat split.
Qed.
Lemma escape_ascii l c : TokSpec.escape l c -> DvarDecSpec.utf8 c = [c] /\ DvarDecSpec.scalar c.
Proof. unfold DvarDecSpec.scalar. intros H. destruct H; (split; [reflexivity|lia]). Qed.
Lemma pieces_of_ok x : TokSpec.rfc_char_ok x ->
  TokSpec.text (pieces_of x) = TokSpec.rfc_char_text x /\
  TokSpec.value (pieces_of x) = DvarDecSpec.utf8 (TokSpec.code_point x) /\ TokSpec.errors (pieces_of x) = [] /\
  noc (pieces_of x) /\ DvarDecSpec.scalar (TokSpec.code_point x) /\
  forall next, Forall (fun p => TokSpec.piece_ok p next) (pieces_of x) /\ forall n2, Forall (fun p => TokSpec.piece_ok p n2) (pieces_of x).
Proof.
  intros OK. destruct x as [c|l c|h|h1 h2]; cbn [TokSpec.rfc_char_ok] in OK; cbn [pieces_of TokSpec.rfc_char_text TokSpec.code_point].
  - destruct (plain_text (DvarDecSpec.utf8 c)) as (A & B & C). rewrite A, B, C.
    assert (P : forall n, Forall (fun p => TokSpec.piece_ok p n) (map TokSpec.Plain (DvarDecSpec.utf8 c))).
    { intros n. apply Forall_forall. intros p Hp. apply in_map_iff in Hp. destruct Hp as (b & <- & Hb). cbn [TokSpec.piece_ok].
      unfold DvarDecSpec.utf8 in Hb. destruct (N.ltb_spec c 0x80); [cbn in Hb; lia|].
      repeat match type of Hb with context[if ?x then _ else _] => destruct x end; cbn [In] in Hb; lia. }
    split; [reflexivity|]. split; [reflexivity|]. split; [reflexivity|]. split.
    + intros k Hk. apply in_map_iff in Hk. destruct Hk as (b & Q & _). discriminate Q.
    + split; [unfold DvarDecSpec.scalar in *; lia|]. intros next. split; [apply P|intros n2; apply P].
  - destruct (escape_ascii l c OK) as [A B]. rewrite A. cbn. repeat split; auto. intros k [Q|[]]. discriminate Q.
  - destruct OK as (H & NL & NT). destruct (hex_at_ok [] h [] H) as [_ LT].
    split; [cbn; rewrite app_nil_r; reflexivity|]. split; [cbn; rewrite app_nil_r; reflexivity|]. split; [reflexivity|].
    split; [intros k [Q|[]]; discriminate Q|].
    split; [unfold DvarDecSpec.scalar, TokSpec.lead, TokSpec.trail in *; lia|].
    intros next. split; [|intros n2]; (constructor; [cbn; auto|constructor]).
  - destruct OK as (H1 & H2 & LD & TR).
    split; [cbn; rewrite app_nil_r; reflexivity|]. split; [cbn; rewrite app_nil_r; reflexivity|]. split; [reflexivity|].
    split; [intros k [Q|[]]; discriminate Q|].
    split; [unfold DvarDecSpec.scalar, TokSpec.lead, TokSpec.trail in *; lia|].
    intros next. split; [|intros n2]; (constructor; [cbn; auto|constructor]).
Qed.
Lemma pieces_app a b next : (forall n, Forall (fun p => TokSpec.piece_ok p n) a) -> TokSpec.pieces_ok b next -> TokSpec.pieces_ok (a ++ b) next.
Proof.
  induction a as [|p a IH]; intros F K; [exact K|]. cbn. split.
  - specialize (F (TokSpec.text (a ++ b) ++ 0x22%N :: next)). inversion F; subst. assumption.
  - apply IH; [|exact K]. intros n. specialize (F n). inversion F; subst. assumption.
Qed.
Lemma rfc_string xs next : Forall TokSpec.rfc_char_ok xs -> exists ps,
  TokSpec.text ps = flat_map TokSpec.rfc_char_text xs /\ TokSpec.value ps = flat_map DvarDecSpec.utf8 (map TokSpec.code_point xs) /\
  TokSpec.errors ps = [] /\ noc ps /\ TokSpec.pieces_ok ps next /\ Forall DvarDecSpec.scalar (map TokSpec.code_point xs).
Proof.
  induction 1 as [|x xs OK F (ps & A1 & A2 & A3 & A4 & A5 & A6)].
  - exists []. repeat split; [intros c []|constructor].
  - destruct (pieces_of_ok x OK) as (B1 & B2 & B3 & B4 & B5 & B6). exists (pieces_of x ++ ps).
    unfold TokSpec.text, TokSpec.value, TokSpec.errors in *. rewrite !flat_map_app, A1, A2, A3, B1, B2, B3.
    split; [reflexivity|]. split; [reflexivity|]. split; [reflexivity|].
    split; [intros c Hc; apply in_app_or in Hc; destruct Hc as [Hc|Hc]; [exact (B4 c Hc)|exact (A4 c Hc)]|].
    split; [apply pieces_app; [apply (B6 [])|exact A5]|constructor; assumption].
Qed.
Lemma rfc_number_errors n : TokSpec.rfc_number n -> TokSpec.number_errors n = [].
Proof.
  destruct n as [S I fr ex]. intros (_ & SG & NI & NF & NX & _). unfold TokSpec.number_errors.
  cbn [TokSpec.n_signs TokSpec.n_int TokSpec.n_frac TokSpec.n_exp] in *.
  destruct I as [|i I]; [congruence|]. destruct fr as [[|f fr]|]; [congruence| |];
    (destruct ex as [[[el ss] ds]|]; [destruct (NX el ss ds eq_refl) as [LS ND]; destruct ds as [|x ds]; [congruence|];
       destruct ss as [|s1 [|s2 ss]]; [| |cbn in LS; lia]|]; destruct SG as [-> | ->]; reflexivity).
Qed.
Lemma rfc_lexeme_ok s t next : TokSpec.rfc_lexeme s t next -> TokSpec.lexeme TokSpec.tame s [t] next.
Proof.
  intros L. destruct L.
  - apply TokSpec.lx_ws; assumption.
  - apply TokSpec.lx_structural; assumption.
  - apply TokSpec.lx_literal; assumption.
  - change [TNumber (TokSpec.number_of n)] with (map TError [] ++ [TNumber (TokSpec.number_of n)]).
    rewrite <- (rfc_number_errors n) by assumption. apply TokSpec.lx_number; [|assumption].
    match goal with H : TokSpec.rfc_number _ |- _ => apply H end.
  - destruct (rfc_string xs next) as (ps & A1 & A2 & A3 & A4 & A5 & A6); [assumption|].
    rewrite <- A1, <- A2. pose proof (TokSpec.lx_string TokSpec.tame ps next) as X. rewrite A3 in X. apply X.
    + apply (noc_tame ps A4).
    + exact A5.
    + rewrite A2. exists (map TokSpec.code_point xs). split; [exact A6|reflexivity].
Qed.
Lemma rfc_lexed_ok data ts rest : TokSpec.rfc_lexed data ts rest -> TokSpec.lexed TokSpec.tame data ts rest.
Proof.
  induction 1 as [rest|s t next ts rest LX L IH]; [constructor|].
  apply (TokSpec.lexed_cons TokSpec.tame s [t] next ts rest); [apply rfc_lexeme_ok, LX|exact IH].
Qed.
Lemma rfc_no_error s t next e : TokSpec.rfc_lexeme s t next -> t <> TError e.
Proof. intros L. destruct L; try discriminate; inversion H; discriminate. Qed.

(** ** The end of the stream *)

(** After a pop that asked for more. *)
Definition pending (buf : list N) (d : dec) (m : More) : Prop :=
  done d = None /\ wf buf d /\ more_min m = length buf + 1 /\
  ((state d = SNone /\ buf = [] /\ m = mkMore 1 (Some 1)) \/
   (idx d = length buf /\ state d <> SNone /\ (forall n, state d <> SNumberDone n) /\ 2 <= more_min m)).
Lemma stepped_break buf d d' m : wf buf d -> done d = None -> stepped buf d d' (Break m) -> pending buf d' m.
Proof.
  intros W D S. pose proof (step_wf _ _ _ _ D W S) as W'. unfold pending. unfold wf in W. rewrite D in W. unfold inv in W. inversion S; subst.
  - split; [exact D|]. split; [exact W'|]. split; [reflexivity|]. left. auto.
  - match goal with H : state _ = _ |- _ => rename H into SD end. rewrite SD in W.
    split; [exact D|]. split; [exact W'|]. split; [cbn; lia|]. right.
    split; [lia|]. split; [congruence|]. split; [intros n; congruence|cbn; lia].
  - match goal with H : request _ = _ |- _ => rename H into RQ end.
    match goal with H : undetermined _ _ _ _ |- _ => rename H into U end.
    assert (L : 1 <= idx d <= length buf).
    { destruct (state d); cbn in RQ; try discriminate RQ; destruct W; lia. }
    replace (Nat.max (idx d) (length buf)) with (length buf) in * by lia.
    split; [exact D|]. split; [|split; [cbn; lia|right; split; [reflexivity|split; [|split; [|cbn; lia]]]]].
    + exact W'.
    + cbn. intros Z. rewrite Z in RQ. discriminate RQ.
    + cbn. intros n Z. rewrite Z in RQ. discriminate RQ.
Qed.
Lemma popped_break buf d buf' d' m : wf buf d -> popped buf d buf' d' (Break m) -> pending buf' d' m.
Proof.
  intros W P. remember (Break m) as r eqn:R. revert W. induction P as [buf d buf0 d0 d1 m' C S|buf d buf0 d0 d1 t C S|buf d buf0 d0 d1 buf2 d2 r C S P IH];
    intros W; [injection R as ->|discriminate R|];
    destruct (clear_ok buf d W) as (b & x & C' & W0 & D0 & _); rewrite C in C'; injection C' as <- <-.
  - eapply stepped_break; eassumption.
  - apply IH; [exact R|]. eapply step_wf; eassumption.
Qed.
Lemma nothing vs : forall d, done d = None -> state d = SNone -> completes vs [] d = Ok (map (fun _ => None) vs).
Proof.
  induction vs as [|v vs IH]; intros d D SD; [reflexivity|]. cbn [completes]. unfold complete. rewrite clear_none by exact D. cbn [bind].
  rewrite SD. cbn. rewrite IH by assumption. reflexivity.
Qed.
Lemma whole v buf : honest v -> read_map v buf (length buf) None = Cont buf.
Proof.
  intros H. unfold read_map. rewrite Nat.leb_refl. destruct (H buf (length buf) None (le_n _)). rewrite firstn_all2 by lia. reflexivity.
Qed.
(** What [complete] says: nothing, or a number and then nothing, or the same
    forever, or an error about a number before it panics. *)
Lemma completes_pending buf d m v vs : pending buf d m -> Forall honest (v :: vs) ->
  (more_min m = 1 /\ completes (v :: vs) buf d = Ok (None :: map (fun _ => None) vs)) \/
  (2 <= more_min m /\
   ((exists x, completes (v :: vs) buf d = Ok (Some (TNumber x) :: map (fun _ => None) vs)) \/
    (exists t, t <> TError NumberRangeEmpty /\ (forall x, t <> TNumber x) /\ completes (v :: vs) buf d = Ok (Some t :: map (fun _ => Some t) vs)) \/
    (completes [v] buf d = Ok [Some (TError NumberRangeEmpty)] /\ (vs <> [] -> completes (v :: vs) buf d = Panic)))).
Proof.
  intros (D & W & _ & [(SD & -> & ->)|(ID & NN & ND & L)]) HV.
  - left. split; [reflexivity|]. apply (nothing (v :: vs)); assumption.
  - right. split; [exact L|]. unfold wf in W. rewrite D in W. unfold inv in W.
    assert (SAME : forall t, (forall v, honest v -> complete v buf d = Ok (buf, d, Some t)) ->
      forall vs, Forall honest vs -> completes vs buf d = Ok (map (fun _ => Some t) vs)).
    { intros t K l F. induction F as [|v' l' H F IH]; [reflexivity|]. cbn [completes]. rewrite (K v' H). cbn [bind]. rewrite IH. reflexivity. }
    assert (CM : forall v, honest v -> complete v buf d = match state d with
      | SNone => Ok (buf, d, None)
      | SWhitespace => do t <- raise_whitespace buf; Ok (buf, d, Some t)
      | SItem => Ok (buf, d, Some (raise_item buf))
      | SNumber _ | SNumberDone _ => do '(d, t) <- number_done d buf; Ok (buf, d, Some t)
      | _ => Ok (buf, d, Some (TError StringIncomplete))
      end).
    { intros v' H. unfold complete. rewrite clear_none by exact D. cbn [bind]. rewrite ID, (whole v' buf H).
      destruct (state d); try reflexivity. congruence. }
    destruct (state d) as [| | |n|n|s| |s|s l] eqn:SD.
    + congruence.
    + right. left. exists (TWhitespace buf). split; [discriminate|]. split; [discriminate|].
      apply (SAME (TWhitespace buf)); [|exact HV]. intros v' H. rewrite (CM v' H). unfold raise_whitespace, from_utf8_unwrap.
      rewrite ascii_utf8; [reflexivity|]. apply Forall_forall. intros c Hc. apply In_nth_error in Hc. destruct Hc as [i Hi].
      destruct W as [_ [_ R]]. destruct (R i) as (c' & E & Q); [split; [lia|]; rewrite ID; apply nth_error_Some; congruence|].
      rewrite Hi in E. injection E as <-. apply (ws_ascii 0), Q.
    + right. left. exists (raise_item buf). split; [|split].
      * unfold raise_item. repeat match goal with |- (if ?b then _ else _) <> _ => destruct b end; discriminate.
      * intros x. unfold raise_item. repeat match goal with |- (if ?b then _ else _) <> _ => destruct b end; discriminate.
      * apply (SAME (raise_item buf)); [|exact HV]. intros v' H. rewrite (CM v' H). reflexivity.
    + inversion HV as [|? ? H1 H2]; subst. destruct W as (LI & NO & _).
      assert (RN : raise_number buf n = Ok (num_token buf n)).
      { apply (raise_number_ok buf _ _ (idx d)); [exists []; rewrite app_nil_r; reflexivity|exact NO|lia]. }
      unfold number_done in CM. rewrite SD in CM. fold (lacks n) in CM. destruct (lacks n).
      * right. right. cbn [completes]. rewrite (CM v H1). cbn [bind]. split; [reflexivity|]. intros NE.
        destruct vs as [|v2 vs]; [congruence|]. inversion H2 as [|? ? H3 H4]; subst. cbn [completes].
        unfold complete at 1. rewrite clear_none by exact D. cbn [bind state set_state idx]. rewrite ID, (whole v2 buf H3).
        reflexivity.
      * left. unfold num_token in RN. eexists. cbn [completes]. rewrite (CM v H1). rewrite RN. cbn [bind].
        destruct vs as [|v2 vs]; [reflexivity|]. cbn [completes]. unfold complete at 1, clear_done. cbn [done set_done].
        unfold read_advance. rewrite ID, Nat.leb_refl. cbn [bind state]. rewrite skipn_all. cbn [read_map length Nat.leb bind].
        rewrite nothing by reflexivity. reflexivity.
    + exfalso. exact (ND n eq_refl).
    + right. left. exists (TError StringIncomplete). split; [discriminate|]. split; [discriminate|].
      apply (SAME (TError StringIncomplete)); [|exact HV]. intros v' H. rewrite (CM v' H). reflexivity.
    + right. left. exists (TError StringIncomplete). split; [discriminate|]. split; [discriminate|].
      apply (SAME (TError StringIncomplete)); [|exact HV]. intros v' H. rewrite (CM v' H). reflexivity.
    + right. left. exists (TError StringIncomplete). split; [discriminate|]. split; [discriminate|].
      apply (SAME (TError StringIncomplete)); [|exact HV]. intros v' H. rewrite (CM v' H). reflexivity.
    + right. left. exists (TError StringIncomplete). split; [discriminate|]. split; [discriminate|].
      apply (SAME (TError StringIncomplete)); [|exact HV]. intros v' H. rewrite (CM v' H). reflexivity.
Qed.
Lemma session_pending h v rs m buf d : Forall fair h -> honest v ->
  session (h ++ [Pop v]) [] new = Ok (rs ++ [Break m], buf, d) -> pending buf d m.
Proof.
  intros FH HV E. rewrite session_app in E.
  destruct (session_ok h FH [] new (wf_new [])) as (rs1 & buf1 & d1 & E1 & W1 & _). rewrite E1 in E. cbn [bind] in E.
  cbn [session] in E. destruct (pop_ok v buf1 d1 HV W1) as (buf2 & d2 & r & EP & P & _). rewrite EP in E. cbn [bind] in E.
  injection E as E <- <-. apply app_inj_tail in E. destruct E as [<- ->]. eapply popped_break; eassumption.
Qed.
