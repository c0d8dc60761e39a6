(** Proofs about the streaming JSON tokenizer: strings. *)
From Verif Require Import Base StreamSpec StreamModel StreamProofs TokModel TokProofs TokSafe TokSession TokLex.
From Verif Require Import TokSpec TokExactSpec.
Local Open Scope res_scope.

(** ** Hexadecimal codes *)

Lemma enc_ok c : encode_utf8 c = DvarDecSpec.utf8 c.
Proof. reflexivity. Qed.
Lemma hex_value_ok c : hex_digit c -> hex_value c = hex_val c.
Proof.
  unfold hex_digit, hex_value, hex_val. intros H.
  destruct (c <=? 0x39)%N eqn:E1; [reflexivity|]. destruct (c <=? 0x46)%N eqn:E2; lia.
Qed.
Lemma hex4_inv h : hex4 h -> exists a b c d, h = [a; b; c; d] /\ code h = hex_code a b c d /\
  is_hex a = true /\ is_hex b = true /\ is_hex c = true /\ is_hex d = true.
Proof.
  intros [L F]. destruct h as [|a [|b [|c [|d [|]]]]]; try discriminate L. exists a, b, c, d.
  inversion F as [|? ? A F1]; inversion F1 as [|? ? B F2]; inversion F2 as [|? ? C F3]; inversion F3 as [|? ? D F4]; subst.
  split; [reflexivity|]. unfold code, hex_code. cbn [fold_left]. rewrite !hex_value_ok by assumption.
  rewrite !hex_iff. auto.
Qed.
Lemma hex_at_ok X h Y : hex4 h -> hex_at (X ++ h ++ Y) (length X) = Ok (code h) /\ (code h < 65536)%N.
Proof.
  intros H. destruct (hex4_inv h H) as (a & b & c & d & -> & -> & A & B & C & D).
  unfold hex_at, at_.
  assert (K : forall i x, nth_error ([a; b; c; d] ++ Y) i = Some x -> nth_error (X ++ [a; b; c; d] ++ Y) (length X + i) = Some x).
  { intros i x E. rewrite nth_error_app2 by lia. rewrite <- E. f_equal. lia. }
  pose proof (K 0 a eq_refl) as K0. rewrite Nat.add_0_r in K0.
  rewrite K0, (K 1 b eq_refl), (K 2 c eq_refl), (K 3 d eq_refl). cbn [bind]. apply from_hex_ok; assumption.
Qed.
Lemma lead_iff u : is_lead u = true <-> lead u.
Proof. unfold is_lead, lead. lia. Qed.
Lemma trail_iff u : is_trail u = true <-> trail u.
Proof. unfold is_trail, trail. lia. Qed.

(** ** Positions in a string: the text so far and the value so far, both with
    the opening quotation mark *)

Definition kept (d : dec) (T V : list N) : Prop := (acc_str d = [] /\ V = T) \/ (acc_str d <> [] /\ V = acc_str d).
(** [g] is the text since the last escape. *)
Definition at_string (d : dec) (T V : list N) (g : option (list N)) : Prop :=
  exists s, state d = SString s /\ idx d = length T /\ done d = None /\ T <> [] /\
  ((acc_str d = [] /\ V = T /\ s <= length T /\ g = None) \/
   (acc_str d <> [] /\ s <= length T /\ V = acc_str d ++ skipn s T /\ g = Some (skipn s T))).
Definition at_escape (d : dec) (T V : list N) : Prop :=
  state d = SEscape /\ idx d = length T + 1 /\ done d = None /\ T <> [] /\ kept d T V.
Definition at_unicode (d : dec) (T V : list N) : Prop :=
  state d = SUnicode (length T + 2) /\ idx d = length T + 2 /\ done d = None /\ T <> [] /\ kept d T V.
Definition at_trail (d : dec) (T h V : list N) : Prop :=
  state d = STrail (length T + 6) (code h) /\ idx d = length T + 6 /\ done d = None /\ T <> [] /\ kept d T V /\
  hex4 h /\ lead (code h).

Lemma kept_char d T V v : T <> [] -> kept d T V -> acc_str (string_char d T v) = V ++ encode_utf8 v.
Proof.
  intros N K. unfold string_char. cbn [acc_str set_acc].
  destruct K as [[-> ->]|[NE ->]]; [reflexivity|]. destruct (acc_str d) as [|x l]; [congruence|reflexivity].
Qed.
Lemma kept_byte d T V v : T <> [] -> kept d T V -> acc_str (string_byte d T v) = V ++ [v].
Proof.
  intros N K. unfold string_byte. cbn [acc_str set_acc].
  destruct K as [[-> ->]|[NE ->]]; [reflexivity|]. destruct (acc_str d) as [|x l]; [congruence|reflexivity].
Qed.
Lemma kept_nonempty d T V : T <> [] -> kept d T V -> V <> [].
Proof. intros N [[_ ->]|[NE ->]]; assumption. Qed.
Lemma slice_skip {A} (T r : list A) s : s <= length T -> slice (T ++ r) s (length T) = skipn s T.
Proof.
  intros L. unfold slice. rewrite skipn_app. replace (s - length T) with 0 by lia. cbn [skipn].
  rewrite firstn_app, skipn_length. rewrite firstn_all2 by (rewrite skipn_length; lia).
  replace (length T - s - (length T - s)) with 0 by lia. apply app_nil_r.
Qed.
Lemma slice_skip1 {A} (T r : list A) c s : s <= length T -> slice (T ++ c :: r) s (length T + 1) = skipn s T ++ [c].
Proof.
  intros L. replace (T ++ c :: r) with ((T ++ [c]) ++ r) by (rewrite <- app_assoc; reflexivity).
  replace (length T + 1) with (length (T ++ [c])) by (rewrite app_length; reflexivity).
  rewrite slice_skip by (rewrite app_length; lia). rewrite skipn_app. replace (s - length T) with 0 by lia. reflexivity.
Qed.
Lemma part_front T r : part (T ++ r) 0 (length T) = Ok T.
Proof. rewrite part_ok by (rewrite ?app_length; lia). rewrite slice_front. reflexivity. Qed.

(** A byte that is kept as it is. *)
Lemma plain_leads buf d T V g c r : buf = T ++ c :: r -> string_stop c = false -> at_string d T V g ->
  leads buf d [] buf (set_idx d (length (T ++ [c]))) /\ at_string (set_idx d (length (T ++ [c]))) (T ++ [c]) (V ++ [c]) (option_map (fun s => s ++ [c]) g).
Proof.
  intros B P (s & SD & ID & D & NE & K). set (k := length (T ++ [c])).
  assert (LK : k = length T + 1) by (unfold k; rewrite app_length; reflexivity).
  assert (LB : k <= length buf) by (rewrite B, app_length; cbn; lia).
  assert (R : run char_p buf (idx d) k).
  { rewrite ID, LK. split; [lia|]. intros i Hi. replace i with (length T) by lia. exists c. split; [rewrite B; apply nth_mid|].
    unfold char_p. rewrite P. reflexivity. }
  assert (LI : idx d <= k) by lia.
  split.
  - split.
    + unfold wf, inv. cbn. rewrite D, SD. lia.
    + assert (ST : forall d' r0, stepped buf (set_idx d k) d' r0 -> stepped buf d d' r0).
      { intros d' r0 S. inversion S; subst; cbn [state set_idx] in *;
          try match goal with H1 : state d = _, H2 : state d = _ |- _ => rewrite H1 in H2; discriminate H2 end;
          match goal with H1 : request (state d) = _ |- _ => pose proof H1 as RQ; rewrite SD in H1; injection H1 as <- <- <- end.
        - cbn [idx set_idx] in *.
          match goal with H : undetermined _ _ _ _ |- _ => pose proof (proj1 (undetermined_from _ None _ (idx d) k R LI I LB) H) as U end.
          match goal with |- stepped _ _ ?x _ => replace x with (set_idx d (Nat.max (idx d) (length (T ++ c :: r)))) end.
          + replace (Nat.max k (length (T ++ c :: r))) with (Nat.max (idx d) (length (T ++ c :: r))) by lia.
            eapply st_more; eassumption.
          + unfold set_idx. cbn. f_equal. lia.
        - eapply st_found; [exact RQ| |eassumption]. refine (proj1 (ends_from _ None _ (idx d) k _ R LI I) _). assumption. }
      intros us q C. cbn. inversion C as [? ? ? ? ? PP|? ? ? ? ? ? ? PP]; subst.
      * inversion PP; subst; match goal with H : clear_done _ _ = _ |- _ => rewrite clear_none in H by exact D; injection H as <- <- end.
        -- eapply canon_end, pop_more; [apply clear_none, D|apply ST; eassumption].
        -- eapply canon_end, pop_go; [apply clear_none, D|apply ST; eassumption|eassumption].
      * inversion PP; subst; match goal with H : clear_done _ _ = _ |- _ => rewrite clear_none in H by exact D; injection H as <- <- end.
        -- eapply canon_token; [eapply pop_token; [apply clear_none, D|apply ST; eassumption]|assumption].
        -- eapply canon_token; [eapply pop_go; [apply clear_none, D|apply ST; eassumption|eassumption]|assumption].
  - exists s. split; [exact SD|]. split; [reflexivity|]. split; [exact D|]. split; [destruct T; discriminate|].
    fold k. destruct K as [(K1 & K2 & K3 & ->)|(K1 & K2 & K3 & ->)]; [left|right]; (split; [exact K1|]).
    + split; [congruence|]. split; [lia|reflexivity].
    + split; [lia|]. cbn [acc_str set_idx option_map]. rewrite K3, <- app_assoc, skipn_app. replace (s - length T) with 0 by lia. split; reflexivity.
Qed.
Lemma string_ends buf d T V g c r : buf = T ++ c :: r -> string_stop c = true -> at_string d T V g ->
  exists s, request (state d) = Some (None, char_p, string_ s) /\ ends_at char_p None buf (idx d) (length T) /\
  set_idx d (length T) = d /\ state d = SString s /\ at_ buf (idx d) = Ok c.
Proof.
  intros -> P (s & SD & ID & D & NE & K). exists s. rewrite SD. split; [reflexivity|].
  split; [|split; [rewrite <- ID; destruct d; reflexivity|split; [reflexivity|]]].
  - rewrite ID. split; [apply run_refl|]. left. split; [exact I|]. exists c. split; [apply nth_mid|].
    unfold char_p. rewrite P. reflexivity.
  - rewrite ID. apply at_ok, nth_mid.
Qed.
(** The backslash. *)
Lemma backslash_leads buf d T V g r : buf = T ++ 0x5c%N :: r -> at_string d T V g ->
  exists d', leads buf d [] buf d' /\ at_escape d' T V.
Proof.
  intros B AS. destruct (string_ends buf d T V g _ r B eq_refl AS) as (s & RQ & EA & SI & SD & AT).
  destruct AS as (s' & SD' & ID & D & NE & K). rewrite SD in SD'. injection SD' as <-.
  eexists. split.
  - apply (leads_found buf d _ _ _ (length T) _ None D RQ EA). rewrite SI. unfold string_. rewrite AT. cbn [bind].
    change (0x5c =? 0x22)%N with false. change (0x5c =? 0x5c)%N with true. cbv iota.
    rewrite ID, B. rewrite part_ok by (rewrite ?app_length; cbn; destruct K as [K|K]; lia). cbn [bind]. reflexivity.
  - unfold string_raw. destruct K as [(K1 & -> & K2 & _)|(K1 & K2 & -> & _)].
    + rewrite K1. cbn. unfold at_escape, kept. cbn. rewrite ID. repeat split; auto.
    + destruct (0 <? length (acc_str d)) eqn:EL; [|destruct (acc_str d); [congruence|discriminate EL]].
      unfold at_escape, kept. cbn. rewrite ID. rewrite slice_skip by lia. repeat split; auto.
      right. split; [|reflexivity]. destruct (acc_str d); [congruence|discriminate].
Qed.
(** A control character. *)
Lemma control_leads buf d T V g c r : buf = T ++ c :: r -> (c < 0x1f)%N -> at_string d T V g ->
  exists d', leads buf d [TError (StringUnescaped c)] buf d' /\
    at_string d' (T ++ [c]) (V ++ c :: match g with Some s => s ++ [c] | None => [] end) (option_map (fun s => s ++ [c]) g).
Proof.
  intros B P AS. assert (Q : string_stop c = true) by (unfold string_stop; lia).
  destruct (string_ends buf d T V g _ r B Q AS) as (s & RQ & EA & SI & SD & AT).
  destruct AS as (s' & SD' & ID & D & NE & K). rewrite SD in SD'. injection SD' as <-.
  assert (SL : s <= length T) by (destruct K as [K|K]; lia).
  exists (string_raw (set_idx d (length T + 1)) (skipn s T ++ [c])). split.
  - apply (leads_found buf d _ _ _ (length T) _ (Some _) D RQ EA). rewrite SI. unfold string_. rewrite AT. cbn [bind].
    replace (c =? 0x22)%N with false by lia. replace (c =? 0x5c)%N with false by lia.
    rewrite (proj2 (N.ltb_lt _ _)) by exact P.
    cbn [idx set_idx]. rewrite ID, B. rewrite part_ok by (rewrite ?app_length; cbn; lia). cbn [bind].
    rewrite slice_skip1 by exact SL. reflexivity.
  - assert (TC : T ++ [c] <> []) by (destruct T; discriminate).
    assert (SK : skipn s (T ++ [c]) = skipn s T ++ [c]) by (rewrite skipn_app; replace (s - length T) with 0 by lia; reflexivity).
    exists s. unfold string_raw. destruct K as [(K1 & -> & K2 & ->)|(K1 & K2 & -> & ->)].
    + cbn [acc_str set_idx]. rewrite K1. cbn. rewrite app_length. cbn [length]. repeat split; auto.
      left. repeat split; auto. lia.
    + cbn [acc_str set_idx]. destruct (0 <? length (acc_str d)) eqn:EL; [|destruct (acc_str d); [congruence|discriminate EL]].
      cbn [state idx done set_acc set_idx acc_str]. rewrite app_length. cbn [length]. repeat split; auto.
      right. split; [destruct (acc_str d); [congruence|discriminate]|]. split; [lia|]. rewrite SK. split; [|reflexivity].
      rewrite <- !app_assoc. reflexivity.
Qed.
(** The closing quotation mark. *)
Definition final (raw str : list N) : Token := if is_utf8 str then TString raw str else TError (StringNonUtf8 raw str).
Lemma quote_leads buf d T V g r : buf = T ++ 0x22%N :: r -> at_string d T V g ->
  exists d', leads buf d [final (T ++ [0x22%N]) (tl V)] buf d' /\ done d' = Some (length (T ++ [0x22%N])).
Proof.
  intros B AS. destruct (string_ends buf d T V g _ r B eq_refl AS) as (s & RQ & EA & SI & SD & AT).
  destruct AS as (s' & SD' & ID & D & NE & K). rewrite SD in SD'. injection SD' as <-.
  set (raw := T ++ [0x22%N]). assert (LR : length raw = length T + 1) by (unfold raw; rewrite app_length; reflexivity).
  assert (BR : buf = raw ++ r) by (rewrite B; unfold raw; rewrite <- app_assoc; reflexivity).
  assert (TV : forall W : list N, W <> [] -> length (W ++ [0x22%N]) = S (length W) /\
    slice (W ++ [0x22%N]) 1 (length W) = tl W).
  { intros W NW. rewrite app_length. split; [cbn; lia|]. rewrite slice_skip by (destruct W; [congruence|cbn; lia]).
    destruct W; reflexivity. }
  set (d1 := set_done (string_raw (set_idx d (length T + 1)) (skipn s T ++ [0x22%N])) (length T + 1)).
  assert (RS : raise_string d1 raw = Ok (final raw (tl V))).
  { unfold raise_string, d1, string_raw. destruct K as [(K1 & -> & K2 & _)|(K1 & K2 & -> & _)].
    - cbn [acc_str set_idx]. rewrite K1. cbn [length Nat.ltb Nat.leb set_done acc_str set_idx]. rewrite K1. cbn [length Nat.ltb Nat.leb].
      destruct (TV T NE) as [L1 L2]. fold raw in L1, L2. rewrite sub_ok by lia. cbn [bind].
      replace (length raw - 1) with (length T) by lia.
      rewrite part_ok by (destruct T; [congruence|cbn in *; lia]). rewrite L2. reflexivity.
    - cbn [acc_str set_idx]. destruct (0 <? length (acc_str d)) eqn:EL; [|destruct (acc_str d); [congruence|discriminate EL]].
      cbn [set_done acc_str set_acc]. rewrite app_assoc.
      assert (NW : acc_str d ++ skipn s T <> []) by (destruct (acc_str d); [congruence|discriminate]).
      destruct (TV _ NW) as [L1 L2]. rewrite (proj2 (Nat.ltb_lt _ _)) by lia.
      rewrite sub_ok by lia. cbn [bind]. replace (length ((acc_str d ++ skipn s T) ++ [0x22%N]) - 1) with (length (acc_str d ++ skipn s T)) by lia.
      rewrite part_ok by (destruct (acc_str d ++ skipn s T); [congruence|cbn [length] in *; lia]). rewrite L2. reflexivity. }
  exists d1. split.
  - apply (leads_found buf d _ _ _ (length T) _ (Some _) D RQ EA). rewrite SI. unfold string_. rewrite AT. cbn [bind].
    change (0x22 =? 0x22)%N with true. cbv iota. cbn [idx set_idx]. rewrite ID.
    assert (P1 : part buf s (length T + 1) = Ok (skipn s T ++ [0x22%N])).
    { rewrite B. rewrite part_ok by (rewrite ?app_length; cbn; destruct K as [K|K]; lia).
      rewrite slice_skip1 by (destruct K as [K|K]; lia). reflexivity. }
    rewrite P1. cbn [bind].
    assert (IX : idx (string_raw (set_idx d (length T + 1)) (skipn s T ++ [0x22%N])) = length T + 1).
    { unfold string_raw. destruct (0 <? _); reflexivity. }
    rewrite IX. fold d1. cbn [idx set_done]. assert (IX1 : idx d1 = length T + 1) by exact IX. rewrite IX1.
    assert (P2 : part buf 0 (length T + 1) = Ok raw) by (rewrite BR, <- LR; apply part_front).
    rewrite P2. cbn [bind]. rewrite RS. reflexivity.
  - unfold d1. cbn. rewrite LR. reflexivity.
Qed.
(** Escapes. *)
Lemma escape_leads buf d T V l c r : buf = T ++ 0x5c%N :: l :: r -> escape l c -> at_escape d T V ->
  exists d', leads buf d [] buf d' /\ at_string d' (T ++ [0x5c%N; l]) (V ++ [c]) (Some []) /\ acc_str d' <> [].
Proof.
  intros B E (SD & ID & D & NE & K).
  exists (set_state (string_byte (set_idx d (length T + 2)) T c) (SString (length T + 2))).
  assert (KB : acc_str (string_byte (set_idx d (length T + 2)) T c) = V ++ [c]) by (apply kept_byte; assumption).
  split; [|split].
  - apply (leads_step buf d _ None D). apply st_escape; [exact SD|]. unfold TokModel.escape.
    rewrite (at_ok buf (idx d) l) by (rewrite B, ID, nth_error_app2 by lia; replace (length T + 1 - length T) with 1 by lia; reflexivity).
    cbn [bind idx set_idx]. rewrite ID. replace (length T + 1 + 1) with (length T + 2) by lia.
    rewrite sub_ok by lia. replace (length T + 2 - 2) with (length T) by lia. cbn [bind]. rewrite B, part_front. cbn [bind].
    destruct E; reflexivity.
  - exists (length T + 2). cbn [state idx done set_state string_byte set_acc set_idx]. rewrite app_length. cbn [length].
    split; [reflexivity|]. split; [reflexivity|]. split; [exact D|]. split; [destruct T; discriminate|]. right.
    cbn [acc_str set_state]. rewrite KB. split; [destruct V; discriminate|]. split; [lia|].
    rewrite skipn_all2 by (rewrite app_length; cbn; lia). rewrite app_nil_r. split; reflexivity.
  - cbn [acc_str set_state]. rewrite KB. destruct V; discriminate.
Qed.
Lemma unknown_leads buf d T V l r : buf = T ++ 0x5c%N :: l :: r -> l <> 0x75%N -> (forall c, ~ escape l c) -> at_escape d T V ->
  exists d', leads buf d [TError (StringEscapeUnknown l)] buf d' /\ at_string d' (T ++ [0x5c%N; l]) (V ++ [l]) (Some []) /\ acc_str d' <> [].
Proof.
  intros B NU NE' (SD & ID & D & NE & K).
  exists (set_state (string_byte (set_idx d (length T + 2)) T l) (SString (length T + 2))).
  assert (KB : acc_str (string_byte (set_idx d (length T + 2)) T l) = V ++ [l]) by (apply kept_byte; assumption).
  split; [|split].
  - apply (leads_step buf d _ (Some _) D). apply st_escape; [exact SD|]. unfold TokModel.escape.
    rewrite (at_ok buf (idx d) l) by (rewrite B, ID, nth_error_app2 by lia; replace (length T + 1 - length T) with 1 by lia; reflexivity).
    cbn [bind idx set_idx]. rewrite ID. replace (length T + 1 + 1) with (length T + 2) by lia.
    rewrite sub_ok by lia. replace (length T + 2 - 2) with (length T) by lia. cbn [bind]. rewrite B, part_front. cbn [bind].
    assert (X : forall k c, escape k c -> (l =? k)%N = false) by (intros k c Hk; apply N.eqb_neq; intros ->; exact (NE' _ Hk)).
    rewrite !(X _ _ e_quote), !(X _ _ e_backslash), !(X _ _ e_slash), !(X _ _ e_b), !(X _ _ e_f), !(X _ _ e_n), !(X _ _ e_r), !(X _ _ e_t).
    cbn [orb]. rewrite (proj2 (N.eqb_neq l _) NU). reflexivity.
  - exists (length T + 2). cbn [state idx done set_state string_byte set_acc set_idx]. rewrite app_length. cbn [length].
    split; [reflexivity|]. split; [reflexivity|]. split; [exact D|]. split; [destruct T; discriminate|]. right.
    cbn [acc_str set_state]. rewrite KB. split; [destruct V; discriminate|]. split; [lia|].
    rewrite skipn_all2 by (rewrite app_length; cbn; lia). rewrite app_nil_r. split; reflexivity.
  - cbn [acc_str set_state]. rewrite KB. destruct V; discriminate.
Qed.
Lemma u_leads buf d T V r : buf = T ++ 0x5c%N :: 0x75%N :: r -> at_escape d T V ->
  exists d', leads buf d [] buf d' /\ at_unicode d' T V.
Proof.
  intros B (SD & ID & D & NE & K). exists (set_state (set_idx d (length T + 2)) (SUnicode (length T + 2))). split.
  - apply (leads_step buf d _ None D). apply st_escape; [exact SD|]. unfold TokModel.escape.
    rewrite (at_ok buf (idx d) 0x75%N) by (rewrite B, ID, nth_error_app2 by lia; replace (length T + 1 - length T) with 1 by lia; reflexivity).
    cbn [bind idx set_idx]. rewrite ID. replace (length T + 1 + 1) with (length T + 2) by lia. reflexivity.
  - repeat split; auto.
Qed.
(** A position after a character was added. *)
Lemma char_string d T V v T' i : i = length T' -> done d = None -> T <> [] -> T' <> [] -> kept d T V -> encode_utf8 v <> [] ->
  at_string (set_state (string_char (set_idx d i) T v) (SString i)) T' (V ++ DvarDecSpec.utf8 v) (Some []) /\
  acc_str (set_state (string_char (set_idx d i) T v) (SString i)) <> [].
Proof.
  intros -> D NE NE' K EN.
  assert (KC : acc_str (string_char (set_idx d (length T')) T v) = V ++ encode_utf8 v) by (apply kept_char; assumption).
  assert (NV : V ++ encode_utf8 v <> []) by (destruct V; [exact EN|discriminate]).
  split.
  - exists (length T'). cbn [state idx done set_state string_char set_acc set_idx].
    split; [reflexivity|]. split; [reflexivity|]. split; [exact D|]. split; [exact NE'|]. right.
    cbn [acc_str set_state]. rewrite KC. split; [exact NV|]. split; [lia|]. rewrite skipn_all, app_nil_r. split; reflexivity.
  - cbn [acc_str set_state]. rewrite KC. exact NV.
Qed.
Lemma enc_nonempty v : encode_utf8 v <> [].
Proof. unfold encode_utf8. repeat destruct (_ <? _)%N; discriminate. Qed.

Lemma len_u T h : hex4 h -> length (T ++ u_text h) = length T + 6.
Proof. intros [L _]. rewrite app_length. cbn. rewrite L. lia. Qed.
(** The four digits after backslash and u. *)
Lemma digits_end buf d T V h r : buf = T ++ u_text h ++ r -> hex4 h -> at_unicode d T V ->
  ends_at hex_p (Some (length T + 2 + 4)) buf (idx d) (length T + 6) /\
  hex_at buf (length T + 2) = Ok (code h) /\ (code h < 65536)%N /\ part buf 0 (length T) = Ok T.
Proof.
  intros -> H (SD & ID & D & NE & K). destruct H as [L F].
  assert (BE : T ++ u_text h ++ r = (T ++ [0x5c; 0x75]%N) ++ h ++ r) by (rewrite <- app_assoc; reflexivity).
  assert (LE : length T + 2 = length (T ++ [0x5c; 0x75]%N)) by (rewrite app_length; reflexivity).
  split; [|split; [|split]].
  - rewrite ID. replace (length T + 6) with (length T + 2 + 4) by lia. split.
    + rewrite BE, LE, <- L. apply run_mid. intros i x _ Hx. apply hex_iff. apply (proj1 (Forall_forall _ _) F x Hx).
    + right. split; [reflexivity|lia].
  - rewrite BE, LE. apply hex_at_ok. split; assumption.
  - apply (hex_at_ok [] h []). split; assumption.
  - apply part_front.
Qed.
Lemma uni_leads buf d T V h r : buf = T ++ u_text h ++ r -> hex4 h -> ~ lead (code h) -> ~ trail (code h) -> at_unicode d T V ->
  exists d', leads buf d [] buf d' /\ at_string d' (T ++ u_text h) (V ++ DvarDecSpec.utf8 (code h)) (Some []) /\ acc_str d' <> [].
Proof.
  intros B H NL NT AU. destruct (digits_end buf d T V h r B H AU) as (EA & HX & LT & PF).
  destruct AU as (SD & ID & D & NE & K).
  destruct (char_string d T V (code h) (T ++ u_text h) (length T + 6)) as [C1 C2]; try assumption;
    [symmetry; apply len_u, H|destruct T; discriminate|apply enc_nonempty|].
  eexists. split; [|split; [exact C1|exact C2]].
  apply (leads_found buf d (Some (length T + 2 + 4)) hex_p (unicode (length T + 2)) (length T + 6) _ None D); [rewrite SD; reflexivity|exact EA|].
  unfold unicode. cbn [idx set_idx]. rewrite (proj2 (Nat.eqb_eq _ _)) by lia. cbn [negb]. rewrite HX. cbn [bind].
  replace (is_lead (code h)) with false by (symmetry; apply not_true; rewrite lead_iff; exact NL).
  replace (is_trail (code h)) with false by (symmetry; apply not_true; rewrite trail_iff; exact NT).
  rewrite sub_ok by lia. replace (length T + 6 - 6) with (length T) by lia. cbn [bind]. rewrite PF. cbn [bind].
  rewrite char_ok; [reflexivity|exact LT| |]; apply not_true; rewrite ?lead_iff, ?trail_iff; assumption.
Qed.
Lemma lone_trail_leads buf d T V h r : buf = T ++ u_text h ++ r -> hex4 h -> trail (code h) -> at_unicode d T V ->
  exists d', leads buf d [TError (StringEscapeUnpairedTrailSurrogate (code h))] buf d' /\
    at_string d' (T ++ u_text h) (V ++ replacement) (Some []) /\ acc_str d' <> [].
Proof.
  intros B H NT AU. destruct (digits_end buf d T V h r B H AU) as (EA & HX & LT & PF).
  destruct AU as (SD & ID & D & NE & K).
  destruct (char_string d T V REPLACEMENT_CHARACTER (T ++ u_text h) (length T + 6)) as [C1 C2]; try assumption;
    [symmetry; apply len_u, H|destruct T; discriminate|apply enc_nonempty|].
  eexists. split; [|split; [exact C1|exact C2]].
  apply (leads_found buf d (Some (length T + 2 + 4)) hex_p (unicode (length T + 2)) (length T + 6) _ (Some _) D); [rewrite SD; reflexivity|exact EA|].
  unfold unicode. cbn [idx set_idx]. rewrite (proj2 (Nat.eqb_eq _ _)) by lia. cbn [negb]. rewrite HX. cbn [bind].
  replace (is_lead (code h)) with false by (symmetry; apply not_true; rewrite lead_iff; unfold lead; unfold trail in NT; lia).
  rewrite (proj2 (trail_iff _)) by exact NT.
  rewrite sub_ok by lia. replace (length T + 6 - 6) with (length T) by lia. cbn [bind]. rewrite PF. reflexivity.
Qed.
Lemma lead_leads buf d T V h r : buf = T ++ u_text h ++ r -> hex4 h -> lead (code h) -> at_unicode d T V ->
  exists d', leads buf d [] buf d' /\ at_trail d' T h V.
Proof.
  intros B H NL AU. destruct (digits_end buf d T V h r B H AU) as (EA & HX & LT & PF).
  destruct AU as (SD & ID & D & NE & K).
  exists (set_state (set_idx d (length T + 6)) (STrail (length T + 6) (code h))). split.
  - apply (leads_found buf d (Some (length T + 2 + 4)) hex_p (unicode (length T + 2)) (length T + 6) _ None D); [rewrite SD; reflexivity|exact EA|].
    unfold unicode. cbn [idx set_idx]. rewrite (proj2 (Nat.eqb_eq _ _)) by lia. cbn [negb]. rewrite HX. cbn [bind].
    rewrite (proj2 (lead_iff _)) by exact NL. reflexivity.
  - repeat split; auto; apply H || apply NL.
Qed.
Lemma short_leads buf d T V h x r : buf = T ++ u_text h ++ x :: r -> Forall hex_digit h -> length h < 4 -> ~ hex_digit x ->
  at_unicode d T V ->
  exists d', leads buf d [TError StringEscapeInvalid] buf d' /\ at_string d' (T ++ u_text h) (V ++ replacement) (Some []) /\ acc_str d' <> [].
Proof.
  intros B F L NX (SD & ID & D & NE & K).
  assert (BE : buf = (T ++ [0x5c; 0x75]%N) ++ h ++ x :: r) by (rewrite B, <- app_assoc; reflexivity).
  assert (LE : length T + 2 = length (T ++ [0x5c; 0x75]%N)) by (rewrite app_length; reflexivity).
  assert (LU : length (T ++ u_text h) = length T + 2 + length h) by (rewrite app_length; cbn; lia).
  destruct (char_string d T V REPLACEMENT_CHARACTER (T ++ u_text h) (length T + 2 + length h)) as [C1 C2]; try assumption;
    [symmetry; exact LU|destruct T; discriminate|apply enc_nonempty|].
  eexists. split; [|split; [exact C1|exact C2]].
  apply (leads_found buf d (Some (length T + 2 + 4)) hex_p (unicode (length T + 2)) (length T + 2 + length h) _ (Some _) D); [rewrite SD; reflexivity| |].
  - rewrite ID, BE, LE. apply ends_mid.
    + intros i y Hy. apply hex_iff. apply (proj1 (Forall_forall _ _) F y Hy).
    + cbn. lia.
    + apply not_true. intros Q. apply NX, hex_iff, Q.
  - unfold unicode. cbn [idx set_idx]. rewrite (proj2 (Nat.eqb_neq _ _)) by lia. cbn [negb].
    rewrite sub_ok by lia. replace (length T + 2 - 2) with (length T) by lia. cbn [bind]. rewrite B, part_front. reflexivity.
Qed.

(** After a lead surrogate. *)
Lemma trail_run T h h2 r : hex4 h -> hex4 h2 ->
  ends_at (trail_char (length T + 6)) (Some (length T + 6 + 6)) (T ++ u_text h ++ u_text h2 ++ r) (length T + 6) (length T + 12).
Proof.
  intros H H2. split.
  - split; [lia|]. intros i Hi. destruct H as [L _]. destruct H2 as [L2 F2].
    assert (E : nth_error (T ++ u_text h ++ u_text h2 ++ r) i = nth_error (u_text h2) (i - (length T + 6))).
    { rewrite app_assoc. rewrite nth_error_app2 by (rewrite app_length; cbn; lia).
      rewrite app_length. cbn [u_text length]. rewrite L. rewrite nth_error_app1 by (cbn; lia). f_equal. }
    destruct (nth_error (u_text h2) (i - (length T + 6))) as [c|] eqn:Q; [|apply nth_error_None in Q; cbn in Q; lia].
    exists c. split; [exact E|]. unfold trail_char. destruct (i - (length T + 6)) as [|[|k]] eqn:EK.
    + injection Q as <-. reflexivity.
    + injection Q as <-. reflexivity.
    + cbn in Q. apply nth_error_In in Q. apply andb_true_iff. split; [apply Nat.leb_le; lia|].
      apply hex_iff. apply (proj1 (Forall_forall _ _) F2 c Q).
  - right. split; [f_equal; lia|lia].
Qed.
Lemma second_code T h h2 r : hex4 h -> hex4 h2 ->
  hex_at (T ++ u_text h ++ u_text h2 ++ r) (length T + 6 + 2) = Ok (code h2) /\ (code h2 < 65536)%N /\
  part (T ++ u_text h ++ u_text h2 ++ r) 0 (length T) = Ok T /\
  part (T ++ u_text h ++ u_text h2 ++ r) 0 (length T + 6) = Ok (T ++ u_text h).
Proof.
  intros H H2. pose proof (len_u T h H) as L.
  split; [|split; [|split]].
  - replace (T ++ u_text h ++ u_text h2 ++ r) with ((T ++ u_text h ++ [0x5c; 0x75]%N) ++ h2 ++ r)
      by (rewrite <- !app_assoc; reflexivity).
    replace (length T + 6 + 2) with (length (T ++ u_text h ++ [0x5c; 0x75]%N)) by (rewrite app_assoc, app_length, L; reflexivity).
    apply hex_at_ok, H2.
  - apply (hex_at_ok [] h2 []), H2.
  - apply part_front.
  - rewrite <- L, app_assoc. apply part_front.
Qed.
Ltac trail_step T h D SD H H2 :=
  let HX := fresh in let LT := fresh "LT" in let P1 := fresh "P1" in let P2 := fresh "P2" in
  eapply (leads_found _ _ (Some (length T + 6 + 6)) (trail_char (length T + 6)) (TokModel.trail (length T + 6) (code h)) (length T + 12));
  [exact D|rewrite SD; reflexivity| |].
Lemma pair_leads d T V h h2 r : hex4 h2 -> trail (code h2) -> at_trail d T h V ->
  let buf := T ++ u_text h ++ u_text h2 ++ r in
  exists d', leads buf d [] buf d' /\
    at_string d' (T ++ u_text h ++ u_text h2) (V ++ DvarDecSpec.utf8 (0x10000 + (code h - 0xd800) * 0x400 + (code h2 - 0xdc00))%N) (Some []) /\
    acc_str d' <> [].
Proof.
  intros H2 TR (SD & ID & D & NE & K & H & LD) buf.
  destruct (second_code T h h2 r H H2) as (HX & LT & P1 & P2). fold buf in HX, P1, P2.
  set (full := (0x10000 + (code h - 0xd800) * 0x400 + (code h2 - 0xdc00))%N).
  assert (LL : length (T ++ u_text h ++ u_text h2) = length T + 12) by (rewrite app_assoc, len_u by exact H2; rewrite len_u by exact H; lia).
  destruct (char_string d T V full (T ++ u_text h ++ u_text h2) (length T + 12)) as [C1 C2]; try assumption;
    [symmetry; exact LL|destruct T; discriminate|apply enc_nonempty|].
  eexists. split; [|split; [exact C1|exact C2]].
  apply (leads_found buf d (Some (length T + 6 + 6)) (trail_char (length T + 6)) (TokModel.trail (length T + 6) (code h)) (length T + 12) _ None D);
    [rewrite SD; reflexivity|rewrite ID; apply trail_run; assumption|].
  unfold TokModel.trail. cbn [idx set_idx]. rewrite (proj2 (Nat.eqb_eq _ _)) by lia. cbn [negb]. rewrite HX. cbn [bind].
  replace (is_lead (code h2)) with false by (symmetry; apply not_true; rewrite lead_iff; unfold lead; unfold trail in TR; lia).
  rewrite (proj2 (trail_iff _)) by exact TR. unfold lead in LD. unfold trail in TR. rewrite (proj2 (N.leb_le _ _)) by lia.
  rewrite sub_ok by lia. replace (length T + 12 - 12) with (length T) by lia. cbn [bind]. rewrite P1. cbn [bind].
  rewrite N.shiftl_mul_pow2. change (2 ^ 10)%N with 0x400%N. fold full. unfold char_unwrap.
  replace ((full <? 0xd800) || (0xdfff <? full) && (full <? 0x110000))%N with true by (unfold full; lia). reflexivity.
Qed.
Lemma lead_lead_leads d T V h h2 r : hex4 h2 -> lead (code h2) -> at_trail d T h V ->
  let buf := T ++ u_text h ++ u_text h2 ++ r in
  exists d', leads buf d [TError (StringEscapeUnpairedLeadSurrogate (code h))] buf d' /\
    at_trail d' (T ++ u_text h) h2 (V ++ replacement) /\ acc_str d' <> [].
Proof.
  intros H2 TR (SD & ID & D & NE & K & H & LD) buf.
  destruct (second_code T h h2 r H H2) as (HX & LT & P1 & P2). fold buf in HX, P1, P2.
  assert (KC : acc_str (string_char (set_idx d (length T + 12)) T REPLACEMENT_CHARACTER) = V ++ replacement) by (apply kept_char; assumption).
  exists (set_state (string_char (set_idx d (length T + 12)) T REPLACEMENT_CHARACTER) (STrail (length T + 12) (code h2))).
  split; [|split].
  - apply (leads_found buf d (Some (length T + 6 + 6)) (trail_char (length T + 6)) (TokModel.trail (length T + 6) (code h)) (length T + 12) _ (Some _) D);
    [rewrite SD; reflexivity|rewrite ID; apply trail_run; assumption|].
    unfold TokModel.trail. cbn [idx set_idx]. rewrite (proj2 (Nat.eqb_eq _ _)) by lia. cbn [negb]. rewrite HX. cbn [bind].
    rewrite (proj2 (lead_iff _)) by exact TR.
    rewrite sub_ok by lia. replace (length T + 12 - 12) with (length T) by lia. cbn [bind]. rewrite P1. reflexivity.
  - unfold at_trail. cbn [state idx done set_state string_char set_acc set_idx]. rewrite len_u by exact H.
    split; [f_equal; lia|]. split; [lia|]. split; [exact D|]. split; [destruct T; discriminate|].
    split; [|split; assumption]. right. cbn [acc_str set_state]. rewrite KC. split; [|reflexivity]. destruct V; discriminate.
  - cbn [acc_str set_state]. rewrite KC. destruct V; discriminate.
Qed.
Lemma lead_uni_leads d T V h h2 r : hex4 h2 -> ~ lead (code h2) -> ~ trail (code h2) -> at_trail d T h V ->
  let buf := T ++ u_text h ++ u_text h2 ++ r in
  exists d', leads buf d [TError (StringEscapeUnpairedLeadSurrogate (code h))] buf d' /\
    at_string d' (T ++ u_text h ++ u_text h2) ((V ++ replacement) ++ DvarDecSpec.utf8 (code h2)) (Some []) /\ acc_str d' <> [].
Proof.
  intros H2 NL NT (SD & ID & D & NE & K & H & LD) buf.
  destruct (second_code T h h2 r H H2) as (HX & LT & P1 & P2). fold buf in HX, P1, P2.
  assert (KC : acc_str (string_char (set_idx d (length T + 12)) T REPLACEMENT_CHARACTER) = V ++ replacement) by (apply kept_char; assumption).
  set (d1 := string_char (set_idx d (length T + 12)) T REPLACEMENT_CHARACTER) in *.
  assert (LL : length (T ++ u_text h ++ u_text h2) = length T + 12) by (rewrite app_assoc, len_u by exact H2; rewrite len_u by exact H; lia).
  destruct (char_string d1 (T ++ u_text h) (V ++ replacement) (code h2) (T ++ u_text h ++ u_text h2) (length T + 12)) as [C1 C2];
    [symmetry; exact LL|exact D|destruct T; discriminate|destruct T; discriminate| |apply enc_nonempty|].
  { right. rewrite KC. split; [|reflexivity]. destruct V; discriminate. }
  eexists. split; [|split; [exact C1|exact C2]].
  apply (leads_found buf d (Some (length T + 6 + 6)) (trail_char (length T + 6)) (TokModel.trail (length T + 6) (code h)) (length T + 12) _ (Some _) D);
    [rewrite SD; reflexivity|rewrite ID; apply trail_run; assumption|].
  unfold TokModel.trail. cbn [idx set_idx]. rewrite (proj2 (Nat.eqb_eq _ _)) by lia. cbn [negb]. rewrite HX. cbn [bind].
  replace (is_lead (code h2)) with false by (symmetry; apply not_true; rewrite lead_iff; exact NL).
  replace (is_trail (code h2)) with false by (symmetry; apply not_true; rewrite trail_iff; exact NT).
  rewrite sub_ok by lia. replace (length T + 12 - 12) with (length T) by lia. cbn [bind]. rewrite P1. cbn [bind].
  fold d1. change (idx d1) with (length T + 12). rewrite sub_ok by lia. replace (length T + 12 - 6) with (length T + 6) by lia.
  cbn [bind]. rewrite P2. cbn [bind].
  rewrite char_ok; [reflexivity|exact LT| |]; apply not_true; rewrite ?lead_iff, ?trail_iff; assumption.
Qed.
(** What follows is not an escape: [w] looks like one, [x] does not. *)
Lemma lead_other_leads d T V h w x r : length w < 6 ->
  (forall k c, nth_error w k = Some c -> trail_char 0 k c = true) -> trail_char 0 (length w) x = false -> at_trail d T h V ->
  let buf := T ++ u_text h ++ w ++ x :: r in
  exists d', leads buf d [TError (StringEscapeUnpairedLeadSurrogate (code h))] buf d' /\
    at_string d' (T ++ u_text h) (V ++ replacement) (Some []) /\ acc_str d' <> [].
Proof.
  intros LW W X (SD & ID & D & NE & K & H & LD) buf. pose proof (len_u T h H) as LU.
  destruct (char_string d T V REPLACEMENT_CHARACTER (T ++ u_text h) (length T + 6)) as [C1 C2]; try assumption;
    [symmetry; exact LU|destruct T; discriminate|apply enc_nonempty|].
  assert (TC : forall k c, trail_char (length T + 6) (length T + 6 + k) c = trail_char 0 k c).
  { intros k c. unfold trail_char. replace (length T + 6 + k - (length T + 6)) with k by lia. rewrite Nat.sub_0_r. reflexivity. }
  assert (NB : forall k, nth_error buf (length T + 6 + k) = nth_error (w ++ x :: r) k).
  { intros k. unfold buf. rewrite app_assoc, nth_error_app2 by lia. rewrite LU. f_equal. lia. }
  eexists. split; [|split; [exact C1|exact C2]].
  apply (leads_found buf d (Some (length T + 6 + 6)) (trail_char (length T + 6)) (TokModel.trail (length T + 6) (code h)) (length T + 6 + length w) _ (Some _) D);
    [rewrite SD; reflexivity| |].
  - rewrite ID. split.
    + split; [lia|]. intros i Hi. replace i with (length T + 6 + (i - (length T + 6))) by lia. set (k := i - (length T + 6)).
      destruct (nth_error w k) as [c|] eqn:Q; [|apply nth_error_None in Q; lia]. exists c. rewrite NB, TC. split.
      * rewrite nth_error_app1 by (apply nth_error_Some; congruence). exact Q.
      * apply W, Q.
    + left. split; [cbn; lia|]. exists x. rewrite NB, TC. split; [apply nth_mid|exact X].
  - unfold TokModel.trail. cbn [idx set_idx]. rewrite (proj2 (Nat.eqb_neq _ _)) by lia. cbn [negb].
    rewrite sub_ok by lia. replace (length T + 6 - 6) with (length T) by lia. cbn [bind].
    unfold buf at 1. rewrite part_front. reflexivity.
Qed.

(** ** All pieces *)

Definition noc (ps : list piece) : Prop := forall c, ~ In (Control c) ps.
Lemma noc_tame ps : noc ps -> tame ps.
Proof. intros H. split; [apply H|]. exists [], ps. split; [reflexivity|]. split; [constructor|exact H]. Qed.
Lemma text_cons p ps : text (p :: ps) = piece_text p ++ text ps.
Proof. reflexivity. Qed.
Lemma value_cons p ps : value (p :: ps) = piece_value p ++ value ps.
Proof. reflexivity. Qed.
Lemma errors_cons p ps : errors (p :: ps) = piece_errors p ++ errors ps.
Proof. reflexivity. Qed.
Definition given_error (p : piece) : list Error :=
  match p with Control c => if (c =? 0x1f)%N then [] else [StringUnescaped c] | _ => piece_errors p end.
Lemma given_errors_cons p ps : given_errors (p :: ps) = given_error p ++ given_errors ps.
Proof. reflexivity. Qed.
Lemma leads_nil2 buf d d1 d2 ts : leads buf d [] buf d1 -> leads buf d1 ts buf d2 -> leads buf d ts buf d2.
Proof. apply leads_trans. Qed.

(** What follows the pieces, and what happens there. *)
Section Pieces.
Variable rest : list N.
Variable fin : list N -> list N -> list Token.
Variable last : list N -> dec -> list N -> Prop.
Definition ends (buf : list N) (d : dec) (T V : list N) (es : list Error) : Prop :=
  exists d', leads buf d (map TError es ++ fin T V) buf d' /\ last buf d' T.
Definition after_string (ps : list piece) : Prop := forall buf T V g d,
  buf = T ++ text ps ++ rest -> at_string d T V g -> pieces_before ps rest ->
  ends buf d (T ++ text ps) (V ++ given g ps) (given_errors ps).
Definition after_lead (ps : list piece) : Prop := forall buf T V h d,
  buf = T ++ u_text h ++ text ps ++ rest -> at_trail d T h V -> pieces_before ps rest ->
  (forall h2 r, hex4 h2 -> trail (code h2) -> text ps ++ rest <> u_text h2 ++ r) -> ~ begun (text ps ++ rest) ->
  ends buf d (T ++ u_text h ++ text ps) ((V ++ replacement) ++ given (Some []) ps)
    (StringEscapeUnpairedLeadSurrogate (code h) :: given_errors ps).

Lemma ends_trans buf d d' ts T V T' V' es es' : leads buf d (map TError ts) buf d' -> ends buf d' T V es ->
  T = T' -> V = V' -> ts ++ es = es' -> ends buf d T' V' es'.
Proof.
  intros L (d2 & L2 & D2) -> -> <-. exists d2. split; [|exact D2]. rewrite map_app, <- app_assoc.
  eapply leads_trans; eassumption.
Qed.

Lemma after_string_cons p ps : after_string ps -> after_lead ps -> after_string (p :: ps).
Proof.
  intros IA IB buf T V g d B AS (PO & PW & PS). rewrite text_cons, <- app_assoc in B.
  rewrite text_cons, given_errors_cons.
  assert (GO : forall d1 V1 g1 es v, leads buf d (map TError es) buf d1 -> at_string d1 (T ++ piece_text p) V1 g1 ->
    V1 ++ given g1 ps = V ++ v -> es = given_error p ->
    ends buf d (T ++ piece_text p ++ text ps) (V ++ v) (given_error p ++ given_errors ps)).
  { intros d1 V1 g1 es v L1 A1 EV ->. eapply ends_trans; [exact L1| | | |reflexivity].
    - eapply IA; [|exact A1|exact PS]. rewrite B, <- !app_assoc. reflexivity.
    - rewrite <- app_assoc. reflexivity.
    - exact EV. }
  assert (BS : forall r, piece_text p ++ text ps ++ rest = 0x5c%N :: r ->
    exists d1, leads buf d [] buf d1 /\ at_escape d1 T V).
  { intros r E. eapply backslash_leads; [|exact AS]. rewrite B, E. reflexivity. }
  assert (US : forall h r, piece_text p ++ text ps ++ rest = u_text h ++ r ->
    exists d1, leads buf d [] buf d1 /\ at_unicode d1 T V).
  { intros h r E. destruct (BS _ E) as (d1 & L1 & A1).
    destruct (u_leads buf d1 T V (h ++ r)) as (d2 & L2 & A2); [rewrite B, E; reflexivity|exact A1|].
    exists d2. split; [eapply leads_nil2; eassumption|exact A2]. }
  destruct p as [c|l c|h|h1 h2|c|l|h|h|h]; cbn [piece_ok] in PO; cbn [given].
  - (* Plain *) destruct (plain_leads buf d T V g c (text ps ++ rest)) as (L1 & A1); [exact B| |exact AS|].
    + unfold string_stop. lia.
    + eapply (GO _ _ _ []); [exact L1|exact A1|rewrite <- app_assoc; reflexivity|reflexivity].
  - (* Escaped *) destruct (BS _ eq_refl) as (d1 & L1 & A1).
    destruct (escape_leads buf d1 T V l c (text ps ++ rest) B PO A1) as (d2 & L2 & A2 & _).
    eapply (GO _ _ _ []); [eapply leads_nil2; eassumption|exact A2|rewrite <- app_assoc; reflexivity|reflexivity].
  - (* Unicode *) destruct PO as (H & NL & NT).
    destruct (US h _ eq_refl) as (d1 & L1 & A1).
    destruct (uni_leads buf d1 T V h (text ps ++ rest) B H NL NT A1) as (d2 & L2 & A2 & _).
    eapply (GO _ _ _ []); [eapply leads_nil2; eassumption|exact A2|rewrite <- app_assoc; reflexivity|reflexivity].
  - (* Pair *) destruct PO as (H1 & H2 & LD & TR).
    cbn [piece_text] in B. rewrite <- app_assoc in B.
    destruct (US h1 (u_text h2 ++ text ps ++ rest)) as (d1 & L1 & A1); [cbn [piece_text]; rewrite <- app_assoc; reflexivity|].
    destruct (lead_leads buf d1 T V h1 _ B H1 LD A1) as (d2 & L2 & A2).
    destruct (pair_leads d2 T V h1 h2 (text ps ++ rest) H2 TR A2) as (d3 & L3 & A3 & _). cbv zeta in L3. rewrite <- B in L3.
    eapply (GO _ _ _ []); [eapply leads_nil2; [exact L1|]; eapply leads_nil2; eassumption|exact A3|rewrite <- app_assoc; reflexivity|reflexivity].
  - (* Control *) destruct (N.eqb_spec c 0x1f) as [->|NF].
    + destruct (plain_leads buf d T V g 0x1f (text ps ++ rest)) as (L1 & A1); [exact B|reflexivity|exact AS|].
      eapply (GO _ _ _ []); [exact L1|exact A1|rewrite <- app_assoc; reflexivity|reflexivity].
    + assert (LT : (c < 0x1f)%N) by lia.
      destruct (control_leads buf d T V g c _ B LT AS) as (d1 & L1 & A1).
      rewrite (proj2 (N.ltb_lt _ _) LT).
      eapply (GO d1 _ _ [StringUnescaped c]); [exact L1|exact A1|rewrite <- app_assoc; reflexivity|].
      cbn. rewrite (proj2 (N.eqb_neq _ _) NF). reflexivity.
  - (* UnknownEscape *) destruct PO as (NU & NE).
    destruct (BS _ eq_refl) as (d1 & L1 & A1).
    destruct (unknown_leads buf d1 T V l (text ps ++ rest) B NU NE A1) as (d2 & L2 & A2 & _).
    eapply (GO _ _ _ [StringEscapeUnknown l]); [eapply leads_nil2; eassumption|exact A2|rewrite <- app_assoc; reflexivity|reflexivity].
  - (* ShortUnicode *) destruct PO as (F & L & x & r & EX & NX).
    destruct (US h _ eq_refl) as (d1 & L1 & A1).
    destruct (short_leads buf d1 T V h x r) as (d2 & L2 & A2 & _); [rewrite B, EX; reflexivity|assumption..|].
    eapply (GO _ _ _ [StringEscapeInvalid]); [eapply leads_nil2; eassumption|exact A2|rewrite <- app_assoc; reflexivity|reflexivity].
  - (* LoneTrail *) destruct PO as (H & TR).
    destruct (US h _ eq_refl) as (d1 & L1 & A1).
    destruct (lone_trail_leads buf d1 T V h (text ps ++ rest) B H TR A1) as (d2 & L2 & A2 & _).
    eapply (GO _ _ _ [StringEscapeUnpairedTrailSurrogate (code h)]); [eapply leads_nil2; eassumption|exact A2|rewrite <- app_assoc; reflexivity|reflexivity].
  - (* LoneLead *) destruct PO as (H & LD & NX).
    destruct (US h _ eq_refl) as (d1 & L1 & A1).
    destruct (lead_leads buf d1 T V h (text ps ++ rest) B H LD A1) as (d2 & L2 & A2).
    eapply (ends_trans _ _ _ []); [eapply leads_nil2; eassumption|eapply IB; [exact B|exact A2|exact PS|exact NX|exact (PW _ eq_refl)]|reflexivity| |reflexivity].
    cbn [piece_value]. rewrite <- app_assoc. reflexivity.
Qed.

Lemma after_lead_by ps w x r buf T V h d : after_string ps -> buf = T ++ u_text h ++ text ps ++ rest ->
  at_trail d T h V -> pieces_before ps rest -> text ps ++ rest = w ++ x :: r -> length w < 6 ->
  (forall k c, nth_error w k = Some c -> trail_char 0 k c = true) -> trail_char 0 (length w) x = false ->
  ends buf d (T ++ u_text h ++ text ps) ((V ++ replacement) ++ given (Some []) ps) (StringEscapeUnpairedLeadSurrogate (code h) :: given_errors ps).
Proof.
  intros IA B AT PS E LW W X. rewrite E in B.
  destruct (lead_other_leads d T V h w x r LW W X AT) as (d1 & L1 & A1 & _). cbv zeta in L1. rewrite <- B in L1.
  eapply (ends_trans _ _ _ [StringEscapeUnpairedLeadSurrogate (code h)]); [exact L1| | |reflexivity|reflexivity].
  - eapply IA; [|exact A1|exact PS]. rewrite B, <- E, <- app_assoc. reflexivity.
  - rewrite <- app_assoc. reflexivity.
Qed.
Lemma after_lead_cons p ps : after_string (p :: ps) -> after_string ps -> after_lead ps -> after_lead (p :: ps).
Proof.
  intros IP IA IB buf T V h d B AT (PO & PW & PS) NX NW.
  assert (ONE : forall x r, text (p :: ps) ++ rest = x :: r -> x <> 0x5c%N ->
    ends buf d (T ++ u_text h ++ text (p :: ps)) ((V ++ replacement) ++ given (Some []) (p :: ps)) (StringEscapeUnpairedLeadSurrogate (code h) :: given_errors (p :: ps))).
  { intros x r E N. eapply (after_lead_by (p :: ps) [] x r); try eassumption; [split; [|split]; assumption|cbn; lia| |].
    - intros [|k] c Q; discriminate Q.
    - cbn. apply N.eqb_neq, N. }
  assert (TWO : forall x r, text (p :: ps) ++ rest = 0x5c%N :: x :: r -> x <> 0x75%N ->
    ends buf d (T ++ u_text h ++ text (p :: ps)) ((V ++ replacement) ++ given (Some []) (p :: ps)) (StringEscapeUnpairedLeadSurrogate (code h) :: given_errors (p :: ps))).
  { intros x r E N. eapply (after_lead_by (p :: ps) [0x5c%N] x r); try eassumption; [split; [|split]; assumption|cbn; lia| |].
    - intros [|[|k]] c Q; try discriminate Q. injection Q as <-. reflexivity.
    - cbn. apply N.eqb_neq, N. }
  rewrite text_cons, <- app_assoc in B. rewrite text_cons, <- app_assoc in NX.
  destruct p as [c|l c|h2|h1 h2|c|l|h2|h2|h2]; cbn [piece_ok] in PO.
  - eapply ONE; [reflexivity|]. lia.
  - eapply TWO; [reflexivity|]. intros ->. inversion PO.
  - (* Unicode *) destruct PO as (H2 & NL & NT).
    destruct (lead_uni_leads d T V h h2 (text ps ++ rest) H2 NL NT AT) as (d1 & L1 & A1 & _).
    cbv zeta in L1. cbn [piece_text] in B. rewrite <- B in L1.
    eapply (ends_trans _ _ _ [StringEscapeUnpairedLeadSurrogate (code h)]); [exact L1| | | |reflexivity].
    + eapply IA; [|exact A1|exact PS]. rewrite B, <- !app_assoc. reflexivity.
    + rewrite text_cons, <- !app_assoc. reflexivity.
    + cbn [given piece_value]. rewrite <- !app_assoc. reflexivity.
  - (* Pair *) destruct PO as (H1 & H2 & LD & TR). cbn [piece_text] in B. rewrite <- app_assoc in B.
    destruct (lead_lead_leads d T V h h1 (u_text h2 ++ text ps ++ rest) H1 LD AT) as (d1 & L1 & A1 & _).
    cbv zeta in L1. rewrite <- B in L1. rewrite app_assoc in B.
    destruct (pair_leads d1 (T ++ u_text h) (V ++ replacement) h1 h2 (text ps ++ rest) H2 TR A1) as (d2 & L2 & A2 & _).
    cbv zeta in L2. rewrite <- B in L2.
    eapply (ends_trans _ _ _ [StringEscapeUnpairedLeadSurrogate (code h)]); [|  | | |reflexivity].
    + exact (leads_trans _ _ _ _ _ [] _ _ L1 L2).
    + eapply IA; [|exact A2|exact PS]. rewrite B, <- !app_assoc. reflexivity.
    + rewrite text_cons. cbn [piece_text]. rewrite <- !app_assoc. reflexivity.
    + cbn [given piece_value]. rewrite <- !app_assoc. reflexivity.
  - eapply ONE; [reflexivity|]. lia.
  - eapply TWO; [reflexivity|]. apply PO.
  - (* ShortUnicode *) destruct PO as (F & L & x & r & EX & NX').
    eapply (after_lead_by (ShortUnicode h2 :: ps) ([0x5c; 0x75]%N ++ h2) x r); [exact IP| |exact AT| | | | |].
    + rewrite text_cons, <- app_assoc. exact B.
    + split; [|split; [exact PW|exact PS]]. split; [exact F|]. split; [exact L|]. exists x, r. auto.
    + rewrite text_cons, <- app_assoc, EX. reflexivity.
    + cbn. lia.
    + intros [|[|k]] c Q; [injection Q as <-; reflexivity..|]. cbn in Q. unfold trail_char. cbn [Nat.sub].
      assert (k < length h2) by (apply nth_error_Some; congruence).
      apply andb_true_iff. split; [apply Nat.leb_le; lia|]. apply hex_iff. apply nth_error_In in Q. apply (proj1 (Forall_forall _ _) F c Q).
    + change (length ([0x5c; 0x75]%N ++ h2)) with (S (S (length h2))). unfold trail_char. cbn [Nat.sub].
      apply andb_false_iff. right. apply not_true. intros Q. apply NX', hex_iff, Q.
  - exfalso. destruct PO as (H2 & TR). exact (NX h2 _ H2 TR eq_refl).
  - (* LoneLead *) destruct PO as (H2 & LD & NX'). cbn [piece_text] in B.
    destruct (lead_lead_leads d T V h h2 (text ps ++ rest) H2 LD AT) as (d1 & L1 & A1 & _).
    cbv zeta in L1. rewrite <- B in L1. rewrite app_assoc in B.
    eapply (ends_trans _ _ _ [StringEscapeUnpairedLeadSurrogate (code h)]); [exact L1| | | |reflexivity].
    + eapply IB; [exact B|exact A1|exact PS|exact NX'|exact (PW _ eq_refl)].
    + rewrite text_cons. cbn [piece_text]. rewrite <- !app_assoc. reflexivity.
    + cbn [given piece_value]. rewrite <- !app_assoc. reflexivity.
Qed.
Lemma pieces_lead : after_string [] -> after_lead [] -> forall ps, after_string ps /\ after_lead ps.
Proof.
  intros A0 B0 ps. induction ps as [|p ps [IA IB]]; [split; assumption|].
  pose proof (after_string_cons p ps IA IB) as A. split; [exact A|]. apply after_lead_cons; assumption.
Qed.
End Pieces.

(** ** Strings that are closed *)

Lemma begun_backslash c r : c <> 0x5c%N -> ~ begun (c :: r).
Proof. intros NE (h & x & _ & _ & E). injection E as E _. congruence. Qed.
Lemma begun_letter c r : c <> 0x75%N -> ~ begun (0x5c%N :: c :: r).
Proof. intros NE (h & x & _ & _ & E). injection E as E _. congruence. Qed.
Lemma begun_short w : begun w -> length w < 6.
Proof.
  intros (h & r & [L _] & NE & E). apply (f_equal (@length N)) in E. rewrite app_length in E. cbn in E.
  destruct r; [congruence|]. cbn in E. lia.
Qed.
Lemma begun_hex x h : begun (u_text h ++ x) -> Forall hex_digit (h ++ x).
Proof.
  intros (h0 & r & [_ F] & _ & E). rewrite <- app_assoc in E. injection E as ->.
  rewrite app_assoc in F. apply Forall_app in F. apply F.
Qed.
(** A string that is closed is not open at its end. *)
Lemma closed_before ps next : pieces_ok ps next -> pieces_before ps (0x22%N :: next).
Proof.
  induction ps as [|p ps IH]; intros K; [exact I|]. destruct K as [PO PS]. split; [exact PO|]. split; [|exact (IH PS)].
  intros h -> BG. assert (ALL : forall c, In c (text ps ++ 0x22%N :: next) -> c = 0x5c%N \/ c = 0x75%N \/ hex_digit c).
  { destruct BG as (h0 & r & [_ F] & _ & E). intros c Hc.
    assert (I0 : In c (u_text h0)) by (rewrite E; apply in_or_app; left; exact Hc).
    destruct I0 as [<-|[<-|I0]]; [auto..|]. right. right. apply (proj1 (Forall_forall _ _) F c I0). }
  destruct (ALL 0x22%N) as [Q|[Q|Q]]; [apply in_or_app; right; left; reflexivity|discriminate Q..|].
  unfold hex_digit in Q. lia.
Qed.
Lemma string_told ps next : pieces_ok ps next ->
  consumes (0x22%N :: text ps ++ [0x22%N])
    (map TError (given_errors ps) ++ [final (0x22%N :: text ps ++ [0x22%N]) (given None ps)]) next.
Proof.
  intros PO d (D & SD & AC). set (buf := (0x22%N :: text ps ++ [0x22%N]) ++ next).
  assert (S1 : leads buf d [] buf (begin d (SString 0))).
  { apply (start_step buf d _ None); [repeat split; assumption|]. reflexivity. }
  assert (B : buf = [0x22%N] ++ text ps ++ 0x22%N :: next) by (unfold buf; cbn; rewrite <- app_assoc; reflexivity).
  set (fin := fun T V : list N => [final (T ++ [0x22%N]) (tl V)]).
  set (last := fun (_ : list N) (d : dec) (T : list N) => done d = Some (length (T ++ [0x22%N]))).
  assert (A0 : after_string (0x22%N :: next) fin last []).
  { intros b T V g d0 E AS _. cbn [text given given_errors flat_map] in *. rewrite !app_nil_r. cbn [app] in E.
    destruct (quote_leads b d0 T V g next E AS) as (d' & L & DD). exists d'. split; [exact L|exact DD]. }
  destruct (proj1 (pieces_lead (0x22%N :: next) fin last A0 (fun b T V h d0 E AT PB NX NW =>
    after_lead_by _ fin last [] [] 0x22%N next b T V h d0 A0 E AT PB eq_refl ltac:(cbn; lia)
      (fun k c Q => match k as k' return nth_error [] k' = Some c -> trail_char 0 k' c = true with 0 | S _ => fun Q' => ltac:(discriminate Q') end Q) eq_refl) ps)
    buf [0x22%N] [0x22%N] None (begin d (SString 0)) B) as (d' & L & DD).
  - exists 0. cbn. split; [reflexivity|]. split; [reflexivity|]. split; [exact D|]. split; [discriminate|]. left.
    repeat split; [exact AC|lia].
  - apply closed_before, PO.
  - exists d'. split; [eapply leads_nil2; [exact S1|exact L]|]. apply ready_done. exact DD.
Qed.

(** ** Where the value is the right one *)

Lemma given_escaped ps : noc ps -> forall g, given g ps = value ps.
Proof.
  induction ps as [|p ps IH]; intros NC g; [reflexivity|].
  assert (NP : noc ps) by (intros c I; apply (NC c); right; exact I).
  rewrite value_cons. destruct p; cbn [given piece_value app]; try (rewrite IH by exact NP; reflexivity).
  exfalso. apply (NC c). left. reflexivity.
Qed.
Lemma given_verbatim a b : Forall verbatim a -> given None (a ++ b) = value a ++ given None b.
Proof.
  induction 1 as [|p a V F IH]; [reflexivity|]. cbn [app]. rewrite value_cons.
  destruct p; try contradiction; cbn [given option_map piece_value app]; [|destruct (c <? 0x1f)%N; cbn [app]]; rewrite IH; reflexivity.
Qed.
Lemma given_tame ps : tame ps -> given None ps = value ps /\ given_errors ps = errors ps.
Proof.
  intros (NU & a & b & -> & F & NB). split.
  - rewrite given_verbatim by exact F. rewrite given_escaped by exact NB. unfold value. rewrite flat_map_app. reflexivity.
  - clear F NB. induction (a ++ b) as [|p ps IH]; [reflexivity|]. rewrite given_errors_cons, errors_cons.
    rewrite IH by (intros I; apply NU; right; exact I). f_equal. destruct p; try reflexivity.
    cbn. destruct (N.eqb_spec c 0x1f) as [->|]; [exfalso; apply NU; left; reflexivity|reflexivity].
Qed.
Lemma string_consumes ps next : tame ps -> pieces_ok ps next ->
  consumes (0x22%N :: text ps ++ [0x22%N])
    (map TError (errors ps) ++ [final (0x22%N :: text ps ++ [0x22%N]) (value ps)]) next.
Proof. intros TM PO. destruct (given_tame ps TM) as [<- <-]. apply string_told, PO. Qed.
