(** Strings: the tokenizer reads the pieces of a string. *)
From Verif Require Import Base JsonSyntax JsonModel JsonSpec JsonProofs JsonLex JsonLexNum.
Local Open Scope N_scope.

(** ** Hexadecimal digits *)

Lemma hex_digit_fun c d : hex_digit c d -> is_hex c = true /\ to_digit16 c = Some d /\ d < 16.
Proof.
  intros [x L|x L|x L]; unfold is_hex, to_digit16, is_digit.
  - replace ((48 <=? x) && (x <=? 57)) with true by lia. cbn [orb]. repeat split. lia.
  - replace ((48 <=? x) && (x <=? 57)) with false by lia.
    replace ((97 <=? x) && (x <=? 102)) with true by lia. cbn [orb]. repeat split; [f_equal; lia|lia].
  - replace ((48 <=? x) && (x <=? 57)) with false by lia.
    replace ((97 <=? x) && (x <=? 102)) with false by lia.
    replace ((65 <=? x) && (x <=? 70)) with true by lia. cbn [orb]. repeat split; [f_equal; lia|lia].
Qed.
Lemma is_hex_iff c : is_hex_char c <-> is_hex c = true.
Proof.
  split; [intros [v H]; apply (hex_digit_fun _ _ H)|]. intros H.
  destruct (to_digit16_hex c H) as (d & _ & _ & X). now exists d.
Qed.
Lemma hexes_nil : hexes [] 0.
Proof. exists []. split; [constructor|reflexivity]. Qed.
Lemma hexes_snoc h v c d : hexes h v -> hex_digit c d -> hexes (h ++ [c]) (16 * v + d).
Proof.
  intros (vs & F & ->) D. exists (vs ++ [d]). split; [apply Forall2_app; [exact F|constructor; [exact D|constructor]]|].
  now rewrite fold_left_app.
Qed.
Lemma hexes_unsnoc h c w : hexes (h ++ [c]) w -> exists v d, hexes h v /\ hex_digit c d /\ w = 16 * v + d.
Proof.
  intros (vs & F & ->). apply Forall2_app_inv_l in F as (v1 & v2 & F1 & F2 & ->).
  inversion F2 as [|? d ? ? D X]; subst. inversion X; subst.
  exists (fold_left (fun a d => 16 * a + d) v1 0), d. split; [exists v1; auto|]. split; [exact D|].
  now rewrite fold_left_app.
Qed.
Lemma hexes_empty v : hexes [] v -> v = 0.
Proof. intros (vs & F & ->). inversion F. reflexivity. Qed.
Lemma hexes_bound h : forall v, hexes h v -> v < 16 ^ len h.
Proof.
  induction h as [|c h IH] using rev_ind; intros v H.
  - apply hexes_empty in H as ->. reflexivity.
  - apply hexes_unsnoc in H as (v0 & d & H & D & ->). specialize (IH _ H).
    destruct (hex_digit_fun _ _ D) as (_ & _ & B). rewrite len_app. change (len [c]) with 1.
    rewrite N.add_1_r, N.pow_succ_r'. lia.
Qed.

Section Str.
Variable f : N.
Definition str_st st raw chars := mkTk f st raw chars [].
Definition str_tk raw chars := str_st SString raw chars.

Ltac strstep := apply step_eat; unfold advance_rest; trs; unfold advance_string, advance_escape; trs.

(** One hexadecimal digit that is not the last. *)
Lemma uni_more n v c d raw chars : n < 3 -> v < 16 ^ n -> hex_digit c d ->
  step (str_st (SUnicode n v) raw chars) (Some c) =
  Some ([], str_st (SUnicode (n + 1) (16 * v + d)) (raw ++ [c]) chars).
Proof.
  intros L B D. destruct (hex_digit_fun _ _ D) as (X & T & BD).
  destruct (hex_push n v d c ltac:(lia) B D BD) as (O & _ & _).
  unfold str_st. strstep. rewrite X, T. cbn zeta. rewrite O. trs.
  replace (n <? 3) with true by lia. trs. reflexivity.
Qed.
Lemma sur_more l n v c d raw chars : n < 3 -> v < 16 ^ n -> hex_digit c d ->
  step (str_st (SSurrogateUnicode l n v) raw chars) (Some c) =
  Some ([], str_st (SSurrogateUnicode l (n + 1) (16 * v + d)) (raw ++ [c]) chars).
Proof.
  intros L B D. destruct (hex_digit_fun _ _ D) as (X & T & BD).
  destruct (hex_push n v d c ltac:(lia) B D BD) as (O & _ & _).
  unfold str_st. strstep. rewrite X, T. cbn zeta. rewrite O. trs.
  replace (n <? 3) with true by lia. trs. reflexivity.
Qed.
Lemma uni_feed h v raw chars : hexes h v -> (length h < 4)%nat ->
  feed (str_st (SUnicode 0 0) raw chars) h = Some ([], str_st (SUnicode (len h) v) (raw ++ h) chars).
Proof.
  revert v; induction h as [|c h IH] using rev_ind; intros v H L.
  - apply hexes_empty in H as ->. cbn. now rewrite app_nil_r.
  - apply hexes_unsnoc in H as (v0 & d & H & D & ->). rewrite app_length in L. cbn in L.
    rewrite (feed_snoc _ _ _ _ _ _ _ (IH v0 H ltac:(lia))
      (uni_more (len h) v0 c d _ _ ltac:(unfold len; lia) (hexes_bound _ _ H) D)).
    rewrite len_app, <- app_assoc. reflexivity.
Qed.
Lemma sur_feed l h v raw chars : hexes h v -> (length h < 4)%nat ->
  feed (str_st (SSurrogateUnicode l 0 0) raw chars) h = Some ([], str_st (SSurrogateUnicode l (len h) v) (raw ++ h) chars).
Proof.
  revert v; induction h as [|c h IH] using rev_ind; intros v H L.
  - apply hexes_empty in H as ->. cbn. now rewrite app_nil_r.
  - apply hexes_unsnoc in H as (v0 & d & H & D & ->). rewrite app_length in L. cbn in L.
    rewrite (feed_snoc _ _ _ _ _ _ _ (IH v0 H ltac:(lia))
      (sur_more l (len h) v0 c d _ _ ltac:(unfold len; lia) (hexes_bound _ _ H) D)).
    rewrite len_app, <- app_assoc. reflexivity.
Qed.
Lemma hex4_split h v : hex4 h v -> exists h0 v0 c d, h = h0 ++ [c] /\ length h0 = 3%nat /\ hexes h0 v0 /\
  hex_digit c d /\ v = 16 * v0 + d /\ v < 65536.
Proof.
  intros [L H]. destruct h as [|c h _] using rev_ind; [discriminate|].
  pose proof (hexes_bound _ _ H) as B. rewrite app_length in L. cbn in L.
  destruct (hexes_unsnoc _ _ _ H) as (v0 & d & H0 & D & ->).
  exists h, v0, c, d. repeat split; auto; [lia|].
  assert (E : len (h ++ [c]) = 4) by (unfold len; rewrite app_length; cbn; lia). rewrite E in B. exact B.
Qed.
(** The effect of the fourth digit. *)
Lemma uni_last (v0 d c : N) raw chars : v0 < 16 ^ 3 -> hex_digit c d ->
  let v := 16 * v0 + d in
  step (str_st (SUnicode 3 v0) raw chars) (Some c) =
  if (0xd800 <=? v) && (v <=? 0xdbff) then Some ([], str_st (SSurrogate v) (raw ++ [c]) chars)
  else if (0xdc00 <=? v) && (v <=? 0xdfff) then Some ([Err StringSurrogateUnpaired], str_tk (raw ++ [c]) chars)
  else Some ([], str_tk (raw ++ [c]) (chars ++ [v])).
Proof.
  intros B D v. destruct (hex_digit_fun _ _ D) as (X & T & BD).
  destruct (hex_push 3 v0 d c ltac:(lia) B D BD) as (O & _ & B').
  destruct ((0xd800 <=? v) && (v <=? 0xdbff)) eqn:Q1; [|destruct ((0xdc00 <=? v) && (v <=? 0xdfff)) eqn:Q2];
  unfold str_tk, str_st; strstep; rewrite X, T; cbn zeta; rewrite O; fold v; trs; change (3 <? 3) with false;
  cbn iota; rewrite ?Q1, ?Q2; trs; try reflexivity.
  rewrite from_u32_some by (unfold scalar_value; fold v in B'; lia). trs. reflexivity.
Qed.
Lemma sur_last (l v0 d c : N) raw chars : lead l -> v0 < 16 ^ 3 -> hex_digit c d ->
  let v := 16 * v0 + d in
  step (str_st (SSurrogateUnicode l 3 v0) raw chars) (Some c) =
  if (0xdc00 <=? v) && (v <=? 0xdfff) then Some ([], str_tk (raw ++ [c]) (chars ++ [paired l v]))
  else Some ([Err StringSurrogateUnpaired], str_tk (raw ++ [c]) chars).
Proof.
  intros LD B D v. destruct (hex_digit_fun _ _ D) as (X & T & BD). unfold lead in LD.
  destruct (hex_push 3 v0 d c ltac:(lia) B D BD) as (O & _ & B'). fold v in B'.
  destruct ((0xdc00 <=? v) && (v <=? 0xdfff)) eqn:Q2.
  - unfold str_tk, str_st; strstep; rewrite X, T; cbn zeta; rewrite O; fold v; trs; change (3 <? 3) with false; cbn iota.
    replace ((0xd800 <=? v) && (v <=? 0xdbff)) with false by lia. rewrite Q2.
    rewrite !sub32_some by lia. rewrite from_u32_some by (unfold scalar_value; lia). trs. reflexivity.
  - unfold str_tk, str_st; strstep; rewrite X, T; cbn zeta; rewrite O; fold v; trs; change (3 <? 3) with false; cbn iota.
    destruct ((0xd800 <=? v) && (v <=? 0xdbff)) eqn:Q1; trs; [reflexivity|].
    rewrite Q2. rewrite from_u32_some by (unfold scalar_value; lia). trs. reflexivity.
Qed.
Lemma uni4_feed h v raw chars : hex4 h v ->
  feed (str_st (SUnicode 0 0) raw chars) h =
  if (0xd800 <=? v) && (v <=? 0xdbff) then Some ([], str_st (SSurrogate v) (raw ++ h) chars)
  else if (0xdc00 <=? v) && (v <=? 0xdfff) then Some ([Err StringSurrogateUnpaired], str_tk (raw ++ h) chars)
  else Some ([], str_tk (raw ++ h) (chars ++ [v])).
Proof.
  intros H. destruct (hex4_split h v H) as (h0 & v0 & c & d & -> & L & H0 & D & -> & B).
  rewrite feed_app, (uni_feed h0 v0) by (auto; lia). rewrite ecat_nil. cbn [feed].
  assert (LE : len h0 = 3) by (unfold len; lia). pose proof (hexes_bound _ _ H0) as B0. rewrite LE in *.
  rewrite (uni_last v0 d c _ _ B0 D). rewrite <- app_assoc.
  destruct (_ && _); [reflexivity|]. destruct (_ && _); reflexivity.
Qed.
Lemma sur4_feed l h v raw chars : lead l -> hex4 h v ->
  feed (str_st (SSurrogateUnicode l 0 0) raw chars) h =
  if (0xdc00 <=? v) && (v <=? 0xdfff) then Some ([], str_tk (raw ++ h) (chars ++ [paired l v]))
  else Some ([Err StringSurrogateUnpaired], str_tk (raw ++ h) chars).
Proof.
  intros LD H. destruct (hex4_split h v H) as (h0 & v0 & c & d & -> & L & H0 & D & -> & B).
  rewrite feed_app, (sur_feed l h0 v0) by (auto; lia). rewrite ecat_nil. cbn [feed].
  assert (LE : len h0 = 3) by (unfold len; lia). pose proof (hexes_bound _ _ H0) as B0. rewrite LE in *.
  rewrite (sur_last l v0 d c _ _ LD B0 D). rewrite <- app_assoc.
  destruct (_ && _); reflexivity.
Qed.

(** ** Other steps *)

Lemma step_backslash raw chars : step (str_tk raw chars) (Some 92) = Some ([], str_st SEscape (raw ++ [92]) chars).
Proof. unfold str_tk, str_st. strstep. unfold advance_plain. trs. reflexivity. Qed.
Lemma step_u raw chars : step (str_st SEscape raw chars) (Some 117) = Some ([], str_st (SUnicode 0 0) (raw ++ [117]) chars).
Proof. unfold str_st. strstep. reflexivity. Qed.
Lemma feed_u raw chars : feed (str_tk raw chars) [92; 117] = Some ([], str_st (SUnicode 0 0) (raw ++ [92; 117]) chars).
Proof. cbn [feed]. rewrite step_backslash. cbn [feed]. rewrite step_u. rewrite <- app_assoc. reflexivity. Qed.
Lemma feed_u4 h v raw chars : hex4 h v ->
  feed (str_tk raw chars) (92 :: 117 :: h) =
  if (0xd800 <=? v) && (v <=? 0xdbff) then Some ([], str_st (SSurrogate v) (raw ++ 92 :: 117 :: h) chars)
  else if (0xdc00 <=? v) && (v <=? 0xdfff) then Some ([Err StringSurrogateUnpaired], str_tk (raw ++ 92 :: 117 :: h) chars)
  else Some ([], str_tk (raw ++ 92 :: 117 :: h) (chars ++ [v])).
Proof.
  intros H. change (92 :: 117 :: h) with ([92; 117] ++ h). rewrite feed_app, feed_u, (uni4_feed h v) by exact H.
  rewrite ecat_nil, <- app_assoc. reflexivity.
Qed.
Lemma feed_lead h v raw chars : hex4 h v -> lead v ->
  feed (str_tk raw chars) (92 :: 117 :: h) = Some ([], str_st (SSurrogate v) (raw ++ 92 :: 117 :: h) chars).
Proof.
  intros H L. rewrite (feed_u4 h v) by exact H. unfold lead in L.
  replace ((0xd800 <=? v) && (v <=? 0xdbff)) with true by lia. reflexivity.
Qed.
Lemma step_sur_backslash l raw chars : step (str_st (SSurrogate l) raw chars) (Some 92) =
  Some ([], str_st (SSurrogateEscape l) (raw ++ [92]) chars).
Proof. unfold str_st. strstep. reflexivity. Qed.
Lemma feed_lead_backslash h v raw chars : hex4 h v -> lead v ->
  feed (str_tk raw chars) (92 :: 117 :: h ++ [92]) =
  Some ([], str_st (SSurrogateEscape v) (raw ++ 92 :: 117 :: h ++ [92]) chars).
Proof.
  intros H L. change (92 :: 117 :: h ++ [92]) with ((92 :: 117 :: h) ++ [92]).
  rewrite (feed_snoc _ _ _ _ _ _ _ (feed_lead h v raw chars H L) (step_sur_backslash v _ _)).
  rewrite <- app_assoc. reflexivity.
Qed.
Lemma feed_lead_u h v raw chars : hex4 h v -> lead v ->
  feed (str_tk raw chars) (92 :: 117 :: h ++ [92; 117]) =
  Some ([], str_st (SSurrogateUnicode v 0 0) (raw ++ 92 :: 117 :: h ++ [92; 117]) chars).
Proof.
  intros H L. change (92 :: 117 :: h ++ [92; 117]) with (92 :: 117 :: h ++ [92] ++ [117]).
  rewrite (app_assoc h). change (92 :: 117 :: (h ++ [92]) ++ [117]) with ((92 :: 117 :: h ++ [92]) ++ [117]).
  assert (S : forall raw, step (str_st (SSurrogateEscape v) raw chars) (Some 117) =
    Some ([], str_st (SSurrogateUnicode v 0 0) (raw ++ [117]) chars)) by (intros r; unfold str_st; strstep; reflexivity).
  rewrite (feed_snoc _ _ _ _ _ _ _ (feed_lead_backslash h v raw chars H L) (S _)).
  rewrite <- app_assoc. reflexivity.
Qed.

Lemma escape_fun e c : escape e c -> is_simple_escape e = true /\ unescape e = c /\ e <> 117.
Proof. intros []; repeat split; discriminate. Qed.
Lemma escape_none e : bad_escape e -> is_simple_escape e = false /\ (e =? 117) = false.
Proof.
  intros [U B]. split; [|now apply N.eqb_neq]. destruct (is_simple_escape e) eqn:X; [|reflexivity]. exfalso.
  unfold is_simple_escape in X.
  assert (C : e = 34 \/ e = 92 \/ e = 47 \/ e = 98 \/ e = 102 \/ e = 110 \/ e = 114 \/ e = 116) by lia.
  destruct C as [->|[->|[->|[->|[->|[->|[->| ->]]]]]]]; eapply B; constructor.
Qed.
Lemma escape_cases e : is_simple_escape e = true -> escape e (unescape e).
Proof.
  intros X. unfold is_simple_escape in X.
  assert (C : e = 34 \/ e = 92 \/ e = 47 \/ e = 98 \/ e = 102 \/ e = 110 \/ e = 114 \/ e = 116) by lia.
  destruct C as [->|[->|[->|[->|[->|[->|[->| ->]]]]]]]; constructor.
Qed.
Lemma step_escape e c raw chars : escape e c ->
  step (str_st SEscape raw chars) (Some e) = Some ([], str_tk (raw ++ [e]) (chars ++ [c])).
Proof.
  intros E. destruct (escape_fun e c E) as (S & U & _). unfold str_tk, str_st. strstep. rewrite S, U. trs. reflexivity.
Qed.
Lemma step_bad_escape e raw chars : bad_escape e ->
  step (str_st SEscape raw chars) (Some e) = Some ([Err (StringEscapeInvalid e)], str_tk (raw ++ [e]) (chars ++ [e])).
Proof.
  intros E. destruct (escape_none e E) as (S & U). unfold str_tk, str_st. strstep. rewrite S, U. trs. reflexivity.
Qed.
Lemma step_sur_escape l e c raw chars : escape e c ->
  step (str_st (SSurrogateEscape l) raw chars) (Some e) =
  Some ([Err StringSurrogateUnpaired], str_tk (raw ++ [e]) (chars ++ [c])).
Proof.
  intros E. destruct (escape_fun e c E) as (S & U & V). apply N.eqb_neq in V.
  unfold str_tk, str_st. strstep. rewrite V, S, U. trs. reflexivity.
Qed.
Lemma step_sur_bad_escape l e raw chars : bad_escape e ->
  step (str_st (SSurrogateEscape l) raw chars) (Some e) =
  Some ([Err StringSurrogateUnpaired; Err (StringEscapeInvalid e)], str_tk (raw ++ [e]) (chars ++ [e])).
Proof.
  intros E. destruct (escape_none e E) as (S & U). unfold str_tk, str_st. strstep. rewrite U, S. trs. reflexivity.
Qed.

(** A character that does not continue an escape is handled as usual. *)
Lemma step_relay st ch raw chars c e :
  tr (advance_rest (Some c)) (str_st st raw chars) =
    seq (Some (e, str_tk raw chars, Some c)) (fun r => tr match r with None => ret None | Some v => advance_plain v end) ->
  ch = Some c ->
  step (str_st st raw chars) ch = ecat e (step (str_tk raw chars) ch).
Proof.
  intros T ->. unfold step, advance. change (trace (mbind ?m ?g ?t)) with (tr (mbind m g) t).
  rewrite !tr_bind, T. unfold str_tk, str_st, advance_rest. trs. unfold advance_string, advance_escape. trs.
  destruct (tr (advance_plain c) _) as [[[e1 t1] [r|]]|]; [| |reflexivity]; rewrite !seq_some.
  - destruct (tr (advance_start r) t1) as [[[e2 t2] r2]|]; cbn [ecat]; [now rewrite app_assoc|reflexivity].
  - rewrite !tr_ret. cbn [ecat]. now rewrite app_assoc.
Qed.
Lemma relay_lead l c raw chars : c <> 92 ->
  step (str_st (SSurrogate l) raw chars) (Some c) = ecat [Err StringSurrogateUnpaired] (step (str_tk raw chars) (Some c)).
Proof.
  intros Ne. apply N.eqb_neq in Ne. apply (step_relay _ _ _ _ c); [|reflexivity].
  unfold str_tk, str_st, advance_rest. trs. unfold advance_string, advance_escape. trs. rewrite Ne. trs. reflexivity.
Qed.
Lemma relay_short n v c raw chars : ~ is_hex_char c ->
  step (str_st (SUnicode n v) raw chars) (Some c) = ecat [Err StringEscapeIncomplete] (step (str_tk raw chars) (Some c)).
Proof.
  intros Ne. rewrite is_hex_iff in Ne. apply not_true_is_false in Ne. apply (step_relay _ _ _ _ c); [|reflexivity].
  unfold str_tk, str_st, advance_rest. trs. unfold advance_string, advance_escape. trs. rewrite Ne. trs. reflexivity.
Qed.
Lemma relay_sur_short l n v c raw chars : ~ is_hex_char c ->
  step (str_st (SSurrogateUnicode l n v) raw chars) (Some c) = ecat [Err StringEscapeIncomplete] (step (str_tk raw chars) (Some c)).
Proof.
  intros Ne. rewrite is_hex_iff in Ne. apply not_true_is_false in Ne. apply (step_relay _ _ _ _ c); [|reflexivity].
  unfold str_tk, str_st, advance_rest. trs. unfold advance_string, advance_escape. trs. rewrite Ne. trs. reflexivity.
Qed.
Lemma full_relay t t' e c r : step t (Some c) = ecat e (step t' (Some c)) -> full t (c :: r) = ecat e (full t' (c :: r)).
Proof.
  intros S. cbn [full]. rewrite S. destruct (step t' (Some c)) as [[e1 t1]|]; cbn [ecat]; [|reflexivity].
  now rewrite ecat_app.
Qed.

(** ** Pieces *)

Lemma spelling_feed p c raw chars : spelling p c ->
  feed (str_tk raw chars) p = Some ([], str_tk (raw ++ p) (chars ++ [c])).
Proof.
  intros [c' [U S]|e c' E|h v H NL NT|h k l t H L K T].
  - unfold scalar_value in S. cbn [feed].
    rewrite (step_eat _ (Some c') [] (str_tk (raw ++ [c']) (chars ++ [c']))); [reflexivity|].
    unfold str_tk, str_st, advance_rest. trs. unfold advance_string, advance_escape. trs. unfold advance_plain. trs.
    replace (c' =? 34) with false by lia. replace (c' =? 92) with false by lia.
    replace (c' <=? 31) with false by lia.
    replace ((c' <=? 55295) || (57344 <=? c') && (c' <=? 1114111)) with true by lia. trs. reflexivity.
  - cbn [feed]. rewrite step_backslash. cbn [feed]. rewrite (step_escape e c') by exact E. cbn [ecat app].
    rewrite <- app_assoc. reflexivity.
  - rewrite (feed_u4 h v) by exact H. unfold lead, trail in *.
    replace ((0xd800 <=? v) && (v <=? 0xdbff)) with false by lia.
    replace ((0xdc00 <=? v) && (v <=? 0xdfff)) with false by lia. reflexivity.
  - replace (92 :: 117 :: h ++ 92 :: 117 :: k) with ((92 :: 117 :: h ++ [92; 117]) ++ k)
      by (cbn; rewrite <- app_assoc; reflexivity).
    rewrite feed_app, (feed_lead_u h l) by assumption. rewrite ecat_nil, (sur4_feed l k t) by assumption.
    unfold trail in T. replace ((0xdc00 <=? t) && (t <=? 0xdfff)) with true by lia.
    rewrite <- app_assoc. reflexivity.
Qed.

Lemma piece_full p d e rest raw chars : piece p d e (first_of rest None) ->
  full (str_tk raw chars) (p ++ rest) = ecat (map Err e) (full (str_tk (raw ++ p) (chars ++ d)) rest).
Proof.
  intros P. inversion P as [p' c' nx SP|c' nx C|e' nx B|h v nx H T|h v nx H L NX|h v e' c' nx H L E|h v e' nx H L B
    |h v k w nx H L K NT|h nx H SH NX|h v k nx H L K SH NX]; subst.
  - apply full_cat, spelling_feed, SP.
  - apply full_cat. cbn [feed map]. rewrite (step_eat _ (Some c') [Err (StringCharacterInvalid c')] (str_tk (raw ++ [c']) (chars ++ [c'])));
      [reflexivity|].
    unfold str_tk, str_st, advance_rest. trs. unfold advance_string, advance_escape. trs. unfold advance_plain. trs.
    replace (c' =? 34) with false by lia. replace (c' =? 92) with false by lia.
    replace (c' <=? 31) with true by lia. trs. reflexivity.
  - apply full_cat. cbn [feed map]. rewrite step_backslash. cbn [feed].
    rewrite (step_bad_escape e') by exact B. cbn [ecat app]. rewrite <- app_assoc. reflexivity.
  - apply full_cat. rewrite (feed_u4 h v) by exact H. unfold trail in T.
    replace ((0xd800 <=? v) && (v <=? 0xdbff)) with false by lia.
    replace ((0xdc00 <=? v) && (v <=? 0xdfff)) with true by lia. rewrite app_nil_r. reflexivity.
  - rewrite (full_cat _ _ _ _ _ (feed_lead h v raw chars H L)), ecat_nil, app_nil_r.
    destruct NX as (c & FE & Ne). destruct rest as [|c0 r]; [discriminate|]. cbn in FE. injection FE as ->.
    apply full_relay. apply relay_lead. congruence.
  - apply full_cat. replace (92 :: 117 :: h ++ [92; e']) with ((92 :: 117 :: h ++ [92]) ++ [e'])
      by (cbn; rewrite <- app_assoc; reflexivity).
    rewrite (feed_snoc _ _ _ _ _ _ _ (feed_lead_backslash h v raw chars H L) (step_sur_escape v e' c' _ _ E)).
    rewrite <- app_assoc. reflexivity.
  - apply full_cat. replace (92 :: 117 :: h ++ [92; e']) with ((92 :: 117 :: h ++ [92]) ++ [e'])
      by (cbn; rewrite <- app_assoc; reflexivity).
    rewrite (feed_snoc _ _ _ _ _ _ _ (feed_lead_backslash h v raw chars H L) (step_sur_bad_escape v e' _ _ B)).
    rewrite <- app_assoc. reflexivity.
  - apply full_cat. replace (92 :: 117 :: h ++ 92 :: 117 :: k) with ((92 :: 117 :: h ++ [92; 117]) ++ k)
      by (cbn; rewrite <- app_assoc; reflexivity).
    rewrite feed_app, (feed_lead_u h v) by assumption. rewrite ecat_nil, (sur4_feed v k w) by assumption.
    unfold trail in NT. replace ((0xdc00 <=? w) && (w <=? 0xdfff)) with false by lia.
    rewrite <- app_assoc, app_nil_r. reflexivity.
  - destruct H as [v H].
    change ((92 :: 117 :: h) ++ rest) with ([92; 117] ++ h ++ rest).
    rewrite (full_cat _ _ _ _ _ (feed_u raw chars)), ecat_nil.
    rewrite (full_cat _ _ _ _ _ (uni_feed h v _ _ H SH)), ecat_nil, <- app_assoc, app_nil_r.
    destruct NX as (c & FE & Ne). destruct rest as [|c0 r]; [discriminate|]. cbn in FE. injection FE as ->.
    apply full_relay. apply relay_short, Ne.
  - destruct K as [w K].
    replace ((92 :: 117 :: h ++ 92 :: 117 :: k) ++ rest) with ((92 :: 117 :: h ++ [92; 117]) ++ k ++ rest)
      by (cbn; rewrite <- !app_assoc; reflexivity).
    rewrite (full_cat _ _ _ _ _ (feed_lead_u h v raw chars H L)), ecat_nil.
    rewrite (full_cat _ _ _ _ _ (sur_feed v k w _ _ K SH)), ecat_nil, <- app_assoc, app_nil_r.
    destruct NX as (c & FE & Ne). destruct rest as [|c0 r]; [discriminate|]. cbn in FE. injection FE as ->.
    replace (92 :: 117 :: h ++ 92 :: 117 :: k) with ((92 :: 117 :: h ++ [92; 117]) ++ k)
      by (cbn; rewrite <- !app_assoc; reflexivity).
    apply full_relay. apply relay_sur_short, Ne.
Qed.

Lemma first_of_app a b : first_of (a ++ b) None = first_of a (first_of b None).
Proof. destruct a; reflexivity. Qed.
Lemma pieces_full ps ds es next : pieces ps ds es next -> forall rest raw chars, next = first_of rest None ->
  full (str_tk raw chars) (ps ++ rest) = ecat (map Err es) (full (str_tk (raw ++ ps) (chars ++ ds)) rest).
Proof.
  induction 1 as [next|p d e ps ds es next P PS IH]; intros rest raw chars ->.
  - cbn [app map]. now rewrite ecat_nil, !app_nil_r.
  - rewrite <- app_assoc, (piece_full p d e (ps ++ rest)).
    + rewrite (IH rest _ _ eq_refl), ecat_app, map_app, <- !app_assoc. reflexivity.
    + now rewrite first_of_app.
Qed.

Lemma step_close raw chars : step (str_tk raw chars) (Some 34) = Some ([Tok (Text raw chars)], with_flags f).
Proof.
  unfold str_tk, str_st. apply step_eat. unfold advance_rest. trs. unfold advance_string, advance_escape. trs.
  unfold advance_plain. trs. reflexivity.
Qed.
Lemma step_open : step (with_flags f) (Some 34) = Some ([], str_tk [] []).
Proof. reflexivity. Qed.
Lemma full_string raw chars errs rest : pieces raw chars errs (Some 34) ->
  full (with_flags f) (34 :: raw ++ 34 :: rest) =
  ecat (map Err errs ++ [Tok (Text raw chars)]) (full (with_flags f) rest).
Proof.
  intros P. rewrite (full_step _ _ _ _ _ step_open), ecat_nil.
  rewrite (pieces_full _ _ _ _ P (34 :: rest) [] [] eq_refl). cbn [app].
  rewrite (full_step _ _ _ _ _ (step_close raw chars)), ecat_app. reflexivity.
Qed.
Lemma step_eof st raw chars : stringy st = true -> step (str_st st raw chars) None = Some ([Err StringIncomplete], with_flags f).
Proof.
  intros S. unfold str_st. destruct st; try discriminate; apply step_eat; unfold advance_rest; trs;
  unfold advance_string; trs; reflexivity.
Qed.
Lemma dangling_full tail raw chars : dangling tail ->
  full (str_tk raw chars) tail = Some ([Err StringIncomplete], with_flags f).
Proof.
  intros D. rewrite full_feed. destruct D as [| |h [v H] L|h v H L|h v H L|h v k H L [w K] LK].
  - cbn [feed]. unfold str_tk. rewrite step_eof by reflexivity. reflexivity.
  - cbn [feed]. rewrite step_backslash. cbn [ecat app]. rewrite step_eof by reflexivity. reflexivity.
  - change (92 :: 117 :: h) with ([92; 117] ++ h). rewrite feed_app, feed_u, (uni_feed h v) by assumption.
    rewrite ecat_nil, step_eof by reflexivity. reflexivity.
  - rewrite (feed_lead h v) by assumption. rewrite step_eof by reflexivity. reflexivity.
  - rewrite (feed_lead_backslash h v) by assumption. rewrite step_eof by reflexivity. reflexivity.
  - replace (92 :: 117 :: h ++ 92 :: 117 :: k) with ((92 :: 117 :: h ++ [92; 117]) ++ k)
      by (cbn; rewrite <- app_assoc; reflexivity).
    rewrite feed_app, (feed_lead_u h v) by assumption. rewrite ecat_nil, (sur_feed v k w) by assumption.
    rewrite step_eof by reflexivity. reflexivity.
Qed.
Lemma full_unterminated raw chars errs tail : pieces raw chars errs (first_of tail None) -> dangling tail ->
  full (with_flags f) (34 :: raw ++ tail) = Some (map Err errs ++ [Err StringIncomplete], with_flags f).
Proof.
  intros P D. rewrite (full_step _ _ _ _ _ step_open), ecat_nil.
  rewrite (pieces_full _ _ _ _ P tail [] [] eq_refl). rewrite dangling_full by exact D. reflexivity.
Qed.
End Str.

(** ** The segmentation describes the tokenizer *)

Theorem lexed_full f text ev : lexed f text ev -> full (with_flags f) text = Some (ev, with_flags f).
Proof.
  induction 1 as [|c k rest ev S _ IH|rest ev _ IH|rest ev P _ IH|run strays raw rest ev NE B NS _ IH
    |w e rest ev W O E _ IH|body rest ev NI O _ IH|body rest ev NI O _ IH|n z m rest ev SH NC Z MI _ IH
    |raw chars errs rest ev P _ IH|raw chars errs tail P D].
  - reflexivity.
  - rewrite (full_structural f c k) by exact S. now rewrite IH.
  - rewrite full_equal, IH. reflexivity.
  - rewrite full_plus, IH by exact P. reflexivity.
  - rewrite (full_blanks f run strays raw) by assumption. rewrite IH. cbn. now rewrite <- app_assoc.
  - apply keyword_ev_iff in E as ->. rewrite full_word, IH by assumption. reflexivity.
  - rewrite full_hash, IH by assumption. reflexivity.
  - rewrite full_slashes, IH by assumption. reflexivity.
  - apply zero_ev_iff in Z as ->. apply missing_ev_iff in MI as ->. rewrite full_number, IH by assumption.
    cbn [ecat]. now rewrite <- !app_assoc.
  - rewrite (full_string f raw chars errs) by assumption. rewrite IH. cbn [ecat]. now rewrite <- app_assoc.
  - now apply (full_unterminated f raw chars).
Qed.
