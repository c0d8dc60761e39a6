(** The tokenizer reports the events of the segmentation of a text. *)
From Verif Require Import Base JsonSyntax JsonModel JsonSpec JsonProofs.
Local Open Scope N_scope.

Lemma step_eat t ch e t' : tr (advance_rest ch) t = Some (e, t', None) -> step t ch = Some (e, t').
Proof.
  intros T. unfold step, advance. change (trace (mbind ?m ?g t)) with (tr (mbind m g) t).
  rewrite tr_bind, T, seq_some, tr_ret. now rewrite app_nil_r.
Qed.
Lemma step_init f c : step (with_flags f) (Some c) =
  match tr (advance_start c) (with_flags f) with Some (e, t', _) => Some (e, t') | None => None end.
Proof.
  unfold step, advance. change (trace (mbind ?m ?g ?t)) with (tr (mbind m g) t).
  rewrite tr_bind. unfold advance_rest. rewrite tr_bind, tr_get, seq_nil. cbn [with_flags state].
  rewrite tr_ret, seq_nil. reflexivity.
Qed.
Lemma step_init_none f : step (with_flags f) None = Some ([], with_flags f).
Proof. reflexivity. Qed.
Lemma step_leave t f c e : tr (advance_rest (Some c)) t = Some (e, with_flags f, Some c) ->
  step t (Some c) = ecat e (step (with_flags f) (Some c)).
Proof.
  intros T. rewrite step_init. unfold step, advance. change (trace (mbind ?m ?g t)) with (tr (mbind m g) t).
  rewrite tr_bind, T, seq_some. destruct (tr (advance_start c) (with_flags f)) as [[[? ?] ?]|]; reflexivity.
Qed.
Lemma hand_off t f e rest : step t None = Some (e, with_flags f) ->
  (forall c r, rest = c :: r -> step t (Some c) = ecat e (step (with_flags f) (Some c))) ->
  full t rest = ecat e (full (with_flags f) rest).
Proof.
  intros E L. destruct rest as [|c r]; cbn [full].
  - rewrite E, step_init_none. cbn. now rewrite app_nil_r.
  - rewrite (L c r eq_refl). destruct (step (with_flags f) (Some c)) as [[e1 t1]|]; cbn [ecat]; [|reflexivity].
    now rewrite ecat_app.
Qed.
Lemma full_step t c r e t' : step t (Some c) = Some (e, t') -> full t (c :: r) = ecat e (full t' r).
Proof. intros S. cbn [full]. now rewrite S. Qed.
Lemma full_cat t a b e t' : feed t a = Some (e, t') -> full t (a ++ b) = ecat e (full t' b).
Proof. intros S. rewrite full_app. now rewrite S. Qed.

(** ** Character classes *)

Lemma ws_iff c : ws c <-> is_blank c = true.
Proof. unfold ws, is_blank. cbn [In]. lia. Qed.
Lemma white_space_iff c : white_space c <-> is_whitespace c = true.
Proof. unfold white_space, is_whitespace. cbn [In]. lia. Qed.
Lemma digit_iff c : digit c <-> is_digit c = true.
Proof. unfold digit, is_digit. lia. Qed.
Definition ends (c : N) : bool := starts_valid c || starts_invalid c || is_whitespace c.
Lemma word_end_iff c : word_end c <-> ends c = true.
Proof.
  unfold word_end, ends. rewrite white_space_iff.
  unfold starts_valid, starts_invalid, is_blank, is_whitespace. cbn [chars_of]. cbn. lia.
Qed.
Lemma blank_white c : is_blank c = true -> is_whitespace c = true.
Proof. unfold is_blank, is_whitespace. lia. Qed.

Ltac starts := unfold advance_start;
  repeat match goal with |- context [if ?b then _ else _] =>
    first [ replace b with true by (symmetry; unfold is_blank, is_digit, is_whitespace; lia)
          | replace b with false by (symmetry; unfold is_blank, is_digit, is_whitespace; lia) ]
  end.

(** ** Structural characters and strays *)

Lemma full_structural f c k rest : structural c k ->
  full (with_flags f) (c :: rest) = ecat [Tok k] (full (with_flags f) rest).
Proof. intros S. apply full_step. rewrite step_init. destruct S; reflexivity. Qed.
Lemma full_equal f rest : full (with_flags f) (61 :: rest) =
  ecat [Err (CharacterStray 61); Tok Colon] (full (with_flags f) rest).
Proof. apply full_step. rewrite step_init. reflexivity. Qed.
Lemma has_dec flag f : {has flag f} + {~ has flag f}.
Proof. apply N.eq_dec. Qed.
Lemma full_plus f rest : ~ has ALLOW_PLUS_SIGN f -> full (with_flags f) (43 :: rest) =
  ecat [Err (CharacterStray 43)] (full (with_flags f) rest).
Proof.
  intros H. apply full_step. rewrite step_init. cbn. rewrite (proj2 (N.eqb_neq _ _) H). reflexivity.
Qed.

(** ** Whitespace *)

Definition blanking f raw := mkTk f SWhitespace raw [] [].
Lemma blanks_feed f run strays raw : blanks run strays raw -> forall raw0,
  feed (blanking f raw0) run = Some (map (fun c => Err (CharacterStray c)) strays, blanking f (raw0 ++ raw)).
Proof.
  induction 1 as [|c run strays raw W B IH|c run strays raw W W' B IH]; intros raw0; cbn [feed map].
  - now rewrite app_nil_r.
  - rewrite (step_eat (blanking f raw0) (Some c) [] (blanking f (raw0 ++ [c]))).
    + rewrite IH, ecat_nil, <- app_assoc. reflexivity.
    + unfold blanking, advance_rest, advance_misc, advance_misc_first. trs. rewrite (proj1 (ws_iff c) W). trs. reflexivity.
  - rewrite (step_eat (blanking f raw0) (Some c) [Err (CharacterStray c)] (blanking f raw0)).
    + rewrite IH. reflexivity.
    + unfold blanking, advance_rest, advance_misc, advance_misc_first. trs.
      destruct (is_blank c) eqn:E; [apply ws_iff in E; contradiction|].
      rewrite (proj1 (white_space_iff c) W). trs. reflexivity.
Qed.
Lemma blanking_off f raw rest : ~ starts white_space rest ->
  full (blanking f raw) rest = ecat [Tok (Whitespace raw)] (full (with_flags f) rest).
Proof.
  intros S. apply hand_off.
  - apply step_eat. unfold blanking, advance_rest, advance_misc, advance_misc_first. trs. reflexivity.
  - intros c r ->. apply step_leave. unfold blanking, advance_rest, advance_misc, advance_misc_first. trs.
    assert (X : is_whitespace c = false).
    { destruct (is_whitespace c) eqn:X; [|reflexivity]. exfalso. apply S. exists c, r.
      split; [reflexivity|now apply white_space_iff]. }
    destruct (is_blank c) eqn:B; [rewrite (blank_white c B) in X; discriminate|]. rewrite X. trs. reflexivity.
Qed.
Lemma full_blanks f run strays raw rest : run <> [] -> blanks run strays raw -> ~ starts white_space rest ->
  full (with_flags f) (run ++ rest) =
  ecat (map (fun c => Err (CharacterStray c)) strays ++ [Tok (Whitespace raw)]) (full (with_flags f) rest).
Proof.
  intros NE B S. rewrite <- ecat_app, <- blanking_off by exact S.
  apply full_cat. destruct B as [|c run strays raw W B|c run strays raw W W' B]; [congruence| |]; cbn [feed map].
  - rewrite step_init. pose proof (proj1 (ws_iff c) W) as X. unfold is_blank in X.
    replace (tr (advance_start c) (with_flags f)) with (Some (@nil event, blanking f [c], tt)).
    + rewrite (blanks_feed f _ _ _ B), ecat_nil. reflexivity.
    + starts. reflexivity.
  - rewrite step_init. pose proof (proj1 (white_space_iff c) W) as X. unfold is_whitespace in X.
    assert (Y : is_blank c = false) by (destruct (is_blank c) eqn:E; [apply ws_iff in E; contradiction|reflexivity]).
    unfold is_blank in Y.
    replace (tr (advance_start c) (with_flags f)) with (Some ([Err (CharacterStray c)], blanking f [], tt)).
    + rewrite (blanks_feed f _ _ _ B). reflexivity.
    + starts. reflexivity.
Qed.

(** ** Words *)

Lemma eq_chars_iff a b : eq_chars a b = true <-> a = b.
Proof.
  revert b; induction a as [|x a IH]; intros [|y b]; cbn; split; try discriminate; auto.
  - intros H. apply andb_true_iff in H as [E H]. apply N.eqb_eq in E as ->. f_equal. now apply IH.
  - intros [= -> ->]. rewrite N.eqb_refl. now apply IH.
Qed.
Lemma keyword_ev_iff w e : word_event w e <-> e = keyword_ev w.
Proof.
  unfold keyword_ev.
  destruct (eq_chars w (chars_of "null")) eqn:A.
  { apply eq_chars_iff in A as ->. split; [|intros ->; apply we_literal, lit_null].
    intros H. inversion H as [? ? L|? L]; subst; [inversion L; reflexivity|]. exfalso. eapply L, lit_null. }
  destruct (eq_chars w (chars_of "false")) eqn:B.
  { apply eq_chars_iff in B as ->. split; [|intros ->; apply we_literal, lit_false].
    intros H. inversion H as [? ? L|? L]; subst; [inversion L; reflexivity|]. exfalso. eapply L, lit_false. }
  destruct (eq_chars w (chars_of "true")) eqn:C.
  { apply eq_chars_iff in C as ->. split; [|intros ->; apply we_literal, lit_true].
    intros H. inversion H as [? ? L|? L]; subst; [inversion L; reflexivity|]. exfalso. eapply L, lit_true. }
  assert (NL : forall k, ~ literal w k).
  { intros k L. destruct L; discriminate. }
  split; [|intros ->; now apply we_unknown].
  intros H. inversion H as [? ? L|? L]; subst; [|reflexivity]. exfalso. eapply NL, L.
Qed.

Definition wording f w := mkTk f SKeyword w [] [].
Definition slashed f := mkTk f SSlash [47] [] [].
Lemma ends_false c : ends c = false -> starts_valid c = false /\ starts_invalid c = false /\ is_whitespace c = false.
Proof. unfold ends. lia. Qed.
Lemma word_step f w c : ends c = false -> step (wording f w) (Some c) = Some ([], wording f (w ++ [c])).
Proof.
  intros E. destruct (ends_false c E) as (A & B & C).
  apply step_eat. unfold wording, advance_rest, advance_misc, advance_misc_first. trs.
  rewrite A, B, C. trs. reflexivity.
Qed.
Lemma word_off f w rest : (rest = [] \/ starts word_end rest) ->
  full (wording f w) rest = ecat [keyword_ev w] (full (with_flags f) rest).
Proof.
  intros S. apply hand_off.
  - apply step_eat. unfold wording, advance_rest, advance_misc, advance_misc_first. trs. reflexivity.
  - intros c r ->. destruct S as [S|(c' & r' & [= -> ->] & S)]; [discriminate|].
    apply word_end_iff in S. unfold ends in S.
    apply step_leave. unfold wording, advance_rest, advance_misc, advance_misc_first. trs.
    destruct (starts_valid c'); trs; [reflexivity|].
    destruct (starts_invalid c'); trs; [reflexivity|].
    destruct (is_whitespace c'); trs; [reflexivity|]. discriminate.
Qed.
Lemma word_feed f w w0 : Forall (fun d => ~ word_end d) w ->
  feed (wording f w0) w = Some ([], wording f (w0 ++ w)).
Proof.
  revert w0; induction w as [|c w IH]; intros w0 F; cbn [feed].
  - now rewrite app_nil_r.
  - inversion F as [|? ? E F']; subst. rewrite word_end_iff in E. apply not_true_is_false in E.
    rewrite (word_step f w0 c E), (IH _ F'), ecat_nil, <- app_assoc. reflexivity.
Qed.
Lemma slash_step f c : ends c = false -> step (slashed f) (Some c) = Some ([], wording f [47; c]).
Proof.
  intros E. destruct (ends_false c E) as (A & B & C).
  apply step_eat. unfold slashed, advance_rest, advance_misc, advance_misc_first. trs.
  destruct (N.eqb_spec c 47) as [->|Ne]; [discriminate|].
  trs. rewrite A, B, C. trs. reflexivity.
Qed.
Lemma slash_off f rest : (rest = [] \/ starts (fun c => word_end c /\ c <> 47) rest) ->
  full (slashed f) rest = ecat [keyword_ev [47]] (full (with_flags f) rest).
Proof.
  intros S. apply hand_off.
  - apply step_eat. unfold slashed, advance_rest, advance_misc, advance_misc_first. trs. reflexivity.
  - intros c r ->. destruct S as [S|(c' & r' & [= -> ->] & S & Ne)]; [discriminate|].
    apply word_end_iff in S. unfold ends in S. apply N.eqb_neq in Ne.
    apply step_leave. unfold slashed, advance_rest, advance_misc, advance_misc_first. trs. rewrite Ne. trs.
    destruct (starts_valid c'); trs; [reflexivity|].
    destruct (starts_invalid c'); trs; [reflexivity|].
    destruct (is_whitespace c'); trs; [reflexivity|]. discriminate.
Qed.
Lemma start_word f c : word_start c -> c <> 47 -> step (with_flags f) (Some c) = Some ([], wording f [c]).
Proof.
  intros [D [->|E]] Ne; [congruence|]. rewrite word_end_iff in E. apply not_true_is_false in E.
  rewrite digit_iff in D. apply not_true_is_false in D.
  unfold ends, starts_valid, starts_invalid, is_blank, is_whitespace in E. unfold is_digit in D.
  rewrite step_init.
  replace (tr (advance_start c) (with_flags f)) with (Some (@nil event, wording f [c], tt)); [reflexivity|].
  unfold advance_start.
  destruct (((97 <=? c) && (c <=? 122)) || ((65 <=? c) && (c <=? 90))) eqn:L; starts; reflexivity.
Qed.
Lemma start_slash f : step (with_flags f) (Some 47) = Some ([], slashed f).
Proof. reflexivity. Qed.

Lemma full_word f w rest : word w -> word_over w rest ->
  full (with_flags f) (w ++ rest) = ecat [keyword_ev w] (full (with_flags f) rest).
Proof.
  intros W O. destruct W as [c w SW FW]. destruct (N.eq_dec c 47) as [->|Ne].
  - change ((47 :: w) ++ rest) with (47 :: w ++ rest).
    rewrite (full_step _ _ _ _ _ (start_slash f)), ecat_nil.
    destruct w as [|d w].
    + apply slash_off. destruct O as [->|[(c & r & -> & E) O]]; [now left|right].
      exists c, r. split; [reflexivity|]. split; [exact E|]. intros ->. apply O. split; [reflexivity|].
      exists 47, r. auto.
    + inversion FW as [|? ? E F']; subst. rewrite word_end_iff in E. apply not_true_is_false in E.
      cbn [app]. rewrite (full_step _ _ _ _ _ (slash_step f d E)), ecat_nil.
      rewrite (full_cat _ _ _ _ _ (word_feed f w [47; d] F')), ecat_nil. apply word_off.
      destruct O as [->|[O _]]; auto.
  - change ((c :: w) ++ rest) with (c :: w ++ rest).
    rewrite (full_step _ _ _ _ _ (start_word f c SW Ne)), ecat_nil.
    rewrite (full_cat _ _ _ _ _ (word_feed f w [c] FW)), ecat_nil. apply word_off.
    destruct O as [->|[O _]]; auto.
Qed.

(** ** Comments *)

Definition commenting f w := mkTk f SCommentLine w [] [].
Lemma comment_feed f w w0 : ~ In 10 w -> feed (commenting f w0) w = Some ([], commenting f (w0 ++ w)).
Proof.
  revert w0; induction w as [|c w IH]; intros w0 NI; cbn [feed].
  - now rewrite app_nil_r.
  - rewrite (step_eat (commenting f w0) (Some c) [] (commenting f (w0 ++ [c]))).
    + rewrite IH, ecat_nil, <- app_assoc; [reflexivity|]. intros H. apply NI. now right.
    + unfold commenting, advance_rest, advance_misc, advance_misc_first. trs.
      destruct (N.eqb_spec c 10) as [->|Ne]; [exfalso; apply NI; now left|]. trs. reflexivity.
Qed.
Lemma comment_off f w rest : (rest = [] \/ starts (eq 10) rest) ->
  full (commenting f w) rest = ecat [Err (Comment w)] (full (with_flags f) rest).
Proof.
  intros S. apply hand_off.
  - apply step_eat. unfold commenting, advance_rest, advance_misc, advance_misc_first. trs. reflexivity.
  - intros c r ->. destruct S as [S|(c' & r' & [= -> ->] & <-)]; [discriminate|].
    apply step_leave. unfold commenting, advance_rest, advance_misc, advance_misc_first. trs. reflexivity.
Qed.
Lemma full_hash f body rest : ~ In 10 body -> (rest = [] \/ starts (eq 10) rest) ->
  full (with_flags f) (35 :: body ++ rest) = ecat [Err (Comment body)] (full (with_flags f) rest).
Proof.
  intros NI O. rewrite (full_step (with_flags f) 35 _ [] (commenting f []) eq_refl), ecat_nil.
  rewrite (full_cat _ _ _ _ _ (comment_feed f body [] NI)), ecat_nil. now apply comment_off.
Qed.
Lemma full_slashes f body rest : ~ In 10 body -> (rest = [] \/ starts (eq 10) rest) ->
  full (with_flags f) (47 :: 47 :: body ++ rest) =
  ecat [Err (Comment (47 :: 47 :: body))] (full (with_flags f) rest).
Proof.
  intros NI O. rewrite (full_step _ _ _ _ _ (start_slash f)), ecat_nil.
  rewrite (full_step (slashed f) 47 _ [] (commenting f [47; 47]) eq_refl), ecat_nil.
  rewrite (full_cat _ _ _ _ _ (comment_feed f body [47; 47] NI)), ecat_nil. now apply comment_off.
Qed.
