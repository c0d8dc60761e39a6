(** Proofs about the JSON tokenizer: what a step does, independence of the
    handler, the invariant. *)
From Verif Require Import Base JsonSyntax JsonModel JsonSpec.
Local Open Scope N_scope.

(** ** Traces *)

(** The events a program reports if the handler never breaks, and its end. *)
Fixpoint trace {A} (p : prog A) : option (list event * Tokenizer * A) :=
  match p with
  | Done t a => Some ([], t, a)
  | Emit _ e k => match trace k with Some (es, t, a) => Some (e :: es, t, a) | None => None end
  | Fail => None
  end.

Definition step (t : Tokenizer) (ch : option N) : option (list event * Tokenizer) :=
  match trace (advance ch t) with Some (e, t', _) => Some (e, t') | None => None end.

Definition ecat (e : list event) (x : option (list event * Tokenizer)) : option (list event * Tokenizer) :=
  match x with Some (e', t) => Some (e ++ e', t) | None => None end.

Fixpoint feed (t : Tokenizer) (text : list N) : option (list event * Tokenizer) :=
  match text with
  | [] => Some ([], t)
  | c :: r => match step t (Some c) with Some (e, t') => ecat e (feed t' r) | None => None end
  end.

(** The text, and then the end of the input. *)
Fixpoint full (t : Tokenizer) (text : list N) : option (list event * Tokenizer) :=
  match text with
  | [] => step t None
  | c :: r => match step t (Some c) with Some (e, t') => ecat e (full t' r) | None => None end
  end.

Lemma ecat_nil x : ecat [] x = x.
Proof. destruct x as [[e t]|]; reflexivity. Qed.
Lemma ecat_app a b x : ecat a (ecat b x) = ecat (a ++ b) x.
Proof. destruct x as [[e t]|]; cbn; [now rewrite app_assoc|reflexivity]. Qed.

Lemma full_app t a b : full t (a ++ b) =
  match feed t a with Some (e, t') => ecat e (full t' b) | None => None end.
Proof.
  revert t; induction a as [|c a IH]; intros t; cbn.
  - now rewrite ecat_nil.
  - destruct (step t (Some c)) as [[e t']|]; [|reflexivity].
    rewrite IH. destruct (feed t' a) as [[e2 t2]|]; cbn; [|reflexivity]. now rewrite ecat_app.
Qed.
Lemma feed_app t a b : feed t (a ++ b) =
  match feed t a with Some (e, t') => ecat e (feed t' b) | None => None end.
Proof.
  revert t; induction a as [|c a IH]; intros t; cbn.
  - now rewrite ecat_nil.
  - destruct (step t (Some c)) as [[e t']|]; [|reflexivity].
    rewrite IH. destruct (feed t' a) as [[e2 t2]|]; cbn; [|reflexivity]. now rewrite ecat_app.
Qed.
Lemma full_feed t a : full t a =
  match feed t a with Some (e, t') => ecat e (step t' None) | None => None end.
Proof. rewrite <- (app_nil_r a) at 1. rewrite full_app. reflexivity. Qed.

(** ** Flags stay *)

Fixpoint keeps {A} (f : N) (p : prog A) : Prop :=
  match p with
  | Done t _ => flags t = f
  | Emit t _ k => flags t = f /\ keeps f k
  | Fail => True
  end.
Definition keeping {A} (m : M A) : Prop := forall t, keeps (flags t) (m t).

Lemma keeps_bind {A B} f (p : prog A) (g : A -> M B) :
  keeps f p -> (forall a, keeping (g a)) -> keeps f (pbind p g).
Proof.
  induction p as [t a|t e k IH|]; cbn; intros K G; [|intuition|exact I].
  rewrite <- K. apply G.
Qed.
Lemma keeping_bind {A B} (m : M A) (g : A -> M B) :
  keeping m -> (forall a, keeping (g a)) -> keeping (mbind m g).
Proof. intros K G t. apply keeps_bind; [apply K|exact G]. Qed.

Create HintDb keeping.
Lemma k_ret {A} (a : A) : keeping (ret a). Proof. intros t; reflexivity. Qed.
Lemma k_panic {A} : keeping (@panic A). Proof. intros t; exact I. Qed.
Lemma k_get : keeping get. Proof. intros t; reflexivity. Qed.
Lemma k_set s : keeping (set_state s). Proof. intros t; reflexivity. Qed.
Lemma k_prep : keeping prepare_. Proof. intros t; reflexivity. Qed.
Lemma k_raw c : keeping (acc_raw c). Proof. intros t; reflexivity. Qed.
Lemma k_num c : keeping (push_num c). Proof. intros t; unfold push_num. destruct (to_digit10 c); cbn; auto. Qed.
Lemma k_char c : keeping (push_char c). Proof. intros t; reflexivity. Qed.
Lemma k_err e : keeping (report_error e). Proof. intros t; cbn; auto. Qed.
Lemma k_tok e : keeping (report_token e). Proof. intros t; cbn; auto. Qed.
#[local] Hint Resolve k_ret k_panic k_get k_set k_prep k_raw k_num k_char k_err k_tok : keeping.

Ltac keep :=
  repeat (first [ progress auto with keeping
    | match goal with
      | |- keeping (mbind _ _) => apply keeping_bind; [|intros ?]
      | |- keeping (match ?x with _ => _ end) => destruct x
      end ]).

Lemma k_keyword : keeping report_keyword. Proof. unfold report_keyword; keep. Qed.
Lemma k_whitespace : keeping report_whitespace. Proof. unfold report_whitespace; keep. Qed.
Lemma k_number s n f es : keeping (report_number s n f es).
Proof. unfold report_number; keep. Qed.
Lemma k_string : keeping report_string. Proof. unfold report_string; keep. Qed.
#[local] Hint Resolve k_keyword k_whitespace k_number k_string : keeping.
Lemma k_misc1 ch : keeping (advance_misc_first ch). Proof. unfold advance_misc_first; keep. Qed.
#[local] Hint Resolve k_misc1 : keeping.
Lemma k_misc ch : keeping (advance_misc ch). Proof. unfold advance_misc; keep. Qed.
Lemma k_anumber ch : keeping (advance_number ch). Proof. unfold advance_number; keep. Qed.
Lemma k_escape v : keeping (advance_escape v). Proof. unfold advance_escape; keep. Qed.
#[local] Hint Resolve k_escape : keeping.
Lemma k_astring ch : keeping (advance_string ch). Proof. unfold advance_string, advance_plain; keep. Qed.
#[local] Hint Resolve k_misc k_anumber k_astring : keeping.
Lemma k_rest ch : keeping (advance_rest ch). Proof. unfold advance_rest; keep. Qed.
Lemma k_start v : keeping (advance_start v). Proof. unfold advance_start; keep. Qed.
#[local] Hint Resolve k_rest k_start : keeping.
Lemma k_advance ch : keeping (advance ch). Proof. unfold advance; keep. Qed.

Lemma trace_flags {A} f (p : prog A) e t a : keeps f p -> trace p = Some (e, t, a) -> flags t = f.
Proof.
  revert e; induction p as [t0 a0|t0 e0 k IH|]; cbn; intros e K T.
  - injection T as <- <- <-. exact K.
  - destruct (trace k) as [[[e1 t1] a1]|]; [|discriminate]. injection T as <- <- <-.
    eapply IH; [apply K|reflexivity].
  - discriminate.
Qed.
Lemma step_flags t ch e t' : step t ch = Some (e, t') -> flags t' = flags t.
Proof.
  unfold step. destruct (trace (advance ch t)) as [[[e0 t0] a0]|] eqn:T; [|discriminate].
  intros [= <- <-]. eapply trace_flags; [apply k_advance|exact T].
Qed.

(** ** The handler *)

Lemma run_prog_tell {H R A} (h : handler H R) (p : prog A) f e t a s :
  keeps f p -> trace p = Some (e, t, a) ->
  match tell h s e with
  | (s', None) => run_prog h s p = Ok (t, s', Continued a)
  | (s', Some r) => exists t', run_prog h s p = Ok (t', s', Broke r) /\ flags t' = f
  end.
Proof.
  revert e s; induction p as [t0 a0|t0 e0 k IH|]; cbn [trace keeps run_prog]; intros e s K T.
  - injection T as <- <- <-. reflexivity.
  - destruct (trace k) as [[[e1 t1] a1]|]; [|discriminate]. injection T as <- <- <-.
    cbn [tell]. destruct (h s e0) as [s' [r|]].
    + exists t0. split; [reflexivity|apply K].
    + apply IH; [apply K|reflexivity].
  - discriminate.
Qed.

(** ** C31, C33: the invariant *)

Definition sized (t : Tokenizer) (n : N) : Prop := N.of_nat (length (acc_num t)) = n.
Definition wf (t : Tokenizer) : Prop :=
  match state t with
  | SNone => acc t = [] /\ acc_str t = [] /\ acc_num t = []
  | SIntegerNone _ => sized t 0
  | SIntegerSome _ n => sized t n
  | SIntegerZero _ => sized t 1
  | SFractionNone _ n => sized t n
  | SFractionSome _ n f => sized t (n + f)
  | SExponentNone _ n f | SExponentSign _ n f _ => sized t (n + f)
  | SExponentSome _ n f _ e => sized t (n + f + e)
  | SSlash | SKeyword | SWhitespace | SCommentLine | SString | SEscape => True
  | SUnicode num v => num <= 3 /\ v < 16 ^ num
  | SSurrogate l | SSurrogateEscape l => lead l
  | SSurrogateUnicode l num v => lead l /\ num <= 3 /\ v < 16 ^ num
  end.

Lemma to_digit16_hex v : is_hex v = true -> exists d, to_digit16 v = Some d /\ d < 16 /\ hex_digit v d.
Proof.
  unfold is_hex, to_digit16. destruct (is_digit v) eqn:D; cbn [orb].
  { intros _. unfold is_digit in D. exists (v - 48). split; [reflexivity|]. split; [lia|].
    apply hex_num. lia. }
  destruct ((97 <=? v) && (v <=? 102)) eqn:L; cbn [orb].
  { intros _. exists (v - 87). split; [reflexivity|]. split; [lia|].
    replace (v - 87) with (v - 0x61 + 10) by lia. apply hex_lower. lia. }
  intros U. rewrite U. exists (v - 55). split; [reflexivity|]. split; [lia|].
  replace (v - 55) with (v - 0x41 + 10) by lia. apply hex_upper. lia.
Qed.

Lemma lor_shl4 v d : d < 16 -> v < 2 ^ 28 -> N.lor (shl4 v) d = 16 * v + d.
Proof.
  intros D V. unfold shl4. rewrite N.mod_small by (change (2 ^ 32) with (2 ^ 28 * 16); lia).
  replace (v * 16) with (N.shiftl v 4) by (rewrite N.shiftl_mul_pow2; reflexivity).
  rewrite <- N.lxor_lor, <- N.add_nocarry_lxor.
  - rewrite N.shiftl_mul_pow2. change (2 ^ 4) with 16. lia.
  - apply N.bits_inj_0. intros i. rewrite N.land_spec.
    destruct (N.lt_ge_cases i 4) as [L|L].
    + rewrite N.shiftl_spec_low by exact L. reflexivity.
    + rewrite (N.bits_above_log2 d); [now rewrite andb_false_r|].
      destruct (N.eq_dec d 0) as [->|Z]; [cbn; lia|].
      apply N.lt_le_trans with 4; [|exact L]. apply N.log2_lt_pow2; [lia|exact D].
  - apply N.bits_inj_0. intros i. rewrite N.land_spec.
    destruct (N.lt_ge_cases i 4) as [L|L].
    + rewrite N.shiftl_spec_low by exact L. reflexivity.
    + rewrite (N.bits_above_log2 d); [now rewrite andb_false_r|].
      destruct (N.eq_dec d 0) as [->|Z]; [cbn; lia|].
      apply N.lt_le_trans with 4; [|exact L]. apply N.log2_lt_pow2; [lia|exact D].
Qed.

Lemma trace_bind {A B} (p : prog A) (g : A -> M B) :
  trace (pbind p g) =
  match trace p with
  | Some (e, t, a) => match trace (g a t) with Some (e', t', b) => Some (e ++ e', t', b) | None => None end
  | None => None
  end.
Proof.
  induction p as [t a|t e k IH|]; cbn; [|rewrite IH|reflexivity].
  - destruct (trace (g a t)) as [[[? ?] ?]|]; reflexivity.
  - destruct (trace k) as [[[? ?] ?]|]; [|reflexivity].
    destruct (trace (g _ _)) as [[[? ?] ?]|]; reflexivity.
Qed.

Lemma pow16_bound num v : num <= 3 -> v < 16 ^ num -> v < 4096.
Proof.
  intros L V. assert (16 ^ num <= 16 ^ 3) by (apply N.pow_le_mono_r; lia). change (16 ^ 3) with 4096 in *. lia.
Qed.

(** The start of a token does not fail. *)
Lemma start_wf f v : exists e t a, trace (advance_start v (with_flags f)) = Some (e, t, a) /\ wf t.
Proof.
  unfold advance_start.
  repeat (match goal with
   | |- context [if ?b then _ else _] => destruct b eqn:?
   end; try (cbn; do 3 eexists; split; [reflexivity|cbn; repeat split; reflexivity])).
  - cbv [mbind acc_raw push_num pbind set_state to_digit10].
    match goal with H : is_digit _ = true |- _ => rewrite H end.
    cbn. do 3 eexists. split; [reflexivity|cbn; repeat split; reflexivity].
  - cbv [mbind acc_raw push_num pbind set_state to_digit10].
    match goal with H : is_digit _ = true |- _ => rewrite H end.
    cbn. do 3 eexists. split; [reflexivity|cbn; repeat split; reflexivity].
  - cbv [mbind get pbind].
    match goal with |- context [if ?b then _ else _] => destruct b end;
    cbn; do 3 eexists; (split; [reflexivity|cbn; repeat split; reflexivity]).
Qed.

Lemma handed f v : exists e t, step (with_flags f) (Some v) = Some (e, t) /\ wf t.
Proof.
  destruct (start_wf f v) as (e & t & a & T & W). exists e, t. split; [|exact W].
  unfold step, advance, advance_rest, mbind. cbn [get pbind with_flags state ret].
  now rewrite T.
Qed.

Lemma prepare_wf t : wf (prepare t).
Proof. cbn. auto. Qed.
Lemma prepare_with t : prepare t = with_flags (flags t).
Proof. reflexivity. Qed.

(** What the handlers of the token kinds do: go on with the token, or finish
    it and leave the character to be handled. *)
Definition handles (ch : option N) (t : Tokenizer) (p : prog (option N)) : Prop :=
  exists e t' rem, trace p = Some (e, t', rem) /\
    ((rem = None /\ wf t') \/ (rem = ch /\ t' = with_flags (flags t))) /\
    (ch = None -> t' = with_flags (flags t)).


(** Symbolic execution. *)
Definition tr {A} (m : M A) (t : Tokenizer) := trace (m t).
Definition seq {A B} (x : option (list event * Tokenizer * A))
  (g : A -> Tokenizer -> option (list event * Tokenizer * B)) : option (list event * Tokenizer * B) :=
  match x with
  | Some (e, t, a) => match g a t with Some (e', t', b) => Some (e ++ e', t', b) | None => None end
  | None => None
  end.
Lemma tr_bind {A B} (m : M A) (g : A -> M B) t : tr (mbind m g) t = seq (tr m t) (fun a => tr (g a)).
Proof. unfold tr, mbind. apply trace_bind. Qed.
Lemma seq_some {A B} e t (a : A) (g : A -> Tokenizer -> option (list event * Tokenizer * B)) :
  seq (Some (e, t, a)) g = match g a t with Some (e', t', b) => Some (e ++ e', t', b) | None => None end.
Proof. reflexivity. Qed.
Lemma seq_nil {A B} t (a : A) (g : A -> Tokenizer -> option (list event * Tokenizer * B)) :
  seq (Some ([], t, a)) g = g a t.
Proof. cbn. destruct (g a t) as [[[? ?] ?]|]; reflexivity. Qed.
Lemma tr_get t : tr get t = Some ([], t, t). Proof. reflexivity. Qed.
Lemma tr_ret {A} (a : A) t : tr (ret a) t = Some ([], t, a). Proof. reflexivity. Qed.
Lemma tr_panic {A} t : tr (@panic A) t = None. Proof. reflexivity. Qed.
Lemma tr_set s f st a c d : tr (set_state s) (mkTk f st a c d) = Some ([], mkTk f s a c d, tt). Proof. reflexivity. Qed.
Lemma tr_prep f st a c d : tr prepare_ (mkTk f st a c d) = Some ([], with_flags f, tt). Proof. reflexivity. Qed.
Lemma tr_raw v f st a c d : tr (acc_raw v) (mkTk f st a c d) = Some ([], mkTk f st (a ++ [v]) c d, tt).
Proof. reflexivity. Qed.
Lemma tr_char v f st a c d : tr (push_char v) (mkTk f st a c d) = Some ([], mkTk f st a (c ++ [v]) d, tt).
Proof. reflexivity. Qed.
Lemma tr_num v f st a c d : is_digit v = true ->
  tr (push_num v) (mkTk f st a c d) = Some ([], mkTk f st a c (d ++ [v - 48]), tt).
Proof. intros D. unfold tr, push_num, to_digit10. now rewrite D. Qed.
Lemma tr_err e t : tr (report_error e) t = Some ([Err e], t, tt). Proof. reflexivity. Qed.
Lemma tr_tok e t : tr (report_token e) t = Some ([Tok e], t, tt). Proof. reflexivity. Qed.
Definition keyword_ev (w : list N) : event :=
  if eq_chars w (chars_of "null") then Tok Null
  else if eq_chars w (chars_of "false") then Tok False_
  else if eq_chars w (chars_of "true") then Tok True_
  else Err (KeywordUnknown w).
Lemma tr_keyword t : tr report_keyword t = Some ([keyword_ev (acc t)], t, tt).
Proof.
  unfold report_keyword, keyword_ev. rewrite tr_bind, tr_get, seq_nil.
  repeat match goal with |- context [if ?b then _ else _] => destruct b end; reflexivity.
Qed.
Lemma tr_whitespace t : tr report_whitespace t = Some ([Tok (Whitespace (acc t))], t, tt). Proof. reflexivity. Qed.
Lemma tr_string t : tr report_string t = Some ([Tok (Text (acc t) (acc_str t))], t, tt). Proof. reflexivity. Qed.
Lemma tr_number s n f es t : n + f <= N.of_nat (length (acc_num t)) ->
  tr (report_number s n f es) t =
  Some ([Tok (Number (acc t) (firstn (N.to_nat n) (acc_num t))
      (firstn (N.to_nat f) (skipn (N.to_nat n) (acc_num t))) (skipn (N.to_nat (n + f)) (acc_num t)) s es)], t, tt).
Proof.
  intros L. unfold report_number. rewrite tr_bind, tr_get, seq_nil.
  rewrite (proj2 (N.leb_le _ _)) by exact L. reflexivity.
Qed.

Ltac tr1 :=
  first [ rewrite tr_bind | rewrite seq_nil | rewrite seq_some | rewrite tr_get | rewrite tr_ret
    | rewrite tr_set | rewrite tr_prep | rewrite tr_raw | rewrite tr_char | rewrite tr_err | rewrite tr_tok
    | rewrite tr_keyword | rewrite tr_whitespace | rewrite tr_string
    | rewrite tr_num by (first [assumption|lia])
    | rewrite tr_number by (cbn [acc_num]; first [assumption|lia])
    | progress cbn [flags state acc acc_str acc_num with_flags] ].
Ltac trs := repeat tr1.
Ltac tr_if :=
  match goal with
  | |- context [tr (if ?b then _ else _) _] => destruct b eqn:?
  | |- context [tr (match ?b with Some _ => _ | None => _ end) _] => destruct b eqn:?
  end.
Ltac trc := trs; repeat (tr_if; trs).

Lemma misc_handles ch t :
  match state t with SSlash | SKeyword | SWhitespace | SCommentLine => True | _ => False end ->
  handles ch t (advance_misc ch t).
Proof.
  destruct t as [f st a s n]. cbn [state]. unfold handles.
  change (trace (advance_misc ch ?t)) with (tr (advance_misc ch) t).
  destruct st; try contradiction; intros _; destruct ch as [v|];
  unfold advance_misc, advance_misc_first; trc; cbn [app];
  do 3 eexists; (split; [reflexivity|]);
  (split; [first [left; split; [reflexivity|exact I] | right; split; reflexivity
     | left; split; [reflexivity|cbn; auto]] | first [discriminate|reflexivity]]).
Qed.
Lemma digit_of_some ch v : digit_of ch = Some v -> ch = Some v /\ is_digit v = true.
Proof. destruct ch as [c|]; cbn; [|discriminate]. destruct (is_digit c) eqn:D; [|discriminate]. intros [= ->]. auto. Qed.
Lemma digit_of_yes v : is_digit v = true -> digit_of (Some v) = Some v.
Proof. cbn. now intros ->. Qed.
Lemma digit_of_no v : is_digit v = false -> digit_of (Some v) = None.
Proof. cbn. now intros ->. Qed.

Ltac num_digit :=
  match goal with H : digit_of ?ch = Some ?v |- _ =>
    let E := fresh in let D := fresh in
    destruct (digit_of_some _ _ H) as [E D]; clear H; subst ch
  end.
Ltac trn := trs; repeat (tr_if; try num_digit; trs).

Definition numeric (s : State) : bool :=
  match s with
  | SIntegerNone _ | SIntegerSome _ _ | SIntegerZero _ | SFractionNone _ _ | SFractionSome _ _ _
  | SExponentNone _ _ _ | SExponentSign _ _ _ _ | SExponentSome _ _ _ _ _ => true
  | _ => false
  end.
Lemma number_handles ch t : numeric (state t) = true -> wf t -> handles ch t (advance_number ch t).
Proof.
  destruct t as [f st a s n]. cbn [state]. unfold handles, wf, sized.
  change (trace (advance_number ch ?t)) with (tr (advance_number ch) t).
  intros S W. cbn [state acc_num] in W.
  destruct st; try discriminate; unfold advance_number; trn; cbn [app].
  all: do 3 eexists; (split; [reflexivity|]);
    (split; [first [right; split; reflexivity
       | left; split; [reflexivity|unfold wf, sized; cbn [state acc_num]; rewrite ?app_length; cbn [length]; lia]]
     | first [discriminate|reflexivity|intros ->; discriminate]]).
Qed.

Definition stringy (s : State) : bool :=
  match s with
  | SString | SEscape | SUnicode _ _ | SSurrogate _ | SSurrogateEscape _ | SSurrogateUnicode _ _ _ => true
  | _ => false
  end.
Lemma from_u32_some v : scalar_value v -> from_u32 v = Some v.
Proof.
  unfold scalar_value, from_u32. intros S.
  replace ((v <? 55296) || (57344 <=? v) && (v <? 1114112)) with true by lia. reflexivity.
Qed.
Lemma sub32_some a b : b <= a -> sub32 a b = Some (a - b).
Proof. unfold sub32. intros L. now rewrite (proj2 (N.leb_le _ _) L). Qed.

(** The hexadecimal digits of an escape. *)
Lemma hex_push num v d c : num <= 3 -> v < 16 ^ num -> hex_digit c d -> d < 16 ->
  N.lor (shl4 v) d = 16 * v + d /\ 16 * v + d < 16 ^ (num + 1) /\ 16 * v + d < 65536.
Proof.
  intros L V _ D. pose proof (pow16_bound _ _ L V). split; [apply lor_shl4; lia|].
  rewrite N.add_1_r, N.pow_succ_r'. split; [lia|lia].
Qed.

Lemma plain_handles v f a s n : scalar_value v ->
  exists e t', tr (advance_plain v) (mkTk f SString a s n) = Some (e, t', None) /\ wf t'.
Proof.
  unfold scalar_value, advance_plain. intros S. trs. repeat (tr_if; trs); try (exfalso; lia).
  all: do 2 eexists; (split; [reflexivity|]); cbn; auto.
Qed.

Lemma string_handles ch t : stringy (state t) = true -> wf t -> (forall c, ch = Some c -> scalar_value c) ->
  handles ch t (advance_string ch t).
Proof.
  destruct t as [f st a s n]. cbn [state]. unfold handles.
  change (trace (advance_string ch ?t)) with (tr (advance_string ch) t).
  intros S W SC. unfold wf in W. cbn [state] in W. unfold advance_string.
  destruct ch as [v|]; trs.
  2:{ cbn [app]. do 3 eexists. split; [reflexivity|]. split; [right; split; reflexivity|reflexivity]. }
  specialize (SC v eq_refl).
  destruct (plain_handles v f a s n SC) as (pe & pt & PT & PW).
  unfold advance_escape.
  destruct st; try discriminate; trs.
  - rewrite PT. exists pe, pt, None. split; [reflexivity|]. split; [auto|discriminate].
  - repeat (tr_if; trs); do 3 eexists; (split; [reflexivity|]);
      (split; [left; split; [reflexivity|]|discriminate]); cbn; auto. split; [lia|]. change (16 ^ 0) with 1. lia.
  - destruct (is_hex v) eqn:X.
    + destruct (to_digit16_hex v X) as (d & E & D & HD). rewrite E. destruct W as [L V].
      destruct (hex_push _ _ _ _ L V HD D) as (O & B & B'). cbn zeta. rewrite O.
      trs. repeat (tr_if; trs).
      all: try (rewrite from_u32_some in * by (unfold scalar_value; lia); discriminate).
      all: do 3 eexists; (split; [reflexivity|]); (split; [left; split; [reflexivity|]|discriminate]); cbn [wf state]; auto.
      * split; [lia|exact B].
      * unfold lead. lia.
    + trs. rewrite PT. do 3 eexists. split; [reflexivity|]. split; [auto|discriminate].
  - tr_if; trs.
    + do 3 eexists; (split; [reflexivity|]); (split; [left; split; [reflexivity|]|discriminate]); cbn [wf state]; auto.
    + rewrite PT. do 3 eexists. split; [reflexivity|]. split; [auto|discriminate].
  - repeat (tr_if; trs); do 3 eexists; (split; [reflexivity|]); (split; [left; split; [reflexivity|]|discriminate]);
      cbn [wf state]; auto. split; [exact W|]. split; [lia|]. change (16 ^ 0) with 1. lia.
  - destruct W as (LD & L & V). destruct (is_hex v) eqn:X.
    + destruct (to_digit16_hex v X) as (d & E & D & HD). rewrite E.
      destruct (hex_push _ _ _ _ L V HD D) as (O & B & B'). cbn zeta. rewrite O.
      unfold JsonSpec.lead in LD. trs. tr_if; trs.
      { do 3 eexists; (split; [reflexivity|]); (split; [left; split; [reflexivity|]|discriminate]); cbn [wf state].
        split; [exact LD|]. split; [lia|exact B]. }
      tr_if; trs.
      { do 3 eexists; (split; [reflexivity|]); (split; [left; split; [reflexivity|]|discriminate]); cbn; auto. }
      tr_if; trs.
      { rewrite !sub32_some by lia. rewrite from_u32_some by (unfold scalar_value; lia). trs.
        do 3 eexists; (split; [reflexivity|]); (split; [left; split; [reflexivity|]|discriminate]); cbn; auto. }
      rewrite from_u32_some by (unfold scalar_value; lia). trs.
      do 3 eexists; (split; [reflexivity|]); (split; [left; split; [reflexivity|]|discriminate]); cbn; auto.
    + trs. rewrite PT. do 3 eexists. split; [reflexivity|]. split; [auto|discriminate].
Qed.

Lemma rest_handles ch t : wf t -> (forall c, ch = Some c -> scalar_value c) -> handles ch t (advance_rest ch t).
Proof.
  intros W S. unfold advance_rest, mbind. cbn [get pbind].
  destruct (state t) eqn:E;
  first [ apply misc_handles; rewrite E; exact I
        | apply number_handles; [rewrite E; reflexivity|exact W]
        | apply string_handles; [rewrite E; reflexivity|exact W|exact S]
        | idtac ].
  assert (T : t = with_flags (flags t)).
  { destruct t as [f st a s n]. unfold wf in W. cbn in *. rewrite E in *. destruct W as (-> & -> & ->). reflexivity. }
  rewrite T at 2. unfold handles. exists [], (with_flags (flags t)), ch. split; [reflexivity|].
  split; [right; split; reflexivity|reflexivity].
Qed.

Theorem step_wf t ch : wf t -> (forall c, ch = Some c -> scalar_value c) ->
  exists e t', step t ch = Some (e, t') /\ wf t' /\ flags t' = flags t /\ (ch = None -> t' = with_flags (flags t)).
Proof.
  intros W S. destruct (rest_handles ch t W S) as (e & t1 & rem & T & C & Nn).
  unfold step, advance. change (trace (mbind ?m ?g t)) with (tr (mbind m g) t).
  rewrite tr_bind. unfold tr at 1. rewrite T, seq_some.
  destruct rem as [v|].
  - destruct C as [[C _]|[<- ->]]; [discriminate|].
    destruct (start_wf (flags t) v) as (e2 & t2 & a2 & T2 & W2). unfold tr. rewrite T2.
    do 2 eexists. split; [reflexivity|]. split; [exact W2|]. split; [|discriminate].
    eapply trace_flags; [exact (k_start v (with_flags (flags t)))|exact T2].
  - rewrite tr_ret. do 2 eexists. split; [reflexivity|].
    destruct C as [[_ W1]|[<- ->]].
    + split; [exact W1|]. split; [|exact Nn].
      assert (K := k_rest ch t). exact (trace_flags _ _ _ _ _ K T).
    + split; [cbn; auto|]. split; reflexivity.
Qed.

Lemma feed_wf t text : wf t -> Forall scalar_value text ->
  exists e t', feed t text = Some (e, t') /\ wf t' /\ flags t' = flags t.
Proof.
  revert t; induction text as [|c r IH]; intros t W S.
  - exists [], t. cbn. auto.
  - inversion S as [|? ? Sc Sr]; subst. cbn.
    destruct (step_wf t (Some c) W) as (e & t1 & E & W1 & F1 & _); [intros ? [= <-]; exact Sc|].
    rewrite E. destruct (IH t1 W1 Sr) as (e2 & t2 & E2 & W2 & F2). rewrite E2. cbn.
    do 2 eexists. split; [reflexivity|]. split; [exact W2|congruence].
Qed.
Lemma full_wf t text : wf t -> Forall scalar_value text ->
  exists e, full t text = Some (e, with_flags (flags t)).
Proof.
  intros W S. rewrite full_feed. destruct (feed_wf t text W S) as (e & t' & E & W' & F). rewrite E.
  destruct (step_wf t' None W') as (e2 & t2 & E2 & _ & _ & N2); [discriminate|].
  rewrite E2, (N2 eq_refl), F. eexists. reflexivity.
Qed.

(** ** Pushing, with a handler *)

Lemma tell_app {H R} (h : handler H R) s a b :
  tell h s (a ++ b) = match tell h s a with (s', None) => tell h s' b | other => other end.
Proof.
  revert s; induction a as [|e a IH]; intros s; cbn; [reflexivity|].
  destruct (h s e) as [s' [r|]]; [reflexivity|apply IH].
Qed.

Lemma push_tell {H R} (h : handler H R) t s ch e t' : step t ch = Some (e, t') ->
  push h t s ch = match tell h s e with
    | (s', None) => Ok (t', s', Continued (status t'))
    | (s', Some r) => Ok (with_flags (flags t), s', Broke r)
    end.
Proof.
  unfold step. destruct (trace (advance ch t)) as [[[e0 t0] a0]|] eqn:T; [|discriminate].
  intros [= -> ->]. pose proof (run_prog_tell h (advance ch t) (flags t) e t' a0 s (k_advance ch t) T) as Q.
  unfold push. destruct (tell h s e) as [s' [r|]].
  - destruct Q as (t1 & -> & F). now rewrite <- F.
  - now rewrite Q.
Qed.

Lemma push_str_tell {H R} (h : handler H R) text : forall t s e t', feed t text = Some (e, t') ->
  push_str h t s text = match tell h s e with
    | (s', None) => Ok (t', s', Continued (status t'))
    | (s', Some r) => Ok (with_flags (flags t), s', Broke r)
    end.
Proof.
  induction text as [|c r IH]; intros t s e t' F; cbn in *.
  - injection F as <- <-. reflexivity.
  - destruct (step t (Some c)) as [[e1 t1]|] eqn:S; [|discriminate].
    destruct (feed t1 r) as [[e2 t2]|] eqn:F2; [|discriminate]. cbn in F. injection F as <- <-.
    rewrite (push_tell h t s _ _ _ S), tell_app. destruct (tell h s e1) as [s1 [x|]]; [reflexivity|].
    rewrite (IH _ _ _ _ F2). rewrite (step_flags _ _ _ _ S). reflexivity.
Qed.

Lemma feed_flags t text e t' : feed t text = Some (e, t') -> flags t' = flags t.
Proof.
  revert t e; induction text as [|c r IH]; intros t e F; cbn in *; [now injection F as <- <-|].
  destruct (step t (Some c)) as [[e1 t1]|] eqn:S; [|discriminate].
  destruct (feed t1 r) as [[e2 t2]|] eqn:F2; [|discriminate]. injection F as <- <-.
  rewrite (IH _ _ F2). eapply step_flags; exact S.
Qed.

Lemma parse_str_tell {H R} (h : handler H R) text t s e t' : full t text = Some (e, t') ->
  parse_str h t s text = match tell h s e with
    | (s', None) => Ok (t', s', Continued SDone)
    | (s', Some r) => Ok (with_flags (flags t), s', Broke r)
    end.
Proof.
  rewrite full_feed. destruct (feed t text) as [[e1 t1]|] eqn:F; [|discriminate].
  destruct (step t1 None) as [[e2 t2]|] eqn:S; [|discriminate]. cbn. intros [= <- <-].
  unfold parse_str. rewrite (push_str_tell h text t s e1 t1 F), tell_app.
  destruct (tell h s e1) as [s1 [x|]]; [reflexivity|].
  rewrite (push_tell h t1 s1 None e2 t2 S). destruct (tell h s1 e2) as [s2 [x|]]; [|reflexivity].
  rewrite (feed_flags _ _ _ _ F). reflexivity.
Qed.
