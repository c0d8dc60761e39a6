(** Properties C40, C41 and C62-C64: the JSON document decoder. *)
From Verif Require Import Base StreamSpec StreamModel StreamProofs TokSyntax DocModel DocSpec DocProofs DocMore.
From Verif Require TokModel TokSafe TokSession TokSpec TokProps.
Local Open Scope res_scope.

(** ** Vocabulary *)

(** The items reported for a sequence of tokens. *)
Definition reported (ts : list Token) : list Item := snd (feed new ts).
Definition error_free (ts : list Token) : Prop := ~ In IError (reported ts).
(** A new decoder goes through the history [h] of arriving data and pops. *)
Definition runs (h : list TokModel.event) (rs : list (flow Item)) (buf : list N) (t : TokModel.dec) (d : inner) : Prop :=
  Forall TokSession.fair h /\ session h [] TokModel.new new = Ok (rs, buf, t, d).
(** As before, and the last event is a pop that asks for more, with [m]. *)
Definition drained (h : list TokModel.event) (is_ : list Item) (m : More) (buf : list N) (t : TokModel.dec) (d : inner) : Prop :=
  exists h' v rs, h = h' ++ [TokModel.Pop v] /\ runs h (rs ++ [Break m]) buf t d /\ is_ = items_of rs.

(** ** C41: nesting *)

(** Whatever the tokens, errors included: whenever an array or object is
    reported as closed, it is of the kind that was opened last and is open. *)
Theorem doc_nesting : forall ts, nested [] (marks (reported ts)).
Proof. intros ts. apply (nests ts new). reflexivity. Qed.
Theorem doc_nesting_bytes : forall h rs buf t d, runs h rs buf t d -> nested [] (marks (items_of rs)).
Proof.
  intros h rs buf t d [F E]. destruct (session_ok h F [] TokModel.new new (TokSafe.wf_new [])) as (rs1 & b1 & t1 & d1 & h1 & rs' & E1 & _ & _ & _ & E5 & _).
  rewrite E in E1. injection E1 as <- <- <- <-. pose proof (doc_nesting (TokSession.tokens rs')) as N. unfold reported in N. rewrite E5 in N. exact N.
Qed.
(** Beside: [[[],{]}] has four marks and two errors. *)
Example doc_nesting_case : reported [TArrayOpen; TArrayOpen; TArrayClose; TComma; TObjectOpen; TArrayClose; TObjectClose] =
  [IArrayOpen; IArrayOpen; IArrayClose; IObjectOpen; IError; IError].
Proof. reflexivity. Qed.

(** ** C40: accepted documents *)

(** Full statement: [error_free ts <-> exists us, document (ts ++ us)], that is,
    there is no error as long as the tokens are the beginning of a document.
    It is false in both directions (below).  What holds instead: *)
Theorem doc_language_partial : forall ts, error_free ts <-> exists us, code_document (strip (ts ++ us)).
Proof.
  intros ts. rewrite <- accepts_prefix. unfold error_free, reported. pose proof (accepts_feed ts new) as H.
  destruct (accepts new ts) as [d|].
  - split; [intros _; exists d; reflexivity|]. intros _. apply H.
  - split; [intros K; exfalso; exact (K H)|intros [d E]; discriminate].
Qed.
(** A document is complete when any further token but white space is an error. *)
Theorem doc_complete_partial : forall ts,
  (error_free ts /\ forall t, is_ws t = false -> ~ error_free (ts ++ [t])) <-> code_document (strip ts).
Proof.
  intros ts. rewrite <- accepts_whole. unfold error_free, reported. pose proof (accepts_feed ts new) as H. split.
  - intros [EF ER]. destruct (accepts new ts) as [d|] eqn:A; [|exfalso; exact (EF H)]. exists d. split; [reflexivity|].
    intros t W. specialize (ER t W). pose proof (accepts_feed (ts ++ [t]) new) as G. rewrite accepts_app, A in G.
    destruct (accepts d [t]) as [d'|]; [|reflexivity]. exfalso. apply ER. apply G.
  - intros (d & A & K). rewrite A in H. split; [apply H|]. intros t W G. specialize (K t W).
    pose proof (accepts_feed (ts ++ [t]) new) as X. rewrite accepts_app, A, K in X. exact (G X).
Qed.
(** For documents of arrays and objects without scalar values and without empty
    objects, this is what JSON says. *)
Theorem doc_json_partial : forall ts, keys_only (strip ts) -> no_empty_object (strip ts) ->
  ((error_free ts /\ forall t, is_ws t = false -> ~ error_free (ts ++ [t])) <-> document ts).
Proof. intros ts K E. rewrite doc_complete_partial. apply json_whole; assumption. Qed.
(** Beside: { "": [ [], [] ] } *)
Definition skeleton : list Token :=
  [TObjectOpen; TString [] []; TColon; TWhitespace [0x20%N]; TArrayOpen; TArrayOpen; TArrayClose; TComma; TArrayOpen; TArrayClose; TArrayClose; TObjectClose].
Example doc_json_case : keys_only (strip skeleton) /\ no_empty_object (strip skeleton) /\ document skeleton.
Proof.
  split; [|split].
  - intros a t b E S. cbn in E.
    repeat (destruct a as [|? a]; cbn [app] in E; [injection E as E1 E2; subst t; first [solve [inversion S]|subst b; eexists; eexists; eexists; split; reflexivity]|
      injection E as E1 E; clear E1]). destruct a; discriminate.
  - intros a b E. cbn in E. repeat (destruct a as [|? a]; cbn [app] in E; [discriminate|injection E as E1 E; clear E1]). destruct a; discriminate.
  - unfold document. cbn. apply (v_object [TString [] []; TColon; TArrayOpen; TArrayOpen; TArrayClose; TComma; TArrayOpen; TArrayClose; TArrayClose]).
    apply m_one. apply (v_array [TArrayOpen; TArrayClose; TComma; TArrayOpen; TArrayClose]).
    apply (e_more [TArrayOpen; TArrayClose] [TArrayOpen; TArrayClose]); [constructor|]. apply e_one. constructor.
Qed.
(** Text: a decoder that was given an RFC 8259 text reports what its tokens say. *)
Theorem doc_text : forall h is_ m buf t d text us, drained h is_ m buf t d -> TokSession.fed h = text ->
  TokSpec.rfc_lexed text us [] -> is_ = reported us.
Proof.
  intros h is_ m buf t d text us (h' & v & rs & -> & [F E] & ->) Q L. apply Forall_app in F. destruct F as [F FV]. inversion FV as [|? ? HV _]; subst.
  destruct (session_break h' v rs m buf t d F HV E) as (h1 & rs1 & F1 & Q1 & E1 & R).
  assert (D : TokProps.drained (h1 ++ [TokModel.Pop v]) (TokSession.tokens rs1) m buf t).
  { exists h1, v, rs1. split; [reflexivity|]. split; [split; [apply Forall_app; split; assumption|exact E1]|reflexivity]. }
  assert (Q2 : TokSession.fed (h1 ++ [TokModel.Pop v]) = TokSession.fed (h' ++ [TokModel.Pop v])) by (rewrite !TokSession.fed_app, Q1; reflexivity).
  destruct (TokProps.tok_rfc _ _ _ _ _ _ _ _ D Q2 L) as [(more & E2 & K) _]. destruct (K eq_refl) as [-> _]. rewrite app_nil_r in E2.
  unfold reported. rewrite <- E2, R. reflexivity.
Qed.
(** False: two values are taken for a document (or its beginning) ... *)
Theorem doc_two_values_refuted : error_free [TNull; TNull] /\ ~ exists us, document ([TNull; TNull] ++ us).
Proof.
  split; [intros [H|[H|[]]]; discriminate|]. intros [us V]. unfold document in V. cbn in V. inversion V; subst; discriminate.
Qed.
(** ... elements of an array need no comma: [null null] ... *)
Theorem doc_no_comma_refuted : error_free [TArrayOpen; TNull; TNull; TArrayClose] /\
  forall t, is_ws t = false -> ~ error_free ([TArrayOpen; TNull; TNull; TArrayClose] ++ [t]).
Proof.
  apply doc_complete_partial. cbn. apply (cd [] [TArrayOpen; TNull; TNull; TArrayClose]); [constructor|].
  apply (c_array_none [TNull; TNull]). repeat constructor.
Qed.
(** ... and may have none: the document [null,null] is an error, as are {} and {"":null}. *)
Theorem doc_comma_refuted : document [TArrayOpen; TNull; TComma; TNull; TArrayClose] /\
  ~ error_free [TArrayOpen; TNull; TComma; TNull; TArrayClose].
Proof.
  split.
  - apply (v_array [TNull; TComma; TNull]). apply (e_more [TNull] [TNull]); [constructor; constructor|]. apply e_one. constructor. constructor.
  - intros H. apply H. cbn. auto.
Qed.
Theorem doc_empty_object_refuted : document [TObjectOpen; TObjectClose] /\ ~ error_free [TObjectOpen; TObjectClose].
Proof. split; [constructor|]. intros H. apply H. cbn. auto. Qed.
Theorem doc_member_refuted : document [TObjectOpen; TString [] []; TColon; TNull; TObjectClose] /\
  ~ error_free [TObjectOpen; TString [] []; TColon; TNull; TObjectClose].
Proof.
  split; [|intros H; apply H; cbn; auto].
  apply (v_object [TString [] []; TColon; TNull]). apply m_one. constructor. constructor.
Qed.

(** ** C62: chunking *)

Theorem doc_chunking : forall h1 h2 is1 is2 m1 m2 buf1 t1 d1 buf2 t2 d2,
  drained h1 is1 m1 buf1 t1 d1 -> drained h2 is2 m2 buf2 t2 d2 -> TokSession.fed h1 = TokSession.fed h2 ->
  is1 = is2 /\ m1 = m2 /\ buf1 = buf2 /\ t1 = t2 /\ d1 = d2.
Proof.
  assert (G : forall h is_ m buf t d, drained h is_ m buf t d -> exists h' ts, TokProps.drained h' ts m buf t /\
    TokSession.fed h' = TokSession.fed h /\ feed new ts = (d, is_)).
  { intros h is_ m buf t d (h' & v & rs & -> & [F E] & ->). apply Forall_app in F. destruct F as [F FV]. inversion FV as [|? ? HV _]; subst.
    destruct (session_break h' v rs m buf t d F HV E) as (h1 & rs1 & F1 & Q1 & E1 & R).
    exists (h1 ++ [TokModel.Pop v]), (TokSession.tokens rs1). split.
    { exists h1, v, rs1. split; [reflexivity|]. split; [split; [apply Forall_app; split; assumption|exact E1]|reflexivity]. }
    split; [rewrite !TokSession.fed_app, Q1; reflexivity|exact R]. }
  intros h1 h2 is1 is2 m1 m2 buf1 t1 d1 buf2 t2 d2 A B Q.
  destruct (G _ _ _ _ _ _ A) as (h1' & ts1 & D1 & Q1 & R1). destruct (G _ _ _ _ _ _ B) as (h2' & ts2 & D2 & Q2 & R2).
  destruct (TokProps.tok_chunking _ _ _ _ _ _ _ _ _ _ D1 D2 ltac:(congruence)) as (-> & -> & -> & ->).
  rewrite R1 in R2. injection R2 as -> ->. auto.
Qed.

(** ** C63: every pop returns *)

Theorem doc_pop_returns : forall h, Forall TokSession.fair h -> exists rs buf t d, session h [] TokModel.new new = Ok (rs, buf, t, d).
Proof.
  intros h F. destruct (session_ok h F [] TokModel.new new (TokSafe.wf_new [])) as (rs & buf & t & d & _ & _ & E & _).
  exists rs, buf, t, d. exact E.
Qed.
Theorem doc_pop_drains : forall h rs buf t d v, runs h rs buf t d -> honest v ->
  exists n is_ m buf' t' d', drained (h ++ repeat (TokModel.Pop v) (S n)) is_ m buf' t' d'.
Proof.
  intros h rs buf t d v [F E] HV.
  destruct (session_ok h F [] TokModel.new new (TokSafe.wf_new [])) as (rs1 & b1 & t1 & d1 & h1 & rs' & E1 & _ & _ & _ & _ & W).
  rewrite E in E1. injection E1 as <- <- <- <-.
  destruct (drains v HV (S (TokSafe.phi buf t)) buf t d W (Nat.lt_succ_diag_r _)) as (k & rs2 & m & buf' & t' & d' & E2).
  exists k, (items_of (rs ++ rs2)), m, buf', t', d'. exists (h ++ repeat (TokModel.Pop v) k), v, (rs ++ rs2).
  split; [rewrite <- app_assoc; f_equal; change [TokModel.Pop v] with (repeat (TokModel.Pop v) 1); rewrite <- repeat_app; f_equal; lia|].
  split; [|reflexivity]. split.
  - apply Forall_app. split; [exact F|]. apply Forall_forall. intros e He. apply repeat_spec in He. subst e. exact HV.
  - rewrite session_app, E. cbn [bind]. rewrite E2. cbn [bind]. rewrite app_assoc. reflexivity.
Qed.
(** Beside: the text [[],{] in two pieces. *)
Example doc_drained_case : exists buf t d,
  drained [TokModel.Feed [0x5b; 0x5b]%N; TokModel.Pop slice_view; TokModel.Pop slice_view; TokModel.Pop slice_view;
           TokModel.Feed [0x5d; 0x2c; 0x7b]%N; TokModel.Pop slice_view; TokModel.Pop slice_view; TokModel.Pop slice_view]
    [IArrayOpen; IArrayOpen; IArrayClose; IObjectOpen] (mkMore 1 (Some 1)) buf t d.
Proof.
  eexists. eexists. eexists. eexists [_; _; _; _; _; _; _], slice_view, [Cont IArrayOpen; Cont IArrayOpen; Break (mkMore 1 (Some 1)); Cont IArrayClose; Cont IObjectOpen].
  split; [reflexivity|]. split; [|reflexivity]. split; [|vm_compute; reflexivity].
  pose proof slice_honest. repeat (constructor; [first [exact I|assumption]|]). constructor.
Qed.

(** ** C64: keys *)

(** Keys should be reported as such, and differently from values.  They never
    are, for any tokens: a key is reported like a scalar. *)
Theorem doc_key_refuted : forall ts, ~ In IKey (reported ts).
Proof.
  assert (G : forall ts d, ~ In IKey (snd (feed d ts))).
  { induction ts as [|t ts IH]; intros d; [intros []|]. cbn [feed]. destruct (advance d t) as [d1 i] eqn:A. specialize (IH d1).
    destruct (feed d1 ts) as [d2 is_]. cbn [snd] in *. destruct i as [i|]; [|exact IH]. intros [->|H]; [|exact (IH H)].
    unfold advance in A. destruct (state d); destruct t; discriminate. }
  intros ts. apply G.
Qed.

(** What is reported instead.  White space, colons and commas are passed over;
    every other token has one item, in order, that depends on the token alone: an
    error, or what the token opens, closes or is. *)
Definition item_of (t : Token) (i : Item) : Prop :=
  match t with
  | TError _ => i = IError
  | TWhitespace _ => False
  | TColon | TComma => i = IError
  | TArrayOpen => i = IError \/ i = IArrayOpen
  | TArrayClose => i = IError \/ i = IArrayClose
  | TObjectOpen => i = IError \/ i = IObjectOpen
  | TObjectClose => i = IError \/ i = IObjectClose
  | TNull | TFalse | TTrue | TNumber _ | TString _ _ => i = IError \/ i = IPrim
  end.
Definition silent (t : Token) : Prop := match t with TWhitespace _ | TColon | TComma => True | _ => False end.
Inductive one_each : list Token -> list Item -> Prop :=
| oe_end : one_each [] []
| oe_silent t ts is_ : silent t -> one_each ts is_ -> one_each (t :: ts) is_
| oe_item t ts i is_ : item_of t i -> one_each ts is_ -> one_each (t :: ts) (i :: is_).
Theorem doc_items_partial : forall ts, one_each ts (reported ts).
Proof.
  intros ts. unfold reported. generalize new. induction ts as [|t ts IH]; intros d; [constructor|].
  cbn [feed]. destruct (advance d t) as [d1 i] eqn:A. specialize (IH d1). destruct (feed d1 ts) as [d2 is_]. cbn [snd] in *.
  unfold advance in A. destruct (state d), t; injection A as <- <-;
    first [apply oe_silent; [exact I|exact IH] | apply oe_item; [cbn; auto; fail|exact IH]].
Qed.
(** So without errors a key is reported as a scalar, which is also what the
    value after it is reported as. *)
Definition item_for (t : Token) : option Item :=
  match t with
  | TError _ => Some IError
  | TWhitespace _ | TColon | TComma => None
  | TArrayOpen => Some IArrayOpen
  | TArrayClose => Some IArrayClose
  | TObjectOpen => Some IObjectOpen
  | TObjectClose => Some IObjectClose
  | TNull | TFalse | TTrue | TNumber _ | TString _ _ => Some IPrim
  end.
Theorem doc_key_partial : forall ts, error_free ts ->
  reported ts = flat_map (fun t => match item_for t with Some i => [i] | None => [] end) ts.
Proof.
  intros ts EF. unfold error_free in EF. pose proof (doc_items_partial ts) as H. revert EF.
  induction H as [|t ts is_ S H IH|t ts i is_ O H IH]; intros EF; [reflexivity| |].
  - cbn [flat_map]. rewrite <- (IH EF). destruct t; try contradiction; reflexivity.
  - cbn [flat_map]. rewrite <- IH by (intros K; apply EF; right; exact K).
    assert (NE : i <> IError) by (intros ->; apply EF; left; reflexivity).
    destruct t; cbn in O |- *; try contradiction; try (destruct O as [O|O]); subst; congruence || reflexivity.
Qed.
Example doc_key_case : error_free [TObjectOpen; TString [] []; TColon; TString [] []; TObjectOpen] /\
  reported [TObjectOpen; TString [] []; TColon; TString [] []; TObjectOpen] = [IObjectOpen; IPrim; IPrim; IObjectOpen].
Proof. split; [|reflexivity]. unfold error_free. cbn. intuition discriminate. Qed.

Print Assumptions doc_nesting.
Print Assumptions doc_nesting_bytes.
Print Assumptions doc_language_partial.
Print Assumptions doc_complete_partial.
Print Assumptions doc_json_partial.
Print Assumptions doc_text.
Print Assumptions doc_two_values_refuted.
Print Assumptions doc_no_comma_refuted.
Print Assumptions doc_comma_refuted.
Print Assumptions doc_empty_object_refuted.
Print Assumptions doc_member_refuted.
Print Assumptions doc_chunking.
Print Assumptions doc_pop_returns.
Print Assumptions doc_pop_drains.
Print Assumptions doc_key_refuted.
Print Assumptions doc_items_partial.
Print Assumptions doc_key_partial.
