(** Property C121: the JSON document decoder after an error. *)
From Verif Require Import Base StreamSpec StreamModel TokSyntax DocModel DocSpec DocProofs DocMore DocProps.
From Verif Require TokModel TokSafe TokSession TokProps TokExactSpec TokExactProps.
Local Open Scope res_scope.

(** ** Vocabulary *)

(** The tokens are the beginning of something that the decoder accepts
    ([doc_language_partial]). *)
Definition beginning (ts : list Token) : Prop := exists us, code_document (strip (ts ++ us)).
(** Reading tokens from the left, with [kept] the ones that were accepted so
    far: a token that can follow them is kept and reported as what it is; any
    other is reported as an error and left out. *)
Inductive recovered : list Token -> list Token -> list Item -> Prop :=
| rec_end kept : recovered kept [] []
| rec_keep kept t ts is_ : beginning (kept ++ [t]) -> recovered (kept ++ [t]) ts is_ ->
    recovered kept (t :: ts) (match item_for t with Some i => i :: is_ | None => is_ end)
| rec_skip kept t ts is_ : ~ beginning (kept ++ [t]) -> recovered kept ts is_ ->
    recovered kept (t :: ts) (IError :: is_).
(** [us] is [ts] without some of its tokens, [n] many. *)
Inductive without : list Token -> list Token -> nat -> Prop :=
| wo_end : without [] [] 0
| wo_keep t us ts n : without us ts n -> without (t :: us) (t :: ts) n
| wo_skip t us ts n : without us ts n -> without us (t :: ts) (S n).
Definition is_error (i : Item) : bool := match i with IError => true | _ => false end.

(** ** Proofs *)

Lemma error_stays d t d' : advance d t = (d', Some IError) -> d' = d.
Proof.
  unfold advance, unexpected, propagate, DocModel.value, array_open, array_close, object_open, object_close.
  destruct (state d), t; intros H; try discriminate H; now injection H as <-.
Qed.
Lemma kept_item d t d' i : advance d t = (d', i) -> i <> Some IError -> i = item_for t.
Proof.
  unfold advance, unexpected, propagate, DocModel.value, array_open, array_close, object_open, object_close.
  destruct (state d), t; cbn; intros H NE; injection H as <- <-; try reflexivity; now destruct NE.
Qed.
Lemma beginning_next kept d t : accepts new kept = Some d ->
  (beginning (kept ++ [t]) <-> snd (advance d t) <> Some IError).
Proof.
  intros A. unfold beginning. rewrite <- accepts_prefix. rewrite accepts_app, A. cbn [accepts].
  destruct (advance d t) as [d' [[]|]]; cbn [snd]; split; try discriminate; eauto; intros [? Z] || intros Z; try discriminate; now destruct Z.
Qed.
Lemma kept_next kept d t d' i : accepts new kept = Some d -> advance d t = (d', i) -> i <> Some IError -> accepts new (kept ++ [t]) = Some d'.
Proof. intros A E NE. rewrite accepts_app, A. cbn [accepts]. rewrite E. destruct i as [[]|]; try reflexivity. now destruct NE. Qed.
Lemma error_dec (i : option Item) : {i = Some IError} + {i <> Some IError}.
Proof. destruct i as [[]|]; [left; reflexivity|right; discriminate..]. Qed.

Lemma recovers ts : forall kept d, accepts new kept = Some d -> recovered kept ts (snd (feed d ts)).
Proof.
  induction ts as [|t ts IH]; intros kept d A; [constructor|]. cbn [feed]. destruct (advance d t) as [d' i] eqn:E.
  pose proof (beginning_next kept d t A) as B. rewrite E in B. cbn [snd] in B. destruct (error_dec i) as [->|NE].
  - rewrite (error_stays _ _ _ E). specialize (IH kept d A). destruct (feed d ts) as [d2 is_]. cbn [snd] in *.
    apply rec_skip; [|exact IH]. rewrite B. intros Z. now apply Z.
  - specialize (IH _ _ (kept_next _ _ _ _ _ A E NE)). rewrite (kept_item _ _ _ _ E NE).
    destruct (feed d' ts) as [d2 is_]. cbn [snd] in *. destruct (item_for t) eqn:Q.
    + pose proof (rec_keep kept t ts is_ (proj2 B NE) IH) as R. now rewrite Q in R.
    + pose proof (rec_keep kept t ts is_ (proj2 B NE) IH) as R. now rewrite Q in R.
Qed.

(** ** C121: what is reported after errors *)

Theorem doc_recovers : forall ts, recovered [] ts (reported ts).
Proof. intros ts. now apply recovers. Qed.
(** This determines the items. *)
Theorem doc_recovers_only : forall ts is_, recovered [] ts is_ -> is_ = reported ts.
Proof.
  intros ts is_ R. pose proof (doc_recovers ts) as R'. revert R'. generalize (reported ts). induction R; intros js R'; inversion R'; subst; try contradiction; auto.
  - erewrite IHR by eassumption; reflexivity.
  - erewrite IHR by eassumption; reflexivity.
Qed.
(** A token that is reported as an error changes nothing: what follows is
    reported as if the token was not there. *)
Theorem doc_error_local : forall ts t us, reported (ts ++ [t]) = reported ts ++ [IError] ->
  exists is_, reported (ts ++ us) = reported ts ++ is_ /\ reported (ts ++ t :: us) = reported ts ++ IError :: is_.
Proof.
  intros ts t us. unfold reported. rewrite !feed_app. destruct (feed new ts) as [d is_]. cbn [feed snd].
  destruct (advance d t) as [d' i] eqn:E. intros H. destruct i as [i|]; cbn [snd] in H; apply app_inv_head in H; [injection H as ->|discriminate].
  rewrite (error_stays _ _ _ E). destruct (feed d us) as [d2 js]. cbn [snd]. eauto.
Qed.
(** Without the tokens reported as errors, exactly the other items are reported,
    and no errors. *)
Lemma removed ts : forall d, exists us n, without us ts n /\ snd (feed d us) = filter (fun i => negb (is_error i)) (snd (feed d ts)) /\
  n = length (filter is_error (snd (feed d ts))).
Proof.
  induction ts as [|t ts IH]; intros d; [exists [], 0; repeat split; constructor|]. cbn [feed]. destruct (advance d t) as [d' i] eqn:E.
  destruct (error_dec i) as [->|NE].
  - rewrite (error_stays _ _ _ E). destruct (IH d) as (us & n & W & Q & L). exists us, (S n). destruct (feed d ts) as [d2 is_]. cbn [snd filter is_error negb length] in *.
    split; [now constructor|]. split; [exact Q|now f_equal].
  - destruct (IH d') as (us & n & W & Q & L). exists (t :: us), n. cbn [feed]. rewrite E. destruct (feed d' ts) as [d2 is_], (feed d' us) as [d3 js].
    cbn [snd] in *. split; [now constructor|]. destruct i as [i|]; cbn [snd]; [|auto].
    destruct i; try (now destruct NE); cbn [filter is_error negb]; (split; [now rewrite Q|exact L]).
Qed.
Theorem doc_errors_removed : forall ts, exists us, without us ts (length (filter is_error (reported ts))) /\
  error_free us /\ reported us = filter (fun i => negb (is_error i)) (reported ts).
Proof.
  intros ts. destruct (removed ts new) as (us & n & W & Q & ->). exists us. split; [exact W|]. split; [|exact Q].
  unfold error_free. unfold reported. rewrite Q, filter_In. now intros [_ Z].
Qed.
(** From bytes: the tokenizer finds some tokens in the data, and the items are
    what is recovered from these, whatever the history of data and pops. *)
Theorem doc_recovers_bytes : forall h is_ m buf t d, drained h is_ m buf t d ->
  exists h' ts, TokProps.drained h' ts m buf t /\ TokSession.fed h' = TokSession.fed h /\ recovered [] ts is_.
Proof.
  intros h is_ m buf t d (h' & v & rs & -> & [F E] & ->). apply Forall_app in F. destruct F as [F FV]. inversion FV as [|? ? HV _]; subst.
  destruct (session_break h' v rs m buf t d F HV E) as (h1 & rs1 & F1 & Q1 & E1 & R).
  exists (h1 ++ [TokModel.Pop v]), (TokSession.tokens rs1). split; [|split].
  - exists h1, v, rs1. split; [reflexivity|]. split; [split; [apply Forall_app; split; assumption|exact E1]|reflexivity].
  - rewrite !TokSession.fed_app, Q1. reflexivity.
  - pose proof (doc_recovers (TokSession.tokens rs1)) as K. unfold reported in K. now rewrite R in K.
Qed.
(** All of it: for every sequence of bytes, with the tokens that C123 says it
    has, and the errors of a last one that is not complete. *)
Theorem doc_exact : forall h is_ m buf t d us rest es, drained h is_ m buf t d ->
  TokExactSpec.telling (TokSession.fed h) us rest -> TokExactSpec.unfinished rest es ->
  recovered [] (us ++ map TError es) is_ /\ buf = rest.
Proof.
  intros h is_ m buf t d us rest es D T U. destruct (doc_recovers_bytes _ _ _ _ _ _ D) as (h' & ts & D' & E & R).
  rewrite <- E in T. destruct (TokExactProps.tok_exact _ _ _ _ _ _ _ _ D' T U) as [<- ->]. auto.
Qed.
Print Assumptions doc_exact.
(** Beside: [[],}] is read like [[],] with an error in between. *)
Example doc_recovers_case :
  reported [TArrayOpen; TArrayOpen; TArrayClose; TObjectClose; TColon; TArrayClose] = [IArrayOpen; IArrayOpen; IArrayClose; IError; IError; IArrayClose] /\
  ~ beginning [TArrayOpen; TArrayOpen; TArrayClose; TObjectClose] /\ beginning [TArrayOpen; TArrayOpen; TArrayClose; TArrayClose] /\
  reported [TArrayOpen; TArrayOpen; TArrayClose; TArrayClose] = [IArrayOpen; IArrayOpen; IArrayClose; IArrayClose].
Proof.
  split; [reflexivity|]. split; [|split; [|reflexivity]].
  - unfold beginning. rewrite <- accepts_prefix. intros [? Z]. discriminate Z.
  - unfold beginning. rewrite <- accepts_prefix. eexists. reflexivity.
Qed.

Print Assumptions doc_recovers.
Print Assumptions doc_recovers_only.
Print Assumptions doc_error_local.
Print Assumptions doc_errors_removed.
Print Assumptions doc_recovers_bytes.
