(** Proofs about the JSON document decoder: JSON documents without scalars,
    nesting, and the decoder on top of the tokenizer. *)
From Verif Require Import Base StreamSpec StreamModel TokSyntax DocModel DocSpec DocProofs.
From Verif Require TokModel TokSafe TokSession.
Local Open Scope res_scope.

(** ** Documents without scalar values and empty objects *)

Lemma keys_first t ts a b : keys_only (a ++ (t :: ts) ++ b) -> scalar t -> exists x, ts ++ b = TColon :: x.
Proof.
  intros K S. destruct (K a t (ts ++ b) eq_refl S) as (raw & s & x & _ & E). exists x. exact E.
Qed.
Lemma container_first v : container v -> exists t v', v = t :: v' /\ (t = TArrayOpen \/ t = TObjectOpen).
Proof. intros C. inversion C; eauto. Qed.
Lemma no_scalars ss v a b : keys_only (a ++ (ss ++ v) ++ b) -> Forall scalar ss ->
  (exists t v', v = t :: v' /\ t <> TColon) -> ss = [].
Proof.
  intros K F (t & v' & -> & NT). destruct ss as [|s ss]; [reflexivity|]. exfalso. inversion F as [|? ? S F']; subst. cbn [app] in K.
  destruct (keys_first s (ss ++ t :: v') a b K S) as [x E]. destruct ss as [|s2 ss]; cbn in E.
  - injection E as E _. exact (NT E).
  - injection E as -> _. inversion F' as [|? ? S2]; subst. inversion S2.
Qed.
Lemma code_json :
  (forall v, container v -> forall a b, keys_only (a ++ v ++ b) -> value v) /\
  (forall vs, items vs -> forall a b, keys_only (a ++ vs ++ b) -> elements vs) /\
  (forall ms, pairs ms -> forall a b, keys_only (a ++ ms ++ b) -> members ms).
Proof.
  assert (CF : forall v rest, container v -> exists t v', v ++ rest = t :: v' /\ t <> TColon).
  { intros v rest C. destruct (container_first v C) as (t & v' & -> & [-> | ->]); eexists; eexists; (split; [reflexivity|discriminate]). }
  apply grammar_min.
  - intros ss F a b K. assert (ss = []); [|subst; constructor].
    eapply (no_scalars ss [TArrayClose] (a ++ [TArrayOpen]) b); [|exact F|eexists; eexists; split; [reflexivity|discriminate]].
    rewrite <- app_assoc. exact K.
  - intros vs _ IH a b K. apply v_array, (IH (a ++ [TArrayOpen]) (TArrayClose :: b)).
    cbn [app] in K. rewrite <- app_assoc in K. rewrite <- app_assoc. exact K.
  - intros vs _ IH a b K. apply v_object, (IH (a ++ [TObjectOpen]) (TObjectClose :: b)).
    cbn [app] in K. rewrite <- app_assoc in K. rewrite <- app_assoc. exact K.
  - intros ss v F C IH a b K. assert (ss = []).
    { eapply (no_scalars ss v a b); [exact K|exact F|]. destruct (CF v [] C) as (t & v' & E & NT). rewrite app_nil_r in E. eauto. }
    subst ss. cbn [app] in *. apply e_one, (IH a b K).
  - intros ss v vs F C IH _ IHs a b K. assert (ss = []).
    { eapply (no_scalars ss (v ++ TComma :: vs) a b); [exact K|exact F|]. apply CF, C. }
    subst ss. cbn [app] in *. apply e_more.
    + apply (IH a (TComma :: vs ++ b)). rewrite <- app_assoc in K. exact K.
    + apply (IHs (a ++ v ++ [TComma]) b). rewrite <- app_assoc in K. rewrite <- !app_assoc. exact K.
  - intros raw k ss v F C IH a b K. assert (ss = []).
    { eapply (no_scalars ss v (a ++ [TString raw k; TColon]) b); [rewrite <- app_assoc; exact K|exact F|].
      destruct (CF v [] C) as (t & v' & E & NT). rewrite app_nil_r in E. eauto. }
    subst ss. cbn [app] in *. apply m_one, (IH (a ++ [TString raw k; TColon]) b). rewrite <- app_assoc. exact K.
  - intros raw k ss v ms F C IH _ IHs a b K. assert (ss = []).
    { eapply (no_scalars ss (v ++ TComma :: ms) (a ++ [TString raw k; TColon]) b); [rewrite <- app_assoc; exact K|exact F|]. apply CF, C. }
    subst ss. cbn [app] in *. apply m_more.
    + apply (IH (a ++ [TString raw k; TColon]) (TComma :: ms ++ b)). rewrite <- app_assoc in K. rewrite <- app_assoc. exact K.
    + apply (IHs (a ++ TString raw k :: TColon :: v ++ [TComma]) b). rewrite <- app_assoc in K. rewrite <- app_assoc. cbn [app].
      rewrite <- app_assoc. exact K.
Qed.

Scheme value_min := Minimality for value Sort Prop
  with elements_min := Minimality for elements Sort Prop
  with members_min := Minimality for members Sort Prop.
Combined Scheme json_min from value_min, elements_min, members_min.

Definition no_colon (b : list Token) : Prop := forall x, b <> TColon :: x.
Lemma json_code :
  (forall v, value v -> forall a b, keys_only (a ++ v ++ b) -> no_empty_object (a ++ v ++ b) -> no_colon b -> container v) /\
  (forall vs, elements vs -> forall a b, keys_only (a ++ vs ++ b) -> no_empty_object (a ++ vs ++ b) -> no_colon b -> items vs) /\
  (forall ms, members ms -> forall a b, keys_only (a ++ ms ++ b) -> no_empty_object (a ++ ms ++ b) -> no_colon b -> pairs ms).
Proof.
  apply json_min.
  - intros t S a b K _ NC. exfalso. destruct (keys_first t [] a b K S) as [x E]. exact (NC x E).
  - intros. apply (c_array_none []). constructor.
  - intros vs _ IH a b K E NC. apply c_array, (IH (a ++ [TArrayOpen]) (TArrayClose :: b)); [| |intros x H; discriminate];
      cbn [app] in *; rewrite <- app_assoc in K, E; rewrite <- app_assoc; assumption.
  - intros a b _ E _. exfalso. exact (E a b eq_refl).
  - intros vs _ IH a b K E NC. apply c_object, (IH (a ++ [TObjectOpen]) (TObjectClose :: b)); [| |intros x H; discriminate];
      cbn [app] in *; rewrite <- app_assoc in K, E; rewrite <- app_assoc; assumption.
  - intros v _ IH a b K E NC. apply (i_one []); [constructor|]. apply (IH a b); assumption.
  - intros v vs _ IH _ IHs a b K E NC. apply (i_more []); [constructor| |].
    + apply (IH a (TComma :: vs ++ b)); [| |intros x H; discriminate]; rewrite <- app_assoc in K, E; assumption.
    + apply (IHs (a ++ v ++ [TComma]) b); [| |exact NC]; rewrite <- app_assoc in K, E; rewrite <- !app_assoc; assumption.
  - intros raw k v _ IH a b K E NC. apply (p_one raw k []); [constructor|].
    apply (IH (a ++ [TString raw k; TColon]) b); [| |exact NC]; rewrite <- app_assoc; assumption.
  - intros raw k v ms _ IH _ IHs a b K E NC. apply (p_more raw k []); [constructor| |].
    + apply (IH (a ++ [TString raw k; TColon]) (TComma :: ms ++ b)); [| |intros x H; discriminate];
        cbn [app] in *; rewrite <- app_assoc in K, E; rewrite <- app_assoc; assumption.
    + apply (IHs (a ++ TString raw k :: TColon :: v ++ [TComma]) b); [| |exact NC];
        cbn [app] in *; rewrite <- app_assoc in K, E; rewrite <- app_assoc; cbn [app]; rewrite <- app_assoc; assumption.
Qed.
Theorem json_whole ts : keys_only (strip ts) -> no_empty_object (strip ts) -> (code_document (strip ts) <-> document ts).
Proof.
  unfold document. remember (strip ts) as us eqn:E. clear E ts. intros K NE. split.
  - intros D. inversion D as [ss v F C Q]; subst us.
    assert (ss = []).
    { apply (no_scalars ss v [] []); [cbn; rewrite app_nil_r; exact K|exact F|].
      destruct (container_first v C) as (t & v' & -> & [-> | ->]); eexists; eexists; (split; [reflexivity|discriminate]). }
    subst ss. cbn [app] in *. apply (proj1 code_json v C [] []). cbn. rewrite app_nil_r. exact K.
  - intros V. apply (cd [] us); [constructor|]. apply (proj1 json_code us V [] []); cbn; rewrite ?app_nil_r; try assumption.
    intros x H. discriminate.
Qed.

(** ** Nesting *)

Definition marks (is_ : list Item) : list mark :=
  flat_map (fun i => match i with
    | IArrayOpen => [Opens Arr] | IObjectOpen => [Opens Obj]
    | IArrayClose => [Closes Arr] | IObjectClose => [Closes Obj]
    | _ => [] end) is_.
Definition kind_of (s : Stack) : kind := match s with Array => Arr | Object => Obj end.
Definition open_kinds (d : inner) : list kind :=
  match state d with
  | Root | RootDone => map kind_of (stack d)
  | ArrayOpen | ArrayValue | ArrayComma => Arr :: map kind_of (stack d)
  | _ => Obj :: map kind_of (stack d)
  end.
Definition shape (d : inner) : Prop := match state d with Root | RootDone => stack d = [] | _ => True end.
Lemma nest_step d t : shape d -> let '(d', i) := advance d t in shape d' /\
  forall ms, nested (open_kinds d') ms -> nested (open_kinds d) (marks (match i with Some i => [i] | None => [] end) ++ ms).
Proof.
  destruct d as [s k]. unfold shape. cbn [state stack]. intros S.
  unfold advance. cbn [state].
  destruct s; try (cbn [state stack] in S; subst k); destruct t; cbn; unfold shape; cbn;
    try (split; [reflexivity || exact I|]; intros ms H; first [exact H|constructor; exact H]).
  - destruct k as [|[|] k]; cbn; (split; [reflexivity || exact I|]); intros ms H; constructor; exact H.
  - destruct k as [|[|] k]; cbn; (split; [reflexivity || exact I|]); intros ms H; constructor; exact H.
  - destruct k as [|[|] k]; cbn; (split; [reflexivity || exact I|]); intros ms H; constructor; exact H.
Qed.
Theorem nests ts : forall d, shape d -> nested (open_kinds d) (marks (snd (feed d ts))).
Proof.
  induction ts as [|t ts IH]; intros d S; [constructor|]. cbn [feed]. pose proof (nest_step d t S) as H.
  destruct (advance d t) as [d1 i]. destruct H as [S1 H]. specialize (IH d1 S1). destruct (feed d1 ts) as [d2 is_]. cbn [snd] in *.
  specialize (H _ IH). destruct i as [i|]; [|exact H]. unfold marks in *. cbn [flat_map]. cbn [flat_map] in H. rewrite app_nil_r in H. exact H.
Qed.

(** ** On top of the tokenizer *)

(** The pops of the tokenizer that a pop of the decoder makes. *)
Lemma feed_app a b d : feed d (a ++ b) = let '(d1, i1) := feed d a in let '(d2, i2) := feed d1 b in (d2, i1 ++ i2).
Proof.
  revert d. induction a as [|t a IH]; intros d; [cbn; destruct (feed d b); reflexivity|]. cbn [feed app].
  destruct (advance d t) as [d1 i]. rewrite IH. destruct (feed d1 a) as [d2 i1]. destruct (feed d2 b) as [d3 i2].
  destruct i; reflexivity.
Qed.
Definition item_of (r : flow Item) : list Item := match r with Cont i => [i] | Break _ => [] end.
Lemma pop_loop_ok v : honest v -> forall fuel buf t d, TokSafe.wf buf t -> TokSafe.phi buf t < fuel ->
  exists buf' t' d' r n rs, pop_loop fuel v buf t d = Ok (buf', t', d', r) /\
    TokModel.session (repeat (TokModel.Pop v) (S n)) buf t = Ok (rs, buf', t') /\ TokSafe.wf buf' t' /\
    feed d (TokSession.tokens rs) = (d', item_of r) /\
    match r with
    | Break m => exists rs', rs = rs' ++ [Break m]
    | Cont _ => TokSafe.phi buf' t' < TokSafe.phi buf t
    end.
Proof.
  intros HV. induction fuel as [|fuel IH]; intros buf t d W F; [lia|]. cbn [pop_loop].
  destruct (TokSession.pop_ok v buf t HV W) as (buf1 & t1 & r & E & _ & W1 & K). rewrite E. cbn [bind]. destruct r as [m|token].
  - exists buf1, t1, d, (Break m), 0, [Break m]. split; [reflexivity|]. cbn [repeat TokModel.session]. rewrite E. cbn [bind].
    split; [reflexivity|]. split; [exact W1|]. split; [reflexivity|]. exists []. reflexivity.
  - destruct (advance d token) as [d1 i] eqn:A. destruct i as [i|].
    + exists buf1, t1, d1, (Cont i), 0, [Cont token]. split; [reflexivity|]. cbn [repeat TokModel.session]. rewrite E. cbn [bind].
      split; [reflexivity|]. split; [exact W1|]. split; [cbn; rewrite A; reflexivity|]. exact K.
    + destruct (IH buf1 t1 d1 W1 ltac:(lia)) as (buf2 & t2 & d2 & r & n & rs & E2 & E3 & W2 & E4 & K2).
      exists buf2, t2, d2, r, (S n), (Cont token :: rs). split; [exact E2|]. split.
      { cbn [repeat TokModel.session]. rewrite E. cbn [bind]. cbn [repeat TokModel.session] in E3. rewrite E3. reflexivity. }
      split; [exact W2|]. split; [cbn; rewrite A; cbn; fold (TokSession.tokens rs); rewrite E4; reflexivity|].
      destruct r as [m|i]; [|lia]. destruct K2 as [rs' ->]. exists (Cont token :: rs'). reflexivity.
Qed.
Lemma pop_ok v buf t d : honest v -> TokSafe.wf buf t ->
  exists buf' t' d' r n rs, pop v buf t d = Ok (buf', t', d', r) /\
    TokModel.session (repeat (TokModel.Pop v) (S n)) buf t = Ok (rs, buf', t') /\ TokSafe.wf buf' t' /\
    feed d (TokSession.tokens rs) = (d', item_of r) /\
    match r with
    | Break m => exists rs', rs = rs' ++ [Break m]
    | Cont _ => TokSafe.phi buf' t' < TokSafe.phi buf t
    end.
Proof. intros HV W. apply pop_loop_ok; [exact HV|exact W|]. apply TokSession.phi_bound, W. Qed.
Definition items_of (rs : list (flow Item)) : list Item := flat_map item_of rs.
Lemma session_ok h : Forall TokSession.fair h -> forall buf t d, TokSafe.wf buf t ->
  exists rs buf' t' d' h' rs', session h buf t d = Ok (rs, buf', t', d') /\ Forall TokSession.fair h' /\ TokSession.fed h' = TokSession.fed h /\
    TokModel.session h' buf t = Ok (rs', buf', t') /\ feed d (TokSession.tokens rs') = (d', items_of rs) /\ TokSafe.wf buf' t'.
Proof.
  induction h as [|e h IH]; intros F buf t d W.
  - exists [], buf, t, d, [], []. split; [reflexivity|]. split; [constructor|]. split; [reflexivity|]. split; [reflexivity|]. split; [reflexivity|exact W].
  - inversion F as [|? ? FE FH]; subst. destruct e as [data|v].
    + destruct (IH FH (buf ++ data) t d (TokSafe.wf_more _ _ _ W)) as (rs & buf' & t' & d' & h' & rs' & E1 & E2 & E3 & E4 & E5 & E6).
      exists rs, buf', t', d', (TokModel.Feed data :: h'), rs'. split; [exact E1|]. split; [constructor; [exact I|exact E2]|].
      split; [cbn; rewrite E3; reflexivity|]. split; [exact E4|]. split; [exact E5|exact E6].
    + destruct (pop_ok v buf t d FE W) as (buf1 & t1 & d1 & r & n & rs1 & P1 & P2 & P3 & P4 & _).
      destruct (IH FH buf1 t1 d1 P3) as (rs & buf' & t' & d' & h' & rs' & E1 & E2 & E3 & E4 & E5 & E6).
      exists (r :: rs), buf', t', d', (repeat (TokModel.Pop v) (S n) ++ h'), (rs1 ++ rs').
      split; [cbn [session]; rewrite P1; cbn [bind]; rewrite E1; reflexivity|]. split.
      { apply Forall_app. split; [|exact E2]. apply Forall_forall. intros e He. apply repeat_spec in He. subst e. exact FE. }
      split; [rewrite TokSession.fed_app; cbn [TokSession.fed]; rewrite E3; replace (TokSession.fed (repeat (TokModel.Pop v) (S n))) with (@nil N); [reflexivity|]|].
      { clear. induction n as [|n IH]; [reflexivity|]. cbn [repeat TokSession.fed] in *. exact IH. }
      split; [rewrite TokSession.session_app, P2; cbn [bind]; rewrite E4; reflexivity|].
      split; [|exact E6]. rewrite TokSession.tokens_app, feed_app, P4, E5. cbn [items_of flat_map]. reflexivity.
Qed.
(** When the last pop asks for more, so did the last pop of the tokenizer. *)
Lemma session_app h1 h2 buf t d : session (h1 ++ h2) buf t d =
  (do '(rs, buf, t, d) <- session h1 buf t d; do '(rs', buf, t, d) <- session h2 buf t d; Ok (rs ++ rs', buf, t, d)).
Proof.
  revert buf t d. induction h1 as [|e h IH]; intros buf t d; [cbn; destruct (session h2 buf t d) as [[[[rs b] x] y]| |]; reflexivity|].
  destruct e as [data|v]; cbn [session app]; [apply IH|].
  destruct (pop v buf t d) as [[[[b1 t1] d1] r]| |]; cbn [bind]; try reflexivity. rewrite IH.
  destruct (session h b1 t1 d1) as [[[[rs b2] t2] d2]| |]; cbn [bind]; try reflexivity.
  destruct (session h2 b2 t2 d2) as [[[[rs' b3] t3] d3]| |]; reflexivity.
Qed.
Lemma session_break h v rs m buf t d : Forall TokSession.fair h -> honest v ->
  session (h ++ [TokModel.Pop v]) [] TokModel.new new = Ok (rs ++ [Break m], buf, t, d) ->
  exists h' rs', Forall TokSession.fair h' /\ TokSession.fed h' = TokSession.fed h /\
    TokModel.session (h' ++ [TokModel.Pop v]) [] TokModel.new = Ok (rs' ++ [Break m], buf, t) /\
    feed new (TokSession.tokens rs') = (d, items_of rs).
Proof.
  intros F HV E. rewrite session_app in E.
  destruct (session_ok h F [] TokModel.new new (TokSafe.wf_new [])) as (rs1 & buf1 & t1 & d1 & h1 & rs1' & E1 & E2 & E3 & E4 & E5 & E6).
  rewrite E1 in E. cbn [bind session] in E.
  destruct (pop_ok v buf1 t1 d1 HV E6) as (buf2 & t2 & d2 & r & n & rs2 & P1 & P2 & P3 & P4 & P5).
  rewrite P1 in E. cbn [bind] in E. injection E as ER <- <- <-. apply app_inj_tail in ER. destruct ER as [<- ->].
  destruct P5 as [rs2' ->].
  assert (RP : repeat (TokModel.Pop v) (S n) = repeat (TokModel.Pop v) n ++ [TokModel.Pop v]).
  { replace (S n) with (n + 1) by lia. rewrite repeat_app. reflexivity. }
  exists (h1 ++ repeat (TokModel.Pop v) n), (rs1' ++ rs2'). split.
  { apply Forall_app. split; [exact E2|]. apply Forall_forall. intros e He. apply repeat_spec in He. subst e. exact HV. }
  split.
  { rewrite TokSession.fed_app, E3. replace (TokSession.fed (repeat (TokModel.Pop v) n)) with (@nil N); [apply app_nil_r|].
    clear. induction n as [|n IH]; [reflexivity|exact IH]. }
  split.
  - rewrite <- app_assoc, <- RP, TokSession.session_app, E4. cbn [bind]. rewrite P2. cbn [bind]. rewrite app_assoc. reflexivity.
  - rewrite TokSession.tokens_app, feed_app, E5. rewrite TokSession.tokens_app in P4. cbn in P4. rewrite app_nil_r in P4. rewrite P4.
    cbn [item_of]. rewrite app_nil_r. reflexivity.
Qed.
(** Pops lead to a request for more. *)
Lemma drains v : honest v -> forall n buf t d, TokSafe.wf buf t -> TokSafe.phi buf t < n ->
  exists k rs m buf' t' d', session (repeat (TokModel.Pop v) (S k)) buf t d = Ok (rs ++ [Break m], buf', t', d').
Proof.
  intros HV. induction n as [|n IH]; intros buf t d W L; [lia|].
  destruct (pop_ok v buf t d HV W) as (buf1 & t1 & d1 & r & k1 & rs1 & P1 & _ & P3 & _ & P5). destruct r as [m|i].
  - exists 0, [], m, buf1, t1, d1. cbn [repeat session]. rewrite P1. reflexivity.
  - destruct (IH buf1 t1 d1 P3 ltac:(lia)) as (k & rs & m & buf' & t' & d' & E). exists (S k), (Cont i :: rs), m, buf', t', d'.
    change (repeat (TokModel.Pop v) (S (S k))) with ([TokModel.Pop v] ++ repeat (TokModel.Pop v) (S k)). rewrite session_app.
    cbn [session]. rewrite P1. cbn [bind]. rewrite E. reflexivity.
Qed.
