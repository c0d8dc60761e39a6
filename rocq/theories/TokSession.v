(** Proofs about the streaming JSON tokenizer: tokens do not depend on how the
    data arrives. *)
From Verif Require Import Base StreamSpec StreamModel StreamProofs TokModel TokProofs TokSafe.
Local Open Scope res_scope.

Lemma while_ok v buf d max p f : honest v -> request (state d) = Some (max, p, f) -> fmono f ->
  below (idx d) max ->
  (forall e map, found p max buf (idx d) e map -> exists d' t, f (set_idx d e) map = Ok (d', t) /\ good buf d d' t) ->
  exists d' r, with_map_while v buf d max p f = Ok (d', r) /\ stepped buf d d' r /\
  match r with
  | Break m => d' = set_idx d (Nat.max (idx d) (length buf)) /\ length buf < more_min m /\
               undetermined p max buf (idx d)
  | Cont t => good buf d d' t
  end.
Proof.
  intros HV RQ MO BE SF. unfold with_map_while.
  destruct (read_map_while_ok p v buf (idx d) max HV BE) as (e & r & -> & H). cbn [bind]. destruct r as [m|map].
  - destruct H as (-> & U & ->). cbn [got]. eexists. eexists. split; [reflexivity|].
    split; [eapply st_more; eassumption|]. split; [reflexivity|]. split; [cbn; lia|exact U].
  - destruct (SF e map H) as (d' & t & E & G). cbn [got]. rewrite E. cbn [bind]. eexists. eexists.
    split; [reflexivity|]. split; [|exact G]. destruct H as (EA & [more EM] & _).
    eapply st_found; [exact RQ|exact EA|]. rewrite EM. apply MO, E.
Qed.

Lemma step_ok v buf d : honest v -> done d = None -> wf buf d ->
  exists d' r, advance_state v buf d = Ok (d', r) /\ stepped buf d d' r /\ wf buf d' /\
  match r with
  | Break m => phi buf d' <= phi buf d /\ length buf < more_min m /\ done d' = None
  | Cont t => phi buf d' < phi buf d
  end.
Proof.
  intros HV D W. unfold wf in W. rewrite D in W.
  assert (WH : forall max p f, request (state d) = Some (max, p, f) -> idx d <= length buf -> below (idx d) max ->
    (forall e map, found p max buf (idx d) e map -> exists d' t, f (set_idx d e) map = Ok (d', t) /\ good buf d d' t) ->
    (undetermined p max buf (idx d) -> wf buf (set_idx d (length buf))) ->
    exists d' r, with_map_while v buf d max p f = Ok (d', r) /\ stepped buf d d' r /\ wf buf d' /\
    match r with
    | Break m => phi buf d' <= phi buf d /\ length buf < more_min m /\ done d' = None
    | Cont t => phi buf d' < phi buf d
    end).
  { intros max p f RQ LE BE SF SW.
    destruct (while_ok v buf d max p f HV RQ (request_mono _ _ _ _ RQ) BE SF) as (d' & r & E & ST & K).
    exists d', r. split; [exact E|]. split; [exact ST|]. destruct r as [m|t].
    - destruct K as (-> & K1 & K2). replace (Nat.max (idx d) (length buf)) with (length buf) by lia.
      split; [apply SW, K2|]. split; [|split; [exact K1|exact D]].
      unfold phi. cbn -[Nat.mul]. rewrite D. destruct (state d); lia.
    - exact K. }
  assert (RA : forall p max n, n <= idx d <= length buf -> run p buf n (idx d) -> undetermined p max buf (idx d) ->
    run p buf n (length buf) /\ below (length buf) max).
  { intros p max n L R [U1 U2]. replace (Nat.max (idx d) (length buf)) with (length buf) in U1, U2 by lia.
    split; [eapply run_trans; eassumption|exact U2]. }
  unfold advance_state. unfold inv in W. destruct (state d) as [| | |n|n|s| |s|s l] eqn:SD.
  - unfold advance_none, with_map. pose proof (read_map_ok v buf 1 (Some 1) HV) as M.
    destruct (read_map v buf 1 (Some 1)) as [m|map].
    + destruct M as [M ->]. cbn [got]. eexists. eexists. split; [reflexivity|].
      assert (buf = []) by (destruct buf; [reflexivity|cbn in M; lia]). split; [apply st_none_more; assumption|].
      split; [unfold wf, inv; rewrite D, SD; exact I|]. split; [lia|]. split; [cbn; lia|exact D].
    + destruct M as [M SH]. destruct map as [|c map]; [cbn in M; lia|]. cbn [got].
      destruct (start_ok buf d c map D SD SH) as (d' & t & E & G1 & G2). rewrite E. cbn [bind].
      eexists. eexists. split; [reflexivity|]. split; [|split; assumption].
      destruct SH as [more ->]. apply st_none; [exact SD|]. apply start_mono, E.
  - unfold advance_whitespace. apply (WH None ws_p whitespace); [reflexivity|lia|exact I| |].
    + intros e map F. eapply whitespace_ok; [exact D|exact SD|unfold inv; rewrite SD; exact W|exact F].
    + intros U. unfold wf, inv. cbn. rewrite D, SD. split; [lia|]. eapply RA; [|apply W|exact U]. lia.
  - unfold advance_item. apply (WH None item_p item); [reflexivity|lia|exact I| |].
    + intros e map F. eapply item_ok; [exact D|exact SD|unfold inv; rewrite SD; exact W|exact F].
    + intros U. unfold wf, inv. cbn. rewrite D, SD. lia.
  - unfold advance_number. rewrite SD. apply (WH None digit_p (number n)); [reflexivity|lia|exact I| |].
    + intros e map F. eapply number_ok; [exact D|exact SD|unfold inv; rewrite SD; exact W|exact F].
    + intros U. unfold wf, inv. cbn. rewrite D, SD. destruct W as (W1 & W2 & W3). split; [lia|].
      split; [eapply num_ok_le; [exact W2|lia]|]. eapply RA; [|exact W3|exact U]. destruct W3. lia.
  - unfold advance_number. rewrite SD. unfold with_map. pose proof (read_map_ok v buf (idx d) None HV) as M.
    destruct (read_map v buf (idx d) None) as [m|map]; [lia|]. cbn [got].
    destruct (again_ok buf d n map D SD ltac:(unfold inv; rewrite SD; exact W) M) as (d' & t & E & G1 & G2). rewrite E. cbn [bind].
    eexists. eexists. split; [reflexivity|]. split; [|split; assumption].
    destruct M as [_ [more ->]]. eapply st_again; [exact SD|]. apply again_mono, E.
  - unfold advance_string. rewrite SD. apply (WH None char_p (string_ s)); [reflexivity|lia|exact I| |].
    + intros e map F. eapply string_ok; [exact D|exact SD|unfold inv; rewrite SD; exact W|exact F].
    + intros U. unfold wf, inv. cbn. rewrite D, SD. lia.
  - unfold advance_string. rewrite SD. unfold with_map. pose proof (read_map_ok v buf (idx d + 1) None HV) as M.
    destruct (read_map v buf (idx d + 1) None) as [m|map]; cbn [got].
    + destruct M as [M ->]. eexists. eexists. split; [reflexivity|]. split; [apply st_escape_more; [exact SD|lia]|].
      split; [unfold wf, inv; rewrite D, SD; exact W|]. split; [lia|]. split; [cbn; lia|exact D].
    + destruct (escape_ok buf d map D SD ltac:(unfold inv; rewrite SD; exact W) M) as (d' & t & E & G1 & G2). rewrite E. cbn [bind].
      eexists. eexists. split; [reflexivity|]. split; [|split; assumption].
      destruct M as [_ [more ->]]. eapply st_escape; [exact SD|]. apply escape_mono, E.
  - unfold advance_string. rewrite SD. apply (WH (Some (s + 4)) hex_p (unicode s)); [reflexivity|lia|cbn; lia| |].
    + intros e map F. eapply unicode_ok; [exact D|exact SD|unfold inv; rewrite SD; exact W|exact F].
    + intros U. unfold wf, inv. cbn. rewrite D, SD. destruct (RA _ _ s ltac:(lia) ltac:(apply W) U) as [U1 U2]. cbn in U2.
      split; [lia|]. split; [lia|]. split; [lia|exact U1].
  - unfold advance_string. rewrite SD. apply (WH (Some (s + 6)) (trail_char s) (trail s l)); [reflexivity|lia|cbn; lia| |].
    + intros e map F. eapply trail_ok; [exact D|exact SD|unfold inv; rewrite SD; exact W|exact F].
    + intros U. unfold wf, inv. cbn. rewrite D, SD. destruct (RA _ _ s ltac:(lia) ltac:(apply W) U) as [U1 U2]. cbn in U2.
      split; [lia|]. split; [lia|]. split; [lia|]. split; [apply W|exact U1].
Qed.

(** ** Pops *)

Inductive popped : list N -> dec -> list N -> dec -> flow Token -> Prop :=
| pop_more buf d buf0 d0 d1 m : clear_done buf d = Ok (buf0, d0) -> stepped buf0 d0 d1 (Break m) ->
    popped buf d buf0 d1 (Break m)
| pop_token buf d buf0 d0 d1 t : clear_done buf d = Ok (buf0, d0) -> stepped buf0 d0 d1 (Cont (Some t)) ->
    popped buf d buf0 d1 (Cont t)
| pop_go buf d buf0 d0 d1 buf2 d2 r : clear_done buf d = Ok (buf0, d0) -> stepped buf0 d0 d1 (Cont None) ->
    popped buf0 d1 buf2 d2 r -> popped buf d buf2 d2 r.

Lemma clear_ok buf d : wf buf d -> exists buf0 d0, clear_done buf d = Ok (buf0, d0) /\ wf buf0 d0 /\
  done d0 = None /\ phi buf0 d0 = phi buf d /\ length buf0 <= length buf.
Proof.
  unfold wf, clear_done, phi. destruct (done d) as [l|] eqn:D.
  - intros W. unfold read_advance. rewrite (proj2 (Nat.leb_le _ _)) by lia. cbn [bind]. eexists. eexists.
    split; [reflexivity|]. split; [exact I|]. split; [reflexivity|]. cbn -[Nat.mul]. rewrite skipn_length. lia.
  - intros W. exists buf, d. rewrite D. auto.
Qed.
Lemma advance_ok v : honest v -> forall fuel buf d, wf buf d -> phi buf d < fuel ->
  exists buf' d' r, advance fuel v buf d = Ok (buf', d', r) /\ popped buf d buf' d' r /\ wf buf' d' /\
  match r with
  | Break m => phi buf' d' <= phi buf d /\ length buf' < more_min m /\ done d' = None
  | Cont t => phi buf' d' < phi buf d
  end.
Proof.
  intros HV. induction fuel as [|fuel IH]; intros buf d W F; [lia|]. cbn [advance]. unfold advance_inner.
  destruct (clear_ok buf d W) as (buf0 & d0 & CL & W0 & D0 & P0 & _). rewrite CL. cbn [bind].
  destruct (step_ok v buf0 d0 HV D0 W0) as (d1 & r & E & ST & W1 & K). rewrite E. cbn [bind].
  destruct r as [m|[t|]].
  - exists buf0, d1, (Break m). split; [reflexivity|]. split; [eapply pop_more; eassumption|]. split; [exact W1|].
    split; [lia|]. split; apply K.
  - exists buf0, d1, (Cont t). split; [reflexivity|]. split; [eapply pop_token; eassumption|]. split; [exact W1|]. lia.
  - destruct (IH buf0 d1 W1 ltac:(lia)) as (buf2 & d2 & r & E2 & P2 & W2 & K2). exists buf2, d2, r.
    split; [exact E2|]. split; [eapply pop_go; eassumption|]. split; [exact W2|]. destruct r; [|lia]. split; [lia|apply K2].
Qed.
Lemma phi_bound buf d : wf buf d -> phi buf d < 8 * length buf + 5.
Proof.
  unfold wf, inv, phi. destruct (done d); [lia|]. destruct (state d); lia.
Qed.
Theorem pop_ok v buf d : honest v -> wf buf d ->
  exists buf' d' r, pop v buf d = Ok (buf', d', r) /\ popped buf d buf' d' r /\ wf buf' d' /\
  match r with
  | Break m => phi buf' d' <= phi buf d /\ length buf' < more_min m /\ done d' = None
  | Cont t => phi buf' d' < phi buf d
  end.
Proof. intros HV W. unfold pop. apply advance_ok; [exact HV|exact W|]. apply phi_bound, W. Qed.

Lemma popped_det buf d b1 d1 r1 b2 d2 r2 : popped buf d b1 d1 r1 -> popped buf d b2 d2 r2 ->
  b1 = b2 /\ d1 = d2 /\ r1 = r2.
Proof.
  intros A. revert b2 d2 r2. induction A as [buf d buf0 d0 d1 m C S|buf d buf0 d0 d1 t C S|buf d buf0 d0 d1 b1 d2' r C S A IH];
    intros b2 d2 r2 B; inversion B; subst;
    match goal with H1 : clear_done buf d = _, H2 : clear_done buf d = _ |- _ => rewrite H1 in H2; injection H2 as <- <- end;
    match goal with H1 : stepped buf0 d0 _ _, H2 : stepped buf0 d0 _ _ |- _ =>
      destruct (stepped_det _ _ _ _ _ _ H1 H2) as [-> E]; try discriminate E end.
  - injection E as ->. auto.
  - injection E as ->. auto.
  - apply IH. assumption.
Qed.
Lemma clear_more buf d buf0 d0 more : clear_done buf d = Ok (buf0, d0) -> clear_done (buf ++ more) d = Ok (buf0 ++ more, d0).
Proof.
  unfold clear_done, read_advance. destruct (done d) as [l|]; [|congruence].
  destruct (l <=? length buf) eqn:E; [|discriminate]. apply Nat.leb_le in E. cbn [bind]. intros H. injection H as <- <-.
  rewrite (proj2 (Nat.leb_le _ _)) by (rewrite app_length; lia). cbn [bind]. rewrite skipn_app.
  replace (l - length buf) with 0 by lia. reflexivity.
Qed.
Lemma popped_more buf d buf' d' t more : popped buf d buf' d' (Cont t) -> popped (buf ++ more) d (buf' ++ more) d' (Cont t).
Proof.
  intros A. remember (Cont t) as r eqn:ER. revert t ER.
  induction A as [buf d buf0 d0 d1 m C S|buf d buf0 d0 d1 t' C S|buf d buf0 d0 d1 b1 d2' r C S A IH]; intros t ER.
  - discriminate.
  - injection ER as ->. eapply pop_token; [apply clear_more, C|apply stepped_more, S].
  - subst r. eapply pop_go; [apply clear_more, C|apply stepped_more, S|eapply IH; reflexivity].
Qed.
Lemma clear_none buf d : done d = None -> clear_done buf d = Ok (buf, d).
Proof. unfold clear_done. intros ->. reflexivity. Qed.
Lemma break_done buf d d' m : stepped buf d d' (Break m) -> done d' = done d.
Proof. intros S. inversion S; reflexivity. Qed.
Lemma step_wf buf d d' r : done d = None -> wf buf d -> stepped buf d d' r -> wf buf d'.
Proof.
  intros D W S. destruct (step_ok slice_view buf d slice_honest D W) as (d2 & r2 & _ & S2 & W2 & _).
  destruct (stepped_det _ _ _ _ _ _ S S2) as [-> _]. exact W2.
Qed.
(** [popped] as seen after the clearing. *)
Lemma popped_cleared buf d buf0 d0 b r x : clear_done buf d = Ok (buf0, d0) -> done d0 = None ->
  (popped buf d b x r <-> popped buf0 d0 b x r).
Proof.
  intros C D. pose proof (clear_none buf0 d0 D) as C0.
  split; intros P; inversion P; subst;
    match goal with H1 : clear_done ?x ?y = _, H2 : clear_done ?x ?y = Ok (?u, ?w) |- _ =>
      rewrite H1 in H2; injection H2 as <- <- end.
  - eapply pop_more; eassumption.
  - eapply pop_token; eassumption.
  - eapply pop_go; eassumption.
  - eapply pop_more; eassumption.
  - eapply pop_token; eassumption.
  - eapply pop_go; eassumption.
Qed.
Lemma popped_resume buf d buf1 d1 m more b x r : wf buf d -> popped buf d buf1 d1 (Break m) ->
  (popped (buf1 ++ more) d1 b x r <-> popped (buf ++ more) d b x r).
Proof.
  intros W A. remember (Break m) as r0 eqn:ER. revert ER W.
  induction A as [buf d buf0 d0 d1 m' C S|buf d buf0 d0 d1 t' C S|buf d buf0 d0 d1 b1 d2' r' C S A IH]; intros ER W.
  - injection ER as ->. destruct (clear_ok buf d W) as (buf0' & d0' & CL & W0 & D0 & _).
    rewrite C in CL. injection CL as <- <-. rewrite (popped_cleared _ _ _ _ b r x (clear_more _ _ _ _ more C) D0).
    pose proof (break_done _ _ _ _ S) as D1. rewrite D0 in D1.
    assert (L : state d0 = SNone \/ idx d0 <= length buf0).
    { unfold wf, inv in W0. rewrite D0 in W0. destruct (state d0); [left; reflexivity|..]; right; lia. }
    pose proof (fun d' r => stepped_resume buf0 d0 d1 m more d' r S L) as RS.
    split; intros P; inversion P; subst;
      match goal with H1 : clear_done _ _ = Ok (_, _) |- _ =>
        rewrite clear_none in H1 by assumption; injection H1 as <- <- end.
    + eapply pop_more; [apply clear_none, D0|apply RS; assumption].
    + eapply pop_token; [apply clear_none, D0|apply RS; assumption].
    + eapply pop_go; [apply clear_none, D0|apply RS; eassumption|assumption].
    + eapply pop_more; [apply clear_none, D1|apply RS; assumption].
    + eapply pop_token; [apply clear_none, D1|apply RS; assumption].
    + eapply pop_go; [apply clear_none, D1|apply RS; eassumption|assumption].
  - discriminate.
  - subst r'. destruct (clear_ok buf d W) as (buf0' & d0' & CL & W0 & D0 & _).
    rewrite C in CL. injection CL as <- <-.
    rewrite (IH eq_refl (step_wf _ _ _ _ D0 W0 S)).
    apply (stepped_more _ _ _ _ more) in S. apply (clear_more _ _ _ _ more) in C.
    split; intros P.
    + eapply pop_go; eassumption.
    + inversion P; subst;
        match goal with H1 : clear_done _ d = Ok _, H2 : clear_done _ d = Ok _ |- _ => rewrite H1 in H2; injection H2 as <- <- end;
        match goal with H1 : stepped _ d0 d1 _, H2 : stepped _ d0 _ _ |- _ =>
          destruct (stepped_det _ _ _ _ _ _ H1 H2) as [<- E]; try discriminate E end.
      assumption.
Qed.

(** ** Sessions *)

(** All tokens of a buffer, and what is left: the request for more, the data and
    the decoder. *)
Definition left_over := (More * list N * dec)%type.
Inductive canon : list N -> dec -> list Token -> left_over -> Prop :=
| canon_end buf d buf' d' m : popped buf d buf' d' (Break m) -> canon buf d [] (m, buf', d')
| canon_token buf d buf' d' t ts q : popped buf d buf' d' (Cont t) -> canon buf' d' ts q -> canon buf d (t :: ts) q.
Lemma canon_det buf d ts q ts' q' : canon buf d ts q -> canon buf d ts' q' -> ts = ts' /\ q = q'.
Proof.
  intros A. revert ts'. induction A as [buf d buf' d' m P|buf d buf' d' t ts q P A IH]; intros ts' B; inversion B; subst;
    match goal with H1 : popped buf d _ _ _, H2 : popped buf d _ _ _ |- _ =>
      destruct (popped_det _ _ _ _ _ _ _ _ H1 H2) as (-> & -> & E); try discriminate E end.
  - injection E as ->. split; reflexivity.
  - injection E as ->. match goal with H : canon _ _ _ q' |- _ => destruct (IH _ H) as [-> ->] end. split; reflexivity.
Qed.
(** Every buffer has its tokens. *)
Lemma canon_total buf d : wf buf d -> exists ts q, canon buf d ts q.
Proof.
  remember (phi buf d) as n eqn:E. revert buf d E. induction n as [n IH] using lt_wf_ind. intros buf d -> W.
  destruct (pop_ok slice_view buf d slice_honest W) as (buf' & d' & r & _ & P & W' & K). destruct r as [m|t].
  - exists []. eexists. eapply canon_end, P.
  - destruct (IH (phi buf' d') K buf' d' eq_refl W') as (ts & q & C). exists (t :: ts), q. eapply canon_token; eassumption.
Qed.

Fixpoint fed (h : list event) : list N :=
  match h with [] => [] | Feed data :: h => data ++ fed h | Pop _ :: h => fed h end.
Fixpoint tokens (rs : list (flow Token)) : list Token :=
  match rs with [] => [] | Cont t :: rs => t :: tokens rs | Break _ :: rs => tokens rs end.
Definition fair (e : event) : Prop := match e with Feed _ => True | Pop v => honest v end.

Lemma session_ok h : Forall fair h -> forall buf d, wf buf d ->
  exists rs buf' d', session h buf d = Ok (rs, buf', d') /\ wf buf' d' /\
  forall more ts q, canon (buf ++ fed h ++ more) d ts q <-> exists ts', ts = tokens rs ++ ts' /\ canon (buf' ++ more) d' ts' q.
Proof.
  induction 1 as [|e h F FH IH]; intros buf d W.
  - exists [], buf, d. split; [reflexivity|]. split; [exact W|]. intros more ts q. cbn. split.
    + intros C. exists ts. auto.
    + intros (ts' & -> & C). exact C.
  - destruct e as [data|v]; cbn [session fed].
    + destruct (IH (buf ++ data) d (wf_more _ _ _ W)) as (rs & buf' & d' & E & W' & K). exists rs, buf', d'.
      split; [exact E|]. split; [exact W'|]. intros more ts q. rewrite <- K, <- !app_assoc. reflexivity.
    + destruct (pop_ok v buf d F W) as (buf1 & d1 & r & -> & P & W1 & _). cbn [bind].
      destruct (IH buf1 d1 W1) as (rs & buf' & d' & -> & W' & K). cbn [bind]. exists (r :: rs), buf', d'.
      split; [reflexivity|]. split; [exact W'|]. intros more ts q. destruct r as [m|t]; cbn [tokens].
      * rewrite <- K. pose proof (fun b x r => popped_resume buf d buf1 d1 m (fed h ++ more) b x r W P) as RS.
        split; intros C; inversion C; subst.
        -- eapply canon_end. apply RS. eassumption.
        -- eapply canon_token; [apply RS; eassumption|assumption].
        -- eapply canon_end. apply RS. eassumption.
        -- eapply canon_token; [apply RS; eassumption|assumption].
      * apply (popped_more _ _ _ _ _ (fed h ++ more)) in P. split.
        -- intros C. inversion C; subst;
             match goal with H1 : popped _ d _ _ (Cont t), H2 : popped _ d _ _ _ |- _ =>
               destruct (popped_det _ _ _ _ _ _ _ _ H1 H2) as (<- & <- & E); try discriminate E end.
           injection E as <-. match goal with H : canon (buf1 ++ _) _ _ _ |- _ => apply K in H; destruct H as (ts' & -> & C') end.
           exists ts'. split; [reflexivity|exact C'].
        -- intros (ts' & -> & C). cbn [app]. eapply canon_token; [exact P|]. apply K. exists ts'. auto.
Qed.
(** A session that ends by asking for more has seen all tokens. *)
Lemma session_app h1 h2 buf d : session (h1 ++ h2) buf d =
  do '(rs, buf, d) <- session h1 buf d; do '(rs', buf, d) <- session h2 buf d; Ok (rs ++ rs', buf, d).
Proof.
  revert buf d. induction h1 as [|e h1 IH]; intros buf d; cbn [app session].
  - cbn [bind]. destruct (session h2 buf d) as [[[rs b] x]| |]; reflexivity.
  - destruct e as [data|v]; [apply IH|]. destruct (pop v buf d) as [[[b x] r]| |]; cbn [bind]; [|reflexivity|reflexivity].
    rewrite IH. destruct (session h1 b x) as [[[rs b'] x']| |]; cbn [bind]; [|reflexivity|reflexivity].
    destruct (session h2 b' x') as [[[rs' b2] x2]| |]; reflexivity.
Qed.
Lemma tokens_app a b : tokens (a ++ b) = tokens a ++ tokens b.
Proof. induction a as [|[m|t] a IH]; cbn; [reflexivity|exact IH|rewrite IH; reflexivity]. Qed.
Lemma fed_app a b : fed (a ++ b) = fed a ++ fed b.
Proof. induction a as [|[data|v] a IH]; cbn; [reflexivity|rewrite IH, app_assoc; reflexivity|exact IH]. Qed.

Theorem exhausted h v rs m buf d : Forall fair h -> honest v ->
  session (h ++ [Pop v]) [] new = Ok (rs ++ [Break m], buf, d) -> canon (fed h) new (tokens rs) (m, buf, d).
Proof.
  intros FH HV E. rewrite session_app in E.
  destruct (session_ok h FH [] new (wf_new [])) as (rs1 & buf1 & d1 & E1 & W1 & K). rewrite E1 in E. cbn [bind] in E.
  cbn [session] in E. destruct (pop_ok v buf1 d1 HV W1) as (buf2 & d2 & r & EP & P & _). rewrite EP in E. cbn [bind] in E.
  injection E as E <- <-. apply app_inj_tail in E. destruct E as [<- ->].
  specialize (K [] (tokens rs1) (m, buf2, d2)). rewrite !app_nil_r in K. apply K. exists []. rewrite app_nil_r. split; [reflexivity|].
  eapply canon_end, P.
Qed.
Theorem before h rs buf d : Forall fair h -> session h [] new = Ok (rs, buf, d) -> forall more ts q,
  canon (fed h ++ more) new ts q -> exists ts', ts = tokens rs ++ ts'.
Proof.
  intros FH E more ts q C. destruct (session_ok h FH [] new (wf_new [])) as (rs1 & buf1 & d1 & E1 & W1 & K).
  rewrite E in E1. injection E1 as <- <- <-. apply K in C. destruct C as (ts' & -> & _). exists ts'. reflexivity.
Qed.
(** Enough pops exhaust what was fed. *)
Lemma drains v : honest v -> forall n buf d, wf buf d -> phi buf d < n ->
  exists rs m buf' d', session (repeat (Pop v) n) buf d = Ok (rs ++ [Break m], buf', d').
Proof.
  intros HV. induction n as [|n IH]; intros buf d W L; [lia|]. cbn [repeat session].
  destruct (pop_ok v buf d HV W) as (buf1 & d1 & r & -> & P & W1 & K). cbn [bind].
  destruct n as [|n].
  - cbn [repeat session bind]. destruct r as [m|t]; [exists [], m, buf1, d1; reflexivity|]. lia.
  - assert (L1 : phi buf1 d1 < S n \/ exists m, r = Break m) by (destruct r; [right; eexists; reflexivity|left; lia]).
    destruct L1 as [L1|[m ->]].
    + destruct (IH buf1 d1 W1 L1) as (rs & m & buf' & d' & ->). cbn [bind]. exists (r :: rs), m, buf', d'. reflexivity.
    + (* after a break the same request is repeated *)
      assert (Q : forall n buf d, wf buf d -> (exists b x m, popped buf d b x (Break m)) -> 0 < n ->
        exists rs m buf' d', session (repeat (Pop v) n) buf d = Ok (rs ++ [Break m], buf', d')).
      { clear - HV. induction n as [|n IH]; intros buf d W (b & x & m & P) L; [lia|]. cbn [repeat session].
        destruct (pop_ok v buf d HV W) as (b' & x' & r & -> & P' & W' & _).
        destruct (popped_det _ _ _ _ _ _ _ _ P P') as (<- & <- & <-). cbn [bind].
        destruct n as [|n]; [exists [], m, b, x; reflexivity|].
        destruct (IH b x W') as (rs & m' & b2 & x2 & ->); [|lia|cbn [bind]; exists (Break m :: rs), m', b2, x2; reflexivity].
        pose proof (popped_resume buf d b x m [] b x (Break m) W P) as RS. rewrite !app_nil_r in RS.
        exists b, x, m. apply RS, P. }
      destruct (Q (S n) buf1 d1 W1) as (rs & m' & b2 & x2 & ->); [|lia|cbn [bind]; exists (Break m :: rs), m', b2, x2; reflexivity].
      pose proof (popped_resume buf d buf1 d1 m [] buf1 d1 (Break m) W P) as RS. rewrite !app_nil_r in RS.
      exists buf1, d1, m. apply RS, P.
Qed.
