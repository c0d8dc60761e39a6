(** Property C122: what follows a token does not depend on what came before. *)
From Verif Require Import Base StreamSpec StreamModel StreamProofs TokModel TokProofs TokSafe TokSession TokLex TokMore.
From Verif Require Import TokSpec TokProps TokTextSpec TokTextProps TokRemainProps.
Local Open Scope res_scope.

(** The index means nothing between tokens. *)
Definition same (d d' : dec) : Prop :=
  d = d' \/ (state d = SNone /\ state d' = SNone /\ done d = done d' /\ acc_str d = acc_str d').
Definition linked (buf : list N) (d : dec) (buf' : list N) (d' : dec) : Prop :=
  (buf = buf' /\ same d d') \/
  (exists l, done d = Some l /\ l <= length buf /\ buf' = skipn l buf /\ state d' = SNone /\ done d' = None /\ acc_str d' = []).

Lemma linked_clear buf d buf' d' : linked buf d buf' d' ->
  match clear_done buf d, clear_done buf' d' with
  | Ok (b1, d1), Ok (b2, d2) => b1 = b2 /\ same d1 d2 /\ done d1 = None
  | Panic, Panic => True
  | _, _ => False
  end.
Proof.
  unfold clear_done. intros [(<- & [<-|(S & S' & D & A)])|(l & D & L & -> & S & D' & A)].
  - destruct (done d) eqn:D.
    + unfold read_advance. destruct (_ <=? _); cbn [bind]; [|exact I]. repeat split. now left.
    + repeat split; [now left|exact D].
  - rewrite <- D. destruct (done d) eqn:Q.
    + unfold read_advance. destruct (_ <=? _); cbn [bind]; [|exact I]. repeat split. right. now cbn.
    + repeat split; [|exact Q]. right. repeat split; congruence.
  - rewrite D, D'. unfold read_advance. rewrite (proj2 (Nat.leb_le _ _) L). cbn [bind]. repeat split. right. cbn. auto.
Qed.
Lemma same_start d d' m : state d = SNone -> state d' = SNone -> done d = done d' -> acc_str d = acc_str d' ->
  match start d m, start d' m with
  | Ok (d1, t), Ok (d2, t') => t = t' /\ same d1 d2
  | Panic, Panic | NoFuel, NoFuel => True
  | _, _ => False
  end.
Proof.
  intros S S' D A. unfold start. destruct (at_ m 0) as [c| |]; cbn [bind]; try exact I.
  destruct d, d'. cbn in S, S', D, A. subst.
  repeat match goal with |- context [if ?b then Ok _ else _] => destruct b; [split; [reflexivity|]; try (now left); right; now cbn|] end.
  split; [reflexivity|]. now left.
Qed.
Lemma same_step v buf d d' : same d d' ->
  match advance_state v buf d, advance_state v buf d' with
  | Ok (d1, t), Ok (d2, t') => t = t' /\ same d1 d2
  | Panic, Panic | NoFuel, NoFuel => True
  | _, _ => False
  end.
Proof.
  intros [<-|(S & S' & D & A)].
  - destruct (advance_state v buf d) as [[d1 t]| |]; try exact I. split; [reflexivity|now left].
  - unfold advance_state. rewrite S, S'. unfold advance_none, with_map, got. destruct (read_map v buf 1 (Some 1)) as [m|m].
    + split; [reflexivity|]. right. auto.
    + pose proof (same_start d d' m S S' D A) as K. destruct (start d m) as [[d1 t]| |], (start d' m) as [[d2 t']| |]; try contradiction; cbn [bind]; try exact I.
      destruct K as [-> K]. split; [reflexivity|exact K].
Qed.
Lemma linked_advance v f1 : forall f2 buf d buf' d' b1 d1 r1 b2 d2 r2, linked buf d buf' d' ->
  advance f1 v buf d = Ok (b1, d1, r1) -> advance f2 v buf' d' = Ok (b2, d2, r2) -> r1 = r2 /\ b1 = b2 /\ same d1 d2.
Proof.
  induction f1 as [|f1 IH]; intros f2 buf d buf' d' b1 d1 r1 b2 d2 r2 L E1 E2; [discriminate E1|]. destruct f2 as [|f2]; [discriminate E2|].
  cbn [advance] in E1, E2. unfold advance_inner in E1, E2. pose proof (linked_clear _ _ _ _ L) as K.
  destruct (clear_done buf d) as [[b x]| |], (clear_done buf' d') as [[b' x']| |]; try contradiction; cbn [bind] in E1, E2; try discriminate E1.
  destruct K as (<- & K & _). pose proof (same_step v b _ _ K) as Q.
  destruct (advance_state v b x) as [[y t]| |], (advance_state v b x') as [[y' t']| |]; try contradiction; cbn [bind] in E1, E2; try discriminate E1.
  destruct Q as (<- & Q). destruct t as [m|[t|]].
  - injection E1 as <- <- <-. injection E2 as <- <- <-. auto.
  - injection E1 as <- <- <-. injection E2 as <- <- <-. auto.
  - eapply IH; [|exact E1|exact E2]. left. auto.
Qed.
Lemma linked_session h : forall buf d buf' d' rs b1 d1 rs' b2 d2, linked buf d buf' d' ->
  session h buf d = Ok (rs, b1, d1) -> session h buf' d' = Ok (rs', b2, d2) ->
  rs = rs' /\ linked b1 d1 b2 d2.
Proof.
  induction h as [|e h IH]; intros buf d buf' d' rs b1 d1 rs' b2 d2 L E1 E2.
  - injection E1 as <- <- <-. injection E2 as <- <- <-. auto.
  - destruct e as [data|v]; cbn [session] in E1, E2.
    + eapply IH; [|exact E1|exact E2]. destruct L as [(<- & S)|(l & D & K & -> & S)]; [now left|right]. exists l. rewrite app_length.
      split; [exact D|]. split; [lia|]. split; [|exact S]. rewrite skipn_app. now replace (l - length buf) with 0 by lia.
    + destruct (pop v buf d) as [[[b x] r]| |] eqn:P1; try discriminate E1. destruct (pop v buf' d') as [[[b' x'] r']| |] eqn:P2; try discriminate E2.
      cbn [bind] in E1, E2. destruct (linked_advance v _ _ _ _ _ _ _ _ _ _ _ _ L P1 P2) as (<- & <- & S).
      destruct (session h b x) as [[[q b3] d3]| |] eqn:F1; try discriminate E1. destruct (session h b x') as [[[q' b4] d4]| |] eqn:F2; try discriminate E2.
      cbn [bind] in E1, E2. injection E1 as <- <- <-. injection E2 as <- <- <-.
      destruct (IH _ _ _ _ _ _ _ _ _ _ (or_introl (conj eq_refl S)) F1 F2) as (<- & K). auto.
Qed.
Lemma same_complete v buf d d' : same d d' -> done d = None ->
  match complete v buf d, complete v buf d' with
  | Ok (b1, d1, t), Ok (b2, d2, t') => t = t' /\ b1 = b2 /\ same d1 d2
  | Panic, Panic | NoFuel, NoFuel => True
  | _, _ => False
  end.
Proof.
  intros [<-|(S & S' & D & A)] N.
  - destruct (complete v buf d) as [[[b1 d1] t]| |]; try exact I. repeat split. now left.
  - unfold complete. rewrite !clear_none by congruence. cbn [bind]. rewrite S, S'.
    destruct (read_map v buf 1 None); repeat split; right; auto.
Qed.
Lemma linked_complete v buf d buf' d' : linked buf d buf' d' ->
  match complete v buf d, complete v buf' d' with
  | Ok (b1, d1, t), Ok (b2, d2, t') => t = t' /\ b1 = b2 /\ same d1 d2
  | Panic, Panic | NoFuel, NoFuel => True
  | _, _ => False
  end.
Proof.
  intros L. pose proof (linked_clear _ _ _ _ L) as K. unfold complete.
  destruct (clear_done buf d) as [[b x]| |] eqn:C1, (clear_done buf' d') as [[b' x']| |] eqn:C2; try contradiction; cbn [bind]; try exact I.
  destruct K as (<- & S & N). pose proof (same_complete v b x x' S N) as Q. unfold complete in Q.
  rewrite (clear_none b x N) in Q. rewrite (clear_none b x') in Q; [exact Q|]. destruct S as [<-|(_ & _ & D & _)]; congruence.
Qed.
Lemma linked_completes vs : forall buf d buf' d', linked buf d buf' d' -> completes vs buf d = completes vs buf' d'.
Proof.
  induction vs as [|v vs IH]; intros buf d buf' d' L; [reflexivity|]. cbn [completes]. pose proof (linked_complete v _ _ _ _ L) as K.
  destruct (complete v buf d) as [[[b1 d1] t]| |], (complete v buf' d') as [[[b2 d2] t']| |]; try contradiction; cbn [bind]; try reflexivity.
  destruct K as (<- & <- & S). rewrite (IH b1 d1 b1 d2); [reflexivity|]. left. auto.
Qed.

(** ** C122 *)

(** Directly after a token, or an error that is reported in its place, the
    stream starts with its text.  Whatever data arrives and is popped from then on is reported as
    by a new decoder for the stream without that text; so is the end of the
    stream, at whatever time it comes. *)
Theorem tok_restart : forall h v rs t buf d h2, runs (h ++ [Pop v]) (rs ++ [Cont t]) buf d -> (forall e, t = TError e -> shown t <> []) ->
  Forall fair h2 ->
  exists rest rs2 buf2 d2 buf2' d2', buf = shown t ++ rest /\ shown t <> [] /\
    session h2 buf d = Ok (rs2, buf2, d2) /\ session h2 rest new = Ok (rs2, buf2', d2') /\
    forall vs, completes vs buf2 d2 = completes vs buf2' d2'.
Proof.
  intros h v rs t buf d h2 [F E] N F2. apply Forall_app in F. destruct F as [F FV].
  rewrite session_app in E. destruct (session_ok h F [] new (wf_new [])) as (rs1 & b1 & d1 & E1 & W & _). rewrite E1 in E. cbn [bind] in E.
  cbn [session] in E. inversion FV as [|? ? HV _]; subst. destruct (TokSession.pop_ok v b1 d1 HV W) as (b2 & d2 & r & EP & P & W2 & _). rewrite EP in E. cbn [bind] in E.
  injection E as E <- <-. apply app_inj_tail in E. destruct E as [<- ->].
  pose proof (settled_pop _ _ _ _ _ P N) as ND. pose proof W2 as W3. unfold wf in W2. destruct (done d2) as [l|] eqn:D; [|congruence].
  assert (T : shown t = firstn l b2).
  { destruct (pop_tells _ _ _ _ _ P) as [_ [K|K]]; [congruence|]. unfold pending_text in K. rewrite D in K.
    rewrite <- (firstn_skipn l b2) in K at 1. now apply app_inv_tail in K. }
  destruct (session_ok h2 F2 b2 d2 W3) as (rs2 & c1 & x1 & S1 & _). destruct (session_ok h2 F2 (skipn l b2) new (wf_new _)) as (rs3 & c2 & x2 & S2 & _).
  assert (L : linked b2 d2 (skipn l b2) new) by (right; exists l; repeat split; [exact D|lia]).
  destruct (linked_session h2 _ _ _ _ _ _ _ _ _ _ L S1 S2) as (<- & L2).
  exists (skipn l b2), rs2, c1, x1, c2, x2. rewrite T. split; [now rewrite firstn_skipn|].
  split; [destruct b2; [cbn in W2; lia|]; destruct l; [lia|]; discriminate|].
  split; [exact S1|]. split; [exact S2|]. intros vs. now apply linked_completes.
Qed.
Print Assumptions tok_restart.
(** So two decoders with whatever past, each directly after a token and with the
    same data after it, cannot be told apart. *)
Theorem tok_past : forall h v rs t buf d h' v' rs' t' buf' d' rest h2,
  runs (h ++ [Pop v]) (rs ++ [Cont t]) buf d -> (forall e, t = TError e -> shown t <> []) -> buf = shown t ++ rest ->
  runs (h' ++ [Pop v']) (rs' ++ [Cont t']) buf' d' -> (forall e, t' = TError e -> shown t' <> []) -> buf' = shown t' ++ rest ->
  Forall fair h2 ->
  exists rs2 buf2 d2 buf2' d2', session h2 buf d = Ok (rs2, buf2, d2) /\ session h2 buf' d' = Ok (rs2, buf2', d2') /\
    forall vs, completes vs buf2 d2 = completes vs buf2' d2'.
Proof.
  intros h v rs t buf d h' v' rs' t' buf' d' rest h2 R N B R' N' B' F.
  destruct (tok_restart _ _ _ _ _ _ h2 R N F) as (r & q & b & x & b0 & x0 & E & _ & S1 & S2 & C).
  destruct (tok_restart _ _ _ _ _ _ h2 R' N' F) as (r' & q' & b' & x' & b0' & x0' & E' & _ & S1' & S2' & C').
  subst buf buf'. apply app_inv_head in E, E'. subst r r'. rewrite S2 in S2'. injection S2' as <- <- <-.
  exists q, b, x, b', x'. split; [exact S1|]. split; [exact S1'|]. intros vs. now rewrite C, C'.
Qed.
Print Assumptions tok_past.
Section Cases.
Import String Ascii.
Definition of_ascii (s : string) : list N := map N_of_ascii (list_ascii_of_string s).
(** After the first token of "[1,null": the bracket is still in the stream, and
    a new decoder reports it again. *)
Example restart_case : exists d, runs ([Feed (of_ascii "[1,null")] ++ [Pop slice_view]) ([] ++ [Cont TArrayOpen]) (of_ascii "[1,null") d /\
  (exists d2, session [Pop slice_view; Pop slice_view] (of_ascii "[1,null") d =
    Ok ([Cont (TNumber (mkNumber (of_ascii "1") Plus (of_ascii "1") None None)); Cont TComma], of_ascii ",null", d2)) /\
  (exists d2, session [Pop slice_view] (of_ascii "[1,null") new = Ok ([Cont TArrayOpen], of_ascii "[1,null", d2)).
Proof.
  eexists. split; [split; [|vm_compute; reflexivity]|split; eexists; vm_compute; reflexivity].
  pose proof slice_honest. repeat (constructor; [first [exact I|assumption]|]). constructor.
Qed.
(** After the error for "nul" in "nul,1,". *)
Example restart_error_case : exists d, runs ([Feed (of_ascii "nul,1,")] ++ [Pop slice_view]) ([] ++ [Cont (TError (ItemUnknown (of_ascii "nul")))]) (of_ascii "nul,1,") d /\
  shown (TError (ItemUnknown (of_ascii "nul"))) <> [] /\
  (exists d2, session [Pop slice_view; Pop slice_view] (of_ascii "nul,1,") d =
    Ok ([Cont TComma; Cont (TNumber (mkNumber (of_ascii "1") Plus (of_ascii "1") None None))], of_ascii "1,", d2)).
Proof.
  eexists. split; [split; [|vm_compute; reflexivity]|split; [discriminate|eexists; vm_compute; reflexivity]].
  pose proof slice_honest. repeat (constructor; [first [exact I|assumption]|]). constructor.
Qed.
End Cases.
