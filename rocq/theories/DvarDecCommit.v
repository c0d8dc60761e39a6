(** What a committed decoder has read. *)
From Verif Require Import Base DbusSpec IoMapModel IoMapSpec IoMapProofs.
From Verif Require Import DbusElement DbusSigModel DbusSigAnnot DbusSigRefine DbusSigTheory DbusCursorProofs DbusCursorQueries DbusSigResults DbusSigRefuted DbusSigProofs.
From Verif Require Import DvarModel DvarSpec DvarDecSpec DvarProofs DvarEncode DvarTyping DvarTypingProofs DvarSound DvarSubs DvarDecode DvarVisit DvarDecTyping DvarDecReads.
Local Open Scope N_scope.
Local Open Scope res_scope.

Section Commit.
Context {R : Type} (I : Read R) (P : R -> Prop) (msg : list N).
Context (HR : reading I P msg) (HK : keeping I P) (HA : answering I P) (HM : size msg + 8 < usize).
Context (HB : Forall (fun b => b < 256) msg).
Implicit Type d : Dec R.
Notation RD := (RD P msg).

(** The successful calls, between which the reader may change. *)
Inductive dsteps : Dec R -> list call -> Dec R -> Prop :=
| ds_nil d r : P r -> dsteps d [] (dput_read d r)
| ds_cons d r c x k d1 l d2 : P r -> valid_dcall c -> dec_call I (dput_read d r) c = Ok (Continue tt, x, d1) -> rewrite c x = [k] ->
    P (d_read d1) -> dsteps d1 l d2 -> dsteps d (k :: l) d2.
Lemma dsteps_read d r l d' : P r -> dsteps (dput_read d r) l d' -> dsteps d l d'.
Proof. intros Pr H. inversion H as [? r0 H0|? r0 c x k d1 l0 d2 Pr0 V E W Pd S]; subst; [exact (ds_nil d r0 H0)|]. eapply (ds_cons d r0); eassumption. Qed.
Lemma dsteps_unread d r l d' : dsteps d l d' -> dsteps (dput_read d r) l d'.
Proof. intros H. inversion H as [? r0 H0|? r0 c x k d1 l0 d2 Pr0 V E W Pd S]; subst; [exact (ds_nil (dput_read d r) r0 H0)|]. eapply (ds_cons (dput_read d r) r0); eassumption. Qed.
Lemma dsteps_app a : forall b d d', dsteps d (a ++ b) d' -> exists d1, dsteps d a d1 /\ dsteps d1 b d'.
Proof.
  induction a as [|k a IH]; intros b d d' H.
  - cbn [app] in H. inversion H as [? r H0|? r c x k d1 l0 d2 Pr0 V E W Pd S]; subst.
    + exists (dput_read d r). split; [constructor; assumption|]. exact (ds_nil (dput_read d r) r H0).
    + exists (dput_read d r). split; [constructor; assumption|]. eapply (ds_cons (dput_read d r) r); eassumption.
  - cbn [app] in H. inversion H as [|? r c x k0 d1 l d2 Pr V E W Pd S]; subst. destruct (IH _ _ _ S) as [d2 [A B]]. exists d2. split; [eapply (ds_cons d r); eassumption|exact B].
Qed.
Lemma dsteps_join a : forall b d d1 d', dsteps d a d1 -> dsteps d1 b d' -> dsteps d (a ++ b) d'.
Proof.
  induction a as [|k a IH]; intros b d d1 d' A B; inversion A as [|? r c x k0 d2 l d3 Pr V E W Pd S]; subst.
  - eapply dsteps_read; eassumption.
  - cbn [app]. eapply (ds_cons d r); try eassumption. eapply IH; eassumption.
Qed.
Lemma as_accepts s c x k s' : rewrite c x = [k] -> daccepts s c s' -> accepts s k s'.
Proof.
  intros E H. destruct c, x; cbn [rewrite as_call daccepts] in *; try discriminate E; injection E as <-; try exact H; inversion H; constructor; assumption.
Qed.
Lemma call_data d c x d' : P (d_read d) -> dec_call I d c = Ok (Continue tt, x, d') ->
  (c = DCMore /\ d' = d /\ rewrite c x = []) \/ exists k, rewrite c x = [k].
Proof.
  intros HP H. destruct c; cbn [rewrite as_call]; eauto.
  - destruct (reads_u16 I P msg HR HB _ _ _ HP H) as [n [-> _]]. eauto.
  - destruct (reads_str I P msg HR HB d EString EU32 4 de_u32 x d' HP ltac:(cbn; lia) ltac:(lia) (fun _ => eq_refl) H) as [s [-> _]]. eauto.
  - destruct (reads_str I P msg HR HB d ESignature EU8 1 de_u8 x d' HP ltac:(cbn; lia) ltac:(lia) (fun _ => eq_refl) H) as [s [-> _]]. eauto.
  - left. cbn [dec_call] in H. injection H as <- <-. auto.
Qed.
Lemma dreads_steps d l d' : dreads I d l d' -> forall s, RD d s -> exists s', accrun s l s' /\ RD d' s' /\ dsteps d l d'.
Proof.
  induction 1 as [d|d c e x d1 l d2 V E H IH|d c x d1 l d2 V E H IH]; intros s HD.
  - exists s. split; [constructor|]. split; [exact HD|]. rewrite (put_same d) at 2. constructor. apply HD.
  - destruct (dcall_typed I P msg HR HK HA HM d s c HD V) as [A B]. destruct (daccepts_dec s c V (RD_nonempty _ _ _ _ HD)) as [[s1 Hs1]|N].
    + destruct (B _ Hs1) as [r0 [v0 [d0 [E0 [[-> R1]|[y [o [-> [_ [_ [-> Po]]]]]]]]]]]; rewrite E0 in E; injection E; [discriminate|].
      intros <- _ _. destruct (IH s (RD_read _ _ d o s HD Po)) as [s' [X [Y Z]]]. exists s'. split; [exact X|]. split; [exact Y|].
      eapply dsteps_read; eassumption.
    + rewrite (A N) in E. injection E as _ _ <-. exact (IH s HD).
  - destruct (dcall_typed I P msg HR HK HA HM d s c HD V) as [A B]. destruct (daccepts_dec s c V (RD_nonempty _ _ _ _ HD)) as [[s1 Hs1]|N].
    2:{ rewrite (A N) in E. discriminate. }
    destruct (B _ Hs1) as [r0 [v0 [d0 [E0 [[-> R1]|[y [o [-> _]]]]]]]]; rewrite E0 in E; injection E; [|discriminate]. intros <- <-.
    destruct (IH s1 R1) as [s' [X [Y Z]]]. destruct (call_data d c v0 d0 (proj1 (proj2 HD)) E0) as [[-> [-> ->]]|[k Ek]].
    + cbn [daccepts] in Hs1. subst s1. exists s'. auto.
    + rewrite Ek. exists s'. split; [|split; [exact Y|]].
      * cbn [app]. econstructor; [eapply as_accepts; eassumption|exact X].
      * cbn [app]. eapply ds_cons; [apply (proj1 (proj2 HD))|exact V|rewrite <- put_same; exact E0|exact Ek|apply (proj1 (proj2 R1))|exact Z].
Qed.

(** Which call it was. *)
Lemma rewrite_plain c x k : rewrite c x = [k] -> plain_call k ->
  c = DCU16 \/ c = DCString \/ c = DCSignature \/ c = DCArray \/ c = DCClose.
Proof. destruct c, x; cbn [rewrite as_call]; intros E; try discriminate E; injection E as <-; cbn [plain_call]; tauto. Qed.
Lemma rewrite_sub c x k : rewrite c x = [k] -> k = CEnc \/ (exists s, k = CEncWith s) -> c = DCDec \/ (exists s, c = DCDecWith s /\ k = CEncWith s).
Proof.
  destruct c, x; cbn [rewrite as_call]; intros E; try discriminate E; injection E as <-; intros [X|[s0 X]]; try discriminate X; eauto.
Qed.
Lemma rewrite_commit c x : rewrite c x = [CCommit] -> c = DCCommit.
Proof. destruct c, x; cbn [rewrite as_call]; intros E; try discriminate E; reflexivity. Qed.
Lemma rewrite_drop c x : rewrite c x = [CDrop] -> c = DCDrop.
Proof. destruct c, x; cbn [rewrite as_call]; intros E; try discriminate E; reflexivity. Qed.
Lemma close_keeps d x d' : dec_close d = Ok (Continue tt, x, d') ->
  d_up d' = d_up d /\ d_format d' = d_format d /\ f_link (d_top d') = f_link (d_top d) /\ position d' = position d.
Proof.
  unfold dec_close. cbv zeta. intros H. apply bind_inv in H. destruct H as [st [_ H]]. destruct st; [discriminate|].
  destruct (f_stk (d_top d)) as [|[[el l] oc] stk] eqn:ES; [discriminate|].
  assert (K : (do f' <- close_frame (d_top d); Ok (Continue tt, DUnit, dput d f')) = (Ok (Continue tt, x, d') : dstep R)) by (destruct el; try discriminate H; exact H).
  apply bind_inv in K. destruct K as [f' [F K]]. injection K as _ <-. unfold close_frame in F. rewrite ES in F.
  apply bind_inv in F. destruct F as [c1 [_ F]]. apply bind_inv in F. destruct F as [c2 [_ F]]. injection F as <-. repeat split.
Qed.
Lemma plain_up d c x k d' : P (d_read d) -> rewrite c x = [k] -> plain_call k -> dec_call I d c = Ok (Continue tt, x, d') ->
  d_up d' = d_up d /\ d_format d' = d_format d /\ f_link (d_top d') = f_link (d_top d).
Proof.
  intros HP E Pk H. destruct (rewrite_plain _ _ _ E Pk) as [-> | [-> | [-> | [-> | ->]]]].
  - apply (fixed_inv I P msg HR HK) in H; [|exact HP|cbn; lia]. destruct H as [_ [[_ [A [B [c [i [_ C]]]]]]|[e [X _]]]]; [|discriminate]. rewrite C. auto.
  - apply (str_inv I P msg HR HK) in H; [|exact HP|cbn; lia]. destruct H as [_ [[_ [A [B [c [i [_ C]]]]]]|[e [X _]]]]; [|discriminate]. rewrite C. auto.
  - apply (str_inv I P msg HR HK) in H; [|exact HP|cbn; lia]. destruct H as [_ [[_ [A [B [c [i [_ C]]]]]]|[e [X _]]]]; [|discriminate]. rewrite C. auto.
  - apply (array_inv I P msg HR HK) in H; [|exact HP]. destruct H as [_ [[e [X _]]|[_ [A [B [c [i [q [_ C]]]]]]]]]; [discriminate|]. rewrite C. auto.
  - apply close_keeps in H. tauto.
Qed.
Lemma sub_up d c x d' : c = DCDec \/ (exists s, c = DCDecWith s) -> dec_call I d c = Ok (Continue tt, x, d') ->
  d_up d' = d_top d :: d_up d /\ d_format d' = d_format d /\ position d' = position d /\ d_read d' = d_read d /\ (exists u, f_link (d_top d') = Some u).
Proof.
  assert (K : forall x d', dec_dec d = Ok (Continue tt, x, d') ->
    d_up d' = d_top d :: d_up d /\ d_format d' = d_format d /\ position d' = position d /\ d_read d' = d_read d /\ (exists u, f_link (d_top d') = Some u)).
  { intros x0 d0 H. unfold dec_dec in H. cbv zeta in H. apply bind_inv in H. destruct H as [st [_ H]]. apply bind_inv in H. destruct H as [[v|] [_ H]]; [|discriminate].
    apply bind_inv in H. destruct H as [f [F H]]. injection H as _ <-. unfold frame_for in F. apply bind_inv in F. destruct F as [c0 [_ F]]. injection F as <-.
    repeat split. exists st. reflexivity. }
  intros [-> | [s ->]] H; cbn [dec_call] in H; [eapply K; exact H|]. apply bind_inv in H. destruct H as [sg [_ H]].
  unfold dec_dec_with in H. apply bind_inv in H. destruct H as [sub [_ H]]. apply bind_inv in H. destruct H as [[] [_ H]]; [eapply K; exact H|discriminate].
Qed.
Lemma commit_link d u x f up d' : f_link (d_top d) = Some u -> d_up d = f :: up -> dec_call I d DCCommit = Ok (Continue tt, x, d') ->
  d' = mkDec (d_format d) (mkFrame (f_done (d_top d)) (f_cursor (d_top d)) (f_lvl (d_top d)) (f_stk (d_top d)) None)
    (commit_up (position d) u f :: up) (d_read d).
Proof.
  intros L U H. cbn [dec_call] in H. unfold dec_commit in H. cbv zeta in H. apply bind_inv in H. destruct H as [st [_ H]].
  destruct st; [discriminate|]. destruct (f_stk (d_top d)) eqn:Es; [|discriminate]. rewrite L, U in H. injection H as _ <-. reflexivity.
Qed.
Lemma commit_again d x d' : f_link (d_top d) = None -> dec_call I d DCCommit = Ok (Continue tt, x, d') -> d' = d.
Proof.
  intros L H. cbn [dec_call] in H. unfold dec_commit in H. cbv zeta in H. apply bind_inv in H. destruct H as [st [_ H]].
  destruct st; [discriminate|]. destruct (f_stk (d_top d)); [|discriminate]. rewrite L in H. injection H as _ <-. reflexivity.
Qed.
Lemma drop_up d f up x d' : d_up d = f :: up -> dec_call I d DCDrop = Ok (Continue tt, x, d') -> d' = mkDec (d_format d) f up (d_read d).
Proof. intros U H. cbn [dec_call] in H. unfold dec_drop in H. rewrite U in H. injection H as _ <-. reflexivity. Qed.

Lemma commits_skip k : forall d l d', f_link (d_top d) = None -> dsteps d (repeat CCommit k ++ l) d' -> dsteps d l d'.
Proof.
  induction k as [|k IH]; intros d l d' L H; [exact H|]. cbn [repeat app] in H.
  inversion H as [|? r c x k0 d1 l0 d2 Pr V E W Pd S]; subst. rewrite (rewrite_commit _ _ W) in *.
  apply commit_again in E; [|exact L]. subst d1. apply IH in S; [|exact L]. eapply dsteps_read; eassumption.
Qed.
Lemma plain_counts_keep l m : counts l m -> forall d d', dsteps d l d' ->
  d_up d' = d_up d /\ d_format d' = d_format d /\ f_link (d_top d') = f_link (d_top d).
Proof.
  induction 1 as [|c l m Pc C IH|c l1 m1 k l2 m2 Hc C1 IH1 C2 IH2|c l1 m1 l2 m2 Hc C1 IH1 C2 IH2]; intros d d' H.
  - inversion H; subst. auto.
  - inversion H as [|? r c0 x k0 d1 l0 d2 Pr V E W Pd S]; subst. destruct (plain_up (dput_read d r) _ _ _ _ Pr W Pc E) as [A [B D]].
    destruct (IH _ _ S) as [A' [B' D']]. cbn in A, B, D. rewrite A', B', D'. auto.
  - inversion H as [|? r c0 x k0 d1 l0 d2 Pr V E W Pd S]; subst.
    assert (Hd : c0 = DCDec \/ exists s, c0 = DCDecWith s) by (destruct (rewrite_sub _ _ _ W Hc) as [?|[s [? _]]]; eauto).
    destruct (sub_up (dput_read d r) _ _ _ Hd E) as [A [B [_ [_ [u D]]]]]. cbn in A, B.
    apply dsteps_app in S. destruct S as [d3 [S1 S2]]. destruct (IH1 _ _ S1) as [A1 [B1 D1]].
    inversion S2 as [|? r3 c3 x3 k3 d4 l4 d5 Pr3 V3 E3 W3 Pd3 S3]; subst. rewrite (rewrite_commit _ _ W3) in *.
    eapply commit_link in E3; [|cbn; rewrite D1; exact D|cbn; rewrite A1; exact A]. subst d4. apply commits_skip in S3; [|reflexivity].
    inversion S3 as [|? r4 c4 x4 k4 d6 l6 d7 Pr4 V4 E4 W4 Pd4 S4]; subst. rewrite (rewrite_drop _ _ W4) in *.
    eapply drop_up in E4; [|reflexivity]. subst d6. destruct (IH2 _ _ S4) as [A2 [B2 D2]]. cbn in A2, B2, D2. rewrite A2, B2, D2, B1, B.
    split; [reflexivity|]. split; [reflexivity|]. destruct u; reflexivity.
  - inversion H as [|? r c0 x k0 d1 l0 d2 Pr V E W Pd S]; subst.
    assert (Hd : c0 = DCDec \/ exists s, c0 = DCDecWith s) by (destruct (rewrite_sub _ _ _ W Hc) as [?|[s [? _]]]; eauto).
    destruct (sub_up (dput_read d r) _ _ _ Hd E) as [A [B [_ [_ [u D]]]]]. cbn in A, B.
    apply dsteps_app in S. destruct S as [d3 [S1 S2]]. destruct (IH1 _ _ S1) as [A1 [B1 D1]].
    inversion S2 as [|? r4 c4 x4 k4 d6 l6 d7 Pr4 V4 E4 W4 Pd4 S4]; subst. rewrite (rewrite_drop _ _ W4) in *.
    eapply drop_up in E4; [|cbn; rewrite A1; exact A]. subst d6. destruct (IH2 _ _ S4) as [A2 [B2 D2]]. cbn in A2, B2, D2. rewrite A2, B2, D2, B1, B. auto.
Qed.
(** Calls that do not count make no difference. *)
Lemma counts_steps l m : counts l m -> forall d d', dsteps d l d' -> dsteps d m d'.
Proof.
  induction 1 as [|c l m Pc C IH|c l1 m1 k l2 m2 Hc C1 IH1 C2 IH2|c l1 m1 l2 m2 Hc C1 IH1 C2 IH2]; intros d d' H.
  - exact H.
  - inversion H as [|? r c0 x k0 d1 l0 d2 Pr V E W Pd S]; subst. eapply (ds_cons d r); try eassumption. apply IH, S.
  - inversion H as [|? r c0 x k0 d1 l0 d2 Pr V E W Pd S]; subst.
    assert (Hd : c0 = DCDec \/ exists s, c0 = DCDecWith s) by (destruct (rewrite_sub _ _ _ W Hc) as [?|[s [? _]]]; eauto).
    destruct (sub_up (dput_read d r) _ _ _ Hd E) as [A [B [_ [_ [u D]]]]]. cbn in A, B.
    apply dsteps_app in S. destruct S as [d3 [S1 S2]]. destruct (plain_counts_keep _ _ C1 _ _ S1) as [A1 [B1 D1]]. apply IH1 in S1.
    inversion S2 as [|? r3 c3 x3 k3 d4 l4 d5 Pr3 V3 E3 W3 Pd3 S3]; subst. pose proof (rewrite_commit _ _ W3) as ->.
    pose proof E3 as E3'. eapply commit_link in E3; [|cbn; rewrite D1; exact D|cbn; rewrite A1; exact A]. subst d4.
    apply commits_skip in S3; [|reflexivity].
    inversion S3 as [|? r4 c4 x4 k4 d6 l6 d7 Pr4 V4 E4 W4 Pd4 S4]; subst. apply IH2 in S4.
    cbn [app]. refine (ds_cons d r c0 x _ d1 _ _ Pr V E W Pd _). rewrite <- app_assoc. eapply dsteps_join; [exact S1|]. cbn [app].
    refine (ds_cons d3 r3 _ x3 _ _ _ _ Pr3 V3 E3' W3 Pd3 _). exact (ds_cons _ r4 _ x4 _ _ _ _ Pr4 V4 E4 W4 Pd4 S4).
  - inversion H as [|? r c0 x k0 d1 l0 d2 Pr V E W Pd S]; subst.
    assert (Hd : c0 = DCDec \/ exists s, c0 = DCDecWith s) by (destruct (rewrite_sub _ _ _ W Hc) as [?|[s [? _]]]; eauto).
    destruct (sub_up (dput_read d r) _ _ _ Hd E) as [A [B [_ [_ [u D]]]]]. cbn in A, B.
    apply dsteps_app in S. destruct S as [d3 [S1 S2]]. destruct (plain_counts_keep _ _ C1 _ _ S1) as [A1 [B1 D1]].
    inversion S2 as [|? r4 c4 x4 k4 d6 l6 d7 Pr4 V4 E4 W4 Pd4 S4]; subst. rewrite (rewrite_drop _ _ W4) in *.
    eapply drop_up in E4; [|cbn; rewrite A1; exact A]. subst d6. apply IH2 in S4. cbn in S4, Pd4. rewrite B1, B in S4.
    eapply (dsteps_read d r4); [exact Pr4|exact S4].
Qed.

(** One step, with types. *)
Lemma step_typed d s k l d' : RD d s -> dsteps d (k :: l) d' -> exists r c x d1 s1, P r /\
  dec_call I (dput_read d r) c = Ok (Continue tt, x, d1) /\ rewrite c x = [k] /\ accepts s k s1 /\ RD d1 s1 /\ dsteps d1 l d'.
Proof.
  intros HD H. inversion H as [|? r c x k0 d1 l0 d2 Pr V E W Pd S]; subst. pose proof (RD_read P msg d r s HD Pr) as HD'.
  destruct (dcall_typed I P msg HR HK HA HM _ s c HD' V) as [A B]. destruct (daccepts_dec s c V (RD_nonempty _ _ _ _ HD')) as [[s1 Hs1]|N].
  2:{ rewrite (A N) in E. discriminate. }
  destruct (B _ Hs1) as [r0 [v0 [d0 [E0 [[-> R1]|[y [o [-> _]]]]]]]]; rewrite E0 in E; injection E; [|discriminate]. intros <- <-.
  exists r, c, v0, d0, s1. split; [exact Pr|]. split; [exact E0|]. split; [exact W|]. split; [eapply as_accepts; eassumption|]. split; assumption.
Qed.

Lemma segs_down_align c stk h u o : segs c stk h -> next h = Some (TArray u) -> unwrap (c_down c) = Ok o -> e_dvar_alignment_exp o = dvar_align u.
Proof.
  intros H Nx. destruct (segs_top _ _ _ H) as [T [s [i [h1 [h2 [es [-> [Hs [He [-> [Ne _]]]]]]]]]]].
  rewrite (next_app h1 h2 Ne) in Nx. destruct (expecting_next _ _ _ _ He Nx) as [fs [-> Hc]].
  pose proof (ctx_occurs _ _ _ _ Hc) as O. pose proof (occ_array T fs u O) as O'.
  unfold c_down. rewrite (start_down T s Hs fs _ O). cbn [is_container bind].
  assert (EI : size (prefix fs) + 1 = size (prefix (FArray :: fs))) by (rewrite prefix_fs; cbn; change (size (@nil N)) with 0; lia).
  rewrite EI. change (element_at (mkCursor s (size (prefix fs)))) with (element_at (mkCursor s (size (prefix (FArray :: fs))))).
  rewrite (start_element T s Hs _ _ O'). cbn [bind unwrap]. intros E. injection E as <-. destruct u as [[]| | | | |]; reflexivity.
Qed.
Lemma array_reads d h b up t x d' : RD d ((h, b) :: up) -> next h = Some (TArray t) -> dec_call I d DCArray = Ok (Continue tt, x, d') ->
  let q := position d + size (padding (position d) 2) in
  q + 4 <= size msg /\ position d' = q + 4 + size (padding (q + 4) (dvar_align t)).
Proof.
  intros HD Nx H. destruct (RD_segs _ _ _ _ HD) as [h0 [b0 [up0 [E S]]]]. injection E as <- <- <-. pose proof (proj1 (proj2 HD)) as HP.
  cbn [dec_call] in H. unfold dec_array in H. cbv zeta in H. apply bind_inv in H. destruct H as [ok [_ H]].
  destruct ok; cbn [negb] in H; [|discriminate]. apply bind_inv in H. destruct H as [o [Eo H]].
  pose proof (segs_down_align _ _ _ _ _ S Nx Eo) as Ea. rewrite Ea in H.
  apply calign_inv in H; [|cbn; lia]. apply (cread_inv I P msg HR) in H; [|exact HP|lia]. destruct H as [r' [_ [B H]]].
  pose proof (dvar_align_le t). apply calign_inv in H; [|lia].
  apply bind_inv in H. destruct H as [c [_ H]]. injection H as _ <-. cbv zeta.
  change (e_dvar_alignment_exp EU32) with 2 in B. fold (position d) in B. split; [exact B|]. reflexivity.
Qed.

Theorem encodes_reads :
  (forall t v m, encodes t v m -> forall d h b up d', RD d ((h, b) :: up) -> next h = Some t -> dsteps d m d' ->
    RD d' ((pop h, b) :: up) /\ d_up d' = d_up d /\ d_format d' = d_format d /\ f_link (d_top d') = f_link (d_top d) /\
    reads (big_endian (d_format d)) msg t v (position d) (position d')) /\
  (forall ts vs m, encodes_all ts vs m -> forall t d h b up d', ts = repeat t (length vs) -> RD d ((HArr t :: h, b) :: up) -> dsteps d m d' ->
    RD d' ((HArr t :: h, b) :: up) /\ d_up d' = d_up d /\ d_format d' = d_format d /\ f_link (d_top d') = f_link (d_top d) /\
    reads_all (big_endian (d_format d)) msg t vs (position d) (position d')).
Proof.
  assert (Done : forall d s d', RD d s -> dsteps d [] d' -> RD d' s /\ d_up d' = d_up d /\ d_format d' = d_format d /\ f_link (d_top d') = f_link (d_top d) /\ position d' = position d).
  { intros d s d' HD H. inversion H; subst. split; [apply RD_read; assumption|]. auto. }
  assert (None' : forall k d s l d' (Q : Prop), RD d s -> dsteps d (k :: l) d' -> (forall c x, rewrite c x <> [k]) -> Q).
  { intros k d s l d' Q HD H N. destruct (step_typed _ _ _ _ _ HD H) as [r [c [x [d1 [s1 [_ [_ [W _]]]]]]]]. exfalso. exact (N _ _ W). }
  assert (Sub : forall k t v m, k = CEnc \/ k = CEncWith (print t) ->
    (forall d h b up d', RD d ((h, b) :: up) -> next h = Some t -> dsteps d m d' ->
      RD d' ((pop h, b) :: up) /\ d_up d' = d_up d /\ d_format d' = d_format d /\ f_link (d_top d') = f_link (d_top d) /\
      reads (big_endian (d_format d)) msg t v (position d) (position d')) ->
    forall d h b up d', RD d ((h, b) :: up) -> next h = Some t -> dsteps d (k :: m ++ [CCommit; CDrop]) d' ->
      RD d' ((pop h, b) :: up) /\ d_up d' = d_up d /\ d_format d' = d_format d /\ f_link (d_top d') = f_link (d_top d) /\
      reads (big_endian (d_format d)) msg t v (position d) (position d')).
  { intros k t v m Hk IH d h b up d' HD Nx H. destruct (step_typed _ _ _ _ _ HD H) as [r [c [x [d1 [s1 [Pr [E [W [A [R1 S]]]]]]]]]].
    assert (s1 = ([HSeq [t]], true) :: (h, b) :: up).
    { destruct Hk as [-> | ->]; inversion A as [| | | | | | | | | | | |t0 ? ? ? Nx0|t0 ? ? ? Nx0 X| | | |]; subst; [congruence|].
      congruence. }
    subst s1. assert (Hd : c = DCDec \/ exists s, c = DCDecWith s).
    { destruct (rewrite_sub _ _ _ W) as [?|[s [? _]]]; [destruct Hk; eauto|eauto..]. }
    destruct (sub_up _ _ _ _ Hd E) as [U [F [Po [_ [u L]]]]]. cbn in U, F. change (position (dput_read d r)) with (position d) in Po.
    apply dsteps_app in S. destruct S as [d2 [S1 S2]]. destruct (IH _ _ _ _ _ R1 eq_refl S1) as [R2 [U2 [F2 [L2 Rd]]]]. cbn [pop] in R2.
    destruct (step_typed _ _ _ _ _ R2 S2) as [r3 [c3 [x3 [d3 [s3 [Pr3 [E3 [W3 [A3 [R3 S3]]]]]]]]]]. rewrite (rewrite_commit _ _ W3) in *.
    eapply commit_link in E3; [|cbn; rewrite L2; exact L|cbn; rewrite U2; exact U]. subst d3. inversion A3; subst.
    destruct (step_typed _ _ _ _ _ R3 S3) as [r4 [c4 [x4 [d4 [s4 [Pr4 [E4 [W4 [A4 [R4 S4]]]]]]]]]]. rewrite (rewrite_drop _ _ W4) in *.
    eapply drop_up in E4; [|reflexivity]. subst d4. inversion A4; subst. destruct (Done _ _ _ R4 S4) as [R5 [U5 [F5 [L5 P5]]]].
    split; [exact R5|]. cbn in U5, F5, L5, P5. rewrite U5, F5, L5, P5, F2, F. split; [reflexivity|]. split; [reflexivity|].
    split; [destruct u; reflexivity|]. rewrite F, Po in Rd. unfold position at 2. destruct u; exact Rd. }
  apply encodes_both.
  - intros n d h b up d' HD Nx H. destruct (step_typed _ _ _ _ _ HD H) as [r [c [x [d1 [s1 [Pr [E [W [A [R1 S]]]]]]]]]].
    destruct (Done _ _ _ R1 S) as [R2 [U2 [F2 [L2 P2]]]]. inversion A; subst. destruct (plain_up (dput_read d r) _ _ _ _ Pr W Logic.I E) as [U [F L]]. cbn in U, F, L.
    split; [exact R2|]. split; [congruence|]. split; [congruence|]. split; [congruence|]. rewrite P2.
    destruct c, x; cbn [rewrite as_call] in W; try discriminate W. injection W as ->.
    destruct (reads_u16 I P msg HR HB (dput_read d r) _ _ Pr E) as [m [[= <-] [Hn [Hh [Hs ->]]]]]. eapply rd_u16; [reflexivity|assumption..].
  - intros n d h b up d' HD Nx H. eapply (None' _ _ _ _ _ _ HD H). destruct c, x; discriminate.
  - intros n d h b up d' HD Nx H. eapply (None' _ _ _ _ _ _ HD H). destruct c, x; discriminate.
  - intros n d h b up d' HD Nx H. destruct (step_typed _ _ _ _ _ HD H) as [r [c [x [d1 [s1 [Pr [E [W [A [R1 S]]]]]]]]]].
    destruct (Done _ _ _ R1 S) as [R2 [U2 [F2 [L2 P2]]]]. inversion A; subst. destruct (plain_up (dput_read d r) _ _ _ _ Pr W Logic.I E) as [U [F L]]. cbn in U, F, L.
    split; [exact R2|]. split; [congruence|]. split; [congruence|]. split; [congruence|]. rewrite P2.
    destruct c, x; cbn [rewrite as_call] in W; try discriminate W. injection W as ->.
    destruct (reads_str I P msg HR HB (dput_read d r) EString EU32 4 de_u32 _ _ Pr ltac:(cbn; lia) ltac:(lia) (fun _ => eq_refl) E) as [m [[= <-] [Ht [Hn [Hh [Hs ->]]]]]].
    change (N.of_nat 4) with 4 in *. eapply rd_string; [reflexivity|assumption..].
  - intros n d h b up d' HD Nx H. eapply (None' _ _ _ _ _ _ HD H). destruct c, x; discriminate.
  - intros n d h b up d' HD Nx H. destruct (step_typed _ _ _ _ _ HD H) as [r [c [x [d1 [s1 [Pr [E [W [A [R1 S]]]]]]]]]].
    destruct (Done _ _ _ R1 S) as [R2 [U2 [F2 [L2 P2]]]]. inversion A; subst. destruct (plain_up (dput_read d r) _ _ _ _ Pr W Logic.I E) as [U [F L]]. cbn in U, F, L.
    split; [exact R2|]. split; [congruence|]. split; [congruence|]. split; [congruence|]. rewrite P2.
    destruct c, x; cbn [rewrite as_call] in W; try discriminate W. injection W as ->.
    destruct (reads_str I P msg HR HB (dput_read d r) ESignature EU8 1 de_u8 _ _ Pr ltac:(cbn; lia) ltac:(lia) (fun _ => eq_refl) E) as [m [[= <-] [Ht [Hn [Hh [Hs ->]]]]]].
    change (e_dvar_alignment_exp EU8) with 0 in *. rewrite padding_0 in *. change (size (@nil N)) with 0 in *. rewrite N.add_0_r in *.
    change (N.of_nat 1) with 1 in *. eapply rd_signature; assumption.
  - intros t v cs _ _ d h b up d' HD Nx H. eapply (None' _ _ _ _ _ _ HD H). destruct c, x; discriminate.
  - intros t vs cs HE IH d h b up d' HD Nx H. destruct (step_typed _ _ _ _ _ HD H) as [r [c [x [d1 [s1 [Pr [E [W [A [R1 S]]]]]]]]]].
    inversion A as [| | | | | | |t0 ? ? ? Nx0| | | | | | | | | |]; subst. rewrite Nx in Nx0. injection Nx0 as <-.
    destruct (plain_up (dput_read d r) _ _ _ _ Pr W Logic.I E) as [U [F L]]. cbn in U, F, L.
    assert (c = DCArray) by (destruct c, x; cbn [rewrite as_call] in W; try discriminate W; reflexivity). subst c.
    destruct (array_reads _ _ _ _ _ _ _ (RD_read P msg d r _ HD Pr) Nx E) as [B Po]. change (position (dput_read d r)) with (position d) in *.
    apply dsteps_app in S. destruct S as [d2 [S1 S2]]. destruct (IH _ _ _ _ _ _ eq_refl R1 S1) as [R2 [U2 [F2 [L2 Rd]]]].
    destruct (step_typed _ _ _ _ _ R2 S2) as [r3 [c3 [x3 [d3 [s3 [Pr3 [E3 [W3 [A3 [R3 S3]]]]]]]]]].
    assert (c3 = DCClose) by (destruct c3, x3; cbn [rewrite as_call] in W3; try discriminate W3; reflexivity). subst c3.
    apply close_keeps in E3. cbn in E3. change (position (dput_read d2 r3)) with (position d2) in E3. destruct E3 as [U3 [F3 [L3 P3]]].
    inversion A3; subst. destruct (Done _ _ _ R3 S3) as [R4 [U4 [F4 [L4 P4]]]].
    split; [exact R4|]. split; [congruence|]. split; [congruence|]. split; [congruence|]. rewrite P4, P3. rewrite F in Rd.
    eapply rd_array; [reflexivity|exact B|]. rewrite Po in Rd. exact Rd.
  - intros ts vs cs _ _ d h b up d' HD Nx H. eapply (None' _ _ _ _ _ _ HD H). destruct c, x; discriminate.
  - intros k t kv v cs _ _ d h b up d' HD Nx H. eapply (None' _ _ _ _ _ _ HD H). destruct c, x; discriminate.
  - intros t v cs _ IH. apply Sub; [left; reflexivity|exact IH].
  - intros t v cs _ IH. apply Sub; [right; reflexivity|exact IH].
  - intros t d h b up d' _ HD H. destruct (Done _ _ _ HD H) as [R2 [U2 [F2 [L2 ->]]]]. repeat (split; [assumption|]). constructor.
  - intros t ts v vs cs cs' _ IH1 _ IH2 t0 d h b up d' Et HD H. cbn [length repeat] in Et. injection Et as -> Et.
    apply dsteps_app in H. destruct H as [d1 [S1 S2]]. destruct (IH1 _ _ _ _ _ HD eq_refl S1) as [R1 [U1 [F1 [L1 Rd1]]]]. cbn [pop] in R1.
    destruct (IH2 _ _ _ _ _ _ Et R1 S2) as [R2 [U2 [F2 [L2 Rd2]]]]. split; [exact R2|]. split; [congruence|]. split; [congruence|]. split; [congruence|].
    rewrite F1 in Rd2. econstructor; eassumption.
Qed.

Theorem committed_reads fuel fmt t sg r d0 l d x d' : P r -> sig_new fuel (print t) = Ok (inr sg) -> dec_new sg fmt r = Ok d0 ->
  dreads I d0 l d -> inside 0 l = true -> dec_call I d DCCommit = Ok (Continue tt, x, d') ->
  exists m v, counts l m /\ encodes t v m /\ reads (big_endian fmt) msg t v 0 (position d) /\ position d' = position d.
Proof.
  intros Pr Es En H HI C. assert (HD : RD d0 [([HSeq [t]], false)]) by (eapply RD_start; eassumption).
  destruct (dreads_steps _ _ _ H _ HD) as [s [Hs [R' S]]].
  destruct (accrun_counts _ _ (le_n _) _ _ _ _ Hs HI) as [m [h' [-> [Hm Hr]]]].
  destruct (dcall_typed I P msg HR HK HA HM d _ DCCommit R' Logic.I) as [A _].
  destruct (daccepts_dec _ DCCommit Logic.I (RD_nonempty _ _ _ _ R')) as [[s1 Hs1]|N]; [|rewrite (A N) in C; discriminate].
  cbn [daccepts as_call] in Hs1. inversion Hs1; subst. destruct (hrun_fills _ _ (le_n _) _ _ Hr) as [F _]. destruct (F eq_refl) as [vs Fv].
  inversion Fv as [|t0 ts0 v vs0 c1 c2 Hv Hr1]; subst. inversion Hr1; subst. rewrite app_nil_r in Hm.
  exists c1, v. split; [exact Hm|]. split; [exact Hv|].
  destruct (proj1 encodes_reads _ _ _ Hv _ _ _ _ _ HD eq_refl (counts_steps _ _ Hm _ _ S)) as [_ [U [Ff [L Rd]]]].
  unfold dec_new, frame_for in En. apply bind_inv in En. destruct En as [f0 [F0 En]]. injection En as <-.
  apply bind_inv in F0. destruct F0 as [c0 [_ F0]]. injection F0 as <-. split; [exact Rd|].
  cbn in L. apply commit_again in C; [|exact L]. rewrite C. reflexivity.
Qed.
End Commit.
