(** Sub-encoders that are dropped without having been committed leave no trace. *)
From Verif Require Import Base DbusSpec DbusSigModel IoMapSpec IoMapModel IoMapProofs DvarSpec DvarModel DvarTyping DvarTypingProofs DvarSound.
Local Open Scope N_scope.
Local Open Scope res_scope.

(** * Of calls to calls that count *)
Inductive accrun : state -> list call -> state -> Prop :=
| accrun_nil s : accrun s [] s
| accrun_cons s c s1 l s2 : accepts s c s1 -> accrun s1 l s2 -> accrun s (c :: l) s2.
Lemma accrun_app a : forall b s s', accrun s (a ++ b) s' -> exists s1, accrun s a s1 /\ accrun s1 b s'.
Proof.
  induction a as [|c a IH]; intros b s s' H; [exists s; split; [constructor|exact H]|].
  inversion H as [|? ? s1 ? ? A R]; subst. destruct (IH _ _ _ R) as [s2 [X Y]]. exists s2. split; [econstructor; eassumption|exact Y].
Qed.
Lemma follows_accrun s l s' : follows s l s' -> accrun s (succeeded l) s'.
Proof. induction 1; cbn [succeeded]; [constructor|econstructor; eassumption|assumption..]. Qed.

(** The part of a session before its first commit or its end. *)
Lemma inside_split l : forall d1 d, inside (d1 + S d) l = true ->
  exists l1 c l2, l = l1 ++ c :: l2 /\ inside d1 l1 = true /\
    (c = CCommit /\ inside (S d) l2 = true \/ c = CDrop /\ inside d l2 = true).
Proof.
  induction l as [|c l IH]; intros d1 d H; [cbn [inside] in H; apply Nat.eqb_eq in H; lia|].
  assert (K : forall d2, inside (d2 + S d) l = true -> (forall l1, inside d2 l1 = inside d1 (c :: l1)) ->
    exists l1 c' l2, c :: l = l1 ++ c' :: l2 /\ inside d1 l1 = true /\
      (c' = CCommit /\ inside (S d) l2 = true \/ c' = CDrop /\ inside d l2 = true)).
  { intros d2 H2 E. destruct (IH d2 d H2) as [l1 [c' [l2 [-> [I1 X]]]]]. exists (c :: l1), c', l2.
    split; [reflexivity|]. split; [rewrite <- E; exact I1|exact X]. }
  destruct c; cbn [inside] in H; try (apply (K d1 H); intros l1; reflexivity).
  - apply (K (S d1)); [exact H|reflexivity].
  - apply (K (S d1)); [exact H|reflexivity].
  - destruct d1 as [|d1].
    + exists [], CCommit, l. cbn [Nat.add] in H. auto.
    + cbn [Nat.add] in H. apply (K (S d1)); [exact H|reflexivity].
  - destruct d1 as [|d1].
    + exists [], CDrop, l. cbn [Nat.add] in H. auto.
    + cbn [Nat.add] in H. apply (K d1); [exact H|reflexivity].
Qed.
(** After a commit a sub-encoder can only be committed again, and dropped. *)
Lemma after_commit l : forall g b up s', accrun (([HSeq []], false) :: (g, b) :: up) l s' -> inside 1 l = true ->
  exists k l', l = repeat CCommit k ++ CDrop :: l' /\ inside 0 l' = true /\ accrun ((g, b) :: up) l' s'.
Proof.
  induction l as [|c l IH]; intros g b up s' H HI; [discriminate|].
  inversion H as [|? ? s1 ? ? A R]; subst. inversion A; subst; try discriminate; try congruence; cbn [inside] in HI.
  - destruct (IH _ _ _ _ R HI) as [k [l' [-> [X Y]]]]. exists (S k), l'. auto.
  - exists 0%nat, l. auto.
Qed.
Lemma accrun_counts n : forall l, (length l <= n)%nat -> forall h b up s', accrun ((h, b) :: up) l s' -> inside 0 l = true ->
  exists m h', s' = (h', b) :: up /\ counts l m /\ hrun h m h'.
Proof.
  induction n as [|n IH]; intros l Hn h b up s' H HI.
  - destruct l; [|cbn in Hn; lia]. inversion H; subst. exists [], h. repeat split; constructor.
  - inversion H as [|? c s1 l0 ? A R]; subst; [exists [], h; repeat split; constructor|]. cbn [length] in Hn.
    assert (Pl : forall h1, plain_call c -> inside 0 l0 = true -> s1 = (h1, b) :: up -> accepts [(h, false)] c [(h1, false)] ->
      exists m h', s' = (h', b) :: up /\ counts (c :: l0) m /\ hrun h m h').
    { intros h1 Pc HI' -> A'. destruct (IH l0 ltac:(lia) _ _ _ _ R HI') as [m [h' [E [C Hr]]]].
      exists (c :: m), h'. split; [exact E|]. split; [constructor; assumption|econstructor; eassumption]. }
    assert (Sub : forall u, next h = Some u -> c = CEnc \/ c = CEncWith (print u) -> inside 1 l0 = true ->
      s1 = ([HSeq [u]], true) :: (h, b) :: up -> exists m h', s' = (h', b) :: up /\ counts (c :: l0) m /\ hrun h m h').
    { intros u Nu Hc HI' ->. destruct (inside_split l0 0 0 HI') as [l1 [c' [l2 [-> [I1 X]]]]].
      rewrite app_length in Hn. cbn [length] in Hn.
      apply accrun_app in R. destruct R as [s2 [R1 R2]]. destruct (IH l1 ltac:(lia) _ _ _ _ R1 I1) as [m1 [h1 [-> [C1 Hr1]]]].
      assert (Hc' : c = CEnc \/ (exists s, c = CEncWith s)) by (destruct Hc; eauto).
      inversion R2 as [|? ? s3 ? ? A2 R3]; subst. destruct X as [[-> I2]|[-> I2]].
      - inversion A2; subst. destruct (after_commit _ _ _ _ _ R3 I2) as [k [l' [-> [I3 R4]]]].
        rewrite app_length in Hn. cbn [length] in Hn. destruct (IH l' ltac:(lia) _ _ _ _ R4 I3) as [m2 [h2 [-> [C2 Hr2]]]].
        exists ((c :: m1 ++ [CCommit; CDrop]) ++ m2), h2. split; [reflexivity|]. split; [constructor; assumption|].
        econstructor; eassumption.
      - inversion A2; subst. destruct (IH l2 ltac:(lia) _ _ _ _ R3 I2) as [m2 [h2 [-> [C2 Hr2]]]].
        exists m2, h2. split; [reflexivity|]. split; [|exact Hr2]. eapply counts_dropped; eassumption. }
    inversion A; subst; cbn [inside] in HI; try discriminate;
      try (eapply Pl; [exact Logic.I|exact HI|reflexivity|constructor; assumption]);
      eapply Sub; eauto.
Qed.

(** * What happens above a position leaves no trace below *)
Section Floor.
Context {W : Type} (I : Write W).
Fixpoint lows (base : N) (lvl : Level) (stk : list (Element * Level * option Cursor)) : Prop :=
  match stk with
  | [] => True
  | (el, l, _) :: r => (el = EArray -> base <= l_meta lvl) /\ lows base l r
  end.
Definition low (base : N) (f : Frame) : Prop := base <= l_idx (f_lvl f) /\ lows base (f_lvl f) (f_stk f).
Lemma lows_level base l l' stk : l_meta l' = l_meta l -> lows base l stk -> lows base l' stk.
Proof. destruct stk as [|[[el k] c] stk]; cbn [lows]; [auto|]. intros ->. auto. Qed.
Lemma quiet_low base f m m' : low base f -> quiet f m m' -> same_below m m' base.
Proof.
  intros [Hi Hl] Q j L. apply Q; [lia|]. intros [[l [c [r E]]] [_ [X _]]]. rewrite E in Hl. cbn [lows] in Hl.
  destruct Hl as [Hm _]. specialize (Hm eq_refl). lia.
Qed.
Lemma below_low m m' b i : b <= i -> same_below m m' i -> same_below m m' b.
Proof. intros L H j K. apply H. lia. Qed.

Lemma seq_io_ok x (e : Enc W) k e' : seq_io x e k = Ok (Continue tt, e') -> exists o i, x = Ok (Continue tt, o, i) /\ k o i = Ok (Continue tt, e').
Proof.
  unfold seq_io. destruct x as [[[[b|[]] o] i]| |]; try discriminate; cbn [bind]; eauto.
Qed.
(** What a call on one encoder keeps. *)
Definition keeps (base : N) (e e' : Enc W) : Prop :=
  low base (e_top e') /\ e_up e' = e_up e /\ e_format e' = e_format e /\ f_link (e_top e') = f_link (e_top e) /\ f_done (e_top e') = f_done (e_top e)
  /\ same_below (o_mem (e_out e)) (o_mem (e_out e')) base.
Lemma keeps_trans base e1 e2 e3 : keeps base e1 e2 -> keeps base e2 e3 -> keeps base e1 e3.
Proof.
  intros (A1 & B1 & C1 & D1 & E1 & F1) (A2 & B2 & C2 & D2 & E2 & F2).
  repeat split; try congruence; try apply A2. intros j L. rewrite F2, F1; auto.
Qed.
Ltac io H := apply seq_io_ok in H; let o := fresh "o" in let i := fresh "i" in let E := fresh "E" in destruct H as [o [i [E H]]];
  let L := fresh "L" in let B := fresh "B" in
  first [apply align_low in E; destruct E as [L [B _]]|apply write_low in E; destruct E as [L [B _]]|apply zero1_low in E; destruct E as [L [B _]]
    |unfold write_iter in E; apply iter_low in E; destruct E as [L B]].
Ltac bnd H := match type of H with bind ?x _ = _ => let X := fresh "X" in destruct x eqn:X; [|discriminate H..]; cbn [bind] in H end.
Ltac memo := let j := fresh in let K := fresh in intros j K; repeat match goal with B : same_below _ _ _ |- _ => rewrite B by lia; clear B end; reflexivity.
Lemma plain_keeps base e c e' : plain_call c -> enc_call I e c = Ok (Continue tt, e') -> low base (e_top e) -> keeps base e e'.
Proof.
  intros Pc H [Hi Hl].
  assert (Fixed : forall el data, enc_fixed I e el data = Ok (Continue tt, e') -> keeps base e e').
  { clear H. intros el data H. unfold enc_fixed in H. cbv zeta in H. bnd H. destruct a; cbn [negb] in H; [|discriminate].
    io H. io H. bnd H. injection H as <-. repeat split; cbn; [lia|eapply lows_level; [|exact Hl]; reflexivity|memo]. }
  assert (Str : forall el len_el limit en data, enc_str I e el len_el limit en data = Ok (Continue tt, e') -> keeps base e e').
  { clear H. intros el len_el limit en data H. unfold enc_str in H. cbv zeta in H. bnd H. destruct a; cbn [negb] in H; [|discriminate].
    destruct (_ <? _); cbn [negb] in H; [|discriminate].
    io H. io H. io H. io H. bnd H. injection H as <-. repeat split; cbn; [lia|eapply lows_level; [|exact Hl]; reflexivity|memo]. }
  assert (Open : forall el, el <> EArray -> enc_open I e el = Ok (Continue tt, e') -> keeps base e e').
  { clear H. intros el N H. unfold enc_open in H. cbv zeta in H. bnd H. destruct a; cbn [negb] in H; [|discriminate].
    bnd H. io H. bnd H. injection H as <-. repeat split; cbn; [lia|congruence|exact Hl|memo]. }
  destruct c; cbn [enc_call] in H; try (exfalso; exact Pc); try (eapply Fixed; exact H); try (eapply Str; exact H);
    try (eapply Open; [|exact H]; discriminate).
  - bnd H. unfold enc_variant in H. cbv zeta in H. bnd H. destruct a0; cbn [negb] in H; [|discriminate]. bnd H.
    destruct (_ <? _); cbn [negb] in H; [|discriminate]. io H. io H. bnd H. bnd H. bnd H. io H. io H. injection H as <-.
    repeat split; cbn; [lia|congruence|exact Hl|memo].
  - unfold enc_array in H. cbv zeta in H. bnd H. destruct a; cbn [negb] in H; [|discriminate]. bnd H. io H. io H. io H. bnd H. injection H as <-.
    repeat split; cbn; [lia|lia|exact Hl|memo].
  - unfold enc_close in H. cbv zeta in H. bnd H. destruct a; [discriminate|].
    destruct (f_stk (e_top e)) as [|[[el l] oc] stk] eqn:ES; [discriminate|]. cbn [lows] in Hl. destruct Hl as [Hm Hl].
    assert (Fin : forall o, (do f' <- close_frame (e_top e); Ok (Continue tt, put_out (put_top e f') o)) = (Ok (Continue tt, e') : step (Enc W)) ->
      same_below (o_mem (e_out e)) (o_mem o) base -> keeps base e e').
    { intros o F B. destruct (close_frame (e_top e)) as [f0| |] eqn:X0; [|discriminate F..]. cbn [bind] in F. injection F as <-. unfold close_frame in X0. rewrite ES in X0. bnd X0. bnd X0. injection X0 as <-.
      repeat split; cbn; [exact Hi|eapply lows_level; [|exact Hl]; reflexivity|exact B]. }
    destruct el; try discriminate H; try (apply Fin in H; [exact H|intros j _; reflexivity]).
    bnd H. destruct (0 <? a); [|apply Fin in H; [exact H|intros j _; reflexivity]].
    destruct (a <? 2 ^ 32); cbn [negb] in H; [|discriminate]. io H. apply Fin in H; [exact H|]. specialize (Hm eq_refl). memo.
Qed.
Lemma fails_keeps base e e' : fails I e e' -> low base (e_top e) -> keeps base e e'.
Proof.
  intros F Hl. apply fails_quiet in F. destruct F as [o [-> Q]]. repeat split; try apply Hl. eapply quiet_low; eassumption.
Qed.
Lemma keeps_refl base e : low base (e_top e) -> keeps base e e.
Proof. intros H. repeat split; try apply H. Qed.

(** The first call on a sub-encoder, and its end. *)
Lemma sub_begin e c e1 : c = CEnc \/ (exists s, c = CEncWith s) -> enc_call I e c = Ok (Continue tt, e1) ->
  e_up e1 = e_top e :: e_up e /\ e_out e1 = e_out e /\ e_format e1 = e_format e /\
  (exists x, f_link (e_top e1) = Some x) /\ f_stk (e_top e1) = [] /\ l_idx (f_lvl (e_top e1)) = l_idx (f_lvl (e_top e)).
Proof.
  assert (E : enc_enc e = Ok (Continue tt, e1) -> e_up e1 = e_top e :: e_up e /\ e_out e1 = e_out e /\ e_format e1 = e_format e /\
    (exists x, f_link (e_top e1) = Some x) /\ f_stk (e_top e1) = [] /\ l_idx (f_lvl (e_top e1)) = l_idx (f_lvl (e_top e))).
  { intros H. unfold enc_enc in H. cbv zeta in H. bnd H. bnd H. destruct a0; [|discriminate]. bnd H. injection H as <-.
    unfold frame_for in X1. bnd X1. injection X1 as <-. repeat split. cbn. eauto. }
  intros [->|[s ->]] H; cbn [enc_call] in H; [exact (E H)|]. bnd H. unfold enc_enc_with in H. bnd H. bnd H. destruct a1; [exact (E H)|discriminate].
Qed.
Lemma sub_commit e x u up e1 : f_link (e_top e) = Some x -> e_up e = u :: up -> enc_call I e CCommit = Ok (Continue tt, e1) ->
  e1 = mkEnc (e_format e) (mkFrame true (f_cursor (e_top e)) (f_lvl (e_top e)) [] None)
    (commit_up (l_idx (f_lvl (e_top e))) x u :: up) (e_out e) /\ idx_step (f_cursor (e_top e)) = Ok None.
Proof.
  intros El Eu H. cbn [enc_call] in H. unfold enc_commit in H. cbv zeta in H. bnd H. destruct a; [discriminate|].
  destruct (f_stk (e_top e)) eqn:Es; [|discriminate]. rewrite El, Eu in H. injection H as <-. auto.
Qed.
Lemma again e e1 : f_link (e_top e) = None -> f_done (e_top e) = true -> enc_call I e CCommit = Ok (Continue tt, e1) -> e1 = e.
Proof.
  intros El Ed H. cbn [enc_call] in H. unfold enc_commit in H. cbv zeta in H. bnd H. destruct a; [discriminate|].
  destruct (f_stk (e_top e)) eqn:Es; [|discriminate]. rewrite El, Ed in H. cbn [negb] in H. now injection H as <-.
Qed.
Lemma commits_fail k : forall e l e', f_link (e_top e) = None -> f_done (e_top e) = true ->
  runs I e (repeat CCommit k ++ CDrop :: l) e' -> runs I e (CDrop :: l) e'.
Proof.
  induction k as [|k IH]; intros e l e' El Ed R; cbn [repeat app] in R; [exact R|].
  inversion R as [|? e0 ? e1 ? ? F C R']; subst. pose proof (fails_quiet _ _ _ F) as [o [-> _]].
  apply again in C; [|exact El|exact Ed]. subst e1. apply IH in R'; [|exact El|exact Ed].
  inversion R' as [|? e2 ? e3 ? ? F' C' R2]; subst. econstructor; [eapply fails_trans; eassumption|exact C'|exact R2].
Qed.
Lemma low_commit base i x f : base <= i -> low base f -> low base (commit_up i x f).
Proof.
  intros L [Hi Hl]. unfold low, commit_up. destruct x; cbn; (split; [exact L|eapply lows_level; [|exact Hl]; reflexivity]).
Qed.
Lemma commit_up_same i x f : f_link (commit_up i x f) = f_link f /\ f_done (commit_up i x f) = f_done f.
Proof. unfold commit_up. destruct x; split; reflexivity. Qed.

Lemma counts_keeps l m : counts l m -> forall base e e', low base (e_top e) -> runs I e l e' -> keeps base e e'.
Proof.
  induction 1 as [|c l m Pc _ IH|c l1 m1 k l2 m2 Hc _ IH1 _ IH2|c l1 m1 l2 m2 Hc _ IH1 _ IH2]; intros base e e' Hl R.
  - inversion R; subst. apply keeps_refl, Hl.
  - inversion R as [|? e0 ? e1 ? ? F C R']; subst. pose proof (fails_keeps _ _ _ F Hl) as K0.
    pose proof (plain_keeps base _ _ _ Pc C (proj1 K0)) as K1. specialize (IH base _ _ (proj1 K1) R').
    eapply keeps_trans; [exact K0|]. eapply keeps_trans; eassumption.
  - inversion R as [|? e0 ? e1 ? ? F C R']; subst. pose proof (fails_keeps _ _ _ F Hl) as K0.
    eapply keeps_trans; [exact K0|]. clear R F Hl. rename K0 into K. pose proof (proj1 K) as Hl. clear K.
    destruct (sub_begin _ _ _ Hc C) as (Eu & Eo & Ef & [x El] & Es & Ei).
    apply runs_app in R'. destruct R' as [e2 [R1 R2]].
    assert (Hl1 : low base (e_top e1)) by (split; [rewrite Ei; apply Hl|rewrite Es; exact Logic.I]).
    pose proof (IH1 base _ _ Hl1 R1) as K1. inversion R2 as [|? e3 ? e4 ? ? F2 C2 R3]; subst.
    pose proof (fails_keeps base _ _ F2 (proj1 K1)) as K2. pose proof (keeps_trans _ _ _ _ K1 K2) as (A3 & B3 & C3 & D3 & E3 & F3).
    destruct (sub_commit e3 x (e_top e0) (e_up e0) e4) as [E4 _]; [congruence..|].
    apply commits_fail in R3; [|subst e4; reflexivity..].
    inversion R3 as [|? e5 ? e6 ? ? F5 C5 R6]; subst. pose proof (fails_keeps base _ _ F5) as K5. cbn [e_top] in K5.
    specialize (K5 ltac:(split; [apply A3|exact Logic.I])). destruct K5 as (A5 & B5 & C5' & D5 & E5 & F5').
    cbn [enc_call] in C5. unfold enc_drop in C5. rewrite B5 in C5. cbn [e_up] in C5. injection C5 as <-.
    eapply keeps_trans; [|apply IH2; [|exact R6]; apply low_commit; [apply A3|exact Hl]].
    destruct (commit_up_same (l_idx (f_lvl (e_top e3))) x (e_top e0)) as [Q1 Q2].
    repeat split; cbn [e_top e_up e_format e_out]; [apply low_commit; [apply A3|exact Hl]| |rewrite C5'; cbn; congruence|exact Q1|exact Q2|].
    + apply low_commit; [apply A3|exact Hl].
    + cbn [e_out] in F5'. intros j L. rewrite F5', F3, Eo; auto.
  - inversion R as [|? e0 ? e1 ? ? F C R']; subst. pose proof (fails_keeps _ _ _ F Hl) as K0.
    eapply keeps_trans; [exact K0|]. clear R F Hl. rename K0 into K. pose proof (proj1 K) as Hl. clear K.
    destruct (sub_begin _ _ _ Hc C) as (Eu & Eo & Ef & [x El] & Es & Ei).
    apply runs_app in R'. destruct R' as [e2 [R1 R2]].
    assert (Hl1 : low base (e_top e1)) by (split; [rewrite Ei; apply Hl|rewrite Es; exact Logic.I]).
    pose proof (IH1 base _ _ Hl1 R1) as K1. inversion R2 as [|? e3 ? e4 ? ? F2 C2 R3]; subst.
    pose proof (fails_keeps base _ _ F2 (proj1 K1)) as K2. pose proof (keeps_trans _ _ _ _ K1 K2) as (A3 & B3 & C3 & D3 & E3 & F3).
    cbn [enc_call] in C2. unfold enc_drop in C2. rewrite B3, Eu in C2. injection C2 as <-.
    eapply keeps_trans; [|apply IH2; [|exact R3]; exact Hl].
    repeat split; cbn [e_top e_up e_format e_out]; try apply Hl; [congruence|]. intros j L. rewrite F3, Eo; auto.
Qed.

(** The calls that count have the effect of all. *)
Lemma prepend e1 e2 m e3 e4 : fails I e1 e2 -> runs I e2 m e3 -> fails I e3 e4 -> exists e5, runs I e1 m e5 /\ fails I e5 e4.
Proof.
  intros F R F'. inversion R as [|? e0 c e5 cs ? F0 C R']; subst.
  - exists e1. split; [constructor|]. eapply fails_trans; eassumption.
  - exists e3. split; [|exact F']. econstructor; [eapply fails_trans; eassumption|exact C|exact R'].
Qed.
Lemma extend a : forall e e1 e2 b e3, runs I e a e1 -> fails I e1 e2 -> runs I e2 b e3 -> runs I e (a ++ b) e3 \/ (b = [] /\ e2 = e3).
Proof.
  intros e e1 e2 b e3 R F R2. inversion R2 as [|? e0 c e5 cs ? F0 C R']; subst; [auto|left].
  induction R as [e|e x c' y cs' z Fx Cx Rx IH]; cbn [app].
  - econstructor; [eapply fails_trans; eassumption|exact C|exact R'].
  - econstructor; [exact Fx|exact Cx|]. apply IH, F.
Qed.
Lemma counts_runs l m : counts l m -> forall e e', runs I e l e' -> exists e1, runs I e m e1 /\ fails I e1 e'.
Proof.
  induction 1 as [|c l m Pc _ IH|c l1 m1 k l2 m2 Hc H1 IH1 _ IH2|c l1 m1 l2 m2 Hc H1 IH1 _ IH2]; intros e e' R.
  - exists e'. split; [exact R|constructor].
  - inversion R as [|? e0 ? e1 ? ? F C R']; subst. destruct (IH _ _ R') as [e2 [R2 F2]]. exists e2. split; [|exact F2]. econstructor; eassumption.
  - inversion R as [|? e0 ? e1 ? ? F C R']; subst. clear R.
    destruct (sub_begin _ _ _ Hc C) as (Eu & Eo & Ef & [x El] & Es & Ei).
    apply runs_app in R'. destruct R' as [e2 [R1 R2]].
    assert (Hl1 : low 0 (e_top e1)) by (split; [lia|rewrite Es; exact Logic.I]).
    pose proof (counts_keeps _ _ H1 0 _ _ Hl1 R1) as K1. inversion R2 as [|? e3 ? e4 ? ? F2 C2 R3]; subst.
    pose proof (fails_keeps 0 _ _ F2 (proj1 K1)) as K2. pose proof (keeps_trans _ _ _ _ K1 K2) as (A3 & B3 & C3 & D3 & E3 & F3).
    destruct (sub_commit e3 x (e_top e0) (e_up e0) e4) as [E4 _]; [congruence..|].
    apply commits_fail in R3; [|subst e4; reflexivity..].
    destruct (IH1 _ _ R1) as [e5 [R5 F5]].
    inversion R3 as [|? e6 ? e7 ? ? F6 C6 R6]; subst. destruct (IH2 _ _ R6) as [e8 [R8 F8]].
    exists e8. split; [|exact F8]. cbn [app]. econstructor; [exact F|exact C|]. rewrite <- app_assoc.
    assert (Q : forall e, runs I e m1 e5 -> runs I e (m1 ++ CCommit :: CDrop :: m2) e8).
    { intros e9 R9. destruct (extend m1 e9 e5 e5 (CCommit :: CDrop :: m2) e8 R9 (fails_nil _ _)) as [X|[X _]]; [|exact X|discriminate].
      econstructor; [eapply fails_trans; eassumption|exact C2|]. econstructor; [exact F6|exact C6|exact R8]. }
    apply Q, R5.
  - inversion R as [|? e0 ? e1 ? ? F C R']; subst. clear R.
    destruct (sub_begin _ _ _ Hc C) as (Eu & Eo & Ef & [x El] & Es & Ei).
    apply runs_app in R'. destruct R' as [e2 [R1 R2]].
    assert (Hl1 : low (l_idx (f_lvl (e_top e0))) (e_top e1)) by (split; [rewrite Ei; lia|rewrite Es; exact Logic.I]).
    pose proof (counts_keeps _ _ H1 _ _ _ Hl1 R1) as K1. inversion R2 as [|? e3 ? e4 ? ? F2 C2 R3]; subst.
    pose proof (fails_keeps _ _ _ F2 (proj1 K1)) as K2. pose proof (keeps_trans _ _ _ _ K1 K2) as (A3 & B3 & C3 & D3 & E3 & F3).
    cbn [enc_call] in C2. unfold enc_drop in C2. rewrite B3, Eu in C2. injection C2 as <-.
    destruct (IH2 _ _ R3) as [e5 [R5 F5]]. eapply prepend; [|exact R5|exact F5].
    eapply fails_trans; [exact F|]. eapply fails_detour; [rewrite <- Eo; exact F3|].
    unfold put_out. rewrite C3, Ef. constructor.
Qed.
End Floor.

(** * Committed encoders *)
Lemma counts_fits l m : counts l m -> Forall call_fits l -> Forall call_fits m.
Proof.
  assert (Two : Forall call_fits [CCommit; CDrop]) by (repeat constructor).
  induction 1 as [|c l m _ _ IH|c l1 m1 k l2 m2 _ _ IH1 _ IH2|c l1 m1 l2 m2 _ _ IH1 _ IH2]; intros F.
  - constructor.
  - inversion F; subst. constructor; auto.
  - inversion F as [|? ? F0 F']; subst. apply Forall_app in F'. destruct F' as [F1 F']. inversion F' as [|? ? _ F2]; subst.
    apply Forall_app in F2. destruct F2 as [_ F2]. inversion F2; subst. apply Forall_app. split; [|auto]. constructor; [exact F0|].
    apply Forall_app. split; [auto|exact Two].
  - inversion F as [|? ? F0 F']; subst. apply Forall_app in F'. destruct F' as [F1 F']. inversion F'; subst. auto.
Qed.
Theorem committed_history W (I : Write W) fuel fmt o t sg e0 l e e' : bounded I ->
  sig_new fuel (print t) = Ok (inr sg) -> enc_new sg fmt o = Ok e0 ->
  history I e0 l e -> inside 0 (succeeded l) = true -> Forall call_fits (succeeded l) ->
  enc_call I e CCommit = Ok (Continue tt, e') ->
  exists cs v b w, counts (succeeded l) cs /\ encodes t v cs /\ marshal (big_endian fmt) t v 0 = Some b /\
    w_commit I (o_w (e_out e)) (size b) = Ok w /\ o_w (e_out e') = w /\
    (forall k x, nth_error b k = Some x -> o_mem (e_out e') (N.of_nat k) = Some x).
Proof.
  intros HB Es En H P HF C. destruct (history_follows I _ _ _ H _ (R_start _ _ _ _ _ _ Es En)) as [s [F R]].
  destruct (accrun_counts _ _ (le_n _) _ _ _ _ (follows_accrun _ _ _ F) P) as [m [h' [-> [Hm Hr]]]].
  destruct (call_typed I e _ CCommit R Logic.I) as [A _].
  destruct (accepts_dec _ CCommit Logic.I (R_nonempty _ _ R)) as [[s1 Hs1]|N]; [|rewrite (A N) in C; discriminate].
  assert (HV : exists v, encodes t v m).
  { inversion Hs1; subst. destruct (hrun_fills _ _ (le_n _) _ _ Hr) as [X _]. destruct (X eq_refl) as [vs Fv].
    inversion Fv as [|t0 ts0 v vs0 c1 c2 Hv Hr1]; subst. inversion Hr1; subst. rewrite app_nil_r. exists v. exact Hv. }
  destruct HV as [v HV]. apply history_runs in H. destruct H as [e1 [H1 F1]].
  destruct (counts_runs I _ _ Hm _ _ H1) as [e2 [H2 F2]].
  destruct (bytes_of_runs W I fuel fmt o t sg e0 m e2 e v HB Es En H2 (fails_trans I _ _ _ F2 F1) (counts_fits _ _ Hm HF) HV) as [b [EM [B X]]].
  destruct (X _ _ C) as [_ [w [Ew Eo]]]. exists m, v, b, w. split; [exact Hm|]. split; [exact HV|]. split; [exact EM|]. split; [exact Ew|].
  rewrite Eo. split; [reflexivity|exact B].
Qed.

Lemma calls_accrun W (I : Write W) cs : forall s e e', Forall valid_call cs -> R e s -> enc_calls I e cs = Ok (Continue tt, e') ->
  exists s', accrun s cs s' /\ R e' s'.
Proof.
  induction cs as [|c cs IH]; intros s e e' V HR H.
  - injection H as <-. exists s. split; [constructor|exact HR].
  - cbn [enc_calls] in H. apply bind_ok in H. destruct H as [[[x|[]] e1] [E H]]; [discriminate|].
    inversion V as [|? ? Vc Vs]; subst. destruct (call_typed I e _ c HR Vc) as [A B].
    destruct (accepts_dec _ c Vc (R_nonempty _ _ HR)) as [[s1 Hs1]|N]; [|rewrite (A N) in E; discriminate].
    destruct (B _ _ _ Hs1 E) as [[_ R1]|[x [o [X _]]]]; [|discriminate].
    destruct (IH s1 e1 e' Vs R1 H) as [s' [Hr R']]. exists s'. split; [econstructor; eassumption|exact R'].
Qed.
Theorem committed W (I : Write W) fuel fmt o t sg e0 cs e e' : sig_new fuel (print t) = Ok (inr sg) -> enc_new sg fmt o = Ok e0 ->
  Forall valid_call cs -> inside 0 cs = true ->
  enc_calls I e0 cs = Ok (Continue tt, e) -> enc_call I e CCommit = Ok (Continue tt, e') ->
  exists m v, counts cs m /\ encodes t v m.
Proof.
  intros Es En V P H C. pose proof (R_start _ _ _ _ _ _ Es En) as HR.
  destruct (calls_accrun W I cs _ _ _ V HR H) as [s [Hs R']].
  destruct (accrun_counts _ _ (le_n _) _ _ _ _ Hs P) as [m [h' [-> [Hm Hr]]]].
  destruct (call_typed I e _ CCommit R' Logic.I) as [A _].
  destruct (accepts_dec _ CCommit Logic.I (R_nonempty _ _ R')) as [[s1 Hs1]|N]; [|rewrite (A N) in C; discriminate].
  inversion Hs1; subst. destruct (hrun_fills _ _ (le_n _) _ _ Hr) as [F _]. destruct (F eq_refl) as [vs Fv].
  inversion Fv as [|t0 ts0 v vs0 c1 c2 Hv Hr1]; subst. inversion Hr1; subst. rewrite app_nil_r in Hm. eauto.
Qed.

(** Which calls count is determined. *)
Fixpoint process (cur : list call) (com : bool) (stk : list (list call)) (l : list call) : option (list call) :=
  match l with
  | [] => Some cur
  | c :: l =>
    match c with
    | CEnc | CEncWith _ => process [c] false (cur :: stk) l
    | CCommit => process (if com then cur else cur ++ [c]) true stk l
    | CDrop => match stk with p :: stk => process (if com then p ++ cur ++ [c] else p) false stk l | [] => None end
    | _ => process (cur ++ [c]) com stk l
    end
  end.
Lemma process_commits k : forall cur stk l, process cur true stk (repeat CCommit k ++ l) = process cur true stk l.
Proof. induction k as [|k IH]; intros; cbn [repeat app process]; auto. Qed.
Lemma process_sub c cur com stk l : c = CEnc \/ (exists s, c = CEncWith s) -> process cur com stk (c :: l) = process [c] false (cur :: stk) l.
Proof. intros [->|[s ->]]; reflexivity. Qed.
Lemma counts_process l m : counts l m -> forall cur stk rest, process cur false stk (l ++ rest) = process (cur ++ m) false stk rest.
Proof.
  induction 1 as [|c l m Pc _ IH|c l1 m1 k l2 m2 Hc _ IH1 _ IH2|c l1 m1 l2 m2 Hc _ IH1 _ IH2]; intros cur stk rest.
  - cbn [app]. now rewrite app_nil_r.
  - replace (cur ++ c :: m) with ((cur ++ [c]) ++ m) by (rewrite <- app_assoc; reflexivity). rewrite <- IH.
    destruct c; try (exfalso; exact Pc); reflexivity.
  - replace ((c :: l1 ++ CCommit :: repeat CCommit k ++ CDrop :: l2) ++ rest) with (c :: l1 ++ CCommit :: repeat CCommit k ++ CDrop :: l2 ++ rest)
      by (cbn [app]; rewrite <- !app_assoc; cbn [app]; now rewrite <- app_assoc).
    rewrite process_sub, IH1 by exact Hc. cbn [process]. rewrite process_commits. cbn [process]. rewrite IH2. f_equal.
    rewrite <- !app_assoc. cbn [app]. rewrite <- !app_assoc. reflexivity.
  - replace ((c :: l1 ++ CDrop :: l2) ++ rest) with (c :: l1 ++ CDrop :: l2 ++ rest) by (cbn [app]; now rewrite <- app_assoc).
    rewrite process_sub, IH1 by exact Hc. cbn [process]. apply IH2.
Qed.
Theorem counts_unique l m m' : counts l m -> counts l m' -> m = m'.
Proof.
  intros A B. pose proof (counts_process _ _ A [] [] []) as P. rewrite (counts_process _ _ B [] [] []) in P.
  cbn [app process] in P. congruence.
Qed.
Lemma counts_plain l : Forall plain_call l -> counts l l.
Proof. induction 1; constructor; assumption. Qed.
Lemma inside_plain l : Forall plain_call l -> inside 0 l = true.
Proof. induction 1 as [|c l Pc _ IH]; [reflexivity|]. destruct c; try (exfalso; exact Pc); exact IH. Qed.
