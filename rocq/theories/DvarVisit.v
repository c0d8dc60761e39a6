(** Positions and open arrays of a decoder. *)
From Verif Require Import Base DbusSpec IoMapModel IoMapSpec IoMapProofs.
From Verif Require Import DbusSigModel DvarModel DvarSpec DvarDecSpec DvarProofs DvarDecode.
Local Open Scope N_scope.
Local Open Scope res_scope.

Lemma bind_inv {A B} (x : res A) (f : A -> res B) y : bind x f = Ok y -> exists a, x = Ok a /\ f a = Ok y.
Proof. destruct x; cbn [bind]; try discriminate. intros H. eexists. split; [reflexivity|exact H]. Qed.

Fixpoint lv_ok (lvl : Level) (stk : list (Element * Level * option Cursor)) (l : list (N * N)) : Prop :=
  match stk, l with
  | [], [] => True
  | (_, up, _) :: stk, (s, n) :: l => l_meta lvl = n /\ s <= l_idx lvl /\ l_idx up <= l_idx lvl /\ lv_ok up stk l
  | _, _ => False
  end.
Lemma lv_raise lvl stk l i : lv_ok lvl stk l -> l_idx lvl <= i -> lv_ok (set_idx lvl i) stk l.
Proof.
  destruct stk as [|[[e up] c] stk], l as [|[s n] l]; cbn [lv_ok set_idx l_meta l_idx]; try tauto.
  intros [A [B [C D]]] H. repeat split; try assumption; lia.
Qed.
Definition fr_ok (f : Frame) l := lv_ok (f_lvl f) (f_stk f) l.
Fixpoint frs_ok (i : N) (fs : list Frame) (s : list (list (N * N))) : Prop :=
  match fs, s with
  | [], [] => True
  | f :: fs, l :: s => l_idx (f_lvl f) <= i /\ fr_ok f l /\ frs_ok (l_idx (f_lvl f)) fs s
  | _, _ => False
  end.
Lemma frs_raise i j fs s : frs_ok i fs s -> i <= j -> frs_ok j fs s.
Proof. destruct fs, s; cbn [frs_ok]; try tauto. intros [A B] H. split; [lia|exact B]. Qed.
Definition d_ok {R} (d : Dec R) (s : list (list (N * N))) : Prop :=
  frs_ok (position d) (d_top d :: d_up d) s.

Section Visit.
Context {R : Type} (I : Read R) (P : R -> Prop) (msg : list N) (HR : reading I P msg) (HK : keeping I P).

Lemma read_keeps : forall fuel r idx len got f r' idx' got',
  P r -> read_loop fuel I r idx len got = Ok (f, r', idx', got') -> P r'.
Proof.
  induction fuel as [|fuel IH]; intros r idx len got f r' idx' got' HP; cbn [read_loop]; [discriminate|].
  destruct (0 <? len).
  - destruct (r_map I r idx len) as [[[e|m] w]| |] eqn:EM; cbn [bind]; try discriminate; pose proof (HK _ _ _ _ _ HP EM) as HP'.
    + intros [= _ <- _ _]. exact HP'.
    + destruct (0 <? size m); [|discriminate]. destruct (add_usize idx _) as [i| |]; cbn [bind]; try discriminate.
      apply IH. exact HP'.
  - intros [= _ <- _ _]. exact HP.
Qed.
Lemma align_inv idx a (d : Dec R) k y : dec_align idx a d k = Ok y ->
  (exists e, y = (Break e, DUnit, d)) \/ (a < 31 -> k (idx + size (padding idx a)) = Ok y).
Proof.
  unfold dec_align. intros H. destruct (N.ltb_spec a 31) as [Ha|Ha]; [|right; lia].
  unfold shl_usize in H. rewrite (proj2 (N.ltb_lt _ _)) in H by exact Ha. cbn [bind] in H.
  rewrite (checked_next _ _ (pow_pos a)) in H. destruct ((idx mod 2 ^ a =? 0) || (pad_to (2 ^ a) idx <? usize)); [right|left].
  - intros _. rewrite pad_padding. exact H.
  - unfold dfail in H. injection H as <-. eexists. reflexivity.
Qed.
Lemma sread_inv r idx len (d : Dec R) k y : P r -> seq_read (read I r idx len) d k = Ok y ->
  (exists e r', y = (Break e, DUnit, dput_read d r') /\ P r') \/
  (exists r', P r' /\ k r' (idx + len) (slice msg (N.to_nat idx) (N.to_nat (idx + len))) = Ok y).
Proof.
  intros HP H. unfold seq_read in H. apply bind_inv in H. destruct H as [[[[f r'] idx'] got] [E H]].
  pose proof (read_keeps _ _ _ _ _ _ _ _ _ HP E) as HP'. pose proof (read_any I P msg _ _ _ _ _ _ _ HR HP E) as [G [_ [_ C]]].
  destruct f as [e|[]].
  - left. injection H as <-. exists (match e with Some e => Some (Io e) | None => None end), r'. split; [|exact HP']. destruct e; reflexivity.
  - right. destruct (C eq_refl) as [-> _]. exists r'. split; [exact HP'|]. rewrite <- G. exact H.
Qed.

(** A call that fails changes the reader at most. *)
Definition same (d d' : Dec R) := d_format d' = d_format d /\ d_top d' = d_top d /\ d_up d' = d_up d.
Definition advanced (d d' : Dec R) := d_format d' = d_format d /\ d_up d' = d_up d /\
  exists c i, position d <= i /\ d_top d' = with_cursor (with_level (d_top d) (set_idx (f_lvl (d_top d)) i)) c.

Lemma fixed_inv d el n k f x d' : P (d_read d) -> e_dvar_alignment_exp el < 31 -> dec_fixed I d el n k = Ok (f, x, d') ->
  P (d_read d') /\ ((f = Continue tt /\ advanced d d') \/ exists e, f = Break e /\ same d d').
Proof.
  intros HP Ha H. unfold dec_fixed in H. cbv zeta in H. apply bind_inv in H. destruct H as [ok [_ H]].
  destruct ok; cbn [negb] in H; [|injection H as <- _ <-; split; [exact HP|right; eexists; split; [reflexivity|repeat split]]].
  apply align_inv in H. destruct H as [[e [= -> _ ->]]|H]; [split; [exact HP|right; eexists; split; [reflexivity|repeat split]]|].
  specialize (H Ha). apply sread_inv in H; [|exact HP].
  destruct H as [[e [r' [[= -> _ ->] HP']]]|[r' [HP' H]]]; [split; [exact HP'|right; eexists; split; [reflexivity|repeat split]]|].
  apply bind_inv in H. destruct H as [c [_ H]]. injection H as <- _ <-. split; [exact HP'|left]. split; [reflexivity|].
  split; [reflexivity|]. split; [reflexivity|]. do 2 eexists. split; [|reflexivity]. unfold position. lia.
Qed.
Lemma str_inv d el len_el n de f x d' : P (d_read d) -> e_dvar_alignment_exp len_el < 31 -> dec_str I d el len_el n de = Ok (f, x, d') ->
  P (d_read d') /\ ((f = Continue tt /\ advanced d d') \/ exists e, f = Break e /\ same d d').
Proof.
  intros HP Ha H. unfold dec_str in H. cbv zeta in H. apply bind_inv in H. destruct H as [ok [_ H]].
  destruct ok; cbn [negb] in H; [|injection H as <- _ <-; split; [exact HP|right; eexists; split; [reflexivity|repeat split]]].
  apply align_inv in H. destruct H as [[e [= -> _ ->]]|H]; [split; [exact HP|right; eexists; split; [reflexivity|repeat split]]|].
  specialize (H Ha). apply sread_inv in H; [|exact HP].
  destruct H as [[e [r' [[= -> _ ->] HP']]]|[r' [HP' H]]]; [split; [exact HP'|right; eexists; split; [reflexivity|repeat split]]|].
  apply sread_inv in H; [|exact HP'].
  destruct H as [[e [r2 [[= -> _ ->] HP2]]]|[r2 [HP2 H]]]; [split; [exact HP2|right; eexists; split; [reflexivity|repeat split]]|].
  destruct (utf8_valid _); cbn [negb] in H; [|injection H as <- _ <-; split; [exact HP2|right; eexists; split; [reflexivity|repeat split]]].
  apply bind_inv in H. destruct H as [i [Hi H]]. apply add_inv in Hi. subst i.
  apply bind_inv in H. destruct H as [c [_ H]]. injection H as <- _ <-. split; [exact HP2|left]. split; [reflexivity|].
  split; [reflexivity|]. split; [reflexivity|]. do 2 eexists. split; [|reflexivity]. unfold position. lia.
Qed.
Lemma ok_same d d' s : same d d' -> d_ok d s -> d_ok d' s.
Proof. unfold d_ok, position. intros [_ [-> ->]] H. exact H. Qed.
Lemma ok_advanced d d' s : advanced d d' -> d_ok d s -> d_ok d' s.
Proof.
  unfold d_ok. intros [_ [-> [c [i [Hi E]]]]]. unfold position in *. rewrite E. destruct s as [|l s]; cbn [frs_ok]; [tauto|].
  unfold fr_ok. cbn [with_cursor with_level f_lvl f_stk]. intros [_ [H1 H2]].
  change (l_idx (set_idx (f_lvl (d_top d)) i)) with i. split; [lia|]. split; [apply lv_raise; assumption|].
  apply (frs_raise _ _ _ _ H2). exact Hi.
Qed.

Lemma array_inv d f x d' : P (d_read d) -> dec_call I d DCArray = Ok (f, x, d') ->
  P (d_read d') /\ ((exists e, f = Break e /\ same d d') \/
    (f = Continue tt /\ d_format d' = d_format d /\ d_up d' = d_up d /\ exists c from q,
      let p := position d + size (padding (position d) 2) in
      p <= q /\ d_top d' = mkFrame (f_done (d_top d)) c
        (mkLevel q from (de_u32 (d_format d) (slice msg (N.to_nat p) (N.to_nat (p + 4)))))
        ((EArray, f_lvl (d_top d), None) :: f_stk (d_top d)) (f_link (d_top d)))).
Proof.
  intros HP H. cbn [dec_call] in H. unfold dec_array in H. cbv zeta in H. apply bind_inv in H. destruct H as [ok [_ H]].
  destruct ok; cbn [negb] in H; [|injection H as <- _ <-; split; [exact HP|left; eexists; split; [reflexivity|repeat split]]].
  apply bind_inv in H. destruct H as [down [_ H]].
  apply align_inv in H. destruct H as [[e [= -> _ ->]]|H]; [split; [exact HP|left; eexists; split; [reflexivity|repeat split]]|].
  change (e_dvar_alignment_exp EU32) with 2 in H. specialize (H ltac:(lia)). apply sread_inv in H; [|exact HP].
  destruct H as [[e [r' [[= -> _ ->] HP']]]|[r' [HP' H]]]; [split; [exact HP'|left; eexists; split; [reflexivity|repeat split]]|].
  apply align_inv in H. destruct H as [[e [= -> _ ->]]|H]; [split; [exact HP'|left; eexists; split; [reflexivity|repeat split]]|].
  specialize (H ltac:(destruct down; cbn; lia)). apply bind_inv in H. destruct H as [c [_ H]]. injection H as <- _ <-.
  split; [exact HP'|right]. split; [reflexivity|]. split; [reflexivity|]. split; [reflexivity|]. do 3 eexists. split; [|reflexivity].
  unfold position. lia.
Qed.

Lemma call_fails d c e x d' : P (d_read d) -> dec_call I d c = Ok (Break e, x, d') -> P (d_read d') /\ same d d'.
Proof.
  intros HP H. destruct c; cbn [dec_call] in H.
  - apply fixed_inv in H; [|exact HP|cbn; lia]. destruct H as [H1 [[E _]|[e' [_ H2]]]]; [discriminate|]. split; assumption.
  - apply str_inv in H; [|exact HP|cbn; lia]. destruct H as [H1 [[E _]|[e' [_ H2]]]]; [discriminate|]. split; assumption.
  - apply str_inv in H; [|exact HP|cbn; lia]. destruct H as [H1 [[E _]|[e' [_ H2]]]]; [discriminate|]. split; assumption.
  - apply array_inv in H; [|exact HP]. destruct H as [H1 [[e' [_ H2]]|[E _]]]; [split; assumption|discriminate].
  - unfold dec_close in H. cbv zeta in H. apply bind_inv in H. destruct H as [st [_ H]].
    destruct st; [injection H as _ _ <-; split; [exact HP|repeat split]|].
    destruct (f_stk (d_top d)) as [|[[el up] uc] stk]; [injection H as _ _ <-; split; [exact HP|repeat split]|].
    destruct el; try discriminate; apply bind_inv in H; destruct H as [f' [_ H]]; discriminate.
  - discriminate.
  - unfold dec_dec in H. cbv zeta in H. apply bind_inv in H. destruct H as [st [_ H]]. apply bind_inv in H. destruct H as [[v|] [_ H]].
    + apply bind_inv in H. destruct H as [f' [_ H]]. discriminate.
    + injection H as _ _ <-; split; [exact HP|repeat split].
  - apply bind_inv in H. destruct H as [s [_ H]]. unfold dec_dec_with in H. apply bind_inv in H. destruct H as [sub [_ H]].
    apply bind_inv in H. destruct H as [[|] [_ H]]; [|injection H as _ _ <-; split; [exact HP|repeat split]].
    unfold dec_dec in H. cbv zeta in H. apply bind_inv in H. destruct H as [st [_ H]]. apply bind_inv in H. destruct H as [[v|] [_ H]].
    + apply bind_inv in H. destruct H as [f' [_ H]]. discriminate.
    + injection H as _ _ <-; split; [exact HP|repeat split].
  - unfold dec_commit in H. cbv zeta in H. apply bind_inv in H. destruct H as [st [_ H]].
    destruct st; [injection H as _ _ <-; split; [exact HP|repeat split]|].
    destruct (f_stk (d_top d)); [|injection H as _ _ <-; split; [exact HP|repeat split]].
    destruct (f_link (d_top d)); [destruct (d_up d)|]; discriminate.
  - unfold dec_drop in H. destruct (d_up d); discriminate.
Qed.

Lemma dec_inv (d : Dec R) f x d' : dec_dec d = Ok (Continue f, x, d') -> d_read d' = d_read d /\ d_format d' = d_format d /\
  d_up d' = d_top d :: d_up d /\ l_idx (f_lvl (d_top d')) = position d /\ f_stk (d_top d') = [].
Proof.
  intros H. unfold dec_dec in H. cbv zeta in H. apply bind_inv in H. destruct H as [st [_ H]]. apply bind_inv in H. destruct H as [[v|] [_ H]]; [|discriminate].
  apply bind_inv in H. destruct H as [f' [Hf H]]. injection H as _ _ <-. cbn [d_read d_format d_up d_top].
  unfold frame_for in Hf. apply bind_inv in Hf. destruct Hf as [c [_ Hf]]. injection Hf as <-. repeat split.
Qed.
Lemma visit_ok d0 d s : P (d_read d0) -> f_stk (d_top d0) = [] -> d_up d0 = [] -> visit I msg d0 d s -> P (d_read d) /\ d_ok d s.
Proof.
  intros HP0 H1 H2. induction 1 as [|d s c e x d' _ [HP IH] H|d l s x d' n _ [HP IH] H Hn HH|d [st n] l s x d' _ [HP IH] H|d s c x d' _ [HP IH] Hc H
    |d l l' s x d' _ [HP IH] H|d s c x d' _ [HP IH] Hc H].
  - split; [exact HP0|]. unfold d_ok. cbn [frs_ok]. unfold fr_ok. rewrite H1, H2. cbn. repeat split; unfold position; lia.
  - apply call_fails in H; [|exact HP]. destruct H as [HP' H]. split; [exact HP'|exact (ok_same _ _ _ H IH)].
  - apply array_inv in H; [|exact HP]. destruct H as [HP' [[e [E _]]|[_ [_ [EU [c [from [q H]]]]]]]]; [discriminate|]. cbv zeta in H.
    destruct H as [Hq E]. split; [exact HP'|]. unfold d_ok in *. unfold position at 1 2. rewrite EU, E. cbn [frs_ok f_lvl l_idx].
    cbn [frs_ok] in IH. destruct IH as [_ [IH1 IH2]]. unfold fr_ok. cbn [f_lvl f_stk lv_ok l_meta l_idx].
    split; [lia|]. split.
    + split; [|split; [lia|split; [unfold position in *; lia|exact IH1]]].
      unfold holds in HH. rewrite size_int in HH. change (N.of_nat 4) with 4 in HH. rewrite HH. unfold de_u32. apply de_int. exact Hn.
    + apply (frs_raise _ _ _ _ IH2). unfold position in *. lia.
  - cbn [dec_call] in H. unfold dec_close in H. cbv zeta in H. apply bind_inv in H. destruct H as [sp [_ H]]. destruct sp; [discriminate|].
    unfold d_ok in IH. cbn [frs_ok] in IH. destruct IH as [_ [IH1 IH2]]. unfold fr_ok in IH1.
    destruct (f_stk (d_top d)) as [|[[el up] uc] stk] eqn:ES; [discriminate|]. cbn [lv_ok] in IH1. destruct IH1 as [_ [_ [Hup IH1]]].
    assert (H' : (do f' <- close_frame (d_top d); Ok (Continue tt, DUnit, dput d f')) = Ok (Continue tt, x, d')) by (destruct el; try discriminate; exact H).
    clear H. apply bind_inv in H'. destruct H' as [f' [Hf H]]. injection H as _ <-. split; [exact HP|].
    unfold close_frame in Hf. rewrite ES in Hf. apply bind_inv in Hf. destruct Hf as [c1 [_ Hf]]. apply bind_inv in Hf. destruct Hf as [c2 [_ Hf]]. injection Hf as <-.
    unfold d_ok. cbn [dput d_top d_up frs_ok f_lvl set_idx l_idx]. unfold position. cbn [dput d_top f_lvl set_idx l_idx].
    split; [lia|]. split; [|exact IH2]. unfold fr_ok. cbn [f_lvl f_stk]. apply lv_raise; assumption.
  - assert (H' : dec_dec d = Ok (Continue tt, x, d')).
    { destruct Hc as [-> | [t ->]]; cbn [dec_call] in H; [exact H|]. apply bind_inv in H. destruct H as [sg [_ H]]. unfold dec_dec_with in H.
      apply bind_inv in H. destruct H as [sub [_ H]]. apply bind_inv in H. destruct H as [[|] [_ H]]; [exact H|discriminate]. }
    apply dec_inv in H'. destruct H' as [E1 [_ [E2 [E3 E4]]]]. split; [rewrite E1; exact HP|].
    unfold d_ok. rewrite E2. cbn [frs_ok]. unfold fr_ok at 1. rewrite E4. cbn [lv_ok]. unfold position at 1. rewrite E3.
    split; [lia|]. split; [exact Logic.I|]. exact IH.
  - cbn [dec_call] in H. unfold dec_drop in H. unfold d_ok in IH. cbn [frs_ok] in IH. destruct IH as [_ [_ IH]].
    destruct (d_up d) as [|u up]; [destruct IH|]. injection H as _ <-. split; [exact HP|].
    unfold d_ok. cbn [d_top d_up frs_ok]. cbn [frs_ok] in IH. unfold position. cbn [d_top]. split; [lia|]. exact (proj2 IH).
  - cbn [In] in Hc. destruct Hc as [<- | [<- | [<- | [<- | [<- | []]]]]]; cbn [dec_call] in H.
    + apply fixed_inv in H; [|exact HP|cbn; lia]. destruct H as [HP' [[_ H]|[e [E _]]]]; [|discriminate]. split; [exact HP'|exact (ok_advanced _ _ _ H IH)].
    + apply str_inv in H; [|exact HP|cbn; lia]. destruct H as [HP' [[_ H]|[e [E _]]]]; [|discriminate]. split; [exact HP'|exact (ok_advanced _ _ _ H IH)].
    + apply str_inv in H; [|exact HP|cbn; lia]. destruct H as [HP' [[_ H]|[e [E _]]]]; [|discriminate]. split; [exact HP'|exact (ok_advanced _ _ _ H IH)].
    + injection H as _ <-. split; assumption.
    + unfold dec_commit in H. cbv zeta in H. apply bind_inv in H. destruct H as [st [_ H]]. destruct st; [discriminate|].
      destruct (f_stk (d_top d)) eqn:ES; [|discriminate]. destruct (f_link (d_top d)) as [up_step|]; [|injection H as _ <-; split; assumption].
      destruct (d_up d) as [|u up] eqn:EU; [discriminate|]. injection H as _ <-. split; [exact HP|].
      unfold d_ok in *. rewrite EU in IH. cbn [d_top d_up]. destruct s as [|l [|l' s]]; cbn [frs_ok] in *; try tauto.
      destruct IH as [_ [IH1 [IH2 [IH3 IH4]]]]. unfold position in *. cbn [d_top f_lvl]. unfold fr_ok in *. cbn [f_lvl f_stk].
      unfold commit_up, with_level, with_cursor. cbn [f_lvl f_stk f_cursor].
      split; [lia|]. split; [rewrite ES in IH1; exact IH1|].
      assert (X : l_idx (set_idx (f_lvl u) (l_idx (f_lvl (d_top d)))) = l_idx (f_lvl (d_top d))) by reflexivity.
      destruct up_step; cbn [f_lvl f_stk]; rewrite X; (split; [lia|]); (split; [apply lv_raise; assumption|]); apply (frs_raise _ _ _ _ IH4); assumption.
Qed.
(** The positions of the arrays that are open. *)
Lemma visit_more fuel sg fmt t r d0 d start n l s : P r -> sig_new fuel (print t) = Ok (inr sg) -> dec_new sg fmt r = Ok d0 ->
  visit I msg d0 d (((start, n) :: l) :: s) ->
  start <= position d /\ dec_more d = (position d <? n).
Proof.
  intros HP _ H0 HV. unfold dec_new in H0. apply bind_inv in H0. destruct H0 as [f [Hf H0]]. injection H0 as <-.
  unfold frame_for in Hf. apply bind_inv in Hf. destruct Hf as [c [_ Hf]]. injection Hf as <-.
  apply visit_ok in HV; [|exact HP|reflexivity|reflexivity]. destruct HV as [_ HV]. unfold d_ok in HV. cbn [frs_ok] in HV. destruct HV as [_ [HV _]].
  unfold fr_ok in HV. destruct (f_stk (d_top d)) as [|[[el up] uc] stk]; cbn [lv_ok] in HV; [tauto|].
  destruct HV as [A [B _]]. split; [exact B|]. unfold dec_more, position. rewrite A. reflexivity.
Qed.
End Visit.
