(** Proofs about what an encoder leaves in the output, whatever the writer does
    and whatever calls fail on the way. *)
From Verif Require Import Base DbusSpec IoMapModel IoMapSpec IoMapProofs.
From Verif Require Import DbusSigAnnot DbusSigRefine DbusSigTheory DbusCursorProofs DbusCursorQueries DbusSigResults.
From Verif Require Import DvarModel DvarSpec DvarProofs DvarEncode DvarBig DvarTyping DvarTypingProofs.
Local Open Scope N_scope.
Local Open Scope res_scope.

Definition holds (m : mem) (pos : N) (b : list N) : Prop :=
  forall k x, nth_error b k = Some x -> m (pos + N.of_nat k) = Some x.
Definition same_below (m m' : mem) (pos : N) : Prop := forall j, j < pos -> m' j = m j.

Lemma holds_nil m pos : holds m pos [].
Proof. intros [|k] x H; discriminate. Qed.
Lemma holds_app m pos a b : holds m pos (a ++ b) <-> holds m pos a /\ holds m (pos + size a) b.
Proof.
  unfold holds. split.
  - intros H. split; intros k x E.
    + apply H. rewrite nth_error_app1; [exact E|]. apply nth_error_Some. congruence.
    + specialize (H (length a + k)%nat x). rewrite nth_error_app2 in H by lia.
      replace (length a + k - length a)%nat with k in H by lia. specialize (H E). rewrite <- H. f_equal. unfold size. lia.
  - intros [A B] k x E. destruct (Nat.lt_ge_cases k (length a)) as [L|L].
    + rewrite nth_error_app1 in E by exact L. exact (A _ _ E).
    + rewrite nth_error_app2 in E by exact L. apply B in E. rewrite <- E. f_equal. unfold size. lia.
Qed.
Lemma holds_frame m m' pos b : (forall j, pos <= j -> j < pos + size b -> m' j = m j) -> holds m pos b -> holds m' pos b.
Proof.
  intros F H k x E. rewrite F; [exact (H _ _ E)|lia|]. assert (k < length b)%nat by (apply nth_error_Some; congruence). unfold size. lia.
Qed.
Lemma below_refl m pos : same_below m m pos.
Proof. intros j _. reflexivity. Qed.
Lemma below_trans m1 m2 m3 p q : p <= q -> same_below m1 m2 p -> same_below m2 m3 q -> same_below m1 m3 p.
Proof. intros L A B j H. rewrite B by lia. apply A, H. Qed.

Section Low.
Context {W : Type} (I : Write W).
Lemma write_low o i data r o' i' : write I o i data = Ok (r, o', i') ->
  i <= i' /\ same_below (o_mem o) (o_mem o') i /\
  (forall j, i + size data <= j -> o_mem o' j = o_mem o j) /\
  (r = Continue tt -> i' = i + size data /\ holds (o_mem o') i data).
Proof.
  intros H. apply write_any in H. destruct H as [k [A [B [[C1 C2] D]]]]. rewrite size_firstn in C2 by (unfold size in *; lia).
  split; [lia|]. split; [intros j L; apply C2; lia|]. split; [intros j L; apply C2; lia|].
  intros E. specialize (D E). subst k. split; [exact B|]. rewrite firstn_all2 in C1 by (unfold size; lia). exact C1.
Qed.
Lemma fill_low o i n x r o' i' : fill I o i n x = Ok (r, o', i') ->
  i <= i' /\ same_below (o_mem o) (o_mem o') i /\
  (r = Continue tt -> i' = i + n /\ holds (o_mem o') i (repeat x (N.to_nat n))).
Proof.
  intros H. apply fill_any in H. destruct H as [k [A [B [[C1 C2] D]]]].
  split; [lia|]. split; [intros j L; apply C2; lia|]. intros E. specialize (D E). subst k. split; [exact B|exact C1].
Qed.
Lemma zero1_low o i r o' i' : zero I o i 1 = Ok (r, o', i') ->
  i <= i' /\ same_below (o_mem o) (o_mem o') i /\
  (r = Continue tt -> i' = i + 1 /\ holds (o_mem o') i [0]).
Proof. apply fill_low. Qed.
Lemma align_low o i a r o' i' : align_exp2 I o i a = Ok (r, o', i') ->
  i <= i' /\ same_below (o_mem o) (o_mem o') i /\
  (a < 31 -> r = Continue tt -> i' = i + size (padding i a) /\ holds (o_mem o') i (padding i a)).
Proof.
  intros H. assert (A : i <= i' /\ same_below (o_mem o) (o_mem o') i).
  { unfold align_exp2 in H. destruct (shl_usize a) as [m| |]; [|discriminate..]. cbn [bind] in H.
    destruct (checked_next_multiple_of i m) as [v|].
    - destruct (sub_usize v i) as [n| |]; [|discriminate..]. cbn [bind] in H. apply fill_low in H. tauto.
    - injection H as _ <- <-. split; [lia|apply below_refl]. }
  split; [apply A|]. split; [apply A|]. intros L E. apply align_any in H; [|exact L].
  destruct H as [k [_ [B [[C1 _] D]]]]. specialize (D E). rewrite pad_padding. split; [exact D|].
  unfold padding. rewrite <- D, B. replace (i + k - i) with k by lia. exact C1.
Qed.
Lemma iter_low fuel : forall o i it r o' i', write_iter_loop fuel I o i it = Ok (r, o', i') ->
  i <= i' /\ same_below (o_mem o) (o_mem o') i.
Proof.
  induction fuel as [|fuel IH]; intros o i it r o' i' H; [discriminate|]. cbn [write_iter_loop] in H.
  destruct (it_hint it =? 0).
  - destruct (fst (it_next it)); [discriminate|]. injection H as _ <- <-. split; [lia|apply below_refl].
  - destruct (w_map I (o_w o) i (it_hint it)) as [[f w]| |]; [|discriminate..]. cbn [bind] in H.
    destruct f as [b|ml].
    + injection H as _ <- <-. split; [lia|apply below_refl].
    + destruct (0 <? ml); [|discriminate]. cbn [bind] in H.
      destruct (iter_chunk _ _ _ _ _ _) as [[[m j] it']| |] eqn:C; [|discriminate..]. cbn [bind] in H.
      apply iter_chunk_any in C; [|lia]. destruct C as [C1 [_ [_ C2]]]. apply IH in H. cbn [o_mem] in H. destruct H as [H1 H2].
      split; [lia|]. apply (below_trans _ m _ i j); [lia| |exact H2].
      intros q L. rewrite C2. unfold store. destruct (N.leb_spec (i + (ml - N.of_nat (N.to_nat (N.min (it_hint it) ml)))) q); [lia|]. reflexivity.
Qed.
Lemma iter_ok o i data r o' i' : bounded I -> write_iter I o i (mkIter (size data) data) = Ok (r, o', i') ->
  r = Continue tt -> i' = i + size data /\ holds (o_mem o') i data.
Proof.
  intros HB H E. apply write_iter_any in H; [|exact HB]. destruct H as [k [_ [B [[C1 _] D]]]]. specialize (D E). subst k.
  split; [exact B|]. rewrite firstn_all2 in C1 by (unfold size; lia). exact C1.
Qed.

(** * Failed calls *)
Lemma seq_io_break x (e : Enc W) k b e' : seq_io x e k = Ok (Break b, e') ->
  (exists r o i, x = Ok (r, o, i) /\ e' = put_out e o) \/ (exists o i, x = Ok (Continue tt, o, i) /\ k o i = Ok (Break b, e')).
Proof.
  unfold seq_io. destruct x as [[[r o] i]| |]; [|discriminate..]. cbn [bind]. destruct r as [a|[]]; intros H.
  - left. injection H as _ <-. eauto.
  - right. eauto.
Qed.
(** The bytes a failed call may change below the position: the length of the
    open array. *)
Definition patched (stk : list (Element * Level * option Cursor)) (from pos meta j : N) : Prop :=
  (exists l c r, stk = (EArray, l, c) :: r) /\ from < pos /\ meta <= j < meta + 4.
Definition quiet (f : Frame) (m m' : mem) : Prop :=
  forall j, j < l_idx (f_lvl f) -> ~ patched (f_stk f) (l_from (f_lvl f)) (l_idx (f_lvl f)) (l_meta (f_lvl f)) j -> m' j = m j.
Lemma below_quiet f m m' : same_below m m' (l_idx (f_lvl f)) -> quiet f m m'.
Proof. intros H j L _. apply H, L. Qed.
Lemma quiet_refl f m : quiet f m m.
Proof. intros j _ _. reflexivity. Qed.
Lemma quiet_trans f m1 m2 m3 : quiet f m1 m2 -> quiet f m2 m3 -> quiet f m1 m3.
Proof. intros A B j L N. rewrite (B j L N). exact (A j L N). Qed.

Lemma put_out_out (e : Enc W) o : e_out (put_out e o) = o. Proof. reflexivity. Qed.
Lemma put_out_same (e : Enc W) : put_out e (e_out e) = e. Proof. destruct e; reflexivity. Qed.

Lemma fail_call e c b e' : enc_call I e c = Ok (Break b, e') ->
  exists o, e' = put_out e o /\ quiet (e_top e) (o_mem (e_out e)) (o_mem o).
Proof.
  assert (Same : forall x (e' : Enc W), fail x e = Ok (Break b, e') -> exists o, e' = put_out e o /\ quiet (e_top e) (o_mem (e_out e)) (o_mem o)).
  { intros x e1 H. injection H as _ <-. exists (e_out e). rewrite put_out_same. split; [reflexivity|apply quiet_refl]. }
  assert (Fixed : forall el data, enc_fixed I e el data = Ok (Break b, e') -> exists o, e' = put_out e o /\ quiet (e_top e) (o_mem (e_out e)) (o_mem o)).
  { intros el data H. unfold enc_fixed in H. cbv zeta in H. destruct (expects _ _) as [[|]| |]; [| |discriminate..]; cbn [bind negb] in H; [|eapply Same; exact H].
    apply seq_io_break in H. destruct H as [[r [o [i [E ->]]]]|[o [i [E H]]]]; apply align_low in E; destruct E as [L1 [B1 _]];
      [exists o; split; [reflexivity|apply below_quiet, B1]|].
    apply seq_io_break in H. destruct H as [[r [o2 [i2 [E ->]]]]|[o2 [i2 [E H]]]].
    - apply write_low in E; destruct E as [L2 [B2 _]]. exists o2. split; [reflexivity|]. apply below_quiet.
      eapply below_trans; [exact L1|exact B1|exact B2].
    - destruct (move_step _); discriminate. }
  assert (Str : forall el len_el limit en data, enc_str I e el len_el limit en data = Ok (Break b, e') -> exists o, e' = put_out e o /\ quiet (e_top e) (o_mem (e_out e)) (o_mem o)).
  { intros el len_el limit en data H. unfold enc_str in H. cbv zeta in H. destruct (expects _ _) as [[|]| |]; [| |discriminate..]; cbn [bind negb] in H; [|eapply Same; exact H].
    destruct (size data <? limit); cbn [negb] in H; [|eapply Same; exact H].
    apply seq_io_break in H. destruct H as [[r [o [i [E ->]]]]|[o [i [E H]]]]; apply align_low in E; destruct E as [L1 [B1 _]];
      [exists o; split; [reflexivity|apply below_quiet, B1]|].
    apply seq_io_break in H. destruct H as [[r [o2 [i2 [E ->]]]]|[o2 [i2 [E H]]]]; apply write_low in E; destruct E as [L2 [B2 _]];
      pose proof (below_trans _ _ _ _ _ L1 B1 B2) as B2'; [exists o2; split; [reflexivity|apply below_quiet, B2']|].
    apply seq_io_break in H. destruct H as [[r [o3 [i3 [E ->]]]]|[o3 [i3 [E H]]]]; apply write_low in E; destruct E as [L3 [B3 _]];
      pose proof (below_trans _ _ _ _ _ (N.le_trans _ _ _ L1 L2) B2' B3) as B3'; [exists o3; split; [reflexivity|apply below_quiet, B3']|].
    apply seq_io_break in H. destruct H as [[r [o4 [i4 [E ->]]]]|[o4 [i4 [E H]]]].
    - apply zero1_low in E; destruct E as [L4 [B4 _]].
      pose proof (below_trans _ _ _ _ _ (N.le_trans _ _ _ (N.le_trans _ _ _ L1 L2) L3) B3' B4) as B4'. exists o4; split; [reflexivity|apply below_quiet, B4'].
    - destruct (move_step _); discriminate. }
  assert (Open : forall el, enc_open I e el = Ok (Break b, e') -> exists o, e' = put_out e o /\ quiet (e_top e) (o_mem (e_out e)) (o_mem o)).
  { intros el H. unfold enc_open in H. cbv zeta in H. destruct (expects _ _) as [[|]| |]; [| |discriminate..]; cbn [bind negb] in H; [|eapply Same; exact H].
    destruct (unwrap _) as [a| |]; [|discriminate..]. cbn [bind] in H.
    apply seq_io_break in H. destruct H as [[r [o [i [E ->]]]]|[o [i [E H]]]].
    - apply align_low in E; destruct E as [L1 [B1 _]]. exists o; split; [reflexivity|apply below_quiet, B1].
    - destruct (do_move _ _); discriminate. }
  assert (Sub : enc_enc e = Ok (Break b, e') -> exists o, e' = put_out e o /\ quiet (e_top e) (o_mem (e_out e)) (o_mem o)).
  { intros H. unfold enc_enc in H. cbv zeta in H. destruct (idx_step _); [|discriminate..]. cbn [bind] in H.
    destruct (c_sub _) as [[v|]| |]; [| |discriminate..]; cbn [bind] in H; [|eapply Same; exact H].
    destruct (frame_for _ _ _); discriminate. }
  destruct c; cbn [enc_call]; intros H; try (eapply Fixed; exact H); try (eapply Str; exact H); try (eapply Open; exact H); try (exact (Sub H)).
  - destruct (make_sig sig) as [s| |]; [|discriminate..]. cbn [bind] in H. unfold enc_variant in H. cbv zeta in H.
    destruct (expects _ _) as [[|]| |]; [| |discriminate..]; cbn [bind negb] in H; [|eapply Same; exact H].
    destruct (sig_len s) as [n| |]; [|discriminate..]. cbn [bind] in H.
    destruct (n <? 2 ^ 8); cbn [negb] in H; [|eapply Same; exact H].
    apply seq_io_break in H. destruct H as [[r [o [i [E ->]]]]|[o [i [E H]]]]; apply align_low in E; destruct E as [L1 [B1 _]];
      [exists o; split; [reflexivity|apply below_quiet, B1]|].
    apply seq_io_break in H. destruct H as [[r [o2 [i2 [E ->]]]]|[o2 [i2 [E H]]]]; apply write_low in E; destruct E as [L2 [B2 _]];
      pose proof (below_trans _ _ _ _ _ L1 B1 B2) as B2'; [exists o2; split; [reflexivity|apply below_quiet, B2']|].
    destruct (cursor s) as [c0| |]; [|discriminate..]. cbn [bind] in H.
    destruct (size_hint c0) as [hint| |]; [|discriminate..]. cbn [bind] in H.
    destruct (sig_elements s) as [text| |]; [|discriminate..]. cbn [bind] in H.
    apply seq_io_break in H. destruct H as [[r [o3 [i3 [E ->]]]]|[o3 [i3 [E H]]]]; unfold write_iter in E; apply iter_low in E; destruct E as [L3 B3];
      pose proof (below_trans _ _ _ _ _ (N.le_trans _ _ _ L1 L2) B2' B3) as B3'; [exists o3; split; [reflexivity|apply below_quiet, B3']|].
    apply seq_io_break in H. destruct H as [[r [o4 [i4 [E ->]]]]|[o4 [i4 [E H]]]].
    + apply zero1_low in E; destruct E as [L4 [B4 _]].
      pose proof (below_trans _ _ _ _ _ (N.le_trans _ _ _ (N.le_trans _ _ _ L1 L2) L3) B3' B4) as B4'. exists o4; split; [reflexivity|apply below_quiet, B4'].
    + discriminate.
  - unfold enc_array in H. cbv zeta in H.
    destruct (expects _ _) as [[|]| |]; [| |discriminate..]; cbn [bind negb] in H; [|eapply Same; exact H].
    destruct (unwrap _) as [a| |]; [|discriminate..]. cbn [bind] in H.
    apply seq_io_break in H. destruct H as [[r [o [i [E ->]]]]|[o [i [E H]]]]; apply align_low in E; destruct E as [L1 [B1 _]];
      [exists o; split; [reflexivity|apply below_quiet, B1]|].
    apply seq_io_break in H. destruct H as [[r [o2 [i2 [E ->]]]]|[o2 [i2 [E H]]]]; apply write_low in E; destruct E as [L2 [B2 _]];
      pose proof (below_trans _ _ _ _ _ L1 B1 B2) as B2'; [exists o2; split; [reflexivity|apply below_quiet, B2']|].
    apply seq_io_break in H. destruct H as [[r [o3 [i3 [E ->]]]]|[o3 [i3 [E H]]]].
    + apply align_low in E; destruct E as [L3 [B3 _]].
      pose proof (below_trans _ _ _ _ _ (N.le_trans _ _ _ L1 L2) B2' B3) as B3'. exists o3; split; [reflexivity|apply below_quiet, B3'].
    + destruct (do_move _ _); discriminate.
  - unfold enc_close in H. cbv zeta in H. destruct (idx_step _) as [[v|]| |]; [| |discriminate..]; cbn [bind] in H; [eapply Same; exact H|].
    destruct (f_stk (e_top e)) as [|[[el l] oc] stk] eqn:ES; [eapply Same; exact H|].
    assert (Fin : forall o, (do f' <- close_frame (e_top e); Ok (Continue tt, put_out (put_top e f') o)) <> Ok (Break b, e')).
    { intros o. destruct (close_frame _); discriminate. }
    destruct el; try discriminate H; try (exfalso; exact (Fin _ H)).
    destruct (sub_usize _ _) as [n| |] eqn:EN; [|discriminate..]. cbn [bind] in H.
    destruct (N.ltb_spec 0 n) as [L0|]; [|exfalso; exact (Fin _ H)].
    destruct (n <? 2 ^ 32); cbn [negb] in H; [|eapply Same; exact H].
    apply seq_io_break in H. destruct H as [[r [o [i [E ->]]]]|[o [i [E H]]]]; [|exfalso; exact (Fin _ H)].
    apply write_low in E. destruct E as [_ [B1 [B2 _]]]. rewrite en_u32_int, size_int in B2. change (N.of_nat 4) with 4 in B2.
    exists o. split; [reflexivity|]. intros j L N. unfold sub_usize in EN. destruct (N.leb_spec (l_from (f_lvl (e_top e))) (l_idx (f_lvl (e_top e)))) as [G|G]; [|discriminate].
    injection EN as <-. destruct (N.lt_ge_cases j (l_meta (f_lvl (e_top e)))) as [X|X]; [apply B1, X|]. apply B2.
    apply N.nlt_ge. intros Y. apply N. unfold patched. rewrite ES. split; [eauto|]. split; [lia|split; assumption].
  - destruct (make_sig sig) as [s| |]; [|discriminate..]. cbn [bind] in H. unfold enc_enc_with in H.
    destruct (c_sub _) as [sub| |]; [|discriminate..]. cbn [bind] in H.
    destruct (match sub with Some v => _ | None => _ end) as [[|]| |]; [| |discriminate..]; cbn [bind] in H; [exact (Sub H)|eapply Same; exact H].
  - unfold enc_commit in H. cbv zeta in H. destruct (idx_step _) as [[v|]| |]; [| |discriminate..]; cbn [bind] in H; [eapply Same; exact H|].
    destruct (f_stk _); [|eapply Same; exact H]. destruct (f_link _).
    + destruct (e_up e); discriminate.
    + destruct (f_done _); cbn [negb] in H; [discriminate|]. destruct (w_commit I _ _); discriminate.
  - unfold enc_drop in H. destruct (e_up e); discriminate.
Qed.

(** * Calls that succeed, after any that do not, or that come to nothing *)
Inductive fails : Enc W -> Enc W -> Prop :=
| fails_nil e : fails e e
| fails_cons e c b e1 e2 : enc_call I e c = Ok (Break b, e1) -> fails e1 e2 -> fails e e2
| fails_detour e o e2 : same_below (o_mem (e_out e)) (o_mem o) (l_idx (f_lvl (e_top e))) -> fails (put_out e o) e2 -> fails e e2.
Inductive runs : Enc W -> list call -> Enc W -> Prop :=
| runs_nil e : runs e [] e
| runs_cons e e0 c e1 cs e2 : fails e e0 -> enc_call I e0 c = Ok (Continue tt, e1) -> runs e1 cs e2 -> runs e (c :: cs) e2.

Lemma fails_quiet e e' : fails e e' -> exists o, e' = put_out e o /\ quiet (e_top e) (o_mem (e_out e)) (o_mem o).
Proof.
  induction 1 as [e|e c b e1 e2 H _ IH|e o e2 H _ IH]; [exists (e_out e); rewrite put_out_same; split; [reflexivity|apply quiet_refl]| |].
  2:{ destruct IH as [o2 [-> Q]]. exists o2. split; [reflexivity|]. cbn [put_out e_top e_out] in Q.
    eapply quiet_trans; [apply below_quiet; exact H|exact Q]. }
  apply fail_call in H. destruct H as [o1 [-> Q1]]. destruct IH as [o2 [-> Q2]]. exists o2. split; [reflexivity|].
  cbn [put_out e_top e_out] in Q2. eapply quiet_trans; eassumption.
Qed.
Lemma fails_trans e1 e2 e3 : fails e1 e2 -> fails e2 e3 -> fails e1 e3.
Proof. induction 1; [auto| |]; intros; [eapply fails_cons|eapply fails_detour]; eauto. Qed.
Lemma runs_app a : forall b e e', runs e (a ++ b) e' -> exists e1, runs e a e1 /\ runs e1 b e'.
Proof.
  induction a as [|c a IH]; intros b e e' H; [exists e; split; [constructor|exact H]|].
  inversion H as [|? e0 ? e1 ? ? F C R]; subst. destruct (IH _ _ _ R) as [e2 [A B]]. exists e2. split; [econstructor; eassumption|exact B].
Qed.
Lemma history_runs e l e' : history I e l e' -> exists e1, runs e (succeeded l) e1 /\ fails e1 e'.
Proof.
  induction 1 as [e|e c r e1 l e2 V C H IH]; [exists e; split; constructor|].
  destruct IH as [e3 [R F]]. destruct r as [b|[]]; cbn [succeeded].
  - destruct (succeeded l) as [|c' cs] eqn:ES.
    + inversion R; subst. exists e. split; [constructor|]. econstructor; [exact C|exact F].
    + inversion R as [|? e0 ? e4 ? ? F' C' R']; subst. exists e3. split; [|exact F].
      econstructor; [|exact C'|exact R']. econstructor; [exact C|exact F'].
  - exists e3. split; [|exact F]. econstructor; [apply fails_nil|exact C|exact R].
Qed.
End Low.

(** * Calls that succeed *)
Section Success.
Context {W : Type} (I : Write W) (HB : bounded I) (fmt : Format).
Notation big := (big_endian fmt).
Implicit Types (o : out W).

(** The bytes were put at the position and nothing below was changed. *)
Definition put (o o' : out W) (pos : N) (b : list N) : Prop :=
  same_below (o_mem o) (o_mem o') pos /\ holds (o_mem o') pos b.
Lemma put_app o1 o2 o3 pos a b : put o1 o2 pos a -> put o2 o3 (pos + size a) b -> put o1 o3 pos (a ++ b).
Proof.
  intros [A1 A2] [B1 B2]. split.
  - eapply below_trans; [|exact A1|exact B1]. lia.
  - apply holds_app. split; [|exact B2]. eapply holds_frame; [|exact A2]. intros j _ L. apply B1, L.
Qed.
Lemma put_write o i data o' i' : write I o i data = Ok (Continue tt, o', i') -> i' = i + size data /\ put o o' i data.
Proof. intros H. apply write_low in H. destruct H as [_ [A [_ B]]]. destruct (B eq_refl) as [C D]. split; [exact C|split; assumption]. Qed.
Lemma put_zero1 o i o' i' : zero I o i 1 = Ok (Continue tt, o', i') -> i' = i + 1 /\ put o o' i [0].
Proof. intros H. apply zero1_low in H. destruct H as [_ [A B]]. destruct (B eq_refl) as [C D]. split; [exact C|split; assumption]. Qed.
Lemma put_align o i a o' i' : a < 31 -> align_exp2 I o i a = Ok (Continue tt, o', i') ->
  i' = i + size (padding i a) /\ put o o' i (padding i a).
Proof. intros L H. apply align_low in H. destruct H as [_ [A B]]. destruct (B L eq_refl) as [C D]. split; [exact C|split; assumption]. Qed.
Lemma put_iter o i data o' i' : write_iter I o i (mkIter (size data) data) = Ok (Continue tt, o', i') ->
  i' = i + size data /\ put o o' i data.
Proof.
  intros H. destruct (iter_ok I _ _ _ _ _ _ HB H eq_refl) as [C D]. unfold write_iter in H. apply iter_low in H.
  split; [exact C|split; [apply H|exact D]].
Qed.

Lemma got_fixed done T s fs b el pos from meta stk link up o data e' :
  is_sig T s -> occurs T fs (TBasic b) -> e_id (ty_el (TBasic b)) = e_id el -> e_dvar_alignment_exp el < 31 ->
  enc_fixed I (st fmt done (mkCursor s (size (prefix fs))) (mkLevel pos from meta) stk link up o) el data = Ok (Continue tt, e') ->
  exists o', e' = st fmt done (mkCursor s (after fs (TBasic b)))
      (mkLevel (pos + size (padding pos (e_dvar_alignment_exp el) ++ data)) from meta) stk link up o' /\
    put o o' pos (padding pos (e_dvar_alignment_exp el) ++ data).
Proof.
  intros Hs O Ee Ea. unfold enc_fixed. cbv zeta.
  cbn [st e_top f_cursor f_lvl l_idx e_out].
  rewrite (expects_start T s fs _ el Hs O), Ee, N.eqb_refl. cbn [bind negb]. rewrite (step_start T s fs _ Hs O). cbn [bind].
  intros H. apply seq_io_cont in H. destruct H as [o1 [i1 [E1 H]]]. apply put_align in E1; [|exact Ea]. destruct E1 as [-> P1].
  apply seq_io_cont in H. destruct H as [o2 [i2 [E2 H]]]. apply put_write in E2. destruct E2 as [-> P2].
  injection H as <-. exists o2. split; [|eapply put_app; eassumption].
  unfold put_out, put_top, with_cursor, with_level, set_idx, st.
  cbn [e_format e_top e_up f_done f_stk f_link l_from l_meta f_lvl f_cursor]. rewrite size_app', N.add_assoc. reflexivity.
Qed.

Lemma got_str done T s fs b el len_el limit' en k pos from meta stk link up o data e' :
  is_sig T s -> occurs T fs (TBasic b) -> e_id (ty_el (TBasic b)) = e_id el -> e_dvar_alignment_exp len_el < 31 ->
  (size data < limit' -> en fmt (size data) = int big k (size data)) ->
  enc_str I (st fmt done (mkCursor s (size (prefix fs))) (mkLevel pos from meta) stk link up o) el len_el limit' en data = Ok (Continue tt, e') ->
  size data < limit' /\
  exists o', e' = st fmt done (mkCursor s (after fs (TBasic b)))
      (mkLevel (pos + size (padding pos (e_dvar_alignment_exp len_el) ++ counted big k data)) from meta) stk link up o' /\
    put o o' pos (padding pos (e_dvar_alignment_exp len_el) ++ counted big k data).
Proof.
  intros Hs O Ee Ea Hen. unfold enc_str. cbv zeta.
  cbn [st e_top f_cursor f_lvl l_idx e_out e_format].
  rewrite (expects_start T s fs _ el Hs O), Ee, N.eqb_refl. cbn [bind negb]. rewrite (step_start T s fs _ Hs O). cbn [bind].
  destruct (N.ltb_spec (size data) limit') as [HD|]; cbn [negb]; [|discriminate]. rewrite (Hen HD).
  intros H. split; [exact HD|].
  apply seq_io_cont in H. destruct H as [o1 [i1 [E1 H]]]. apply put_align in E1; [|exact Ea]. destruct E1 as [-> P1].
  apply seq_io_cont in H. destruct H as [o2 [i2 [E2 H]]]. apply put_write in E2. destruct E2 as [-> P2].
  apply seq_io_cont in H. destruct H as [o3 [i3 [E3 H]]]. apply put_write in E3. destruct E3 as [-> P3].
  apply seq_io_cont in H. destruct H as [o4 [i4 [E4 H]]]. apply put_zero1 in E4. destruct E4 as [-> P4].
  injection H as <-. exists o4. split.
  - unfold put_out, put_top, with_cursor, with_level, set_idx, st, counted.
    cbn [e_format e_top e_up f_done f_stk f_link l_from l_meta f_lvl f_cursor]. rewrite !size_app', !N.add_assoc. reflexivity.
  - unfold counted. eapply put_app; [exact P1|]. eapply put_app; [exact P2|]. eapply put_app; [exact P3|exact P4].
Qed.

Lemma got_variant done T s fs u pos from meta stk link up o e' :
  is_sig T s -> occurs T fs TVariant ->
  enc_call I (st fmt done (mkCursor s (size (prefix fs))) (mkLevel pos from meta) stk link up o) (CVariant (print u)) = Ok (Continue tt, e') ->
  size (print u) <= 31 /\
  exists o' s', is_sig u s' /\ e' = st fmt done (mkCursor s' 0)
      (mkLevel (pos + size (counted big 1 (print u))) (pos + size (counted big 1 (print u))) (pos + size (counted big 1 (print u))))
      ((EVariant, mkLevel pos from meta, Some (mkCursor s (size (prefix fs)))) :: stk) link up o' /\
    put o o' pos (counted big 1 (print u)).
Proof.
  intros Hs O H0. destruct (N.le_gt_cases (size (print u)) 31) as [Hu|Hu]; [|exfalso; exact (variant_never I _ u e' Hu H0)].
  split; [exact Hu|]. revert H0. cbn [enc_call].
  destruct (make_sig_ok u) as [s' [EM [Hs' HK]]]; [unfold len; lia|]. rewrite EM. cbn [bind].
  unfold enc_variant. cbv zeta. cbn [st e_top f_cursor f_lvl l_idx e_out e_format].
  rewrite (expects_start T s fs _ EVariant Hs O). change (e_id (ty_el TVariant) =? e_id EVariant) with true. cbn [bind negb].
  assert (K8 : s_kind s' = node8).
  { rewrite HK. unfold kind_for. rewrite (proj2 (N.leb_le _ _)) by exact Hu. reflexivity. }
  destruct (sig_len_ok u s' Hs') as [m [_ [M8 [_ EL]]]]. rewrite (M8 K8), N.mul_1_l in EL. rewrite EL. cbn [bind].
  unfold len in *. rewrite (proj2 (N.ltb_lt (size (print u)) (2 ^ 8))) by lia. cbn [negb].
  change (e_dvar_alignment_exp EU8) with 0.
  intros H. apply seq_io_cont in H. destruct H as [o1 [i1 [E1 H]]]. apply put_align in E1; [|lia]. destruct E1 as [-> P1].
  rewrite padding_0 in H, P1. change (size (@nil N)) with 0 in H. rewrite N.add_0_r in H.
  rewrite en_u8_int in H by lia.
  apply seq_io_cont in H. destruct H as [o2 [i2 [E2 H]]]. apply put_write in E2. destruct E2 as [-> P2].
  rewrite (cursor_root u s' Hs') in H. cbn [bind] in H.
  unfold size_hint in H. cbn [c_sig c_idx] in H. rewrite EL in H. cbn [bind] in H. unfold DbusSigModel.strict_sub in H.
  rewrite (proj2 (N.leb_le 0 _)) in H by lia. cbn [bind] in H. rewrite N.sub_0_r in H.
  destruct (is_sig_elements u s' Hs') as [els [Eels Ecodes]]. rewrite Eels in H. cbn [bind] in H. rewrite Ecodes in H.
  apply seq_io_cont in H. destruct H as [o3 [i3 [E3 H]]]. apply put_iter in E3. destruct E3 as [-> P3].
  apply seq_io_cont in H. destruct H as [o4 [i4 [E4 H]]]. apply put_zero1 in E4. destruct E4 as [-> P4].
  injection H as <-. exists o4, s'. split; [exact Hs'|]. split.
  - unfold put_out, put_top, st, counted. cbn [e_format e_top e_up f_done f_stk f_link f_lvl f_cursor].
    rewrite !size_app', !N.add_assoc. reflexivity.
  - unfold counted. change (int big 1 (size (print u)) ++ print u ++ [0]) with ([] ++ int big 1 (size (print u)) ++ print u ++ [0]).
    eapply put_app; [exact P1|]. change (size (@nil N)) with 0. rewrite N.add_0_r.
    eapply put_app; [exact P2|]. eapply put_app; [exact P3|exact P4].
Qed.

Lemma got_array done T s fs u pos from meta stk link up o e' :
  is_sig T s -> occurs T fs (TArray u) ->
  let start := pos + size (padding pos 2) + 4 in
  let gap := padding start (dvar_align u) in
  enc_array I (st fmt done (mkCursor s (size (prefix fs))) (mkLevel pos from meta) stk link up o) = Ok (Continue tt, e') ->
  exists o', e' = st fmt done (mkCursor s (size (prefix (FArray :: fs))))
      (mkLevel (start + size gap) (start + size gap) (pos + size (padding pos 2)))
      ((EArray, mkLevel pos from meta, None) :: stk) link up o' /\
    put o o' pos (padding pos 2 ++ int big 4 0 ++ gap).
Proof.
  intros Hs O start gap. unfold enc_array. cbv zeta.
  cbn [st e_top f_cursor f_lvl l_idx e_out e_format].
  rewrite (expects_start T s fs _ EArray Hs O). change (e_id (ty_el (TArray u)) =? e_id EArray) with true. cbn [bind negb].
  unfold c_down. rewrite (start_down T s Hs fs _ O). cbn [is_container bind].
  pose proof (occ_array T fs u O) as O'.
  assert (EI : size (prefix fs) + 1 = size (prefix (FArray :: fs))) by (rewrite prefix_fs; cbn; change (size (@nil N)) with 0; lia).
  rewrite EI. change (element_at (mkCursor s (size (prefix fs)))) with (element_at (mkCursor s (size (prefix (FArray :: fs))))).
  rewrite (start_element T s Hs _ _ O'). cbn [unwrap bind].
  assert (EA : e_dvar_alignment_exp (ty_el u) = dvar_align u).
  { destruct u as [b| | | | |]; try reflexivity. destruct b; reflexivity. }
  rewrite EA. change (e_dvar_alignment_exp EU32) with 2. rewrite en_u32_int. rewrite (down_start T s fs _ Hs O eq_refl). cbn [bind].
  assert (EN : size (int big 4 0) = 4) by apply size_int.
  intros H. apply seq_io_cont in H. destruct H as [o1 [i1 [E1 H]]]. apply put_align in E1; [|lia]. destruct E1 as [-> P1].
  apply seq_io_cont in H. destruct H as [o2 [i2 [E2 H]]]. apply put_write in E2. destruct E2 as [-> P2]. rewrite EN in H. fold start in H.
  apply seq_io_cont in H. destruct H as [o3 [i3 [E3 H]]].
  apply put_align in E3; [|destruct u as [b| | | | |]; try (cbn; lia); destruct b; cbn; lia]. destruct E3 as [-> P3]. fold gap in H, P3.
  injection H as <-. exists o3. split.
  - unfold put_out, put_top, st. cbn [e_format e_top e_up f_done f_stk f_link f_lvl f_cursor]. rewrite EI. reflexivity.
  - eapply put_app; [exact P1|]. eapply put_app; [exact P2|]. rewrite EN. exact P3.
Qed.

Lemma got_open done T s fs u el pos from meta stk link up o e' :
  is_sig T s -> occurs T fs u -> e_id (ty_el u) = e_id el -> is_container u = true -> dvar_align u = 3 ->
  enc_open I (st fmt done (mkCursor s (size (prefix fs))) (mkLevel pos from meta) stk link up o) el = Ok (Continue tt, e') ->
  exists o', e' = st fmt done (mkCursor s (size (prefix fs) + 1))
      (mkLevel (pos + size (padding pos 3)) (pos + size (padding pos 3)) (pos + size (padding pos 3)))
      ((el, mkLevel pos from meta, None) :: stk) link up o' /\
    put o o' pos (padding pos 3).
Proof.
  intros Hs O Ee Ec Ea. unfold enc_open. cbv zeta. cbn [st e_top f_cursor f_lvl l_idx e_out e_format].
  rewrite (expects_start T s fs _ el Hs O), Ee, N.eqb_refl. cbn [bind negb].
  rewrite (start_dva T s Hs fs _ O), Ea. cbn [unwrap bind]. rewrite (down_start T s fs _ Hs O Ec). cbn [bind].
  intros H. apply seq_io_cont in H. destruct H as [o1 [i1 [E1 H]]]. apply put_align in E1; [|lia]. destruct E1 as [-> P1].
  injection H as <-. exists o1. split; [reflexivity|exact P1].
Qed.
Lemma got_close_array done c lvl l stk link up o c' n e' :
  idx_step c = Ok None -> (do x <- do_move c Up; move_step x) = Ok c' ->
  l_idx lvl = l_from lvl + n ->
  enc_close I (st fmt done c lvl ((EArray, l, None) :: stk) link up o) = Ok (Continue tt, e') ->
  n < 2 ^ 32 /\
  exists o', e' = st fmt done c' (set_idx l (l_idx lvl)) stk link up o' /\
    (n = 0 -> o' = o) /\
    (0 < n -> holds (o_mem o') (l_meta lvl) (int big 4 n) /\
      forall j, j < l_meta lvl \/ l_meta lvl + 4 <= j -> o_mem o' j = o_mem o j).
Proof.
  intros Hst Hc Hn. unfold enc_close. cbv zeta. cbn [st e_top f_cursor f_lvl f_stk e_out e_format]. rewrite Hst. cbn [bind].
  pose proof (close_frame_ok (mkFrame done c lvl ((EArray, l, None) :: stk) link) EArray l None stk eq_refl c' Hc) as EC.
  cbn [f_done f_lvl f_link] in EC. rewrite EC. cbn [bind].
  unfold sub_usize. rewrite (proj2 (N.leb_le _ _)) by lia. cbn [bind]. replace (l_idx lvl - l_from lvl) with n by lia.
  destruct (N.ltb_spec 0 n) as [L|L].
  - destruct (N.ltb_spec n (2 ^ 32)) as [L32|]; cbn [negb]; [|discriminate]. rewrite en_u32_int. intros H. split; [exact L32|].
    apply seq_io_cont in H. destruct H as [o1 [i1 [E1 H]]]. apply write_low in E1. destruct E1 as [_ [A [B C]]].
    rewrite size_int in B. change (N.of_nat 4) with 4 in B. injection H as <-.
    exists o1. split; [reflexivity|]. split; [lia|]. intros _. split; [apply C; reflexivity|].
    intros j [X|X]; [apply A, X|apply B, X].
  - intros H. split; [lia|]. injection H as <-. exists o. split; [reflexivity|]. split; [reflexivity|]. lia.
Qed.
End Success.

(** * Runs that describe a value *)
Section Main.
Context {W : Type} (I : Write W) (HB : bounded I) (fmt : Format).
Notation big := (big_endian fmt).
Implicit Types (o : out W).

(** As [put], except that a failed call may have changed the length of the open
    array. *)
Definition frame_ok (stk : list (Element * Level * option Cursor)) (from pos pos' meta : N) (o o' : out W) : Prop :=
  forall j, j < pos -> ~ patched stk from pos' meta j -> o_mem o' j = o_mem o j.
Definition value_snd (t : ty) (v : value) (cs : list call) : Prop :=
  forall T s fs done pos from meta stk link up o e', is_sig T s -> occurs T fs t ->
  runs I (st fmt done (mkCursor s (size (prefix fs))) (mkLevel pos from meta) stk link up o) cs e' ->
  exists b o', marshal big t v pos = Some b /\
    e' = st fmt done (mkCursor s (after fs t)) (mkLevel (pos + size b) from meta) stk link up o' /\
    holds (o_mem o') pos b /\ frame_ok stk from pos pos meta o o'.
Definition is_array (stk : list (Element * Level * option Cursor)) : Prop := exists l c r, stk = (EArray, l, c) :: r.
Definition values_snd (ts : list ty) (vs : list value) (cs : list call) : Prop :=
  forall T s i j done pos from meta stk link up o e', is_sig T s -> walk T i ts j ->
  (is_array stk -> meta + 4 <= from /\ from <= pos) ->
  runs I (st fmt done (mkCursor s i) (mkLevel pos from meta) stk link up o) cs e' ->
  exists b o', marshal_all big ts vs pos = Some b /\
    e' = st fmt done (mkCursor s j) (mkLevel (pos + size b) from meta) stk link up o' /\
    holds (o_mem o') pos b /\ frame_ok stk from pos (pos + size b) meta o o'.

Lemma frame_put stk from pos meta o o1 o2 b : frame_ok stk from pos pos meta o o1 -> put o1 o2 pos b -> frame_ok stk from pos pos meta o o2.
Proof. intros F [P _] j L N. rewrite (P j L). exact (F j L N). Qed.
Lemma no_patch stk from pos meta j : ~ is_array stk -> ~ patched stk from pos meta j.
Proof. intros N [A _]. exact (N A). Qed.

(** The first successful call. *)
Lemma runs_first done c lvl stk link up o cl cs e' :
  runs I (st fmt done c lvl stk link up o) (cl :: cs) e' ->
  exists o0 e1, frame_ok stk (l_from lvl) (l_idx lvl) (l_idx lvl) (l_meta lvl) o o0 /\
    enc_call I (st fmt done c lvl stk link up o0) cl = Ok (Continue tt, e1) /\ runs I e1 cs e'.
Proof.
  intros H. inversion H as [|? e0 ? e1 ? ? F C R]; subst. apply fails_quiet in F. destruct F as [o0 [-> Q]].
  exists o0, e1. split; [exact Q|]. split; [exact C|exact R].
Qed.
Lemma runs_end e e' : runs I e [] e' -> e' = e.
Proof. inversion 1. reflexivity. Qed.

Lemma fixed_snd b el k n v cl : e_id (ty_el (TBasic b)) = e_id el -> e_dvar_alignment_exp el < 31 ->
  (forall e, e_format e = fmt -> enc_call I e cl = enc_fixed I e el (int big k n)) ->
  (forall pos, marshal big (TBasic b) v pos = Some (padding pos (e_dvar_alignment_exp el) ++ int big k n)) ->
  value_snd (TBasic b) v [cl].
Proof.
  intros Ee Ea EC EM T s fs done pos from meta stk link up o e' Hs O R.
  apply runs_first in R. destruct R as [o0 [e1 [F [C R]]]]. apply runs_end in R. subst e'. cbn [l_idx l_from l_meta] in F.
  rewrite EC in C by reflexivity. apply (got_fixed I fmt) with (T := T) (b := b) in C; try assumption.
  destruct C as [o' [-> P]]. do 2 eexists. split; [apply EM|]. split; [reflexivity|]. split; [apply P|]. eapply frame_put; eassumption.
Qed.
Lemma str_snd b el len_el limit en k v cl data : e_id (ty_el (TBasic b)) = e_id el -> e_dvar_alignment_exp len_el < 31 ->
  (size data < limit -> en fmt (size data) = int big k (size data)) ->
  (forall e, e_format e = fmt -> enc_call I e cl = enc_str I e el len_el limit en data) ->
  (forall pos, size data < limit -> marshal big (TBasic b) v pos = Some (padding pos (e_dvar_alignment_exp len_el) ++ counted big k data)) ->
  value_snd (TBasic b) v [cl].
Proof.
  intros Ee Ea Een EC EM T s fs done pos from meta stk link up o e' Hs O R.
  apply runs_first in R. destruct R as [o0 [e1 [F [C R]]]]. apply runs_end in R. subst e'. cbn [l_idx l_from l_meta] in F.
  rewrite EC in C by reflexivity. apply (got_str I fmt) with (T := T) (b := b) (k := k) in C; try assumption.
  destruct C as [L [o' [-> P]]]. do 2 eexists. split; [apply EM, L|]. split; [reflexivity|]. split; [apply P|]. eapply frame_put; eassumption.
Qed.

Lemma sub_snd c : forall t v cs, (c = CEnc \/ c = CEncWith (print t)) -> value_snd t v cs -> len t < 2 ^ 61 -> value_snd t v (c :: cs ++ [CCommit; CDrop]).
Proof.
  intros t v cs Hc IH Ht T s fs done pos from meta stk link up o e' Hs O R.
  apply runs_first in R. destruct R as [o0 [e1 [F [C R]]]]. cbn [l_idx l_from l_meta] in F.
  destruct (sub_start T s fs t Hs O) as [s' [ES Hs']].
  assert (E1 : enc_enc (st fmt done (mkCursor s (size (prefix fs))) (mkLevel pos from meta) stk link up o0) =
    Ok (Continue tt, st fmt false (mkCursor s' 0) (mkLevel pos pos pos) [] (Some (step_of fs t))
       (mkFrame done (mkCursor s (size (prefix fs))) (mkLevel pos from meta) stk link :: up) o0)).
  { unfold enc_enc. cbv zeta. cbn [st e_top f_cursor]. rewrite (start_step T s Hs fs t O), ES. cbn [bind].
    unfold frame_for. rewrite (cursor_root t s' Hs'). reflexivity. }
  assert (E2 : enc_call I (st fmt done (mkCursor s (size (prefix fs))) (mkLevel pos from meta) stk link up o0) c =
    Ok (Continue tt, st fmt false (mkCursor s' 0) (mkLevel pos pos pos) [] (Some (step_of fs t))
       (mkFrame done (mkCursor s (size (prefix fs))) (mkLevel pos from meta) stk link :: up) o0)).
  { destruct Hc as [-> | ->]; cbn [enc_call]; [exact E1|].
    destruct (make_sig_ok t Ht) as [s0 [E0 [Hs0 _]]]. rewrite E0. cbn [bind]. unfold enc_enc_with.
    change (f_cursor (e_top (st fmt done (mkCursor s (size (prefix fs))) (mkLevel pos from meta) stk link up o0))) with (mkCursor s (size (prefix fs))).
    rewrite ES. cbn [bind]. rewrite (sig_eq_same t s0 s' Hs0 Hs'). cbn [bind]. exact E1. }
  rewrite E2 in C. injection C as <-. apply runs_app in R. destruct R as [e2 [R1 R2]].
  change 0 with (size (prefix [])) in R1. apply (IH t s' []) in R1; [|exact Hs'|apply occ_root].
  destruct R1 as [b [o1 [EM [-> [H1 F1]]]]].
  apply runs_first in R2. destruct R2 as [o2 [e3 [F2 [C R2]]]]. cbn [l_idx l_from l_meta] in F2.
  cbn [enc_call] in C. unfold enc_commit in C. cbv zeta in C. cbn [st e_top f_cursor] in C. rewrite (past_root t s' Hs') in C.
  unfold st in C. cbn [bind f_stk f_link e_up f_lvl l_idx e_format e_out f_cursor] in C. injection C as <-.
  apply runs_first in R2. destruct R2 as [o3 [e4 [F3 [C R2]]]]. cbn [l_idx l_from l_meta] in F3.
  apply runs_end in R2. subst e4. cbn [enc_call] in C. unfold enc_drop, st in C. cbn [e_up e_out e_format] in C. injection C as <-.
  assert (NA : forall from pos meta j, ~ patched [] from pos meta j) by (intros; apply no_patch; intros [l [c0 [r X]]]; discriminate).
  exists b, o3. split; [exact EM|]. split; [|split].
  - unfold st. f_equal. unfold commit_up, with_level, with_cursor, set_idx, after, move_to. cbn [f_lvl f_cursor f_done f_stk f_link l_from l_meta c_sig].
    destruct (step_of fs t); reflexivity.
  - eapply holds_frame; [|exact H1]. intros j L1 L2. rewrite (F3 j L2 (NA _ _ _ _)). apply (F2 j L2 (NA _ _ _ _)).
  - intros j L N. rewrite (F3 j ltac:(lia) (NA _ _ _ _)). rewrite (F2 j ltac:(lia) (NA _ _ _ _)). rewrite (F1 j L (NA _ _ _ _)). exact (F j L N).
Qed.

Lemma not_array_cons el l c stk : el <> EArray -> ~ is_array ((el, l, c) :: stk).
Proof. intros N [l' [c' [r E]]]. injection E as -> _ _ _. congruence. Qed.

(** A container other than an array: opening, members, closing. *)
Lemma open_snd t u0 el cl ts vs cs v fs0 : forall T s fs done pos from meta stk link up o e',
  is_sig T s -> occurs T fs t -> e_id (ty_el t) = e_id el -> is_container t = true -> dvar_align t = 3 ->
  (el = EStructOpen \/ el = EDictOpen) -> u0 = tt ->
  (forall e, enc_call I e cl = enc_open I e el) ->
  size (prefix fs) + 1 = size (prefix (fs0 :: fs)) ->
  walk T (size (prefix (fs0 :: fs))) ts (close_idx fs t) ->
  idx_step (mkCursor s (close_idx fs t)) = Ok None ->
  do_move (mkCursor s (close_idx fs t)) Up = Ok (mkCursor s (size (prefix fs))) ->
  (forall p, marshal big t v p = match marshal_all big ts vs (p + size (padding p 3)) with Some b => Some (padding p 3 ++ b) | None => None end) ->
  values_snd ts vs cs ->
  runs I (st fmt done (mkCursor s (size (prefix fs))) (mkLevel pos from meta) stk link up o) (cl :: cs ++ [CClose]) e' ->
  exists b o', marshal big t v pos = Some b /\
    e' = st fmt done (mkCursor s (after fs t)) (mkLevel (pos + size b) from meta) stk link up o' /\
    holds (o_mem o') pos b /\ frame_ok stk from pos pos meta o o'.
Proof.
  intros T s fs done pos from meta stk link up o e' Hs O Ee Ec Ea Hel _ EC EI Hw Qs Qu EM IH R.
  apply runs_first in R. destruct R as [o0 [e1 [F [C R]]]]. cbn [l_idx l_from l_meta] in F. rewrite EC in C.
  apply (got_open I fmt) with (T := T) (u := t) in C; try assumption. destruct C as [o1 [-> P]].
  apply runs_app in R. destruct R as [e2 [R1 R2]]. rewrite EI in R1.
  assert (NA : forall l c stk, ~ is_array ((el, l, c) :: stk)) by (intros; apply not_array_cons; destruct Hel; subst; discriminate).
  eapply IH in R1; [|exact Hs|exact Hw|intros X; exfalso; exact (NA _ _ _ X)].
  destruct R1 as [b [o2 [EM' [-> [H1 F1]]]]].
  apply runs_first in R2. destruct R2 as [o3 [e3 [F2 [C R2]]]]. cbn [l_idx l_from l_meta] in F2. apply runs_end in R2. subst e3.
  cbn [enc_call] in C. rewrite (call_close_plain I fmt done _ _ el _ _ stk link up o3 (mkCursor s (after fs t))) in C;
    [|destruct Hel; auto|exact Qs|rewrite Qu; cbn [bind]; apply (step_start T s fs _ Hs O)].
  injection C as <-. rewrite EM, EM'. do 2 eexists. split; [reflexivity|]. split; [|split].
  - unfold set_idx. cbn [l_idx l_from l_meta]. rewrite size_app', N.add_assoc. reflexivity.
  - apply holds_app. split.
    + eapply holds_frame; [|apply P]. intros j _ L. rewrite (F2 j ltac:(lia) (no_patch _ _ _ _ _ (NA _ _ _))).
      apply (F1 j L (no_patch _ _ _ _ _ (NA _ _ _))).
    + eapply holds_frame; [|exact H1]. intros j _ L. apply (F2 j L (no_patch _ _ _ _ _ (NA _ _ _))).
  - eapply frame_put in F; [|exact P]. intros j L N. rewrite (F2 j ltac:(lia) (no_patch _ _ _ _ _ (NA _ _ _))).
    rewrite (F1 j ltac:(lia) (no_patch _ _ _ _ _ (NA _ _ _))). exact (F j L N).
Qed.

Lemma sound : (forall t v cs, encodes t v cs -> (Forall call_fits cs -> len t < 2 ^ 61 -> value_snd t v cs)) /\
  (forall ts vs cs, encodes_all ts vs cs -> (Forall call_fits cs -> Forall (fun t => len t < 2 ^ 61) ts -> values_snd ts vs cs)).
Proof.
  apply encodes_both.
  - intros n HF _. inversion HF as [|? ? L _]; subst. cbn [call_fits] in L.
    apply (fixed_snd BUint16 EU16 2 n); [reflexivity|reflexivity| |].
    + intros e <-. cbn [enc_call]. unfold enc_u16. rewrite en_u16_int. reflexivity.
    + intros pos. cbn [marshal]. rewrite (proj2 (N.ltb_lt _ _)) by exact L. reflexivity.
  - intros n HF _. inversion HF as [|? ? L _]; subst. cbn [call_fits] in L.
    apply (fixed_snd BUint32 EU32 4 n); [reflexivity|reflexivity| |].
    + intros e <-. cbn [enc_call]. unfold enc_u32. rewrite en_u32_int. reflexivity.
    + intros pos. cbn [marshal]. rewrite (proj2 (N.ltb_lt _ _)) by exact L. reflexivity.
  - intros n HF _. inversion HF as [|? ? L _]; subst. cbn [call_fits] in L.
    apply (fixed_snd BUint64 EU64 8 n); [reflexivity|reflexivity| |].
    + intros e <-. cbn [enc_call]. unfold enc_u64. rewrite en_u64_int. reflexivity.
    + intros pos. cbn [marshal]. rewrite (proj2 (N.ltb_lt _ _)) by exact L. reflexivity.
  - intros x _ _. apply (str_snd BString EString EU32 (2 ^ 32) DvarModel.en_u32 4) with (data := x); [reflexivity|reflexivity| |reflexivity|].
    + intros _. apply en_u32_int.
    + intros pos L. cbn [marshal]. rewrite (proj2 (N.ltb_lt _ _)) by exact L. reflexivity.
  - intros x _ _. apply (str_snd BObjectPath EObject EU32 (2 ^ 32) DvarModel.en_u32 4) with (data := x); [reflexivity|reflexivity| |reflexivity|].
    + intros _. apply en_u32_int.
    + intros pos L. cbn [marshal]. rewrite (proj2 (N.ltb_lt _ _)) by exact L. reflexivity.
  - intros x _ _. apply (str_snd BSignature ESignature EU8 (2 ^ 8) DvarModel.en_u8 1) with (data := x); [reflexivity|reflexivity| |reflexivity|].
    + intros L. apply en_u8_int. exact L.
    + intros pos L. cbn [marshal]. rewrite (proj2 (N.ltb_lt _ _)) by exact L.
      change (e_dvar_alignment_exp EU8) with 0. rewrite padding_0. reflexivity.
  - intros t v cs Hcs IH HF _ T s fs done pos from meta stk link up o e' Hs O R.
    inversion HF as [|? ? _ HF']; subst. apply Forall_app in HF'. destruct HF' as [HF' _].
    apply runs_first in R. destruct R as [o0 [e1 [F [C R]]]]. cbn [l_idx l_from l_meta] in F.
    apply (got_variant I HB fmt) with (T := T) in C; try assumption. destruct C as [H31 [o1 [s' [Hs' [-> P]]]]].
    assert (Hlen : len t < 2 ^ 61) by (unfold len; lia).
    apply runs_app in R. destruct R as [e2 [R1 R2]]. change 0 with (size (prefix [])) in R1.
    apply (IH HF' Hlen t s' []) in R1; [|exact Hs'|apply occ_root]. destruct R1 as [b [o2 [EM' [-> [H1 F1]]]]].
    apply runs_first in R2. destruct R2 as [o3 [e3 [F2 [C R2]]]]. cbn [l_idx l_from l_meta] in F2. apply runs_end in R2. subst e3.
    cbn [enc_call] in C. rewrite (call_close_plain I fmt done _ _ EVariant _ _ stk link up o3 (mkCursor s (after fs TVariant))) in C;
      [|auto|apply past_root; exact Hs'|cbn [bind]; apply (step_start T s fs _ Hs O)].
    injection C as <-.
    assert (NA : forall l c stk, ~ is_array ((EVariant, l, c) :: stk)) by (intros; apply not_array_cons; discriminate).
    cbn [marshal]. rewrite (proj2 (N.ltb_lt _ _)) by lia. cbv zeta. rewrite EM'. do 2 eexists. split; [reflexivity|]. split; [|split].
    + unfold set_idx. cbn [l_idx l_from l_meta]. rewrite size_app', N.add_assoc. reflexivity.
    + apply holds_app. split.
      * eapply holds_frame; [|apply P]. intros j _ L. rewrite (F2 j ltac:(lia) (no_patch _ _ _ _ _ (NA _ _ _))).
        apply (F1 j L (no_patch _ _ _ _ _ (NA _ _ _))).
      * eapply holds_frame; [|exact H1]. intros j _ L. apply (F2 j L (no_patch _ _ _ _ _ (NA _ _ _))).
    + eapply frame_put in F; [|exact P]. intros j L N. rewrite (F2 j ltac:(lia) (no_patch _ _ _ _ _ (NA _ _ _))).
      rewrite (F1 j ltac:(lia) (no_patch _ _ _ _ _ (NA _ _ _))). exact (F j L N).
  - intros t vs cs Hcs IH HF Ht T s fs done pos from meta stk link up o e' Hs O R.
    inversion HF as [|? ? _ HF']; subst. apply Forall_app in HF'. destruct HF' as [HF' _].
    apply runs_first in R. destruct R as [o0 [e1 [F [C R]]]]. cbn [l_idx l_from l_meta] in F.
    apply (got_array I fmt) with (T := T) (u := t) in C; try assumption. destruct C as [o1 [-> P]].
    set (start := pos + size (padding pos 2) + 4) in *. set (gap := padding start (dvar_align t)) in *. set (m4 := pos + size (padding pos 2)) in *.
    apply runs_app in R. destruct R as [e2 [R1 R2]].
    pose proof (occ_array T fs t O) as O'.
    eapply (IH HF') in R1; [|apply Forall_forall; intros x Hx; apply repeat_spec in Hx; subst x; rewrite len_array in Ht; lia
      |exact Hs|exact (walk_array T fs t (length vs) O)|intros _; unfold start, m4; lia].
    destruct R1 as [b [o2 [EM' [-> [H1 F1]]]]].
    apply runs_first in R2. destruct R2 as [o3 [e3 [F2 [C R2]]]]. cbn [l_idx l_from l_meta] in F2. apply runs_end in R2. subst e3.
    cbn [enc_call] in C. apply (got_close_array I fmt) with (c' := mkCursor s (after fs (TArray t))) (n := size b) in C;
      [|apply (start_step T s Hs _ _ O')
       |unfold do_move at 1; cbn [idx_of]; rewrite (start_up T s Hs _ _ O'); cbn [bind container_of maybe_move move_to c_sig];
        apply (step_start T s fs _ Hs O)
       |reflexivity].
    cbn [l_idx l_from l_meta] in C. destruct C as [L32 [o4 [-> [Z NZ]]]].
    rewrite marshal_array. cbv zeta. fold m4. fold start. fold gap. rewrite EM'. rewrite (proj2 (N.ltb_lt _ _)) by exact L32.
    destruct P as [P1 P2]. apply holds_app in P2. destruct P2 as [P2 P3]. apply holds_app in P3. destruct P3 as [P3 P4].
    rewrite size_int in P4. change (N.of_nat 4) with 4 in P4. fold m4 in P3, P4. change (m4 + 4) with start in P4.
    set (stk' := (EArray, mkLevel pos from meta, None) :: stk) in *.
    (* outside the length nothing of what was written is changed *)
    assert (Out : forall j, j < start + size gap -> j < m4 \/ start <= j -> o_mem o4 j = o_mem o1 j).
    { intros j L D. assert (NP : forall p, ~ patched stk' (start + size gap) p m4 j).
      { intros p [_ [_ [X Y]]]. unfold start in D. lia. }
      assert (E3 : o_mem o3 j = o_mem o1 j).
      { rewrite (F2 j ltac:(lia) (NP _)). apply (F1 j L (NP _)). }
      destruct (N.eq_dec (size b) 0) as [E0|E0]; [rewrite (Z E0); exact E3|].
      destruct (NZ ltac:(lia)) as [_ X]. rewrite X; [exact E3|]. unfold start in D. lia. }
    do 2 eexists. split; [reflexivity|]. split; [|split].
    + unfold set_idx. cbn [l_idx l_from l_meta]. rewrite !size_app', size_int. change (N.of_nat 4) with 4. unfold start, m4. do 2 f_equal. lia.
    + apply holds_app. split; [|apply holds_app; split; [|apply holds_app; split]].
      * eapply holds_frame; [|exact P2]. intros j _ L. apply Out; unfold start, m4 in *; lia.
      * fold m4. destruct (N.eq_dec (size b) 0) as [E0|E0].
        -- rewrite (Z E0), E0. eapply holds_frame; [|exact P3]. rewrite size_int. change (N.of_nat 4) with 4. intros j _ L.
           assert (NP : ~ patched stk' (start + size gap) (start + size gap + size b) m4 j) by (intros [_ [X _]]; lia).
           rewrite (F2 j ltac:(unfold start, m4 in *; lia) NP). apply (F1 j ltac:(unfold start, m4 in *; lia) NP).
        -- apply NZ. lia.
      * rewrite size_int. change (N.of_nat 4) with 4. fold m4. change (m4 + 4) with start.
        eapply holds_frame; [|exact P4]. intros j L1 L2. apply Out; lia.
      * rewrite size_int. change (N.of_nat 4) with 4. fold m4. change (m4 + 4) with start.
        eapply holds_frame; [|exact H1]. intros j L1 L2.
        assert (NP : ~ patched stk' (start + size gap) (start + size gap + size b) m4 j) by (intros [_ [_ X]]; unfold start in *; lia).
        assert (E3 : o_mem o3 j = o_mem o2 j) by (apply (F2 j L2 NP)).
        destruct (N.eq_dec (size b) 0) as [E0|E0]; [rewrite (Z E0); exact E3|].
        destruct (NZ ltac:(lia)) as [_ X]. rewrite X; [exact E3|]. unfold start in *. lia.
    + eapply frame_put in F; [|split; [exact P1|apply holds_nil]]. intros j L N. rewrite Out by (unfold start, m4 in *; lia). exact (F j L N).
  - intros ts vs cs Hcs IH HF Ht T s fs done pos from meta stk link up o e' Hs O R.
    inversion HF as [|? ? _ HF']; subst. apply Forall_app in HF'. destruct HF' as [HF' _].
    assert (HFt : Forall (fun t => len t < 2 ^ 61) ts).
    { apply Forall_forall. intros x Hx. apply in_split in Hx. destruct Hx as [l1 [l2 ->]].
      pose proof (occ_bound _ _ _ (occ_struct (TStruct (l1 ++ x :: l2)) [] l1 x l2 (occ_root _))). lia. }
    destruct (close_queries T s Hs fs (TStruct ts) O Logic.I) as [_ [_ [_ [Qu [_ [Qs _]]]]]].
    eapply (open_snd (TStruct ts) tt EStructOpen CStructure ts vs cs (VStruct vs) (FStruct [])); try eassumption; try reflexivity; auto.
    + rewrite prefix_fs. cbn [members flat_map]. change (size (@nil N)) with 0. lia.
    + rewrite <- (close_struct fs ts). apply (walk_struct T fs ts [] O).
    + unfold do_move. cbn [idx_of]. rewrite Qu. reflexivity.
    + intros p. apply marshal_struct.
  - intros k t kv v cs Hcs IH HF Ht T s fs done pos from meta stk link up o e' Hs O R.
    inversion HF as [|? ? _ HF']; subst. apply Forall_app in HF'. destruct HF' as [HF' _].
    assert (HFt : Forall (fun t => len t < 2 ^ 61) [TBasic k; t]).
    { rewrite len_dict in Ht. apply Forall_cons; [change (len (TBasic k)) with 1; lia|]. apply Forall_cons; [lia|apply Forall_nil]. }
    destruct (close_queries T s Hs fs (TDict k t) O Logic.I) as [_ [_ [_ [Qu [_ [Qs _]]]]]].
    eapply (open_snd (TDict k t) tt EDictOpen CDict [TBasic k; t] [kv; v] cs (VDict kv v) (FDict [])); try eassumption; try reflexivity; auto.
    + rewrite prefix_fs. cbn [members flat_map]. change (size (@nil N)) with 0. lia.
    + exact (walk_dict T fs k t O).
    + unfold do_move. cbn [idx_of]. rewrite Qu. reflexivity.
  - intros t v cs Hcs IH HF Ht. inversion HF as [|? ? _ HF']; subst. apply Forall_app in HF'. destruct HF' as [HF' _].
    apply sub_snd; [left; reflexivity|apply IH; assumption|exact Ht].
  - intros t v cs Hcs IH HF Ht. inversion HF as [|? ? _ HF']; subst. apply Forall_app in HF'. destruct HF' as [HF' _].
    apply sub_snd; [right; reflexivity|apply IH; assumption|exact Ht].
  - intros _ _ T s i j done pos from meta stk link up o e' Hs Hw _ R. apply runs_end in R. subst e'. inversion Hw; subst.
    exists [], o. split; [reflexivity|]. change (size (@nil N)) with 0. rewrite N.add_0_r. split; [reflexivity|].
    split; [apply holds_nil|]. intros q _ _. reflexivity.
  - intros t ts v vs cs cs' H1 IH1 H2 IH2 HF HT T s i j done pos from meta stk link up o e' Hs Hw HA R.
    apply Forall_app in HF. destruct HF as [HF1 HF2]. inversion HT as [|? ? Ft Fts]; subst.
    inversion Hw as [|fs0 t0 ts0 j0 O0 Hw0]; subst.
    apply runs_app in R. destruct R as [e1 [R1 R2]].
    apply (IH1 HF1 Ft T s fs0) in R1; [|assumption..]. destruct R1 as [b1 [o1 [EM1 [-> [B1 F1]]]]].
    eapply (IH2 HF2 Fts) in R2; [|exact Hs|exact Hw0|intros X; specialize (HA X); lia]. destruct R2 as [b2 [o2 [EM2 [-> [B2 F2]]]]].
    cbn [marshal_all]. rewrite EM1, EM2. do 2 eexists. split; [reflexivity|]. rewrite size_app', N.add_assoc. split; [reflexivity|]. split.
    + apply holds_app. split; [|exact B2]. eapply holds_frame; [|exact B1]. intros q L1 L2. apply (F2 q L2).
      intros [A [_ [X Y]]]. specialize (HA A). lia.
    + intros q L N. rewrite (F2 q ltac:(lia) N). apply (F1 q L). intros [A [X Y]]. apply N. split; [exact A|]. split; [lia|exact Y].
Qed.
End Main.

(** * Encoders *)
Theorem bytes_of_runs W (I : Write W) fuel fmt o t sg e0 cs e1 e v : bounded I ->
  sig_new fuel (print t) = Ok (inr sg) -> enc_new sg fmt o = Ok e0 ->
  runs I e0 cs e1 -> fails I e1 e -> Forall call_fits cs -> encodes t v cs ->
  exists b, marshal (big_endian fmt) t v 0 = Some b /\
    (forall k x, nth_error b k = Some x -> o_mem (e_out e) (N.of_nat k) = Some x) /\
    forall r e', enc_call I e CCommit = Ok (r, e') ->
      r = Continue tt /\ exists w, w_commit I (o_w (e_out e)) (size b) = Ok w /\ e_out e' = mkOut w (o_mem (e_out e)).
Proof.
  intros HB Es En R F HF HE. pose proof (sig_new_is _ _ _ Es) as Hs. pose proof (sig_new_small _ _ _ Es) as Ht.
  unfold enc_new, frame_for in En. rewrite (cursor_root t sg Hs) in En. cbn [bind] in En. injection En as <-.
  pose proof (proj1 (sound I HB fmt) t v _ HE HF Ht t sg [] false 0 0 0 [] None [] o e1 Hs (occ_root t) R) as [b [o1 [EM [-> [B _]]]]].
  apply fails_quiet in F. destruct F as [o2 [-> Q]]. unfold quiet, st in Q. cbn [e_top e_out f_lvl f_stk l_idx l_from l_meta] in Q.
  exists b. split; [exact EM|]. split.
  - cbn [put_out e_out]. assert (B2 : holds (o_mem o2) 0 b).
    { eapply holds_frame; [|exact B]. intros j _ L. apply Q; [exact L|]. intros [[x [y [z X]]] _]. discriminate. }
    intros k x E. exact (B2 k x E).
  - intros r e' C. cbn [enc_call] in C. unfold enc_commit in C. cbv zeta in C. cbn [st put_out e_top f_cursor] in C. rewrite (past_root t sg Hs) in C.
    unfold st in C. cbn [bind f_stk f_link f_done negb f_lvl l_idx e_out put_out] in C. change (0 + size b) with (size b) in C.
    cbn [put_out e_out]. destruct (w_commit I (o_w o2) (size b)) as [w| |] eqn:EW; [|discriminate..]. cbn [bind] in C. injection C as <- <-.
    split; [reflexivity|]. exists w. split; reflexivity.
Qed.
Theorem bytes_of_history W (I : Write W) fuel fmt o t sg e0 l e v : bounded I ->
  sig_new fuel (print t) = Ok (inr sg) -> enc_new sg fmt o = Ok e0 ->
  history I e0 l e -> Forall call_fits (succeeded l) -> encodes t v (succeeded l) ->
  exists b, marshal (big_endian fmt) t v 0 = Some b /\
    (forall k x, nth_error b k = Some x -> o_mem (e_out e) (N.of_nat k) = Some x) /\
    forall r e', enc_call I e CCommit = Ok (r, e') ->
      r = Continue tt /\ exists w, w_commit I (o_w (e_out e)) (size b) = Ok w /\ e_out e' = mkOut w (o_mem (e_out e)).
Proof. intros HB Es En H. apply history_runs in H. destruct H as [e1 [R F]]. eapply bytes_of_runs; eassumption. Qed.
