(** Proofs about variants whose type has more than 31 elements: they are never
    encoded. *)
From Verif Require Import Base DbusSpec IoMapModel IoMapSpec IoMapProofs.
From Verif Require Import DbusSigAnnot DbusSigTheory DbusCursorProofs DbusCursorQueries DbusSigResults.
From Verif Require Import DvarModel DvarSpec DvarProofs DvarEncode.
Local Open Scope N_scope.
Local Open Scope res_scope.

Lemma iter_chunk_short n : forall base ml m idx it m' idx' it',
  iter_chunk n base ml m idx it = Ok (m', idx', it') ->
  it_hint it' = it_hint it - N.of_nat n /\ size (it_items it) = size (it_items it') + N.of_nat n.
Proof.
  induction n as [|n IH]; intros base ml m idx it m' idx' it' H.
  - cbn in H. injection H as <- <- <-. split; lia.
  - cbn [iter_chunk] in H. destruct (sub_usize ml (N.of_nat (S n))) as [a| |]; [|discriminate..]. cbn [bind] in H.
    unfold it_next in H. destruct (it_items it) as [|x l] eqn:E; [discriminate|]. cbn [it_hint it_items] in H.
    destruct (add_usize idx 1) as [i| |]; [|discriminate..]. cbn [bind] in H. apply IH in H. cbn [it_hint it_items] in H.
    destruct H as [H1 H2]. split; [rewrite H1; lia|]. unfold size in *. cbn [length]. lia.
Qed.
Lemma write_iter_short {W} (I : Write W) fuel : forall o idx it r o' idx',
  size (it_items it) < it_hint it -> write_iter_loop fuel I o idx it = Ok (r, o', idx') -> exists b, r = Break b.
Proof.
  induction fuel as [|fuel IH]; intros o idx it r o' idx' L H; [discriminate|].
  cbn [write_iter_loop] in H. destruct (N.eqb_spec (it_hint it) 0) as [E|E]; [lia|].
  destruct (w_map I (o_w o) idx (it_hint it)) as [[f w]| |]; [|discriminate..]. cbn [bind] in H.
  destruct f as [b|ml]; [injection H as <- _ _; eauto|].
  destruct (0 <? ml); [|discriminate]. cbn [bind] in H.
  destruct (iter_chunk _ _ _ _ _ _) as [[[m i] it']| |] eqn:C; [|discriminate..]. cbn [bind] in H.
  apply iter_chunk_short in C. destruct C as [C1 C2]. rewrite N2Nat.id in C1, C2.
  apply IH in H; [exact H|]. lia.
Qed.

(** What a call breaks with when a step of it does. *)
Lemma seq_io_cont {W} x (e : Enc W) k e' : seq_io x e k = Ok (Continue tt, e') ->
  exists o i, x = Ok (Continue tt, o, i) /\ k o i = Ok (Continue tt, e').
Proof.
  unfold seq_io. destruct x as [[[r o] i]| |]; [|discriminate..]. cbn [bind]. destruct r as [b|[]].
  - intros H. discriminate H.
  - intros H. eauto.
Qed.

Lemma variant_never {W} (I : Write W) e u e' : 31 < size (print u) ->
  enc_call I e (CVariant (print u)) <> Ok (Continue tt, e').
Proof.
  intros L H. cbn [enc_call] in H. unfold make_sig in H.
  destruct (sig_new 0 (print u)) as [[?|s]| |] eqn:EN; [discriminate| |discriminate..]. cbn [bind] in H.
  pose proof (sig_new_is 0 u s EN) as Hs.
  assert (K : s_kind s = node64).
  { destruct (sig_new_sig _ _ _ EN) as [t' [_ [_ K]]]. rewrite K. unfold kind_for.
    rewrite (proj2 (N.leb_gt _ _)); [reflexivity|]. exact L. }
  destruct (sig_len_ok u s Hs) as [m [_ [_ [M EL]]]]. rewrite (M K) in EL. unfold len in EL.
  unfold enc_variant in H. cbv zeta in H.
  destruct (expects _ _) as [[|]| |]; [|discriminate..]. cbn [bind negb] in H. rewrite EL in H. cbn [bind] in H.
  destruct (6 * size (print u) <? 2 ^ 8) eqn:B; [|discriminate]. cbn [negb] in H.
  apply seq_io_cont in H. destruct H as [o1 [i1 [_ H]]]. apply seq_io_cont in H. destruct H as [o2 [i2 [_ H]]].
  rewrite (cursor_root u s Hs) in H. cbn [bind] in H. unfold size_hint in H. cbn [c_sig c_idx] in H. rewrite EL in H. cbn [bind] in H.
  unfold DbusSigModel.strict_sub in H. rewrite (proj2 (N.leb_le 0 _)) in H by lia. cbn [bind] in H. rewrite N.sub_0_r in H.
  destruct (is_sig_elements u s Hs) as [els [Eels Ecodes]]. rewrite Eels in H. cbn [bind] in H. rewrite Ecodes in H.
  apply seq_io_cont in H. destruct H as [o3 [i3 [H _]]]. unfold write_iter in H.
  apply write_iter_short in H; [destruct H as [b H]; discriminate|]. cbn [it_items it_hint]. lia.
Qed.
(** From 43 elements on nothing is written. *)
Lemma variant_overflow {W} (I : Write W) e u : 42 < size (print u) ->
  forall r e', enc_call I e (CVariant (print u)) = Ok (r, e') ->
  e' = e /\ (r = Break (Some Mismatch) \/ r = Break (Some DataOverflow)).
Proof.
  intros L r e' H. cbn [enc_call] in H. unfold make_sig in H.
  destruct (sig_new 0 (print u)) as [[?|s]| |] eqn:EN; [discriminate| |discriminate..]. cbn [bind] in H.
  pose proof (sig_new_is 0 u s EN) as Hs.
  assert (K : s_kind s = node64).
  { destruct (sig_new_sig _ _ _ EN) as [t' [_ [_ K]]]. rewrite K. unfold kind_for.
    rewrite (proj2 (N.leb_gt _ _)); [reflexivity|]. change (length_max node8) with 31. lia. }
  destruct (sig_len_ok u s Hs) as [m [_ [_ [M EL]]]]. rewrite (M K) in EL. unfold len in EL.
  unfold enc_variant in H. cbv zeta in H.
  destruct (expects _ _) as [[|]| |]; [| |discriminate..]; cbn [bind negb] in H.
  - rewrite EL in H. cbn [bind] in H. rewrite (proj2 (N.ltb_ge _ _)) in H by lia. cbn [negb] in H.
    injection H as <- <-. auto.
  - injection H as <- <-. auto.
Qed.

Lemma calls_never {W} (I : Write W) c : (forall e e', enc_call I e c <> Ok (Continue tt, e')) ->
  forall cs e e', In c cs -> enc_calls I e cs <> Ok (Continue tt, e').
Proof.
  intros N. induction cs as [|x cs IH]; intros e e' HI H; [destruct HI|]. cbn [enc_calls] in H.
  destruct (enc_call I e x) as [[r e1]| |] eqn:E; [|discriminate..]. cbn [bind] in H.
  destruct r as [b|[]]; [discriminate|]. destruct HI as [->|HI]; [exact (N _ _ E)|exact (IH _ _ HI H)].
Qed.

Scheme encodes_ind2 := Induction for encodes Sort Prop
with encodes_all_ind2 := Induction for encodes_all Sort Prop.

Lemma all_iff n : forall vs, variants_up_to n (VArray vs) <-> all_up_to n vs.
Proof.
  induction vs as [|v vs IH]; [split; trivial|]. cbn [variants_up_to all_up_to] in *. rewrite <- IH. reflexivity.
Qed.
Lemma big_called n : forall t v cs, encodes t v cs ->
  variants_up_to n v \/ exists u, n < size (print u) /\ In (CVariant (print u)) cs.
Proof.
  apply (encodes_ind2
    (fun t v cs _ => variants_up_to n v \/ exists u, n < size (print u) /\ In (CVariant (print u)) cs)
    (fun ts vs cs _ => all_up_to n vs \/ exists u, n < size (print u) /\ In (CVariant (print u)) cs)).
  all: try (intros; left; exact Logic.I).
  - intros t v cs _ [IH|[u [L IN]]].
    + destruct (N.le_gt_cases (size (print t)) n) as [G|G].
      * left. split; assumption.
      * right. exists t. split; [exact G|]. left. reflexivity.
    + right. exists u. split; [exact L|]. right. apply in_or_app. auto.
  - intros t vs cs _ [IH|[u [L IN]]]; [left; exact (proj2 (all_iff n vs) IH)|right]. exists u. split; [exact L|]. right. apply in_or_app. auto.
  - intros ts vs cs _ [IH|[u [L IN]]]; [left; exact (proj2 (all_iff n vs) IH)|right]. exists u. split; [exact L|]. right. apply in_or_app. auto.
  - intros k t kv v cs _ [IH|[u [L IN]]]; [left|right].
    + destruct IH as [A [B _]]. split; assumption.
    + exists u. split; [exact L|]. right. apply in_or_app. auto.
  - intros t v cs _ [IH|[u [L IN]]]; [left; exact IH|right]. exists u. split; [exact L|]. right. apply in_or_app. auto.
  - intros t v cs _ [IH|[u [L IN]]]; [left; exact IH|right]. exists u. split; [exact L|]. right. apply in_or_app. auto.
  - intros t ts v vs cs cs' _ [IH|[u [L IN]]] _ [IH'|[u' [L' IN']]].
    + left. split; assumption.
    + right. exists u'. split; [exact L'|]. apply in_or_app. auto.
    + right. exists u. split; [exact L|]. apply in_or_app. auto.
    + right. exists u. split; [exact L|]. apply in_or_app. auto.
Qed.
Lemma big_not n : forall t v cs, encodes t v cs -> variants_up_to n v ->
  forall u, In (CVariant (print u)) cs -> size (print u) <= n.
Proof.
  apply (encodes_ind2
    (fun t v cs _ => variants_up_to n v -> forall u, In (CVariant (print u)) cs -> size (print u) <= n)
    (fun ts vs cs _ => all_up_to n vs -> forall u, In (CVariant (print u)) cs -> size (print u) <= n)).
  all: try (intros; match goal with H : In _ [_] |- _ => destruct H as [H|[]]; discriminate end).
  - intros t v cs _ IH [A B] u IN. destruct IN as [E|IN].
    + injection E as E. rewrite <- E. exact A.
    + apply in_app_or in IN. destruct IN as [IN|[IN|[]]]; [exact (IH B u IN)|discriminate].
  - intros t vs cs _ IH A u [E|IN]; [discriminate|]. apply in_app_or in IN. destruct IN as [IN|[IN|[]]]; [exact (IH (proj1 (all_iff n vs) A) u IN)|discriminate].
  - intros t vs cs _ IH A u [E|IN]; [discriminate|]. apply in_app_or in IN. destruct IN as [IN|[IN|[]]]; [exact (IH (proj1 (all_iff n vs) A) u IN)|discriminate].
  - intros k t kv v cs _ IH [A B] u [E|IN]; [discriminate|]. apply in_app_or in IN.
    destruct IN as [IN|[IN|[]]]; [|discriminate]. apply (fun X => IH X u IN). repeat split; assumption.
  - intros t v cs _ IH A u [E|IN]; [discriminate|]. apply in_app_or in IN.
    destruct IN as [IN|[IN|[IN|[]]]]; [exact (IH A u IN)|discriminate..].
  - intros t v cs _ IH A u [E|IN]; [discriminate|]. apply in_app_or in IN.
    destruct IN as [IN|[IN|[IN|[]]]]; [exact (IH A u IN)|discriminate..].
  - intros _ u [].
  - intros t ts v vs cs cs' _ IH _ IH' [A B] u IN. apply in_app_or in IN. destruct IN; eauto.
Qed.

Theorem encoded_exactly W (I : Write W) P limit fuel fmt o sg t v cs b :
  serving I P limit -> bounded I -> limit < usize -> P (o_w o) ->
  sig_new fuel (print t) = Ok (inr sg) -> encodes t v cs ->
  marshal (big_endian fmt) t v 0 = Some b -> size b <= limit ->
  exists e, enc_new sg fmt o = Ok e /\
    ((exists e', enc_calls I e cs = Ok (Continue tt, e')) <-> variants_up_to 31 v).
Proof.
  intros HS HB HL HP EN HE HM HF.
  destruct (big_called 31 t v cs HE) as [U|[u [L IN]]].
  - destruct (encoded W I P limit fuel fmt o sg t v cs b HS HB HL HP EN HE U HM HF) as [e [e' [A [B _]]]].
    exists e. split; [exact A|]. split; [intros _; exact U|]. intros _. eauto.
  - unfold enc_new, frame_for. rewrite (cursor_root t sg (sig_new_is _ _ _ EN)). cbn [bind]. eexists. split; [reflexivity|].
    split; [|intros U; pose proof (big_not 31 t v cs HE U u IN); lia].
    intros [e' E]. exfalso. revert E. apply (calls_never I (CVariant (print u))); [|exact IN].
    intros. apply variant_never. exact L.
Qed.
