(** Proofs about where the D-Bus wire format puts values. *)
From Verif Require Import Base DbusSpec DbusSigTheory DbusSigProofs IoMapProofs DvarModel DvarSpec DvarProofs DvarEncode DvarLossSpec DvarLoss.
Local Open Scope N_scope.

Lemma align_up_to t : dvar_align t <= 3.
Proof. destruct t as [[]| | | | |]; cbn; lia. Qed.
Lemma eight a : a <= 3 -> exists c, 8 = c * 2 ^ a.
Proof.
  intros H. exists (2 ^ (3 - a)). rewrite <- N.pow_add_r. replace (3 - a + a) with 3 by lia. reflexivity.
Qed.
Lemma pad_shift m pos c : 0 < m -> pad_to m (pos + c * m) = pad_to m pos + c * m.
Proof.
  intros H. unfold pad_to. replace (pos + c * m + m - 1) with (pos + m - 1 + c * m) by lia. rewrite N.div_add by lia. lia.
Qed.
Lemma padding_shift pos k a : a <= 3 -> padding (pos + 8 * k) a = padding pos a.
Proof.
  intros H. destruct (eight a H) as [c C]. unfold padding. f_equal. f_equal.
  replace (8 * k) with (k * c * 2 ^ a) by (rewrite C; lia). rewrite pad_shift by apply pow_pos. lia.
Qed.
Lemma pad_multiple m q : 0 < m -> pad_to m (q * m) = q * m.
Proof. intros H. pose proof (pad_shift m 0 q H) as P. cbn [N.add] in P. rewrite P. unfold pad_to. rewrite N.div_small by lia. lia. Qed.
Lemma padding_multiple a q : padding (q * 2 ^ a) a = [].
Proof. unfold padding. rewrite (pad_multiple (2 ^ a) q (pow_pos a)), N.sub_diag. reflexivity. Qed.

(** * Positions count modulo 8 *)
Definition shifts big v := forall t pos k, marshal big t v (pos + 8 * k) = marshal big t v pos.
Lemma shifts_all big vs : Forall (shifts big) vs -> forall ts pos k, marshal_all big ts vs (pos + 8 * k) = marshal_all big ts vs pos.
Proof.
  induction 1 as [|v vs Hv F IH]; intros [|t ts] pos k; cbn [marshal_all]; try reflexivity.
  rewrite Hv. destruct (marshal big t v pos) as [b|]; [|reflexivity].
  replace (pos + 8 * k + size b) with (pos + size b + 8 * k) by lia. rewrite IH. reflexivity.
Qed.
Theorem shifting big v : shifts big v.
Proof.
  revert v. refine (value_rect' (shifts big) _ _ _ _ _); [intros v|intros u v IH|intros vs IH|intros vs IH|intros k v IHk IHv].
  - destruct v; try exact Logic.I; intros [[]| | | | |] pos k; try reflexivity; cbn [marshal]; rewrite ?padding_shift by lia; reflexivity.
  - intros [[]| | | | |] pos k; try reflexivity. cbn [marshal]. cbv zeta.
    replace (pos + 8 * k + size (counted big 1 (print u))) with (pos + size (counted big 1 (print u)) + 8 * k) by lia. rewrite IH. reflexivity.
  - intros [[]| |u| | |] pos k; try reflexivity. rewrite !marshal_array. cbv zeta. rewrite (padding_shift pos k 2) by lia.
    replace (pos + 8 * k + size (padding pos 2) + 4) with (pos + size (padding pos 2) + 4 + 8 * k) by lia.
    rewrite padding_shift by apply align_up_to.
    set (s := pos + size (padding pos 2) + 4). replace (s + 8 * k + size (padding s (dvar_align u))) with (s + size (padding s (dvar_align u)) + 8 * k) by lia.
    rewrite (shifts_all big vs IH). reflexivity.
  - intros [[]| |u| |ts|] pos k; try reflexivity. rewrite !marshal_struct, padding_shift by lia.
    replace (pos + 8 * k + size (padding pos 3)) with (pos + size (padding pos 3) + 8 * k) by lia. rewrite (shifts_all big vs IH). reflexivity.
  - intros [[]| |u| |ts|kb u] pos k'; try reflexivity. rewrite !marshal_dict, padding_shift by lia.
    replace (pos + 8 * k' + size (padding pos 3)) with (pos + size (padding pos 3) + 8 * k') by lia.
    rewrite (shifts_all big [k; v] ltac:(auto)). reflexivity.
Qed.

(** * Padding comes first *)
Lemma pad_again pos a : pos + size (padding pos a) = pad_to (2 ^ a) pos /\ padding (pos + size (padding pos a)) a = [].
Proof. split; [apply pad_padding|]. rewrite pad_padding. apply padding_none. Qed.
Theorem padded big t v pos : marshal big t v pos =
  match marshal big t v (pad_to (2 ^ dvar_align t) pos) with Some b => Some (padding pos (dvar_align t) ++ b) | None => None end.
Proof.
  destruct (pad_again pos (dvar_align t)) as [<- P].
  assert (Z : forall q, q + size (@nil N) = q) by (intros q; unfold size; cbn [length]; lia).
  destruct t as [b| |u|u|ts|kb u]; destruct v as [n|n|n|s|s|s|w v|vs|vs|k v]; try reflexivity; try (destruct b; reflexivity);
    cbn [dvar_align] in *.
  - destruct b; try reflexivity. cbn [marshal basic_dvar_align] in *. rewrite P. destruct (_ <? _); reflexivity.
  - destruct b; try reflexivity. cbn [marshal basic_dvar_align] in *. rewrite P. destruct (_ <? _); reflexivity.
  - destruct b; try reflexivity. cbn [marshal basic_dvar_align] in *. rewrite P. destruct (_ <? _); reflexivity.
  - destruct b; try reflexivity. cbn [marshal basic_dvar_align] in *. rewrite P. destruct (_ <? _); reflexivity.
  - destruct b; try reflexivity. cbn [marshal basic_dvar_align] in *. rewrite P. destruct (_ <? _); reflexivity.
  - destruct b; try reflexivity. cbn [marshal basic_dvar_align] in *. rewrite padding_0. destruct (_ <? _); reflexivity.
  - rewrite padding_0, Z. destruct (marshal big TVariant (VVariant w v) pos); reflexivity.
  - rewrite !marshal_array. cbv zeta. rewrite P, Z. cbn [app].
    destruct (marshal_all _ _ _ _) as [b|]; [|reflexivity]. destruct (size b <? 2 ^ 32); reflexivity.
  - rewrite !marshal_struct. rewrite P, Z. cbn [app]. destruct (marshal_all _ _ _ _); reflexivity.
  - rewrite !marshal_dict. rewrite P, Z. cbn [app]. destruct (marshal_all _ _ _ _); reflexivity.
Qed.

(** * Fixed sizes *)
Definition fixes big t := forall v pos b, dynamic t = false -> marshal big t v pos = Some b ->
  pos + size b = pad_to (2 ^ dvar_align t) pos + dvar_size t.
Lemma pad_over q a n : a <= 3 -> pad_to (2 ^ a) (8 * q + n) = 8 * q + pad_to (2 ^ a) n.
Proof.
  intros H. destruct (eight a H) as [c C]. replace (8 * q + n) with (n + q * c * 2 ^ a) by (rewrite C at 1; lia).
  rewrite pad_shift by apply pow_pos. rewrite C at 1. lia.
Qed.
Lemma fixes_all big ts : Forall (fixes big) ts -> forall vs q n b, existsb dynamic ts = false -> marshal_all big ts vs (8 * q + n) = Some b ->
  8 * q + n + size b = 8 * q + fold_left (fun n m => pad_to (2 ^ dvar_align m) n + dvar_size m) ts n.
Proof.
  induction 1 as [|t ts Ht F IH]; intros vs q n b D E.
  - destruct vs; [|discriminate E]. injection E as <-. cbn [fold_left]. rewrite size_nil. lia.
  - destruct vs as [|v vs]; [discriminate E|]. cbn [marshal_all] in E. cbn [existsb] in D. apply orb_false_elim in D. destruct D as [D1 D2].
    destruct (marshal big t v (8 * q + n)) as [b1|] eqn:E1; [|discriminate E].
    destruct (marshal_all big ts vs _) as [b2|] eqn:E2; [|discriminate E]. injection E as <-.
    pose proof (Ht v _ b1 D1 E1) as P. rewrite pad_over in P by apply align_up_to. cbn [fold_left]. rewrite size_app.
    rewrite P in E2. rewrite <- N.add_assoc in E2. specialize (IH vs q _ b2 D2 E2). lia.
Qed.
Lemma pad_eight pos : exists q, pad_to (2 ^ 3) pos = 8 * q.
Proof. unfold pad_to. change (2 ^ 3) with 8. exists ((pos + 8 - 1) / 8). lia. Qed.
Lemma fixes_basic big b : fixes big (TBasic b).
Proof.
  intros v pos bs D E. destruct b, v; try discriminate D; try discriminate E; cbn [marshal] in E; destruct (_ <? _); try discriminate E;
    injection E as <-; rewrite size_app, size_int, N.add_assoc, pad_padding; reflexivity.
Qed.
Theorem fixed big t : fixes big t.
Proof.
  revert t. refine (ty_rect'' (fixes big) _ _ _ _ _ _).
  - apply fixes_basic.
  - intros v pos b D. discriminate D.
  - intros t _ v pos b D. discriminate D.
  - intros t _ v pos b D. discriminate D.
  - intros ts F v pos b D E. destruct v; try discriminate E. rewrite marshal_struct in E.
    destruct (marshal_all _ _ _ _) as [b1|] eqn:E1; [|discriminate E]. injection E as <-. rewrite size_app, N.add_assoc. rewrite pad_padding in *.
    cbn [dvar_align dvar_size]. destruct (pad_eight pos) as [q Q]. rewrite Q in *.
    pose proof (fixes_all big ts F vs q 0 b1 D) as P. rewrite !N.add_0_r in P. exact (P E1).
  - intros kb t Ht v pos b D E. destruct v as [| | | | | | | | |k v]; try discriminate E. rewrite marshal_dict in E.
    destruct (marshal_all _ _ _ _) as [b1|] eqn:E1; [|discriminate E]. injection E as <-. rewrite size_app, N.add_assoc. rewrite pad_padding in *.
    cbn [dynamic] in D. apply orb_false_elim in D. destruct D as [D1 D2].
    cbn [dvar_align dvar_size]. destruct (pad_eight pos) as [q Q]. rewrite Q in *. cbn [marshal_all] in E1.
    destruct (marshal big (TBasic kb) k (8 * q)) as [b2|] eqn:E2; [|discriminate E1]. destruct (marshal big t v _) as [b3|] eqn:E3; [|discriminate E1].
    injection E1 as <-. rewrite app_nil_r, size_app.
    assert (P : 8 * q + size b2 = 8 * q + basic_dvar_size kb).
    { pose proof (fixes_basic big kb k _ b2 D1 E2) as P. pose proof (pad_over q (dvar_align (TBasic kb)) 0 (align_up_to _)) as O.
      pose proof (pad_multiple (2 ^ dvar_align (TBasic kb)) 0 (pow_pos _)) as P0. cbn [N.mul] in P0. rewrite P0, !N.add_0_r in O. rewrite O in P. exact P. }
    rewrite P in E3. specialize (Ht v _ b3 D2 E3). rewrite pad_over in Ht by apply align_up_to. lia.
Qed.

(** * Elements of arrays *)
Lemma at_zero big t v q b : dynamic t = false \/ dvar_align t = 3 -> marshal big t v (q * 2 ^ dvar_align t) = Some b -> marshal big t v 0 = Some b.
Proof.
  intros D E. destruct t as [kb| | | | |].
  - cbn [dvar_align] in E. pose proof (padding_multiple (basic_dvar_align kb) q) as P. pose proof (padding_multiple (basic_dvar_align kb) 0) as P0.
    cbn [N.mul] in P0. destruct kb, v; try discriminate E; cbn [marshal basic_dvar_align] in E, P, P0 |- *; rewrite ?P in E; rewrite ?P0; exact E.
  - destruct D as [D|D]; discriminate D.
  - destruct D as [D|D]; discriminate D.
  - destruct D as [D|D]; discriminate D.
  - cbn [dvar_align] in E. rewrite <- (shifting big v _ 0 q). change (2 ^ 3) with 8 in E. rewrite N.mul_comm in E. exact E.
  - cbn [dvar_align] in E. rewrite <- (shifting big v _ 0 q). change (2 ^ 3) with 8 in E. rewrite N.mul_comm in E. exact E.
Qed.
Lemma skip_zeros {A} (z : A) n l : forall k x, nth_error l k = Some x -> nth_error (repeat z n ++ l) (n + k) = Some x.
Proof. induction n as [|n IH]; intros k x H; [exact H|]. cbn. apply IH. exact H. Qed.
Lemma element big u : dynamic u = false -> let m := 2 ^ dvar_align u in
  forall vs q b, marshal_all big (repeat u (length vs)) vs q = Some b ->
  forall i v, nth_error vs i = Some v -> exists p e, marshal big u v 0 = Some e /\ size e = dvar_size u /\
    q + p = pad_to m q + N.of_nat i * pad_to m (dvar_size u) /\
    forall k x, nth_error e k = Some x -> nth_error b (N.to_nat p + k) = Some x.
Proof.
  intros D m. assert (M : 0 < m) by apply pow_pos. induction vs as [|w vs IH]; intros q b E i v H; [destruct i; discriminate H|].
  cbn [length repeat marshal_all] in E. destruct (marshal big u w q) as [b1|] eqn:E1; [|discriminate E].
  destruct (marshal_all big (repeat u (length vs)) vs (q + size b1)) as [b2|] eqn:E2; [|discriminate E]. injection E as <-.
  pose proof (fixed big u w q b1 D E1) as S. fold m in S.
  destruct i as [|i].
  - injection H as ->. rewrite padded in E1. fold m in E1. destruct (marshal big u v (pad_to m q)) as [e|] eqn:E3; [|discriminate E1].
    injection E1 as <-. exists (size (padding q (dvar_align u))), e.
    assert (Z : marshal big u v 0 = Some e) by (eapply at_zero; [left; exact D|]; unfold pad_to in E3; exact E3).
    split; [exact Z|]. split; [|split].
    + pose proof (fixed big u v 0 e D Z) as F. pose proof (pad_multiple (2 ^ dvar_align u) 0 (pow_pos _)) as P0. cbn [N.mul] in P0. rewrite P0 in F. lia.
    + rewrite pad_padding. fold m. cbn [N.of_nat N.mul]. lia.
    + intros k x Hk. rewrite <- app_assoc. unfold size at 1. rewrite Nat2N.id. unfold padding. rewrite repeat_length. apply skip_zeros.
      rewrite nth_error_app1; [exact Hk|]. apply nth_error_Some. congruence.
  - cbn in H. destruct (IH _ b2 E2 i v H) as (p & e & Z & L & P & K). exists (size b1 + p), e. split; [exact Z|]. split; [exact L|]. split.
    + rewrite N.add_assoc, P, S. assert (Q : pad_to m (pad_to m q + dvar_size u) = pad_to m q + pad_to m (dvar_size u)).
      { change (pad_to m q) with ((q + m - 1) / m * m). rewrite N.add_comm, pad_shift by exact M. lia. }
      rewrite Q. lia.
    + intros k x Hk. unfold size. rewrite nth_error_app2; [|lia]. replace (N.to_nat (N.of_nat (length b1) + p) + k - length b1)%nat with (N.to_nat p + k)%nat by lia.
      apply K. exact Hk.
Qed.
