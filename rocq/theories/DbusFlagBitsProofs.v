(** The packed flags behave like the record. *)
From Verif Require Import Base DbusElement DbusFlagBits DbusSigModel.
Local Open Scope N_scope.
Local Open Scope res_scope.

Notation W := pack_bools.
Lemma W_cons b l : W (b :: l) = 2 * W l + N.b2n b.
Proof. unfold W. cbn [fold_right]. lia. Qed.
Lemma W_bit l : forall n, N.testbit (W l) n = nth (N.to_nat n) l false.
Proof.
  induction l as [|b l IH]; intros n.
  - change (W []) with 0. rewrite N.bits_0. destruct (N.to_nat n); reflexivity.
  - rewrite W_cons. destruct (N.eq_dec n 0) as [->|H].
    + rewrite N.testbit_0_r. reflexivity.
    + replace n with (N.succ (n - 1)) by lia. rewrite N.testbit_succ_r, IH.
      replace (N.to_nat (N.succ (n - 1))) with (S (N.to_nat (n - 1))) by lia. reflexivity.
Qed.
Fixpoint map2 (f : bool -> bool -> bool) (a b : list bool) : list bool :=
  match a, b with x :: a, y :: b => f x y :: map2 f a b | _, _ => [] end.
Lemma map2_nth f a : forall b n, f false false = false -> length a = length b ->
  nth n (map2 f a b) false = f (nth n a false) (nth n b false).
Proof.
  induction a as [|x a IH]; intros [|y b] n Hf Hl; try discriminate.
  - destruct n; symmetry; exact Hf.
  - destruct n as [|n]; [reflexivity|]. cbn [map2 nth]. apply IH; [exact Hf|injection Hl; auto].
Qed.
Lemma W_land a b : length a = length b -> N.land (W a) (W b) = W (map2 andb a b).
Proof. intros H. apply N.bits_inj. intros n. rewrite N.land_spec, !W_bit, map2_nth; auto. Qed.
Lemma W_lor a b : length a = length b -> N.lor (W a) (W b) = W (map2 orb a b).
Proof. intros H. apply N.bits_inj. intros n. rewrite N.lor_spec, !W_bit, map2_nth; auto. Qed.
Lemma W_ldiff a b : length a = length b ->
  N.ldiff (W a) (W b) = W (map2 (fun x y => x && negb y) a b).
Proof. intros H. apply N.bits_inj. intros n. rewrite N.ldiff_spec, !W_bit, map2_nth; auto. Qed.
Lemma W_shiftr l k : N.shiftr (W l) k = W (skipn (N.to_nat k) l).
Proof.
  apply N.bits_inj. intros n. rewrite N.shiftr_spec' , !W_bit.
  replace (N.to_nat (n + k)) with (N.to_nat k + N.to_nat n)%nat by lia.
  generalize (N.to_nat k), (N.to_nat n). clear. intros k. revert l.
  induction k as [|k IH]; intros l n; [reflexivity|]. destruct l; [destruct (_ + n)%nat, n; reflexivity|]. apply IH.
Qed.
Lemma W_shiftl l k : N.shiftl (W l) k = W (repeat false (N.to_nat k) ++ l).
Proof.
  rewrite <- (N2Nat.id k) at 1. generalize (N.to_nat k). clear. induction n as [|n IH].
  - apply N.shiftl_0_r.
  - rewrite Nat2N.inj_succ, N.shiftl_succ_r, IH. cbn [repeat app]. rewrite W_cons. cbn [N.b2n].
    rewrite N.add_0_r. rewrite N.double_spec. reflexivity.
Qed.
Lemma W_firstn l k : W l mod 2 ^ N.of_nat k = W (firstn k l).
Proof.
  revert l. induction k as [|k IH]; intros l; [cbn; apply N.mod_1_r|].
  destruct l as [|b l]; [apply N.mod_0_l; apply N.pow_nonzero; lia|]. cbn [firstn]. rewrite !W_cons, <- IH.
  rewrite Nat2N.inj_succ, N.pow_succ_r'.
  rewrite N.mul_comm, (N.add_comm (W l * 2)).
  rewrite (N.mod_mul_r (N.b2n b + W l * 2)) by (try apply N.pow_nonzero; lia).
  rewrite N.mod_add, N.div_add by lia.
  destruct b; cbn [N.b2n]; (rewrite (N.mod_small _ 2), (N.div_small _ 2) by lia); rewrite ?N.add_0_l; lia.
Qed.
Lemma W_u8 l : as_u8 (W l) = W (firstn 8 l).
Proof. apply (W_firstn l 8). Qed.
Lemma W_u16 l : W l mod 2 ^ 16 = W (firstn 16 l).
Proof. apply (W_firstn l 16). Qed.

(** Bits of the fields. *)
Definition tb (v : N) (n : nat) : list bool := map (fun i => N.testbit v (N.of_nat i)) (seq 0 n).
Lemma W_tb v n : v < 2 ^ N.of_nat n -> W (tb v n) = v.
Proof.
  intros H. apply N.bits_inj. intros i. rewrite W_bit. unfold tb.
  destruct (le_lt_dec n (N.to_nat i)) as [L|L].
  - rewrite nth_overflow by (rewrite map_length, seq_length; exact L).
    destruct (N.eq_dec v 0) as [->|Hv]; [rewrite N.bits_0; reflexivity|].
    symmetry. apply N.bits_above_log2. apply N.log2_lt_pow2; [lia|].
    apply N.lt_le_trans with (2 ^ N.of_nat n); [exact H|]. apply N.pow_le_mono_r; lia.
  - rewrite (nth_indep _ false (N.testbit v (N.of_nat 0))) by (rewrite map_length, seq_length; exact L).
    rewrite (map_nth (fun i => N.testbit v (N.of_nat i))), seq_nth by exact L. cbn [Nat.add]. rewrite N2Nat.id. reflexivity.
Qed.
Lemma W_app a b : W (a ++ b) = W a + 2 ^ N.of_nat (length a) * W b.
Proof.
  induction a as [|x a IH]; [cbn [app length]; change (2 ^ N.of_nat 0) with 1; change (W []) with 0; lia|].
  cbn [app length]. rewrite !W_cons, IH, Nat2N.inj_succ, N.pow_succ_r'. lia.
Qed.

Definition wf (f : FlagSet) : Prop :=
  f_node f < 4 /\ f_dvar_alignment_exp f < 4 /\ f_gvar_alignment_exp f < 4.
Definition fbits (f : FlagSet) : list bool :=
  tb (e_id (f_element f)) 7 ++ tb (f_node f) 2 ++ tb (f_dvar_alignment_exp f) 2 ++ tb (f_gvar_alignment_exp f) 2 ++
  [f_prefix f; f_open f; f_close f; f_basic f; f_dynamic f; f_variant f; f_handle f; f_dict f;
   f_dvar_unsupported f; f_dvar_misaligned f].
Lemma e_id_bound e : e_id e < 2 ^ N.of_nat 7.
Proof. destruct e; reflexivity. Qed.
Lemma pack_W f : wf f -> pack f = W (fbits f).
Proof.
  intros [A [B C]]. unfold pack, fbits. rewrite !W_app.
  rewrite (W_tb (e_id (f_element f))) by apply e_id_bound.
  rewrite !W_tb by assumption. unfold tb. rewrite !map_length, !seq_length.
  change (2 ^ N.of_nat 7) with (2 ^ 7). change (2 ^ N.of_nat 2) with 4. reflexivity.
Qed.

Lemma two_bits v : v < 4 -> exists a b, v = W [a; b] /\ tb v 2 = [a; b].
Proof. intros H. eexists _, _. split; [symmetry; apply (W_tb v 2 H)|reflexivity]. Qed.

Ltac destr f := destruct f as [e nd da ga b1 b2 b3 b4 b5 b6 b7 b8 b9 b10].
(** Expose a flag word as a list of 23 bits. *)
Ltac expose H :=
  let A := fresh in let B := fresh in let C := fresh in
  pose proof H as [A [B C]]; cbn [f_node f_dvar_alignment_exp f_gvar_alignment_exp] in A, B, C;
  rewrite (pack_W _ H); unfold fbits;
  cbn [f_element f_node f_dvar_alignment_exp f_gvar_alignment_exp f_prefix f_open f_close f_basic f_dynamic f_variant f_handle f_dict f_dvar_unsupported f_dvar_misaligned].

Definition ones (l : list nat) : list bool := map (fun i => existsb (Nat.eqb i) l) (seq 0 23).
Lemma mask_element : FLAG_ELEMENT_MASK = W (ones [0;1;2;3;4;5;6]%nat). Proof. reflexivity. Qed.
Lemma mask_node : FLAG_NODE_MASK = W (ones [7;8]%nat). Proof. reflexivity. Qed.
Lemma mask_dvar : FLAG_DVAR_ALIGNMENT_MASK = W (ones [9;10]%nat). Proof. reflexivity. Qed.
Lemma mask_gvar : FLAG_GVAR_ALIGNMENT_MASK = W (ones [11;12]%nat). Proof. reflexivity. Qed.
(** The i-th boolean flag. *)
Definition flag (i : nat) : N := N.shiftl 1 (N.of_nat (13 + i)).
Lemma flag_W i : (i < 10)%nat -> flag i = W (ones [(13 + i)%nat]).
Proof. intros H. do 10 (destruct i as [|i]; [reflexivity|]). lia. Qed.

Definition get (i : nat) (f : FlagSet) : bool :=
  nth i [f_prefix f; f_open f; f_close f; f_basic f; f_dynamic f; f_variant f; f_handle f; f_dict f;
   f_dvar_unsupported f; f_dvar_misaligned f] false.

Ltac wlist := rewrite ?W_land, ?W_ldiff, ?W_lor, ?W_shiftr, ?W_u8 by reflexivity.
Ltac simp := cbn [map2 app tb map seq ones existsb Nat.eqb orb andb negb skipn firstn N.to_nat Pos.to_nat Pos.iter_op Init.Nat.add Nat.add
  FLAG_ELEMENT_SHIFT FLAG_NODE_SHIFT FLAG_DVAR_ALIGNMENT_SHIFT FLAG_GVAR_ALIGNMENT_SHIFT];
  rewrite ?andb_true_r, ?andb_false_r, ?orb_false_r, ?orb_true_r.

Lemma all_flag f i : wf f -> (i < 10)%nat -> fs_all (pack f) (flag i) = get i f.
Proof.
  intros H Hi. unfold fs_all. rewrite (flag_W i Hi). destr f. expose H. wlist.
  do 10 (destruct i as [|i]; [simp; cbn [get nth f_prefix f_open f_close f_basic f_dynamic f_variant f_handle f_dict f_dvar_unsupported f_dvar_misaligned];
    match goal with |- _ = ?b => destruct b; reflexivity end|]). lia.
Qed.
Lemma any_flag f i : wf f -> (i < 10)%nat -> fs_any (pack f) (flag i) = get i f.
Proof.
  intros H Hi. unfold fs_any. rewrite (flag_W i Hi). destr f. expose H. wlist.
  do 10 (destruct i as [|i]; [simp; cbn [get nth f_prefix f_open f_close f_basic f_dynamic f_variant f_handle f_dict f_dvar_unsupported f_dvar_misaligned];
    match goal with |- _ = ?b => destruct b; reflexivity end|]). lia.
Qed.
Lemma W_zeros l n : W (l ++ repeat false n) = W l.
Proof.
  rewrite W_app. assert (W (repeat false n) = 0).
  { induction n as [|n IH]; [reflexivity|]. cbn [repeat]. rewrite W_cons, IH. reflexivity. }
  rewrite H. lia.
Qed.
Lemma element_ok f : wf f -> fs_element (pack f) = e_id (f_element f).
Proof.
  intros H. unfold fs_element. rewrite mask_element. destr f. expose H. wlist. simp.
  rewrite <- (W_tb (e_id e) 7 (e_id_bound e)) at 8.
  rewrite <- (W_zeros (tb (e_id e) 7) 1). unfold tb. cbn [map seq app repeat]. reflexivity.
Qed.
Lemma two_ok v : v < 4 -> forall n, W (N.testbit v (N.of_nat 0) :: N.testbit v (N.of_nat 1) :: repeat false n) = v.
Proof.
  intros H n. change (N.testbit v (N.of_nat 0) :: N.testbit v (N.of_nat 1) :: repeat false n) with (tb v 2 ++ repeat false n).
  rewrite W_zeros. apply W_tb. exact H.
Qed.
Lemma node_ok f : wf f -> fs_node (pack f) = f_node f.
Proof.
  intros H. unfold fs_node. rewrite mask_node. destr f. expose H. wlist. simp. apply (two_ok nd H0 6).
Qed.
Lemma dvar_ok f : wf f -> fs_dvar_alignment_exp (pack f) = f_dvar_alignment_exp f.
Proof.
  intros H. unfold fs_dvar_alignment_exp. rewrite mask_dvar. destr f. expose H. wlist. simp. apply (two_ok da H1 6).
Qed.
Lemma gvar_ok f : wf f -> fs_gvar_alignment_exp (pack f) = f_gvar_alignment_exp f.
Proof.
  intros H. unfold fs_gvar_alignment_exp. rewrite mask_gvar. destr f. expose H. wlist. simp. apply (two_ok ga H2 6).
Qed.

Lemma shiftr_shiftl v k : v < 4 -> as_u8 (N.shiftr (N.shiftl v k) k) = v.
Proof.
  intros H. rewrite N.shiftr_shiftl_l, N.sub_diag, N.shiftl_0_r by lia. unfold as_u8. apply N.mod_small. lia.
Qed.
Lemma set_node_ok f v : wf f -> v < 4 -> fs_set_node (pack f) v = Ok (pack (set_node f v)).
Proof.
  intros H Hv. unfold fs_set_node. rewrite shiftr_shiftl, N.eqb_refl by exact Hv. cbv zeta.
  assert (E : N.shiftl v FLAG_NODE_SHIFT = W (repeat false 7 ++ tb v 2 ++ repeat false 14)).
  { rewrite app_assoc, W_zeros. rewrite <- (W_tb v 2 Hv) at 1. apply W_shiftl. }
  rewrite E, mask_node. unfold and_not.
  destr f. cbn [set_node]. pose proof H as [HA [HB HC]]. 
  assert (H' : wf (Flags e v da ga b1 b2 b3 b4 b5 b6 b7 b8 b9 b10)) by (split; [exact Hv|split; assumption]).
  rewrite (pack_W _ H'), (pack_W _ H).
  wlist. unfold fbits. cbn [f_element f_node f_dvar_alignment_exp f_gvar_alignment_exp f_prefix f_open f_close f_basic f_dynamic f_variant f_handle f_dict f_dvar_unsupported f_dvar_misaligned].
  cbn [repeat]. simp. change (W _ =? 0) with true. reflexivity.
Qed.
Lemma set_gvar_ok f v : wf f -> v < 4 ->
  fs_set_gvar_alignment_exp (pack f) v = Ok (pack (set_gvar_alignment_exp f v)).
Proof.
  intros H Hv. unfold fs_set_gvar_alignment_exp. rewrite shiftr_shiftl, N.eqb_refl by exact Hv. cbv zeta.
  assert (E : N.shiftl v FLAG_GVAR_ALIGNMENT_SHIFT = W (repeat false 11 ++ tb v 2 ++ repeat false 10)).
  { rewrite app_assoc, W_zeros. rewrite <- (W_tb v 2 Hv) at 1. apply W_shiftl. }
  rewrite E, mask_gvar. unfold and_not.
  destr f. cbn [set_gvar_alignment_exp]. pose proof H as [HA [HB HC]].
  assert (H' : wf (Flags e nd da v b1 b2 b3 b4 b5 b6 b7 b8 b9 b10)) by (split; [exact HA|split; assumption]).
  rewrite (pack_W _ H'), (pack_W _ H).
  wlist. unfold fbits. cbn [f_element f_node f_dvar_alignment_exp f_gvar_alignment_exp f_prefix f_open f_close f_basic f_dynamic f_variant f_handle f_dict f_dvar_unsupported f_dvar_misaligned].
  cbn [repeat]. simp. change (W _ =? 0) with true. reflexivity.
Qed.

(** Setting and clearing the flags the code sets and clears. *)
Ltac two_words H f := 
  pose proof H as [HA [HB HC]]; rewrite (pack_W _ H), ?(pack_W f) by (split; [exact HA|split; assumption]).
Ltac setclear i :=
  intros H; unfold fs_set, fs_clear, and_not; rewrite mask_element, (flag_W i) by lia;
  match goal with f : FlagSet |- _ => destr f end;
  cbn [put_dict put_unsupported put_misaligned]; pose proof H as [HA [HB HC]];
  rewrite !pack_W by (split; [exact HA|split; assumption]);
  wlist; unfold fbits;
  cbn [f_element f_node f_dvar_alignment_exp f_gvar_alignment_exp f_prefix f_open f_close f_basic f_dynamic f_variant f_handle f_dict f_dvar_unsupported f_dvar_misaligned];
  simp; reflexivity.
Lemma clear_dict f : wf f -> fs_clear (pack f) (flag 7) = pack (put_dict f false).
Proof. setclear 7%nat. Qed.
Lemma set_unsupported f : wf f -> fs_set (pack f) (flag 8) = pack (put_unsupported f true).
Proof. setclear 8%nat. Qed.
Lemma set_misaligned f : wf f -> fs_set (pack f) (flag 9) = pack (put_misaligned f true).
Proof. setclear 9%nat. Qed.
Lemma clear_misaligned f : wf f -> fs_clear (pack f) (flag 9) = pack (put_misaligned f false).
Proof. setclear 9%nat. Qed.
Definition propagated : N := N.lor (N.lor (N.lor (flag 4) (flag 6)) (flag 8)) (flag 9).
Lemma propagate_ok up this : wf up -> wf this ->
  fs_set (pack up) (N.land (pack this) propagated) = pack (propagate_flags up this).
Proof.
  intros H H'. unfold fs_set, and_not. rewrite mask_element.
  change propagated with (W (ones [17; 19; 21; 22]%nat)).
  destr up. destruct this as [e' nd' da' ga' c1 c2 c3 c4 c5 c6 c7 c8 c9 c10].
  cbn [propagate_flags f_dynamic f_handle f_dvar_unsupported f_dvar_misaligned].
  pose proof H as [HA [HB HC]]. pose proof H' as [HA' [HB' HC']].
  rewrite !pack_W by (split; [assumption|split; assumption]).
  wlist. unfold fbits.
  cbn [f_element f_node f_dvar_alignment_exp f_gvar_alignment_exp f_prefix f_open f_close f_basic f_dynamic f_variant f_handle f_dict f_dvar_unsupported f_dvar_misaligned].
  simp. reflexivity.
Qed.
(** The table. *)
Definition static_flags (f : FlagSet) : N :=
  fold_right N.add 0 (map (fun i => if get i f then flag i else 0) (seq 0 10)).
Lemma with_ok e :
  let f := e_flags e in
  fs_with e (f_dvar_alignment_exp f) (f_gvar_alignment_exp f) (static_flags f) = Ok (pack f) /\ wf f /\ pack f <> 0.
Proof. destruct e; repeat split; vm_compute; try reflexivity; discriminate. Qed.
(** Every word determines its record. *)
Lemma e_id_inj e e' : e_id e = e_id e' -> e = e'.
Proof. destruct e, e'; vm_compute; intros H; try reflexivity; discriminate H. Qed.
Lemma pack_inj f g : wf f -> wf g -> pack f = pack g -> f = g.
Proof.
  intros Hf Hg E.
  pose proof (element_ok f Hf) as A. rewrite E, (element_ok g Hg) in A. apply e_id_inj in A.
  pose proof (node_ok f Hf) as B. rewrite E, (node_ok g Hg) in B.
  pose proof (dvar_ok f Hf) as C. rewrite E, (dvar_ok g Hg) in C.
  pose proof (gvar_ok f Hf) as D. rewrite E, (gvar_ok g Hg) in D.
  assert (G : forall i, (i < 10)%nat -> get i f = get i g).
  { intros i Hi. rewrite <- (all_flag f i Hf Hi), <- (all_flag g i Hg Hi), E. reflexivity. }
  destr f. destruct g as [e' nd' da' ga' c1 c2 c3 c4 c5 c6 c7 c8 c9 c10].
  cbn [f_element f_node f_dvar_alignment_exp f_gvar_alignment_exp] in A, B, C, D. subst.
  f_equal; [apply (G 0%nat)|apply (G 1%nat)|apply (G 2%nat)|apply (G 3%nat)|apply (G 4%nat)|apply (G 5%nat)|
    apply (G 6%nat)|apply (G 7%nat)|apply (G 8%nat)|apply (G 9%nat)]; lia.
Qed.

(** Node8. *)
Lemma W_bound l : W l < 2 ^ N.of_nat (length l).
Proof.
  induction l as [|b l IH]; [reflexivity|]. rewrite W_cons. cbn [length]. rewrite Nat2N.inj_succ, N.pow_succ_r'.
  destruct b; cbn [N.b2n]; lia.
Qed.
Lemma opl_ok o p l : o < 32 -> p < 32 -> l < 32 ->
  exists w, opl o p l = Ok w /\ w < 2 ^ 16 /\ opl_offset w = o /\ opl_position w = p /\ opl_length w = l.
Proof.
  intros Ho Hp Hl.
  assert (Eo : N.shiftl o 0 mod 2 ^ 16 = W (tb o 5 ++ repeat false 11)).
  { rewrite <- (W_tb o 5 Ho) at 1. rewrite W_shiftl, W_u16. rewrite W_zeros. reflexivity. }
  assert (Ep : N.shiftl p 5 mod 2 ^ 16 = W (repeat false 5 ++ tb p 5 ++ repeat false 6)).
  { rewrite <- (W_tb p 5 Hp) at 1. rewrite W_shiftl, W_u16. rewrite app_assoc, W_zeros. reflexivity. }
  assert (El : N.shiftl l 10 mod 2 ^ 16 = W (repeat false 10 ++ tb l 5 ++ repeat false 1)).
  { rewrite <- (W_tb l 5 Hl) at 1. rewrite W_shiftl, W_u16. rewrite app_assoc, W_zeros. reflexivity. }
  unfold opl, and_not. rewrite Eo, Ep, El. cbv zeta.
  change (N.shiftl 31 0) with (W (repeat true 5 ++ repeat false 11)).
  change (N.shiftl 31 5) with (W (repeat false 5 ++ repeat true 5 ++ repeat false 6)).
  change (N.shiftl 31 10) with (W (repeat false 10 ++ repeat true 5 ++ repeat false 1)).
  rewrite !W_ldiff, !W_lor by reflexivity.
  unfold tb. cbn [map seq repeat app map2 andb negb orb].
  rewrite ?andb_true_r, ?andb_false_r, ?orb_false_r.
  repeat match goal with |- context [W ?x =? 0] => change (W x =? 0) with true end. cbv iota.
  eexists. split; [reflexivity|].
  unfold opl_offset, opl_position, opl_length.
  change 31 with (W (repeat true 5)).
  split.
  { match goal with |- W ?l < _ => exact (W_bound l) end. }
  assert (Hland : forall a b c d e r, N.land (W (a :: b :: c :: d :: e :: r)) (W (repeat true 5)) = W [a; b; c; d; e]).
  { intros. rewrite <- (W_zeros (repeat true 5) (length r)). rewrite W_land.
    - cbn [repeat app map2]. rewrite !andb_true_r.
      assert (Z : forall r, map2 andb r (repeat false (length r)) = repeat false (length r)).
      { clear. induction r as [|x r IH]; [reflexivity|]. cbn [length repeat map2]. rewrite IH, andb_false_r. reflexivity. }
      rewrite Z. change (a :: b :: c :: d :: e :: repeat false (length r)) with ([a; b; c; d; e] ++ repeat false (length r)).
      apply W_zeros.
    - cbn [app length repeat]. rewrite repeat_length. reflexivity. }
  rewrite !W_shiftr. change (N.to_nat 0) with 0%nat. change (N.to_nat 5) with 5%nat. change (N.to_nat 10) with 10%nat.
  cbn [skipn].
  rewrite !Hland, !W_u8. cbn [firstn].
  split; [apply (W_tb o 5 Ho)|split; [apply (W_tb p 5 Hp)|apply (W_tb l 5 Hl)]].
Qed.

Lemma word_reads f : wf f ->
  fs_element (pack f) = e_id (f_element f) /\
  fs_node (pack f) = f_node f /\
  fs_dvar_alignment_exp (pack f) = f_dvar_alignment_exp f /\
  fs_gvar_alignment_exp (pack f) = f_gvar_alignment_exp f /\
  fs_all (pack f) FLAG_PREFIX = f_prefix f /\
  fs_all (pack f) FLAG_OPEN = f_open f /\
  fs_all (pack f) FLAG_CLOSE = f_close f /\
  fs_all (pack f) FLAG_BASIC = f_basic f /\
  fs_all (pack f) FLAG_DYNAMIC = f_dynamic f /\
  fs_all (pack f) FLAG_VARIANT = f_variant f /\
  fs_all (pack f) FLAG_HANDLE = f_handle f /\
  fs_all (pack f) FLAG_DICT = f_dict f /\
  fs_all (pack f) FLAG_DVAR_UNSUPPORTED = f_dvar_unsupported f /\
  fs_all (pack f) FLAG_DVAR_MISALIGNED = f_dvar_misaligned f.
Proof.
  intros H. rewrite (element_ok f H), (node_ok f H), (dvar_ok f H), (gvar_ok f H).
  repeat (split; [reflexivity|]).
  pose proof (fun i => all_flag f i H) as A.
  split; [apply (A 0%nat); lia|]. split; [apply (A 1%nat); lia|]. split; [apply (A 2%nat); lia|].
  split; [apply (A 3%nat); lia|]. split; [apply (A 4%nat); lia|]. split; [apply (A 5%nat); lia|].
  split; [apply (A 6%nat); lia|]. split; [apply (A 7%nat); lia|]. split; [apply (A 8%nat); lia|].
  apply (A 9%nat); lia.
Qed.
Lemma word_writes f v : wf f -> v < 4 ->
  fs_set_node (pack f) v = Ok (pack (set_node f v)) /\
  fs_set_gvar_alignment_exp (pack f) v = Ok (pack (set_gvar_alignment_exp f v)) /\
  fs_clear (pack f) FLAG_DICT = pack (put_dict f false) /\
  fs_set (pack f) FLAG_DVAR_UNSUPPORTED = pack (put_unsupported f true) /\
  fs_set (pack f) FLAG_DVAR_MISALIGNED = pack (put_misaligned f true) /\
  fs_clear (pack f) FLAG_DVAR_MISALIGNED = pack (put_misaligned f false).
Proof.
  intros H Hv. split; [apply set_node_ok; assumption|]. split; [apply set_gvar_ok; assumption|].
  split; [apply (clear_dict f H)|]. split; [apply (set_unsupported f H)|].
  split; [apply (set_misaligned f H)|apply (clear_misaligned f H)].
Qed.
Lemma table e : exists flags,
  fs_with e (f_dvar_alignment_exp (e_flags e)) (f_gvar_alignment_exp (e_flags e)) flags = Ok (pack (e_flags e)) /\
  wf (e_flags e) /\ pack (e_flags e) <> 0 /\ f_element (e_flags e) = e.
Proof.
  destruct (with_ok e) as [A [B C]]. exists (static_flags (e_flags e)). repeat split; try assumption; try apply B.
  destruct e; reflexivity.
Qed.
