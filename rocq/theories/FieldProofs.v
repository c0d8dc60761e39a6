From Verif Require Import Base FieldSpec LayModel PtrModel FieldModel.
From Coq Require Import Lia.
Local Open Scope N_scope.

Lemma deref_ok base size s p : 0 < p -> 1 <= align s -> (align s | p) -> base <= p -> p + bytes s <= base + size ->
  deref base size s p = Some p.
Proof.
  intros P A D B E. unfold deref.
  replace (p =? 0) with false by (symmetry; apply N.eqb_neq; lia).
  replace (p mod align s =? 0) with true.
  2:{ symmetry. apply N.eqb_eq. apply N.mod_divide; [lia|easy]. }
  replace (p <? base) with false by (symmetry; apply N.ltb_ge; lia).
  replace (base + size <? p + bytes s) with false by (symmetry; apply N.ltb_ge; lia).
  reflexivity.
Qed.

Lemma assign_out v : forall m r x, ~ (r <= x < r + N.of_nat (length v)) -> assign m r v x = m x.
Proof.
  induction v as [|b v IH]; intros m r x H; [easy|]. cbn [assign]. rewrite IH.
  - destruct (N.eqb_spec x r); [|easy]. subst. cbn [length] in H. lia.
  - cbn [length] in H. lia.
Qed.

Lemma assign_in v : forall m r i, (i < length v)%nat -> Some (assign m r v (r + N.of_nat i)) = nth_error v i.
Proof.
  induction v as [|b v IH]; intros m r i H; [now cbn in H|]. cbn [assign]. destruct i as [|i].
  - rewrite assign_out by lia. cbn [nth_error]. rewrite N.add_0_r, N.eqb_refl. reflexivity.
  - cbn [nth_error]. cbn [length] in H. rewrite <- (IH (fun x => if x =? r then b else m x) (r + 1)) by lia.
    do 2 f_equal. lia.
Qed.

Lemma map_nth_ext {A} (f : nat -> A) v : (forall i, (i < length v)%nat -> Some (f i) = nth_error v i) ->
  map f (seq 0 (length v)) = v.
Proof.
  revert f. induction v as [|b v IH]; intros f H; [reflexivity|]. cbn [length seq map]. f_equal.
  - specialize (H 0%nat). cbn in H. assert (X : Some (f 0%nat) = Some b) by (apply H; lia). now injection X.
  - rewrite <- seq_shift, map_map. apply IH. intros i L. specialize (H (S i)). cbn [nth_error length] in H.
    apply H. lia.
Qed.

(* ------------------------------------------------------------------ *)
(** ** The layout of repr(C) structures *)

Local Close Scope N_scope.

Lemma round_up_ge n a : 1 <= a -> n <= round_up n a.
Proof. intros A. unfold round_up. pose proof (Nat.div_mod (n + a - 1) a). pose proof (Nat.mod_upper_bound (n + a - 1) a). nia. Qed.
Lemma round_up_mult n a : Nat.divide a (round_up n a).
Proof. exists ((n + a - 1) / a). reflexivity. Qed.

(** Alignments are powers of two. *)
Definition pow2 (a : nat) : Prop := exists k, a = 2 ^ k.
Lemma pow2_pos a : pow2 a -> 1 <= a.
Proof. intros [k ->]. pose proof (Nat.pow_nonzero 2 k). lia. Qed.
Lemma pow2_max a b : pow2 a -> pow2 b -> pow2 (Nat.max a b).
Proof. intros A B. destruct (Nat.max_spec a b) as [[_ ->]|[_ ->]]; easy. Qed.
Lemma pow2_divide a b : pow2 a -> pow2 b -> a <= b -> Nat.divide a b.
Proof.
  intros [k ->] [l ->] L. apply Nat.pow_le_mono_r_iff in L; [|lia].
  exists (2 ^ (l - k)). rewrite <- Nat.pow_add_r. f_equal. lia.
Qed.

Fixpoint end_at (off : nat) (fs : list ty) : nat :=
  match fs with
  | [] => off
  | f :: fs => end_at (round_up off (align_of f) + size_of f) fs
  end.

Lemma size_struct m fs : size_of (Struct false m fs) = round_up (end_at 0 fs) (align_of (Struct false m fs)).
Proof. reflexivity. Qed.

Lemma end_at_ge fs : Forall (fun f => pow2 (align_of f)) fs -> forall o, o <= end_at o fs.
Proof.
  induction 1 as [|f fs P _ IH]; intros o; cbn [end_at]; [lia|].
  pose proof (round_up_ge o (align_of f) (pow2_pos _ P)). pose proof (IH (round_up o (align_of f) + size_of f)). lia.
Qed.

Lemma offsets_nth fs : Forall (fun f => pow2 (align_of f)) fs -> forall o i p s,
  nth_error (combine (map N.of_nat (offsets false o fs)) (map shape_of fs)) i = Some (p, s) ->
  exists q f, In f fs /\ p = N.of_nat q /\ s = shape_of f /\ o <= q /\ q + size_of f <= end_at o fs
    /\ Nat.divide (align_of f) q.
Proof.
  induction 1 as [|f fs P F IH]; intros o i p s H; [destruct i; easy|].
  cbn [offsets map combine] in H. pose proof (round_up_ge o (align_of f) (pow2_pos _ P)). destruct i as [|i].
  - injection H as <- <-. exists (round_up o (align_of f)), f. cbn [end_at].
    pose proof (end_at_ge fs F (round_up o (align_of f) + size_of f)).
    split; [now left|]. repeat split; [lia|lia|apply round_up_mult].
  - destruct (IH _ _ _ _ H) as (q & g & I & Q & S & L & E & D). exists q, g. cbn [end_at].
    split; [now right|]. repeat split; [easy|easy|lia|lia|easy].
Qed.

Lemma offsets_apart fs : Forall (fun f => pow2 (align_of f)) fs -> forall o i j p s p' s' x, i < j ->
  nth_error (combine (map N.of_nat (offsets false o fs)) (map shape_of fs)) i = Some (p, s) ->
  nth_error (combine (map N.of_nat (offsets false o fs)) (map shape_of fs)) j = Some (p', s') ->
  ~ (covers p s x /\ covers p' s' x).
Proof.
  induction 1 as [|f fs P F IH]; intros o i j p s p' s' x L H H'; [destruct i; easy|].
  cbn [offsets map combine] in H, H'. destruct j as [|j]; [lia|]. cbn [nth_error] in H'. destruct i as [|i].
  - injection H as <- <-. destruct (offsets_nth _ F _ _ _ _ H') as (q & g & _ & -> & -> & G & _).
    unfold covers. cbn. lia.
  - cbn [nth_error] in H. eapply IH; [|exact H|exact H']. lia.
Qed.

Lemma divide_N a b : Nat.divide a b -> (N.of_nat a | N.of_nat b)%N.
Proof. intros [k ->]. exists (N.of_nat k). lia. Qed.

Lemma align_max m fs f : In f fs -> align_of f <= align_of (Struct false m fs).
Proof. cbn [align_of]. induction fs as [|g fs IH]; intros I; [easy|]. cbn [map fold_right].
  destruct I as [->|I]; [lia|specialize (IH I); lia]. Qed.
Lemma align_pow2 m fs : pow2 m -> Forall (fun f => pow2 (align_of f)) fs -> pow2 (align_of (Struct false m fs)).
Proof.
  intros M F. cbn [align_of]. induction F as [|f fs P _ IH]; cbn [map fold_right].
  - apply pow2_max; [exists 0; reflexivity|easy].
  - now apply pow2_max.
Qed.

Lemma structure_laid_out m fs : pow2 m -> Forall (fun f => pow2 (align_of f)) fs ->
  laid_out (structure_of (Struct false m fs)).
Proof.
  intros M F. assert (P := align_pow2 m fs M F).
  split; cbn [structure_of members whole offsets_of fields_of].
  - intros o s I. apply In_nth_error in I. destruct I as [i I].
    destruct (offsets_nth _ F _ _ _ _ I) as (q & f & _ & -> & -> & _ & E & _).
    unfold shape_of at 2. cbn [bytes]. rewrite size_struct.
    pose proof (round_up_ge (end_at 0 fs) _ (pow2_pos _ P)). cbn [shape_of bytes]. lia.
  - intros o s I. apply In_nth_error in I. destruct I as [i I].
    destruct (offsets_nth _ F _ _ _ _ I) as (q & f & J & -> & -> & _ & _ & D).
    assert (A : pow2 (align_of f)) by (rewrite Forall_forall in F; now apply F).
    unfold shape_of. cbn [align]. split; [pose proof (pow2_pos _ A); lia|].
    split; apply divide_N; [|easy]. apply pow2_divide; [easy|easy|]. now apply align_max.
  - intros i j o s o' s' x N H H'. destruct (Nat.lt_total i j) as [L|[E|L]]; [|easy|].
    + eapply offsets_apart; eassumption.
    + intros [A B]. eapply offsets_apart; [exact F|exact L|exact H'|exact H|split; eassumption].
Qed.
