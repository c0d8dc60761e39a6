(** C136: mapped access that failed can be taken up where it stopped. *)
From Verif Require Import Base DbusSpec IoMapModel IoMapSpec IoMapProofs IoMapProps.
Local Open Scope N_scope.

(** ** C136 *)

(** A caller that tries again as long as a call fails: with the rest of the data, at the
    index that the failed call left. In between the writer may change in any way,
    but for the bytes stored already. *)
Inductive writes_again {W} (I : Write W) : out W -> N -> list N -> out W -> N -> Prop :=
| wa_done o idx data o' idx' : write I o idx data = Ok (Continue tt, o', idx') -> writes_again I o idx data o' idx'
| wa_again o idx data e o1 idx1 w o' idx' : write I o idx data = Ok (Break e, o1, idx1) ->
    writes_again I (mkOut w (o_mem o1)) idx1 (skipn (N.to_nat (idx1 - idx)) data) o' idx' ->
    writes_again I o idx data o' idx'.
Inductive fills_again {W} (I : Write W) (x : N) : out W -> N -> N -> out W -> N -> Prop :=
| fa_done o idx len o' idx' : fill I o idx len x = Ok (Continue tt, o', idx') -> fills_again I x o idx len o' idx'
| fa_again o idx len e o1 idx1 w o' idx' : fill I o idx len x = Ok (Break e, o1, idx1) ->
    fills_again I x (mkOut w (o_mem o1)) idx1 (len - (idx1 - idx)) o' idx' ->
    fills_again I x o idx len o' idx'.
(** Aligning is simply called again. *)
Inductive aligns_again {W} (I : Write W) (exp : N) : out W -> N -> out W -> N -> Prop :=
| aa_done o idx o' idx' : align_exp2 I o idx exp = Ok (Continue tt, o', idx') -> aligns_again I exp o idx o' idx'
| aa_again o idx e o1 idx1 w o' idx' : align_exp2 I o idx exp = Ok (Break e, o1, idx1) ->
    aligns_again I exp (mkOut w (o_mem o1)) idx1 o' idx' -> aligns_again I exp o idx o' idx'.
(** A reader in states [P] is read from; the bytes are collected. *)
Inductive reads_again {R} (I : Read R) (P : R -> Prop) : R -> N -> N -> N -> list N -> Prop :=
| ra_done r idx len r' idx' got : read I r idx len = Ok (Continue tt, r', idx', got) -> reads_again I P r idx len idx' got
| ra_again r idx len e r1 idx1 got r2 idx' got' : read I r idx len = Ok (Break e, r1, idx1, got) -> P r2 ->
    reads_again I P r2 idx1 (len - (idx1 - idx)) idx' got' -> reads_again I P r idx len idx' (got ++ got').

Lemma written_join (m m1 m2 : mem) idx a b : written m idx a m1 -> written m1 (idx + size a) b m2 -> written m idx (a ++ b) m2.
Proof.
  intros [A A'] [B B']. assert (S : size (a ++ b) = size a + size b) by (unfold size; rewrite app_length; lia). split.
  - intros k x H. destruct (Nat.lt_ge_cases k (length a)) as [L|L].
    + rewrite nth_error_app1 in H by exact L. rewrite B' by (unfold size; lia). apply A. exact H.
    + rewrite nth_error_app2 in H by exact L. apply B in H. replace (idx + N.of_nat k) with (idx + size a + N.of_nat (k - length a)) by (unfold size; lia). exact H.
  - intros j H. rewrite B', A'; [reflexivity| |]; lia.
Qed.

(** However often writing failed, in the end all of the data is at the index
    where it began, as if it had been written at once, and nothing else has changed. *)
Theorem map_write_again : forall W (I : Write W) o idx data o' idx', writes_again I o idx data o' idx' ->
  idx' = idx + size data /\ written (o_mem o) idx data (o_mem o').
Proof.
  intros W I. induction 1 as [o idx data o' idx' E|o idx data e o1 idx1 w o' idx' E T IH].
  - apply map_write_effect in E. destruct E as (k & K & -> & Wr & F). specialize (F eq_refl). subst k. split; [reflexivity|].
    rewrite firstn_all2 in Wr by (unfold size; lia). exact Wr.
  - apply map_write_effect in E. destruct E as (k & K & -> & Wr & _). destruct IH as [-> IH]. cbn [o_mem] in IH.
    replace (idx + k - idx) with k in * by lia.
    assert (S : size (firstn (N.to_nat k) data) = k) by (unfold size in *; rewrite firstn_length; lia).
    split; [unfold size in *; rewrite skipn_length; lia|].
    rewrite <- (firstn_skipn (N.to_nat k) data). eapply written_join; [exact Wr|]. rewrite S. exact IH.
Qed.
Print Assumptions map_write_again.
Theorem map_fill_again : forall W (I : Write W) x o idx len o' idx', fills_again I x o idx len o' idx' ->
  idx' = idx + len /\ written (o_mem o) idx (repeat x (N.to_nat len)) (o_mem o').
Proof.
  intros W I x. induction 1 as [o idx len o' idx' E|o idx len e o1 idx1 w o' idx' E T IH].
  - apply map_fill_effect in E. destruct E as (k & K & -> & Wr & F). specialize (F eq_refl). subst k. auto.
  - apply map_fill_effect in E. destruct E as (k & K & -> & Wr & _). destruct IH as [-> IH]. cbn [o_mem] in IH.
    replace (idx + k - idx) with k in * by lia. split; [lia|].
    replace (N.to_nat len) with (N.to_nat k + N.to_nat (len - k))%nat by lia. rewrite repeat_app.
    eapply written_join; [exact Wr|]. unfold size. rewrite repeat_length, N2Nat.id. exact IH.
Qed.
Print Assumptions map_fill_again.
Lemma pad_between m idx k : 0 < m -> k <= pad_to m idx - idx -> pad_to m (idx + k) = pad_to m idx.
Proof.
  intros M K. unfold pad_to in *. set (q := (idx + m - 1) / m) in *. f_equal.
  assert (B : m * q <= idx + m - 1 < m * q + m) by (pose proof (N.div_mod (idx + m - 1) m ltac:(lia)); pose proof (N.mod_lt (idx + m - 1) m ltac:(lia)); unfold q; lia).
  symmetry. apply N.div_unique with (r := idx + k + m - 1 - m * q); nia.
Qed.
(** Not for all exponents, see C27. *)
Theorem map_align_again_partial : forall W (I : Write W) exp o idx o' idx', exp < 31 -> aligns_again I exp o idx o' idx' ->
  idx' = pad_to (2 ^ exp) idx /\ written (o_mem o) idx (repeat 0 (N.to_nat (pad_to (2 ^ exp) idx - idx))) (o_mem o').
Proof.
  intros W I exp o idx o' idx' X. assert (M : 0 < 2 ^ exp) by (apply N.neq_0_lt_0, N.pow_nonzero; discriminate).
  induction 1 as [o idx o' idx' E|o idx e o1 idx1 w o' idx' E T IH].
  - apply map_align_partial in E; [|exact X]. destruct E as (k & K & -> & Wr & F). specialize (F eq_refl). split; [exact F|].
    replace (pad_to (2 ^ exp) idx - idx) with k by lia. exact Wr.
  - apply map_align_partial in E; [|exact X]. destruct E as (k & K & -> & Wr & _). destruct IH as [-> IH]. cbn [o_mem] in IH.
    rewrite (pad_between _ _ _ M K) in *. split; [reflexivity|].
    replace (N.to_nat (pad_to (2 ^ exp) idx - idx)) with (N.to_nat k + N.to_nat (pad_to (2 ^ exp) idx - (idx + k)))%nat by lia. rewrite repeat_app.
    eapply written_join; [exact Wr|]. unfold size at 1. rewrite repeat_length, N2Nat.id. exact IH.
Qed.
Print Assumptions map_align_again_partial.
Lemma skip_skip {A} (l : list A) : forall a b, skipn a (skipn b l) = skipn (b + a) l.
Proof. induction l as [|x l IH]; intros a [|b]; cbn [skipn Nat.add]; rewrite ?skipn_nil; try reflexivity. apply IH. Qed.
(** What is read in pieces is what was to be read. *)
Theorem map_read_again : forall R (I : Read R) P data r idx len idx' got, reading I P data -> P r ->
  reads_again I P r idx len idx' got -> idx' = idx + len /\ got = slice data (N.to_nat idx) (N.to_nat idx').
Proof.
  intros R I P data r idx len idx' got RD Pr H. revert Pr.
  induction H as [r idx len r' idx' got E|r idx len e r1 idx1 got r2 idx' got' E P2 T IH]; intros Pr.
  - destruct (map_read_effect R I P data r idx len _ _ _ _ RD Pr E) as (G & _ & _ & F). destruct (F eq_refl) as [-> _]. auto.
  - destruct (map_read_effect R I P data r idx len _ _ _ _ RD Pr E) as (G & B & _ & _). destruct (IH P2) as [-> G'].
    split; [lia|]. rewrite G, G'. unfold slice.
    replace (idx1 + (len - (idx1 - idx))) with (idx + len) by lia.
    replace (N.to_nat (idx + len) - N.to_nat idx)%nat with ((N.to_nat idx1 - N.to_nat idx) + (N.to_nat (idx + len) - N.to_nat idx1))%nat by lia.
    replace (skipn (N.to_nat idx1) data) with (skipn (N.to_nat idx1 - N.to_nat idx) (skipn (N.to_nat idx) data)) by (rewrite skip_skip; f_equal; lia).
    generalize (skipn (N.to_nat idx) data). intros l. generalize (N.to_nat idx1 - N.to_nat idx)%nat (N.to_nat (idx + len) - N.to_nat idx1)%nat.
    intros a b. revert l. induction a as [|a IHa]; intros [|x l]; cbn [firstn skipn app Nat.add]; try reflexivity; [destruct b; reflexivity|]. f_equal. apply IHa.
Qed.
Print Assumptions map_read_again.

(** A writer and a reader that serve one byte at a time and are interrupted the third
    time. *)
Definition interrupted : Write N := mkWrite
  (fun w idx len => if w =? 2 then Ok (Break None, w + 1) else Ok (Continue 1, w + 1)) (fun w _ => Ok w).
Definition interrupted_read (data : list N) : Read N := mkRead (fun r idx len =>
  if r =? 2 then Ok (Break None, r + 1)
  else if idx + len <=? size data then Ok (Continue (slice data (N.to_nat idx) (N.to_nat idx + 1)), r + 1) else Ok (Break (Some Exceeded), r)).
Example map_write_again_case : exists o1 o', write interrupted (mkOut 0 (fun _ => None)) 5 [1; 2; 3; 4] = Ok (Break None, o1, 7) /\
  writes_again interrupted (mkOut 0 (fun _ => None)) 5 [1; 2; 3; 4] o' 9 /\
  map (o_mem o') [4; 5; 6; 7; 8; 9] = [None; Some 1; Some 2; Some 3; Some 4; None].
Proof.
  eexists. eexists. split; [reflexivity|]. split.
  - eapply (wa_again _ _ _ _ _ _ _ 3); [reflexivity|]. apply wa_done. reflexivity.
  - vm_compute. reflexivity.
Qed.
Example map_align_again_case : exists o', aligns_again interrupted 3 (mkOut 0 (fun _ => None)) 5 o' 8 /\
  align_exp2 interrupted (mkOut 0 (fun _ => None)) 5 3 <> Ok (Continue tt, o', 8) /\ map (o_mem o') [4; 5; 6; 7; 8] = [None; Some 0; Some 0; Some 0; None].
Proof.
  eexists. split.
  - eapply (aa_again _ _ _ _ _ _ _ 3); [reflexivity|]. apply aa_done. reflexivity.
  - split; [discriminate|]. vm_compute. reflexivity.
Qed.
Example map_read_again_case : reading (interrupted_read [1; 2; 3; 4; 5]) (fun _ => True) [1; 2; 3; 4; 5] /\
  reads_again (interrupted_read [1; 2; 3; 4; 5]) (fun _ => True) 0 1 4 5 [2; 3; 4; 5].
Proof.
  split.
  - intros r idx len s r' _ H. cbn in H. destruct (r =? 2); [discriminate|].
    destruct (idx + len <=? 5); [|discriminate]. injection H as <- <-. split; [|exact Logic.I].
    unfold slice. rewrite firstn_length. replace (N.to_nat idx + 1 - N.to_nat idx)%nat with 1%nat by lia.
    destruct (skipn (N.to_nat idx) [1; 2; 3; 4; 5]) as [|x l]; cbn [firstn length Nat.min];
      [replace (N.to_nat idx + 0 - N.to_nat idx)%nat with 0%nat by lia|replace (N.to_nat idx + 1 - N.to_nat idx)%nat with 1%nat by lia]; reflexivity.
  - eapply (ra_again _ _ _ _ _ _ _ _ [2; 3] 3 _ [4; 5]); [reflexivity|exact Logic.I|]. eapply ra_done. reflexivity.
Qed.
