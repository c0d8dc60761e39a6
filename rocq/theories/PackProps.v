(** C113: arrays of packed objects, at any address. *)
From Coq Require Import String.
From Verif Require Import Base LayModel FfiModel FfiProofs PackSpec PackModel.

Section Proofs.
Context {V H : Type} (t : ty) (encode : V -> list N) (decode : list N -> V) (o : ops V H) (h0 : H).
Hypothesis sized : forall v, List.length (encode v) = size_of t.
Hypothesis decoded : forall v, decode (encode v) = v.

Lemma store_out m p bs x : (x < p \/ p + N.of_nat (List.length bs) <= x)%N -> store m p bs x = m x.
Proof.
  revert m p. induction bs as [|b bs IH]; intros m p L; [reflexivity|]. cbn [store].
  cbn [List.length] in L. rewrite IH by lia. rewrite (proj2 (N.eqb_neq x p)) by lia. reflexivity.
Qed.
Lemma store_in bs : forall m p k b, nth_error bs k = Some b -> store m p bs (p + N.of_nat k)%N = b.
Proof.
  induction bs as [|c bs IH]; intros m p [|k] b E; try discriminate; cbn [nth_error] in E; cbn [store].
  - injection E as ->. rewrite store_out by lia. rewrite N.add_0_r, N.eqb_refl. reflexivity.
  - replace (p + N.of_nat (S k))%N with (p + 1 + N.of_nat k)%N by lia. apply IH, E.
Qed.

Lemma put_same {A} (vs : list A) i v : i < List.length vs -> nth_error (put vs i v) i = Some v.
Proof. revert i. induction vs as [|x vs IH]; intros [|i] L; cbn in *; try lia; [reflexivity|]. apply IH; lia. Qed.
Lemma put_other {A} (vs : list A) i j v : i <> j -> nth_error (put vs i v) j = nth_error vs j.
Proof. revert i j. induction vs as [|x vs IH]; intros [|i] [|j] L; cbn; try reflexivity; try lia. apply IH; lia. Qed.
Lemma put_length {A} (vs : list A) i v : List.length (put vs i v) = List.length vs.
Proof. revert i. induction vs as [|x vs IH]; intros [|i]; cbn; try reflexivity. rewrite IH. reflexivity. Qed.

Notation size := (size_of t).
Lemma elem base i : element t base i = (base + N.of_nat (i * size))%N.
Proof. unfold element. rewrite packed_size. reflexivity. Qed.
Lemma ptr p : as_ptr t p = p.
Proof. unfold as_ptr. rewrite packed_offsets. apply N.add_0_r. Qed.
Lemma any p : (p mod N.of_nat 1 =? 0)%N = true.
Proof. change (N.of_nat 1) with 1%N. rewrite N.mod_1_r. reflexivity. Qed.

(** The bytes of an element. *)
Lemma bytes_at m base vs i v : packed_at size encode m base vs -> nth_error vs i = Some v ->
  map (fun k => m (element t base i + N.of_nat k)%N) (seq 0 size) = encode v.
Proof.
  intros P E. rewrite <- (sized v). rewrite elem. specialize (P i v E). revert P.
  generalize (encode v). intros l P.
  assert (G : forall s l', (forall k b, nth_error l' k = Some b -> m (base + N.of_nat (i * size + (s + k)))%N = b) ->
    map (fun k => m (base + N.of_nat (i * size) + N.of_nat k)%N) (seq s (List.length l')) = l').
  { intros s l'. revert s. induction l' as [|b l' IH]; intros s F; [reflexivity|]. cbn [List.length seq map]. f_equal.
    - specialize (F 0 b eq_refl). rewrite <- F. f_equal. lia.
    - apply IH. intros k c C. specialize (F (S k) c C). rewrite <- F. f_equal. lia. }
  apply G. exact P.
Qed.

Lemma read_elem al m base vs i v : al = 1 -> packed_at size encode m base vs -> nth_error vs i = Some v ->
  read_at t decode al m (as_ptr t (element t base i)) = Some v.
Proof.
  intros -> P E. unfold read_at. rewrite ptr, any. f_equal. rewrite (bytes_at m base vs i v P E). apply decoded.
Qed.

(** Storing an element. *)
Definition outside (base : N) (n : nat) (m m' : N -> N) : Prop :=
  forall x, (x < base \/ base + N.of_nat (n * size) <= x)%N -> m' x = m x.
Lemma store_elem m base vs i v : packed_at size encode m base vs -> i < List.length vs ->
  packed_at size encode (store m (element t base i) (encode v)) base (put vs i v) /\
  outside base (List.length vs) m (store m (element t base i) (encode v)).
Proof.
  intros P L. rewrite elem. split.
  - intros j w E k b B. destruct (Nat.eq_dec i j) as [<-|D].
    + rewrite put_same in E by exact L. injection E as <-.
      replace (base + N.of_nat (i * size + k))%N with (base + N.of_nat (i * size) + N.of_nat k)%N by lia.
      apply store_in, B.
    + rewrite put_other in E by exact D. rewrite store_out; [exact (P j w E k b B)|]. rewrite (sized v).
      assert (K : k < size) by (rewrite <- (sized w); apply nth_error_Some; congruence).
      destruct (Nat.lt_ge_cases j i) as [I|I].
      * left. assert (S j * size <= i * size) by (apply Nat.mul_le_mono_r; lia). cbn [Nat.mul] in *. lia.
      * right. assert (S i * size <= j * size) by (apply Nat.mul_le_mono_r; lia). cbn [Nat.mul] in *. lia.
  - intros x X. apply store_out. rewrite (sized v).
    assert (S i * size <= List.length vs * size) by (apply Nat.mul_le_mono_r; lia). cbn [Nat.mul] in *. lia.
Qed.

Lemma at_nth (vs : list V) i : i < List.length vs -> nth_error vs i = Some (nth i vs (default o)).
Proof. intros L. apply nth_error_nth'. exact L. Qed.

Lemma step_exact base vs m c : packed_at size encode m base vs -> within (List.length vs) c ->
  exists m', step t encode decode o h0 base m c = Some (m', snd (call_spec o h0 vs c)) /\
  packed_at size encode m' base (fst (call_spec o h0 vs c)) /\ outside base (List.length vs) m m' /\
  List.length (fst (call_spec o h0 vs c)) = List.length vs.
Proof.
  intros P W.
  assert (A : align_of (packed_ty t) = 1) by apply packed_align.
  assert (G : forall i, i < List.length vs -> get t decode m (element t base i) = Some (nth i vs (default o))).
  { intros i L. apply (read_elem _ m base vs); [exact A|exact P|apply at_nth, L]. }
  assert (G1 : forall i, i < List.length vs -> read_at t decode 1 m (as_ptr t (element t base i)) = Some (nth i vs (default o))).
  { intros i L. apply (read_elem _ m base vs); [reflexivity|exact P|apply at_nth, L]. }
  assert (U : outside base (List.length vs) m m) by (intros x _; reflexivity).
  destruct c; cbn [within] in W; cbn [step call_spec fst snd].
  - exists m. rewrite G by exact W. cbn. auto.
  - exists m. unfold into_inner. rewrite G1 by exact W. cbn. auto.
  - destruct (store_elem m base vs i v P W) as [S1 S2]. eexists. unfold set, write_at, place. rewrite ptr, A, any. cbn.
    rewrite put_length. auto.
  - destruct (store_elem m base vs i v P W) as [S1 S2]. eexists. unfold replace. rewrite G1 by exact W.
    unfold write_at. rewrite ptr, any. cbn. rewrite put_length. auto.
  - destruct (store_elem m base vs i (default o) P W) as [S1 S2]. eexists. unfold take, replace. rewrite G1 by exact W.
    unfold write_at. rewrite ptr, any. cbn. rewrite put_length. auto.
  - destruct (store_elem m base vs i v P W) as [S1 S2]. eexists. unfold assign. rewrite A, any. cbn.
    rewrite put_length. auto.
  - destruct W as [Wi Wj]. destruct (store_elem m base vs i (nth j vs (default o)) P Wi) as [S1 S2].
    unfold clone. rewrite A, any, packed_size, (bytes_at m base vs j _ P (at_nth vs j Wj)).
    eexists. unfold assign. rewrite A, any. cbn. rewrite put_length. auto.
  - exists m. unfold packed_eq. rewrite !G by apply W. cbn. auto.
  - exists m. unfold packed_cmp. rewrite !G by apply W. cbn. auto.
  - exists m. unfold packed_partial_cmp. rewrite !G by apply W. cbn. auto.
  - exists m. unfold packed_hash. rewrite !G by apply W. cbn. auto.
  - exists m. unfold packed_debug. rewrite !G by apply W. cbn. auto.
  - exists m. unfold packed_display. rewrite !G by apply W. cbn. auto.
Qed.

Lemma within_mono {A} n (c : call A) : within n c -> forall n', n = n' -> within n' c.
Proof. intros W n' <-. exact W. Qed.

Lemma steps_exact base cs : forall vs m, packed_at size encode m base vs -> Forall (within (List.length vs)) cs ->
  exists m', steps t encode decode o h0 base m cs = Some (m', snd (calls_spec o h0 vs cs)) /\
  packed_at size encode m' base (fst (calls_spec o h0 vs cs)) /\ outside base (List.length vs) m m'.
Proof.
  induction cs as [|c cs IH]; intros vs m P F.
  - exists m. cbn. repeat split; auto.
  - inversion F as [|? ? W F']; subst. destruct (step_exact base vs m c P W) as (m1 & E & P1 & O1 & L1).
    cbn [calls_spec]. destruct (call_spec o h0 vs c) as [vs1 r]. cbn [fst snd] in *.
    destruct (IH vs1 m1 P1) as (m2 & E2 & P2 & O2).
    { eapply Forall_impl; [|exact F']. intros a Wa. rewrite L1. exact Wa. }
    exists m2. cbn [steps]. rewrite E, E2. destruct (calls_spec o h0 vs1 cs) as [vs2 rs]. cbn [fst snd] in *.
    split; [reflexivity|]. split; [exact P2|]. intros x X. rewrite O2 by (rewrite L1; exact X). apply O1, X.
Qed.
End Proofs.

(** C113.  An array of packed objects of any type (layout [t], representation
    [encode]), at any address [base], whatever its alignment: every sequence of
    calls is defined and gives back what the same calls on a plain list of the
    values give; afterwards the memory holds that list, without gaps, and no
    byte around the array has changed. *)
Theorem packed_array : forall (V H : Type) (t : ty) (encode : V -> list N) (decode : list N -> V)
    (o : ops V H) (h0 : H) (base : N) (cs : list (call V)) (vs : list V) (m : N -> N),
  (forall v, List.length (encode v) = size_of t) -> (forall v, decode (encode v) = v) ->
  packed_at (size_of t) encode m base vs -> Forall (within (List.length vs)) cs ->
  exists m',
    steps t encode decode o h0 base m cs = Some (m', snd (calls_spec o h0 vs cs)) /\
    packed_at (size_of t) encode m' base (fst (calls_spec o h0 vs cs)) /\
    forall x, (x < base \/ base + N.of_nat (List.length vs * size_of t) <= x)%N -> m' x = m x.
Proof. intros V H t encode decode o h0 base cs vs m A B. apply steps_exact; assumption. Qed.
Print Assumptions packed_array.

(** Two numbers of two bytes each at the odd address 7. *)
Example packed_array_case :
  let o := mkOps 0%N N.eqb N.compare (fun a b => Some (N.compare a b)) N.add (fun _ => "n"%string) (fun _ => "n"%string) in
  let enc v := [(v mod 256)%N; (v / 256 mod 256)%N] in
  let dec l := match l with [a; b] => (a + 256 * b)%N | _ => 0%N end in
  let m x := nth (N.to_nat x) [0; 0; 0; 0; 0; 0; 9; 1; 2; 3; 4; 9]%N 0%N in
  match steps (Prim 2 2) enc dec o 5%N 7 m [CGet 0; CReplace 1 0x0605%N; CCmp 0 1; CClone 0 1; CEq 0 1; CHash 0; CTake 1; CDebug 1; CGet 1] with
  | Some (m', rs) => (map m' [6; 7; 8; 9; 10; 11]%N, rs)
  | None => ([], [])
  end
  = ([9; 5; 6; 0; 0; 9]%N,
     [RValue 0x0201%N; RValue 0x0403%N; ROrder Lt; RUnit; RBool true; RHash (0x605 + 5)%N; RValue 0x605%N; RText "Packed(n)"; RValue 0%N])
  (* A copy that relied on the alignment of the wrapped type would be undefined. *)
  /\ read_at (Prim 2 2) dec 2 m 7 = None.
Proof. split; reflexivity. Qed.
