(** C117: coercions that rely on Polonius, with and without it. *)
From Verif Require Import Base CfgSpec CfgModel PolModel.
Local Open Scope N_scope.

Definition is_deref (c : coercion) : bool := match c with Deref _ => true | _ => false end.
Definition is_unsize (c : coercion) : bool := match c with Unsize _ => true | _ => false end.

Lemma chosen_on on p : on p = true -> chosen on p = [From].
Proof. intros H. unfold chosen, compiled; cbn. rewrite H. cbn. reflexivity. Qed.
Lemma chosen_off on p : on p = false -> chosen on p = [Transmute].
Proof. intros H. unfold chosen, compiled; cbn. rewrite H. cbn. reflexivity. Qed.

Lemma words_step t c u : coerces1 t c u -> is_deref c = false ->
  exists a b, words_of t = Some a /\ words_of u = Some b /\ (a <= b)%nat /\ (is_unsize c = false -> a = b) /\ (is_unsize c = true -> a < b)%nat.
Proof.
  intros [] D; try discriminate D; cbn; do 2 eexists; (split; [reflexivity|]); (split; [reflexivity|]);
  (split; [lia|]); (split; [try discriminate; reflexivity|]); try discriminate; intros _; lia.
Qed.

Lemma coerces_words t cs u : coerces t cs u -> existsb is_deref cs = false -> cs <> [] ->
  exists a b, words_of t = Some a /\ words_of u = Some b /\ (a <= b)%nat /\
    (existsb is_unsize cs = false -> a = b) /\ (existsb is_unsize cs = true -> a < b)%nat.
Proof.
  induction 1 as [t|t u w c cs H1 H2 IH]; [contradiction|]. cbn [existsb]. intros D _. apply orb_false_elim in D. destruct D as [D1 D2].
  destruct (words_step _ _ _ H1 D1) as [a [b [A [B [L [E X]]]]]]. destruct cs as [|c' cs].
  - inversion H2; subst. exists a, b. cbn. rewrite orb_false_r. repeat split; assumption.
  - destruct (IH D2 ltac:(discriminate)) as [a' [b' [A' [B' [L' [E' X']]]]]]. rewrite B in A'. injection A' as <-.
    exists a, b'. split; [exact A|]. split; [exact B'|]. split; [lia|]. split.
    + intros U. apply orb_false_elim in U. destruct U as [U1 U2]. rewrite (E U1). apply E', U2.
    + intros U. apply orb_true_iff in U. destruct U as [U|U]; [specialize (X U)|specialize (X' U)]; lia.
Qed.

Lemma coerce_id mem cs : forall v, existsb is_deref cs = false -> existsb is_unsize cs = false -> coerce mem cs v = v.
Proof.
  induction cs as [|c cs IH]; intros v D U; [reflexivity|]. cbn in D, U. apply orb_false_elim in D. apply orb_false_elim in U.
  destruct D as [D1 D2], U as [U1 U2]. unfold coerce. cbn [fold_left]. fold (coerce mem cs (coerce1 mem c v)).
  destruct c; try discriminate; apply IH; assumption.
Qed.

(** C117, the part that holds: for all coercions that dereference nothing, the
    macro yields the same value in every build in which it compiles, and that
    is the value that was given; it compiles without Polonius unless an array
    becomes a slice.
    The full statement is that of [coerce_same_refuted]. *)
Theorem coerce_same_partial : forall on p mem from to cs v,
  coerces from cs to -> (exists n, words_of from = Some n) -> existsb is_deref cs = false ->
  (on p = true -> coerce_unsafe on p mem from to cs v = Some (coerce mem cs v)) /\
  (on p = false -> existsb is_unsize cs = false -> coerce_unsafe on p mem from to cs v = Some v) /\
  (on p = false -> existsb is_unsize cs = true -> coerce_unsafe on p mem from to cs v = None) /\
  (existsb is_unsize cs = false -> coerce mem cs v = v) /\
  (forall r, on p = false -> coerce_unsafe on p mem from to cs v = Some r -> r = coerce mem cs v).
Proof.
  intros on p mem from to cs v C [n W] D.
  assert (X : on p = false -> coerce_unsafe on p mem from to cs v = if existsb is_unsize cs then None else Some v).
  { intros P. unfold coerce_unsafe. rewrite (chosen_off _ _ P). destruct cs as [|c cs].
    - inversion C; subst. rewrite W, Nat.eqb_refl. reflexivity.
    - destruct (coerces_words _ _ _ C D ltac:(discriminate)) as [a [b [A [B [L [E U]]]]]]. rewrite A, B.
      destruct (existsb is_unsize (c :: cs)).
      + specialize (U eq_refl). destruct (Nat.eqb_spec a b); [lia|reflexivity].
      + rewrite (E eq_refl), Nat.eqb_refl. reflexivity. }
  split; [intros P; unfold coerce_unsafe; rewrite (chosen_on _ _ P); reflexivity|].
  split; [intros P U; rewrite (X P), U; reflexivity|]. split; [intros P U; rewrite (X P), U; reflexivity|].
  split; [intros U; apply coerce_id; assumption|].
  intros r P H. rewrite (X P) in H. destruct (existsb is_unsize cs) eqn:U; [discriminate|]. injection H as <-. symmetry. apply coerce_id; assumption.
Qed.
(** A mutable reference as shared pointer. *)
Example coerce_same_met :
  coerces (Reference true Number) [Share; ToPointer] (Pointer false Number) /\
  coerce_unsafe (fun _ => false) 0 (fun _ => 0) (Reference true Number) (Pointer false Number) [Share; ToPointer] [4096] = Some [4096] /\
  coerce_unsafe (fun _ => true) 0 (fun _ => 0) (Reference true Number) (Pointer false Number) [Share; ToPointer] [4096] = Some [4096] /\
  coerce_unsafe (fun _ => false) 0 (fun _ => 0) (Reference true (Array 3 Number)) (Reference true (Slice Number)) [Unsize 3] [4096] = None.
Proof. split; [repeat econstructor|]. repeat split. Qed.

(** The full statement is false: with a coercion that dereferences, the macro
    compiles with and without Polonius, and refers to different objects. *)
Theorem coerce_same_refuted : ~ forall on on' p mem from to cs v r r',
  coerces from cs to -> (exists n, words_of from = Some n) -> on p = true -> on' p = false ->
  coerce_unsafe on p mem from to cs v = Some r -> coerce_unsafe on' p mem from to cs v = Some r' -> r = r'.
Proof.
  intros H. specialize (H (fun _ => true) (fun _ => false) 0%nat (fun a => if a =? 16 then 32 else 0)
    (Reference false (Boxed Number)) (Reference false Number) [Deref Number] [16] [32] [16]).
  assert (X : [32] = [16]); [|discriminate X]. apply H; try reflexivity; [repeat econstructor|exists 1%nat; reflexivity].
Qed.

(** It is so for every box, and every reference, of an object that is not a
    slice: without Polonius the result refers to the box, with it to what is in
    the box. *)
Theorem coerce_deref_differs : forall on p mem m t u to a,
  coerces1 (Reference m u) (Deref t) to -> words_to t = 1%nat ->
  (on p = true -> coerce_unsafe on p mem (Reference m u) to [Deref t] [a] = Some [mem a]) /\
  (on p = false -> coerce_unsafe on p mem (Reference m u) to [Deref t] [a] = Some [a]).
Proof.
  intros on p mem m t u to a C W. unfold coerce_unsafe. split; intros P.
  - rewrite (chosen_on _ _ P). unfold coerce. cbn [fold_left coerce1]. rewrite W. cbn. rewrite N.add_0_r. reflexivity.
  - rewrite (chosen_off _ _ P). inversion C; subst; cbn [words_of]; rewrite W; reflexivity.
Qed.
Example coerce_deref_met :
  coerces1 (Reference true (Boxed Number)) (Deref Number) (Reference true Number) /\
  coerces1 (Reference false (Reference false (Array 2 Number))) (Deref (Array 2 Number)) (Reference false (Array 2 Number)) /\
  coerce_unsafe (fun _ => true) 0 (fun _ => 32) (Reference true (Boxed Number)) (Reference true Number) [Deref Number] [16] = Some [32].
Proof. repeat split; constructor. Qed.

Print Assumptions coerce_same_partial.
Print Assumptions coerce_same_refuted.
Print Assumptions coerce_deref_differs.
