(** Proofs about subtyping and brands. *)
From Coq Require Import String Lia Arith.
From Verif Require Import Base BrandSpec BrandModel.

Lemma outlives_trans a b c : outlives a b -> outlives b c -> outlives a c.
Proof.
  intros H K. destruct H; inversion K; subst; try (constructor; lia); constructor.
Qed.
Lemma outlives_bound n a : outlives (Bound n) a -> outlives a (Bound n) -> a = Bound n.
Proof. intros H K. inversion H; subst; [easy|]. inversion K. Qed.

Theorem sub_refl t : sub t t.
Proof. induction t; try (constructor; easy || constructor); try constructor.
  - intros l. now apply sub_instance with l.
Qed.

Lemma general_inv t f : sub t (ForAll f) -> forall l, sub t (f l).
Proof.
  intros H. remember (ForAll f) as u eqn:E. revert f E. induction H; intros g E l'; try easy.
  - subst. apply sub_instance with l. now apply IHsub.
  - injection E as ->. apply H.
Qed.

Ltac through :=
  let a := fresh "a" in let c := fresh "c" in let H := fresh "H" in
  let K := fresh "K" in let M := fresh "M" in let mid := fresh "mid" in
  intros a c H; revert c;
  match type of H with sub _ ?m => remember m as mid eqn:M end;
  induction H; try discriminate M;
  try (intros; eapply sub_instance; solve [eauto]);
  injection M; intros; subst; clear M;
  match goal with |- sub _ ?c => match goal with K' : sub ?m c |- _ => rename K' into K end end;
  match type of K with sub ?m _ => remember m as mid eqn:M in K end;
  induction K; try discriminate M;
  try (apply sub_general; intros; solve [eauto]);
  injection M; intros; subst; clear M.

Theorem sub_trans b : forall a c, sub a b -> sub b c -> sub a c.
Proof.
  induction b.
  - intros a c H. revert c. remember Int as m eqn:M. induction H; try discriminate M; intros c K; [easy|].
    apply sub_instance with l. now apply IHsub.
  - intros a c H. revert c. remember Unit as m eqn:M. induction H; try discriminate M; intros c K; [easy|].
    apply sub_instance with l. now apply IHsub.
  - through. constructor; eauto using outlives_trans.
  - through. constructor; eauto using outlives_trans.
  - through. constructor; eauto.
  - intros a c A K. pose proof (general_inv _ _ A) as G.
    remember (ForAll f) as m eqn:M in K. induction K; try discriminate M.
    + injection M as ->. eapply H; [apply G|eassumption].
    + apply sub_general. auto.
  - through. constructor; eauto.
  - through. constructor; eauto.
  - through. constructor; eauto.
  - through. constructor; eauto.
  - through. constructor; eauto.
  - through. constructor; eauto.
Qed.

(* ------------------------------------------------------------------ *)

Lemma adt_inv n m t u : sub (Adt n t) (Adt m u) -> n = m /\ sub t u.
Proof. intros H. now inversion H. Qed.
Lemma phantom_inv t u : sub (PhantomData t) (PhantomData u) -> sub t u.
Proof. intros H. now inversion H. Qed.
Lemma array_inv n t u : sub (Array n t) (Array n u) -> sub t u.
Proof. intros H. now inversion H. Qed.
Lemma fn_inv a r b q : sub (Fn a r) (Fn b q) -> sub b a /\ sub r q.
Proof. intros H. now inversion H. Qed.
Lemma const_inv t u : sub (ConstPtr t) (ConstPtr u) -> sub t u.
Proof. intros H. now inversion H. Qed.
Lemma mut_inv t u : sub (MutPtr t) (MutPtr u) -> sub t u /\ sub u t.
Proof. intros H. now inversion H. Qed.
Lemma ref_inv a b t u : sub (Ref a t) (Ref b u) -> outlives a b /\ sub t u.
Proof. intros H. now inversion H. Qed.

Lemma phantom_invariant_iff : invariant PhantomInvariant.
Proof.
  intros t u. split.
  - intros [_ H]%adt_inv. apply phantom_inv, fn_inv in H. tauto.
  - intros [A B]. now repeat constructor.
Qed.
Lemma covariant_type_iff : covariant CovariantType.
Proof.
  intros t u. split.
  - intros [_ H]%adt_inv. now apply array_inv, const_inv in H.
  - intros A. now repeat constructor.
Qed.
Lemma contravariant_type_iff : contravariant ContravariantType.
Proof.
  intros t u. split.
  - intros [_ H]%adt_inv. now apply array_inv, fn_inv in H.
  - intros A. now repeat constructor.
Qed.
Lemma invariant_type_iff : invariant InvariantType.
Proof.
  intros t u. split.
  - intros [_ H]%adt_inv. now apply array_inv, mut_inv in H.
  - intros [A B]. now repeat constructor.
Qed.

Lemma lifetime_iff a b :
  sub (PhantomInvariantLifetime a) (PhantomInvariantLifetime b) <-> outlives a b /\ outlives b a.
Proof.
  split.
  - intros [_ H]%adt_inv. apply phantom_invariant_iff in H as [A B].
    apply ref_inv in A, B. tauto.
  - intros [A B]. unfold PhantomInvariantLifetime. constructor. apply phantom_invariant_iff.
    split; now repeat constructor.
Qed.
Lemma id_iff a b : sub (Id a) (Id b) <-> outlives a b /\ outlives b a.
Proof.
  rewrite <- lifetime_iff. split; [now intros [_ H]%adt_inv|]. intros H. now constructor.
Qed.
Lemma unique_iff a b : sub (Unique a) (Unique b) <-> outlives a b /\ outlives b a.
Proof.
  rewrite <- id_iff. split; [now intros [_ H]%adt_inv|]. intros H. now constructor.
Qed.

Lemma outlives_antisym a b : outlives a b /\ outlives b a <-> a = b.
Proof.
  split; [|intros ->; now repeat constructor]. intros [H K].
  inversion H; subst; try easy; inversion K; subst; try easy.
  f_equal. lia.
Qed.

Lemma gives_sub n t u : sub t u -> well_formed u -> gives n t -> gives n u.
Proof.
  intros H. induction H; cbn [well_formed gives]; intros W G; auto.
  - tauto.
  - destruct W, G; auto.
  - destruct W as [W N]. destruct G as [G|G]; [|right; auto].
    left. injection G as -> ->. specialize (N eq_refl) as [a ->].
    apply lifetime_iff, outlives_antisym in H. now rewrite <- H.
Qed.

(* ------------------------------------------------------------------ *)

Definition owner (v : value) : nat := match v with VUnique b | VId b => b end.
Definition var (s : state) (i : nat) (v : value) : Prop := nth_error (vars s) i = Some (Some v).

Lemma var_put s v i x : var (put s v) i x -> var s i x \/ i = length (vars s) /\ x = v.
Proof.
  unfold var, put. cbn. intros H. destruct (le_lt_dec (length (vars s)) i) as [L|L].
  - rewrite nth_error_app2 in H by easy. right.
    destruct (i - length (vars s)) as [|[|k]] eqn:E; cbn in H; try easy.
    split; [lia|]. now injection H.
  - rewrite nth_error_app1 in H by easy. now left.
Qed.
Lemma var_take s j i x v : var s j v -> var (take s j) i x -> i <> j /\ var s i x.
Proof.
  unfold var, take. cbn. intros V.
  assert (J : j < length (vars s)) by (apply nth_error_Some; now rewrite V).
  destruct (lt_eq_lt_dec i j) as [[L|E]|L]; intros H.
  - rewrite nth_error_app1 in H by (rewrite firstn_length; lia). split; [lia|].
    rewrite <- (firstn_skipn j (vars s)). rewrite nth_error_app1; [easy|]. rewrite firstn_length. lia.
  - subst i. rewrite nth_error_app2 in H by (rewrite firstn_length; lia).
    rewrite firstn_length in H. replace (j - Nat.min j (length (vars s))) with 0 in H by lia. easy.
  - split; [lia|]. rewrite nth_error_app2 in H by (rewrite firstn_length; lia).
    rewrite firstn_length in H. replace (i - Nat.min j (length (vars s))) with (S (i - S j)) in H by lia.
    cbn [nth_error] in H. rewrite <- (firstn_skipn (S j) (vars s)).
    rewrite nth_error_app2 by (rewrite firstn_length; lia). rewrite firstn_length.
    replace (i - Nat.min (S j) (length (vars s))) with (i - S j) by lia. easy.
Qed.

(** The brands in use are those handed out; a [Unique] is alone. *)
Definition sound (s : state) : Prop :=
  (forall i v, var s i v -> owner v < brands s)
  /\ forall i j b v, var s i (VUnique b) -> var s j v -> owner v = b -> i = j.

Lemma step_sound s o s' : sound s -> step s o = Some s' -> sound s'.
Proof.
  intros [A B] E. destruct o as [|i|i|i]; cbn in E.
  - injection E as <-. split.
    + intros i v [V|[_ ->]]%var_put; cbn; [|lia]. specialize (A i v V). lia.
    + intros i j b v [V|[-> [= ->]]]%var_put [W|[-> ->]]%var_put O; cbn in *; try easy.
      * now apply (B i j b v).
      * specialize (A i _ V). cbn in A. lia.
      * specialize (A j _ W). lia.
  - destruct (nth_error (vars s) i) as [[[b|b]|]|] eqn:N; try easy. injection E as <-.
    assert (U : forall j v, j <> i -> var s j v -> owner v <> b).
    { intros j v J V O. apply J. symmetry. now apply (B i j b v). }
    split.
    + intros j v [V|[_ ->]]%var_put; cbn.
      * apply (var_take s i j v _ N) in V as [_ V]. now apply A with j.
      * apply (A i _ N).
    + intros j k c v [V|[-> X]]%var_put [W|[-> ->]]%var_put O; try discriminate X.
      * apply (var_take s i j _ _ N) in V as [_ V]. apply (var_take s i k _ _ N) in W as [_ W].
        now apply (B j k c v).
      * apply (var_take s i j _ _ N) in V as [J V]. cbn in O. subst c.
        exfalso. now apply (U j (VUnique b)).
  - destruct (nth_error (vars s) i) as [[[b|b]|]|] eqn:N; try easy; injection E as <-.
    + assert (U : forall j v, j <> i -> var s j v -> owner v <> b).
      { intros j v J V O. apply J. symmetry. now apply (B i j b v). }
      split.
      * intros j v [V|[_ ->]]%var_put; cbn.
        -- apply (var_take s i j v _ N) in V as [_ V]. now apply A with j.
        -- apply (A i _ N).
      * intros j k c v [V|[-> X]]%var_put [W|[-> ->]]%var_put O.
        -- apply (var_take s i j _ _ N) in V as [_ V]. apply (var_take s i k _ _ N) in W as [_ W].
           now apply (B j k c v).
        -- apply (var_take s i j _ _ N) in V as [J V]. cbn in O. subst c.
           exfalso. now apply (U j (VUnique b)).
        -- injection X as ->. apply (var_take s i k _ _ N) in W as [K W]. exfalso. now apply (U k v).
        -- easy.
    + split.
      * intros j v [V|[_ ->]]%var_put; cbn; [now apply A with j|]. apply (A i _ N).
      * intros j k c v [V|[-> X]]%var_put [W|[-> ->]]%var_put O; try discriminate X.
        -- now apply (B j k c v).
        -- cbn in O. subst c. pose proof (B j i b _ V N eq_refl) as ->.
           unfold var in V. rewrite N in V. discriminate V.
  - destruct (nth_error (vars s) i) as [[w|]|] eqn:N; try easy. injection E as <-. split.
    + intros j v V. apply (var_take s i j v _ N) in V as [_ V]. now apply A with j.
    + intros j k c v V W O. apply (var_take s i j _ _ N) in V as [_ V].
      apply (var_take s i k _ _ N) in W as [_ W]. now apply (B j k c v).
Qed.

Lemma run_sound l : forall s s', sound s -> run s l = Some s' -> sound s'.
Proof.
  induction l as [|o l IH]; cbn; intros s s' S E; [now injection E as <-|].
  destruct (step s o) as [s1|] eqn:T; [|easy]. apply IH with s1; [|easy].
  now apply step_sound with s o.
Qed.
Lemma start_sound : sound start.
Proof. split; intros [|i]; intros; easy. Qed.

Lemma run_app l r s : run s (l ++ r) = match run s l with Some s => run s r | None => None end.
Proof. revert s. induction l as [|o l IH]; intros s; cbn; [easy|]. destruct (step s o); auto. Qed.

(** An [Id] comes from a [Unique] of that brand that was given up. *)
Lemma id_origin l : forall s i b, run start l = Some s -> var s i (VId b) ->
  exists l1 j l2 s1, l = l1 ++ Into j :: l2 /\ run start l1 = Some s1 /\ var s1 j (VUnique b).
Proof.
  induction l as [|o l IH] using rev_ind; intros s i b E V.
  - injection E as <-. now destruct i.
  - rewrite run_app in E. destruct (run start l) as [s0|] eqn:R; [|easy]. cbn in E.
    assert (K : forall i', var s0 i' (VId b) -> exists l1 j l2 s1,
      l ++ [o] = l1 ++ Into j :: l2 /\ run start l1 = Some s1 /\ var s1 j (VUnique b)).
    { intros i' V'. destruct (IH s0 i' b eq_refl V') as (l1 & j & l2 & s1 & -> & A & B).
      exists l1, j, (l2 ++ [o]), s1. split; [|easy]. now rewrite <- app_assoc. }
    destruct o as [|j|j|j]; cbn in E.
    + injection E as <-. apply var_put in V as [V|[_ V]]; [|easy]. now apply K with i.
    + destruct (nth_error (vars s0) j) as [[[c|c]|]|] eqn:N; try easy. injection E as <-.
      apply var_put in V as [V|[_ V]].
      * apply (var_take s0 j i _ _ N) in V as [_ V]. now apply K with i.
      * injection V as ->. exists l, j, [], s0. easy.
    + destruct (nth_error (vars s0) j) as [[[c|c]|]|] eqn:N; try easy; injection E as <-.
      * apply var_put in V as [V|[_ V]]; [|easy]. apply (var_take s0 j i _ _ N) in V as [_ V]. now apply K with i.
      * apply var_put in V as [V|[_ V]]; [now apply K with i|]. injection V as ->. now apply K with j.
    + destruct (nth_error (vars s0) j) as [[w|]|] eqn:N; try easy; injection E as <-.
      apply (var_take s0 j i _ _ N) in V as [_ V]. now apply K with i.
Qed.
