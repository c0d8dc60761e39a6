(** Proofs about thread safety (ThreadModel.v). *)
From Verif Require Import Base ThreadSpec ThreadModel.

Lemma nth_upd {A} (l : list A) i j v : i < length l ->
  nth_error (upd l i v) j = if j =? i then Some v else nth_error l j.
Proof.
  intros L. unfold upd. destruct (Nat.eqb_spec j i) as [->|N].
  - rewrite nth_error_app2; rewrite firstn_length_le by lia; [|lia]. now rewrite Nat.sub_diag.
  - destruct (Nat.lt_ge_cases j i) as [J|J].
    + rewrite nth_error_app1 by (rewrite firstn_length_le by lia; lia).
      rewrite <- (firstn_skipn i l) at 2. rewrite nth_error_app1 by (rewrite firstn_length_le by lia; lia). easy.
    + rewrite nth_error_app2; rewrite firstn_length_le by lia; [|lia].
      destruct (j - i) as [|d] eqn:D; [lia|]. cbn [nth_error].
      rewrite <- (firstn_skipn (S i) l) at 2. rewrite nth_error_app2; rewrite firstn_length_le by lia; [|lia].
      f_equal. lia.
Qed.

Lemma var_lt w i x : var w i = Some x -> i < length (vars w).
Proof.
  unfold var. intros V. apply nth_error_Some. destruct (nth_error (vars w) i); discriminate.
Qed.

Lemma var_set w i v j : i < length (vars w) -> var (set w i v) j = if j =? i then v else var w j.
Proof.
  intros L. unfold var, set. cbn [vars]. rewrite nth_upd by easy. destruct (j =? i); [|easy]. now destruct v.
Qed.

Lemma var_add w x j : var (add w x) j = if j =? length (vars w) then Some x else var w j.
Proof.
  unfold var, add. cbn [vars]. destruct (Nat.eqb_spec j (length (vars w))) as [->|N].
  - rewrite nth_error_app2, Nat.sub_diag by lia. easy.
  - destruct (Nat.lt_ge_cases j (length (vars w))) as [L|L]; [now rewrite nth_error_app1|].
    rewrite nth_error_app2 by lia. destruct (j - length (vars w)) as [|[|d]] eqn:D; [lia|cbn|cbn].
    all: rewrite (proj2 (nth_error_None (vars w) j)) by lia; easy.
Qed.

Lemma var_fresh w j x : var w j = Some x -> (j =? length (vars w)) = false.
Proof. intros V. apply Nat.eqb_neq. pose proof (var_lt _ _ _ V). lia. Qed.

Definition unique (x : pointer) : bool :=
  negb (lent x) && match type x with Plain Mut | Plain Box | Once Mut | Once Box => true | _ => false end.

Record inv (w : world) : Prop := {
  i_object : forall i x, var w i = Some x -> object x < length (things w);
  i_parent : forall i x j, var w i = Some x -> parent x = Some j ->
    j < i /\ exists y, var w j = Some y /\ object y = object x;
  i_lent : forall i x, var w i = Some x -> lent x = true ->
    exists j y, parent x = Some j /\ var w j = Some y /\ lent y = false /\ type y = type x;
  i_sync : forall i x t, var w i = Some x -> lent x = true ->
    nth_error (things w) (object x) = Some t -> sync (type x) (what t) = true;
  i_unique : forall i x j y, var w i = Some x -> unique x = true -> var w j = Some y -> j <> i ->
    object y = object x -> parent y <> None;
  i_shared : shared_safely w }.

Lemma sole w i x : inv w -> var w i = Some x -> unique x = true -> unborrowed w i = true ->
  forall j y, var w j = Some y -> object y = object x -> j = i.
Proof.
  intros I X U B j. induction j as [j IH] using lt_wf_ind. intros y Y O.
  destruct (Nat.eq_dec j i) as [->|N]; [easy|exfalso].
  pose proof (i_unique w I i x j y X U Y N O) as P. destruct (parent y) as [k|] eqn:K; [|easy].
  destruct (i_parent w I j y k Y K) as (L & z & Z & OZ).
  assert (k = i) as -> by (apply (IH k L z Z); congruence).
  unfold unborrowed in B. apply negb_true_iff in B.
  assert (existsb (borrows i) (vars w) = true) as E; [|congruence].
  apply existsb_exists. exists (Some y). split.
  - unfold var in Y. destruct (nth_error (vars w) j) as [[y'|]|] eqn:Q; try discriminate.
    injection Y as ->. eapply nth_error_In, Q.
  - cbn. rewrite K. apply Nat.eqb_refl.
Qed.

Lemma no_child w i j y : unborrowed w i = true -> var w j = Some y -> parent y <> Some i.
Proof.
  intros B Y P. unfold unborrowed in B. apply negb_true_iff in B.
  assert (existsb (borrows i) (vars w) = true) as E; [|congruence].
  apply existsb_exists. exists (Some y). split.
  - unfold var in Y. destruct (nth_error (vars w) j) as [[y'|]|] eqn:Q; try discriminate.
    injection Y as ->. eapply nth_error_In, Q.
  - cbn. rewrite P. apply Nat.eqb_refl.
Qed.

(** A new variable that is derived from one there is. *)
Lemma inv_add w i x y : inv w -> var w i = Some x -> object y = object x -> unique y = false ->
  (forall t, nth_error (things w) (object x) = Some t -> shareable (what t) = false -> thread y = thread x) ->
  (forall j, parent y = Some j -> exists z, var w j = Some z /\ object z = object y) ->
  (parent y = None -> forall j z, var w j = Some z -> unique z = true -> object z <> object y) ->
  (lent y = true -> exists j z, parent y = Some j /\ var w j = Some z /\ lent z = false /\ type z = type y) ->
  (forall t, lent y = true -> nth_error (things w) (object y) = Some t -> sync (type y) (what t) = true) ->
  inv (add w y).
Proof.
  intros I X O U TH PA NP LE SY. split.
  - intros j z. rewrite var_add. cbn [add things]. destruct (j =? length (vars w)); [|apply (i_object w I)].
    intros E. injection E as <-. rewrite O. eapply (i_object w I), X.
  - intros j z k. rewrite !var_add. destruct (Nat.eqb_spec j (length (vars w))) as [->|N].
    + intros E P. injection E as <-. destruct (PA k P) as (z & Z & OZ). pose proof (var_lt _ _ _ Z). split; [easy|].
      exists z. rewrite (var_fresh _ _ _ Z). easy.
    + intros Z P. destruct (i_parent w I j z k Z P) as (L & v & V & OV). split; [easy|].
      exists v. rewrite (var_fresh _ _ _ V). easy.
  - intros j z. rewrite var_add. destruct (j =? length (vars w)).
    + intros E L. injection E as <-. destruct (LE L) as (k & v & P & V & R). exists k, v.
      rewrite var_add, (var_fresh _ _ _ V). easy.
    + intros Z L. destruct (i_lent w I j z Z L) as (k & v & P & V & R). exists k, v.
      rewrite var_add, (var_fresh _ _ _ V). easy.
  - intros j z t. rewrite var_add. cbn [add things]. destruct (j =? length (vars w)); [|apply (i_sync w I)].
    intros E. injection E as <-. apply SY.
  - intros j z k v. rewrite !var_add. destruct (Nat.eqb_spec j (length (vars w))) as [->|N].
    + intros E UZ. injection E as <-. congruence.
    + intros Z UZ. destruct (Nat.eqb_spec k (length (vars w))) as [->|NK].
      * intros E _ OV P. injection E as <-. exact (NP P j z Z UZ (eq_sym OV)).
      * intros V NE OV. exact (i_unique w I j z k v Z UZ V NE OV).
  - intros j k z v t. rewrite !var_add. cbn [add things].
    destruct (j =? length (vars w)); destruct (k =? length (vars w)); intros Z V OV T S.
    + congruence.
    + injection Z as <-. rewrite (TH t) by (rewrite <- ?O; easy). apply (i_shared w I i k x v t X V); congruence.
    + injection V as <-. rewrite (TH t) by (rewrite <- ?O, <- ?OV; easy). apply (i_shared w I j i z x t Z X); congruence.
    + apply (i_shared w I j k z v t Z V OV T S).
Qed.

Lemma ty_dec (a b : ty) : {a = b} + {a <> b}.
Proof. repeat decide equality. Qed.

(** A variable that changes, but keeps what it leads to and what it borrows. *)
Lemma inv_set w i x y : inv w -> var w i = Some x -> object y = object x -> parent y = parent x -> lent y = lent x ->
  (type y <> type x -> lent x = false /\ forall j z, var w j = Some z -> parent z <> Some i) ->
  (unique y = true -> unique x = true \/ forall j z, var w j = Some z -> object z = object x -> j = i) ->
  (thread y = thread x \/ (forall t, nth_error (things w) (object x) = Some t -> shareable (what t) = true)
   \/ forall j z, var w j = Some z -> object z = object x -> j = i) ->
  inv (set w i (Some y)).
Proof.
  intros I X O P LN TY U TH. pose proof (var_lt _ _ _ X) as L. split.
  - intros j z. rewrite var_set by easy. cbn [set things]. destruct (j =? i); [|apply (i_object w I)].
    intros E. injection E as <-. rewrite O. eapply (i_object w I), X.
  - assert (G : forall j, (exists z, var w j = Some z /\ object z = object x) ->
      exists z, var (set w i (Some y)) j = Some z /\ object z = object x).
    { intros j (z & Z & OZ). rewrite var_set by easy. destruct (j =? i) eqn:E; [exists y|exists z]; easy. }
    intros j z k. rewrite var_set by easy. destruct (Nat.eqb_spec j i) as [->|N].
    + intros E PZ. injection E as <-. rewrite P in PZ. destruct (i_parent w I i x k X PZ) as (K & E).
      split; [easy|]. rewrite O. now apply G.
    + intros Z PZ. destruct (i_parent w I j z k Z PZ) as (K & v & V & OV). split; [easy|].
      rewrite var_set by easy. destruct (Nat.eqb_spec k i) as [->|NK]; [|exists v; easy].
      exists y. split; [easy|]. congruence.
  - intros j z. rewrite var_set by easy. destruct (Nat.eqb_spec j i) as [->|N].
    + intros E LZ. injection E as <-. rewrite LN in LZ. destruct (i_lent w I i x X LZ) as (k & v & PV & V & LV & TV).
      destruct (Nat.eq_dec k i) as [->|NK]; [congruence|].
      exists k, v. rewrite P, var_set by easy. rewrite (proj2 (Nat.eqb_neq k i) NK).
      repeat split; try easy.
      destruct (ty_dec (type y) (type x)) as [E|E]; [congruence|]. destruct (TY E) as [F _]. congruence.
    + intros Z LZ. destruct (i_lent w I j z Z LZ) as (k & v & PV & V & LV & TV).
      rewrite ?var_set by easy. destruct (Nat.eq_dec k i) as [->|NK].
      * exists i, y. rewrite var_set, Nat.eqb_refl by easy. assert (v = x) as -> by congruence.
        repeat split; try congruence.
        rewrite <- TV. destruct (ty_dec (type y) (type x)) as [E|E]; [easy|]. destruct (TY E) as [_ F].
        now elim (F j z Z).
      * exists k, v. rewrite var_set by easy. now rewrite (proj2 (Nat.eqb_neq k i) NK).
  - intros j z t. rewrite var_set by easy. cbn [set things]. destruct (j =? i); [|apply (i_sync w I)].
    intros E LZ T. injection E as <-. rewrite LN in LZ. rewrite O in T.
    pose proof (i_sync w I i x t X LZ T) as S.
    destruct (ty_dec (type y) (type x)) as [E|E]; [congruence|]. destruct (TY E) as [F _]. congruence.
  - intros j z k v. rewrite !var_set by easy. destruct (Nat.eqb_spec j i) as [->|N].
    + intros E UZ. injection E as <-. destruct (Nat.eqb_spec k i) as [->|NK]; [congruence|].
      intros V _ OV. destruct (U UZ) as [UX|AL]; [|exfalso; apply NK; apply (AL k v V); congruence].
      apply (i_unique w I i x k v X UX V NK). congruence.
    + intros Z UZ. destruct (Nat.eqb_spec k i) as [->|NK].
      * intros E NE OV. injection E as <-. rewrite P. apply (i_unique w I j z i x Z UZ X NE). congruence.
      * intros V NE OV. exact (i_unique w I j z k v Z UZ V NE OV).
  - intros j k z v t. rewrite !var_set by easy. cbn [set things].
    assert (G : forall k v, k <> i -> var w k = Some v -> object v = object x ->
      nth_error (things w) (object x) = Some t -> shareable (what t) = false -> thread v = thread y).
    { intros k0 v0 NK V OV T S. destruct TH as [TH|[TH|TH]].
      - rewrite TH. apply (i_shared w I k0 i v0 x t V X OV); congruence.
      - rewrite (TH t T) in S. discriminate.
      - exfalso. apply NK. exact (TH k0 v0 V OV). }
    destruct (Nat.eqb_spec j i) as [->|NJ]; destruct (Nat.eqb_spec k i) as [->|NK]; intros Z V OV T S.
    + congruence.
    + injection Z as <-. symmetry. apply (G k v NK V); congruence.
    + injection V as <-. apply (G j z NJ Z); congruence.
    + apply (i_shared w I j k z v t Z V OV T S).
Qed.

Lemma inv_drop w i : inv w -> i < length (vars w) -> unborrowed w i = true -> inv (set w i None).
Proof.
  intros I L B.
  assert (V : forall j z, var (set w i None) j = Some z -> var w j = Some z /\ j <> i).
  { intros j z. rewrite var_set by easy. destruct (Nat.eqb_spec j i); [discriminate|easy]. }
  assert (K : forall j z, var w j = Some z -> j <> i -> var (set w i None) j = Some z).
  { intros j z Z N. rewrite var_set by easy. now rewrite (proj2 (Nat.eqb_neq j i) N). }
  assert (NC : forall j z k, var w j = Some z -> parent z = Some k -> k <> i).
  { intros j z k Z P ->. exact (no_child w i j z B Z P). }
  split.
  - intros j z Z. apply V in Z. cbn [set things]. exact (i_object w I j z (proj1 Z)).
  - intros j z k Z P. apply V in Z. destruct Z as [Z N]. destruct (i_parent w I j z k Z P) as (LK & v & VV & OV).
    split; [easy|]. exists v. split; [|easy]. apply K; [easy|exact (NC j z k Z P)].
  - intros j z Z LZ. apply V in Z. destruct Z as [Z N]. destruct (i_lent w I j z Z LZ) as (k & v & P & VV & R).
    exists k, v. split; [easy|]. split; [|easy]. apply K; [easy|exact (NC j z k Z P)].
  - intros j z t Z. apply V in Z. cbn [set things]. exact (i_sync w I j z t (proj1 Z)).
  - intros j z k v Z U Y. apply V in Z, Y. exact (i_unique w I j z k v (proj1 Z) U (proj1 Y)).
  - intros j k z v t Z Y. apply V in Z, Y. cbn [set things]. exact (i_shared w I j k z v t (proj1 Z) (proj1 Y)).
Qed.

Lemma same_kind_eq a b : same_kind a b = true -> a = b.
Proof. now destruct a, b. Qed.
Lemma same_type_eq a b : same_type a b = true -> a = b.
Proof. destruct a, b; try discriminate; intros E; apply same_kind_eq in E; congruence. Qed.

Lemma inv_start : inv start.
Proof.
  assert (E : forall i, var start i = None) by (intros [|i]; easy).
  split; try (intros i x j V; rewrite E in V; discriminate); try (intros i x V; rewrite E in V; discriminate).
  - intros i x j y V. rewrite E in V. discriminate.
  - intros i j x y t V. rewrite E in V. discriminate.
Qed.

Lemma unique_copyable x : copyable (type x) = true -> unique x = false.
Proof. unfold unique. destruct (lent x); [easy|]. now destruct (type x) as [[]|[]|[]]. Qed.

Lemma reference_case x i : (lent x = true \/ type x = Plain Ref) /\ parent (reference x i) = parent x
  \/ lent x = false /\ parent (reference x i) = Some i.
Proof. unfold reference. cbn. destruct (lent x); [auto|]. destruct (type x) as [[]|[]|[]]; auto. Qed.

Lemma no_unique w i x : inv w -> var w i = Some x -> unique x = false -> parent x = None ->
  forall j z, var w j = Some z -> unique z = true -> object z <> object x.
Proof.
  intros I X U P j z Z UZ O. destruct (Nat.eq_dec i j) as [->|N]; [congruence|].
  apply (i_unique w I j z i x Z UZ X N); [now symmetry|easy].
Qed.

Lemma alone_spec w i o : alone w i o = true -> forall j z, var w j = Some z -> object z = o -> j = i.
Proof.
  intros A j z Z O. unfold alone in A. rewrite forallb_forall in A.
  specialize (A j). pose proof (var_lt _ _ _ Z).
  assert (I : In j (seq 0 (length (vars w)))) by (apply in_seq; lia).
  specialize (A I). rewrite Z, O, Nat.eqb_refl, orb_false_r in A. now apply Nat.eqb_eq.
Qed.

Lemma movable_case w i x t : inv w -> var w i = Some x -> movable w x = true ->
  nth_error (things w) (object x) = Some t -> shareable (what t) = true \/ unique x = true.
Proof.
  intros I X M T. unfold movable in M. rewrite T in M. unfold unique. destruct (lent x).
  - left. destruct (type x) as [[]|[]|[]]; cbn in M; try easy; now apply andb_true_iff in M.
  - destruct (type x) as [[]|[]|[]]; cbn in M; auto; try (now left); try easy; left; now apply andb_true_iff in M.
Qed.

Lemma inv_step w p w' : inv w -> step w p = Some w' -> inv w'.
Proof.
  intros I S. destruct p as [th k p|t i th|t i th|i|i|i|i k|i|i|i|i]; cbn [step] in S.
  - injection S as <-.
    set (n := {| object := length (things w); type := Plain k; lent := false; thread := th; parent := None |}).
    set (w1 := {| vars := vars w; things := things w ++ [{| what := p; home := th |}] |}).
    assert (V : forall j, var {| vars := vars w ++ [Some n]; things := things w ++ [{| what := p; home := th |}] |} j
      = if j =? length (vars w) then Some n else var w j) by (intros j; exact (var_add w1 n j)).
    assert (OL : forall j z, var w j = Some z -> object z < length (things w)) by exact (i_object w I).
    assert (TT : forall o t, o < length (things w) ->
      nth_error (things w ++ [{| what := p; home := th |}]) o = Some t -> nth_error (things w) o = Some t)
      by (intros o t L; now rewrite nth_error_app1).
    split.
    + intros j z. rewrite V. cbn [things]. rewrite app_length. cbn [length]. destruct (j =? length (vars w)).
      * intros E. injection E as <-. cbn. lia.
      * intros Z. specialize (OL j z Z). lia.
    + intros j z q. rewrite V. destruct (j =? length (vars w)).
      * intros E. injection E as <-. discriminate.
      * intros Z P. destruct (i_parent w I j z q Z P) as (L & y & Y & O). split; [easy|]. exists y.
        rewrite V, (var_fresh _ _ _ Y). easy.
    + intros j z. rewrite V. destruct (j =? length (vars w)).
      * intros E. injection E as <-. discriminate.
      * intros Z L. destruct (i_lent w I j z Z L) as (q & y & P & Y & R). exists q, y.
        rewrite V, (var_fresh _ _ _ Y). easy.
    + intros j z t. rewrite V. cbn [things]. destruct (j =? length (vars w)).
      * intros E. injection E as <-. discriminate.
      * intros Z L T. apply (i_sync w I j z t Z L). apply TT; [eapply OL, Z|exact T].
    + intros j z q y. rewrite !V. destruct (Nat.eqb_spec j (length (vars w))) as [->|N];
        destruct (Nat.eqb_spec q (length (vars w))) as [->|NQ].
      * congruence.
      * intros E _ Y _ O. injection E as <-. cbn in O. specialize (OL q y Y). lia.
      * intros Z _ E _ O. injection E as <-. cbn in O. specialize (OL j z Z). lia.
      * apply (i_unique w I).
    + intros j q z y t. rewrite !V. cbn [things]. destruct (j =? length (vars w)); destruct (q =? length (vars w)); intros Z Y O T SH.
      * congruence.
      * injection Z as <-. cbn in O. specialize (OL q y Y). lia.
      * injection Y as <-. cbn in O. specialize (OL j z Z). lia.
      * apply (i_shared w I j q z y t Z Y O); [|easy]. apply TT; [eapply OL, Z|exact T].
  - destruct (var w i) as [x|] eqn:X; [|discriminate].
    destruct (same_type (type x) t && movable w x && unborrowed w i) eqn:C; [|discriminate]. injection S as <-.
    apply andb_true_iff in C. destruct C as [C B]. apply andb_true_iff in C. destruct C as [_ M].
    eapply inv_set with (x := x); cbn; try easy; [intros U; left; exact U|].
    right. destruct (nth_error (things w) (object x)) as [q|] eqn:T.
    + destruct (movable_case w i x q I X M T) as [SH|U]; [left; congruence|right]. exact (sole w i x I X U B).
    + left. discriminate.
  - destruct (var w i) as [x|] eqn:X; [|discriminate].
    destruct (same_type (type x) t && lendable w x) eqn:C; [|discriminate]. injection S as <-.
    apply andb_true_iff in C. destruct C as [_ M]. unfold lendable in M.
    assert (PP : exists j y, (if lent x then parent x else Some i) = Some j /\ var w j = Some y /\ lent y = false
      /\ type y = type x /\ object y = object x).
    { destruct (lent x) eqn:L; [|now exists i, x].
      destruct (i_lent w I i x X L) as (j & y & P & Y & LY & TY). exists j, y. repeat split; try easy.
      destruct (i_parent w I i x j X P) as (_ & z & Z & O). congruence. }
    destruct PP as (j & y & P & Y & LY & TY & OY).
    eapply inv_add with (x := x) (i := i); cbn; try easy.
    + intros q T SH. exfalso. rewrite T in M.
      destruct (type x) as [[]|[]|[]]; cbn in M; rewrite ?SH, ?andb_false_r in M; discriminate.
    + intros k K. rewrite P in K. injection K as <-. now exists y.
    + rewrite P. discriminate.
    + intros _. now exists j, y.
    + intros q _ T. now rewrite T in M.
  - destruct (var w i) as [x|] eqn:X; [|discriminate].
    destruct (copyable (type x)) eqn:C; [|discriminate]. injection S as <-.
    eapply inv_add with (x := x) (i := i); cbn; try easy.
    + unfold copy_of, unique. cbn. now destruct (type x) as [[]|[]|[]].
    + intros j P. destruct (lent x) eqn:L.
      * destruct (i_lent w I i x X L) as (k & y & PX & Y & LY & TY). rewrite PX, Y in P.
        destruct (i_parent w I k y j Y P) as (_ & z & Z & O).
        destruct (i_parent w I i x k X PX) as (_ & y' & Y' & O'). exists z. split; [easy|]. congruence.
      * destruct (i_parent w I i x j X P) as (_ & z & Z & O). now exists z.
    + intros P j z Z UZ. destruct (lent x) eqn:L.
      * destruct (i_lent w I i x X L) as (k & y & PX & Y & LY & TY). rewrite PX, Y in P.
        destruct (i_parent w I i x k X PX) as (_ & y' & Y' & O').
        replace (object x) with (object y) by congruence.
        apply (no_unique w k y I Y) with (j := j); [apply unique_copyable; congruence|easy|exact Z|easy].
      * now apply (no_unique w i x I X (unique_copyable x C) P j z Z UZ).
  - destruct (var w i) as [x|] eqn:X; [|discriminate].
    assert (S' : Some (add w (reference x i)) = Some w') by (destruct (type x) as [k|k|k]; try discriminate; exact S).
    injection S' as <-. clear S.
    destruct (reference_case x i) as [[C P]|[C P]].
    + eapply inv_add with (x := x) (i := i); try easy.
      * intros j. rewrite P. intros PJ. destruct (i_parent w I i x j X PJ) as (_ & z & Z & O). now exists z.
      * rewrite P. intros PN j z Z UZ. apply (no_unique w i x I X) with (j := j); try easy.
        destruct C as [C|C]; unfold unique; rewrite C; [easy|]. apply andb_false_r.
    + eapply inv_add with (x := x) (i := i); try easy.
      * intros j. rewrite P. intros E. injection E as <-. now exists x.
      * rewrite P. discriminate.
  - destruct (var w i) as [x|] eqn:X; [|discriminate].
    destruct (type x) as [k|k|k] eqn:T; try discriminate.
    destruct (negb (lent x) && unborrowed w i) eqn:C; [|discriminate]. injection S as <-.
    apply andb_true_iff in C. destruct C as [L B]. apply negb_true_iff in L.
    eapply inv_set with (x := x); cbn; try easy.
    + intros _. split; [easy|]. intros j z Z. exact (no_child w i j z B Z).
    + unfold unique, with_type. cbn. rewrite T, L. now destruct k; cbn; auto.
    + now left.
  - destruct (var w i) as [x|] eqn:X; [|discriminate].
    destruct (same_type (type x) (Once k) && negb (lent x) && unborrowed w i) eqn:C; [|discriminate]. injection S as <-.
    apply andb_true_iff in C. destruct C as [C B]. apply andb_true_iff in C. destruct C as [T L].
    apply negb_true_iff in L. apply same_type_eq in T.
    eapply inv_set with (x := x); cbn; try easy.
    + intros _. split; [easy|]. intros j z Z. exact (no_child w i j z B Z).
    + unfold unique, with_type. cbn. rewrite T, L. now destruct k; cbn; auto.
    + now left.
  - destruct (var w i) as [x|] eqn:X; [|discriminate].
    destruct (type x) as [k|k|k] eqn:T; try discriminate.
    destruct (negb (lent x) && unborrowed w i) eqn:C; [|discriminate]. injection S as <-.
    apply andb_true_iff in C. destruct C as [L B]. apply negb_true_iff in L.
    eapply inv_set with (x := x); cbn; try easy.
    + intros _. split; [easy|]. intros j z Z. exact (no_child w i j z B Z).
    + unfold unique, with_type. cbn. now rewrite L.
    + now left.
  - destruct (var w i) as [x|] eqn:X; [|discriminate].
    destruct (type x) as [[]|k|k] eqn:T; try discriminate.
    + destruct (lent x) eqn:L; [discriminate|]. injection S as <-.
      eapply inv_add with (x := x) (i := i); cbn; try easy.
      * unfold unique, with_type. cbn. now rewrite L.
      * intros j P. destruct (i_parent w I i x j X P) as (_ & z & Z & O). now exists z.
      * intros P j z Z UZ. apply (no_unique w i x I X) with (j := j); try easy. unfold unique. rewrite T. apply andb_false_r.
      * congruence.
      * congruence.
    + destruct (negb (lent x) && unborrowed w i) eqn:C; [|discriminate]. injection S as <-.
      apply andb_true_iff in C. destruct C as [L B]. apply negb_true_iff in L.
      eapply inv_set with (x := x); cbn; try easy.
      * intros _. split; [easy|]. intros j z Z. exact (no_child w i j z B Z).
      * unfold unique, with_type. cbn. now rewrite L.
      * now left.
  - destruct (var w i) as [x|] eqn:X; [|discriminate].
    destruct (type x) as [k|k|[]] eqn:T; try discriminate.
    destruct (negb (lent x) && alone w i (object x)) eqn:C; [|discriminate]. injection S as <-.
    apply andb_true_iff in C. destruct C as [L A]. apply negb_true_iff in L. pose proof (alone_spec w i _ A) as AL.
    eapply inv_set with (x := x); cbn; try easy.
    + intros _. split; [easy|]. intros j z Z P. destruct (i_parent w I j z i Z P) as (LT & y & Y & O).
      rewrite X in Y. injection Y as <-. specialize (AL j z Z (eq_sym O)). lia.
    + intros _. now right.
    + now left.
  - destruct (var w i) as [x|] eqn:X; [|discriminate].
    destruct (unborrowed w i) eqn:B; [|discriminate]. injection S as <-.
    apply inv_drop; [easy| |easy]. eapply var_lt, X.
Qed.

Lemma inv_run l : forall w w', inv w -> run w l = Some w' -> inv w'.
Proof.
  induction l as [|p l IH]; intros w w' I R; cbn in R; [now injection R as <-|].
  destruct (step w p) as [w1|] eqn:S; [|discriminate]. exact (IH w1 w' (inv_step w p w1 I S) R).
Qed.

(** How a step changes variables: a variable afterwards is unchanged, new, or
    made from one before. *)
Definition made (w : world) (p : op) (x y : pointer) : Prop :=
  object y = object x /\
  match p with
  | New _ _ _ => False
  | Move t _ th => type x = t /\ movable w x = true /\ type y = type x /\ lent y = lent x
  | Lend t _ _ => type x = t /\ lent y = true /\ type y = type x
  | Copy _ => copyable (type x) = true /\ lent y = false /\ type y = type x /\ thread y = thread x
  | Deref _ => type y = Plain Ref /\ lent y = false
  | Into _ => lent x = false /\ lent y = false /\ thread y = thread x /\ exists k, type x = Plain k /\ type y = Once k
  | From _ k => lent x = false /\ lent y = false /\ thread y = thread x /\ type x = Once k /\ type y = Plain k
  | Unwrap _ => type y = Plain Ref /\ lent y = false
  | Point _ => lent x = false /\ lent y = false /\ thread y = thread x
      /\ (type x = Plain Ref /\ type y = Raw Ref \/ type x = Plain Mut /\ type y = Raw Mut)
  | Take _ => lent x = false /\ lent y = false /\ thread y = thread x /\ type x = Raw Mut /\ type y = Plain Mut
  | Drop _ => False
  end.

Lemma add_vars w z j y : var (add w z) j = Some y -> var w j = Some y \/ y = z.
Proof. rewrite var_add. destruct (j =? length (vars w)); [|auto]. intros E. injection E as <-. auto. Qed.

Lemma set_vars w i x z j y : var w i = Some x -> var (set w i (Some z)) j = Some y -> var w j = Some y \/ y = z.
Proof.
  intros X. rewrite var_set by (eapply var_lt, X). destruct (j =? i); [|auto]. intros E. injection E as <-. auto.
Qed.

Lemma step_vars w p w' j y : step w p = Some w' -> var w' j = Some y ->
  var w j = Some y \/ (exists i x, var w i = Some x /\ made w p x y)
  \/ exists th k q, p = New th k q /\ y = {| object := length (things w); type := Plain k; lent := false; thread := th; parent := None |}.
Proof.
  intros S Y. destruct p as [th k p|t i th|t i th|i|i|i|i k|i|i|i|i]; cbn [step] in S.
  1: { injection S as <-. destruct (add_vars {| vars := vars w; things := things w ++ [{| what := p; home := th |}] |} _ j y Y) as [V|V].
    - left. exact V.
    - right. right. now exists th, k, p. }
  all: destruct (var w i) as [x|] eqn:X; [|discriminate].
  - destruct (same_type (type x) t && movable w x && unborrowed w i) eqn:C; [|discriminate]. injection S as <-.
    apply andb_true_iff in C. destruct C as [C B]. apply andb_true_iff in C. destruct C as [T M]. apply same_type_eq in T.
    destruct (set_vars _ _ _ _ _ _ X Y) as [V| ->]; [now left|]. right. left. now exists i, x.
  - destruct (same_type (type x) t && lendable w x) eqn:C; [|discriminate]. injection S as <-.
    apply andb_true_iff in C. destruct C as [T M]. apply same_type_eq in T.
    destruct (add_vars _ _ _ _ Y) as [V| ->]; [now left|]. right. left. now exists i, x.
  - destruct (copyable (type x)) eqn:C; [|discriminate]. injection S as <-.
    destruct (add_vars _ _ _ _ Y) as [V| ->]; [now left|]. right. left. now exists i, x.
  - assert (S' : Some (add w (reference x i)) = Some w') by (destruct (type x) as [k|k|k]; try discriminate; exact S).
    injection S' as <-. destruct (add_vars _ _ _ _ Y) as [V| ->]; [now left|]. right. left. now exists i, x.
  - destruct (type x) as [k|k|k] eqn:T; try discriminate.
    destruct (negb (lent x) && unborrowed w i) eqn:C; [|discriminate]. injection S as <-.
    apply andb_true_iff in C. destruct C as [L B]. apply negb_true_iff in L.
    destruct (set_vars _ _ _ _ _ _ X Y) as [V| ->]; [now left|]. right. left. exists i, x. cbn. repeat split; try easy. now exists k.
  - destruct (same_type (type x) (Once k) && negb (lent x) && unborrowed w i) eqn:C; [|discriminate]. injection S as <-.
    apply andb_true_iff in C. destruct C as [C B]. apply andb_true_iff in C. destruct C as [T L].
    apply negb_true_iff in L. apply same_type_eq in T.
    destruct (set_vars _ _ _ _ _ _ X Y) as [V| ->]; [now left|]. right. left. exists i, x. now cbn.
  - destruct (type x) as [k|k|k] eqn:T; try discriminate.
    destruct (negb (lent x) && unborrowed w i) eqn:C; [|discriminate]. injection S as <-.
    apply andb_true_iff in C. destruct C as [L B]. apply negb_true_iff in L.
    destruct (set_vars _ _ _ _ _ _ X Y) as [V| ->]; [now left|]. right. left. exists i, x. now cbn.
  - destruct (type x) as [[]|k|k] eqn:T; try discriminate.
    + destruct (lent x) eqn:L; [discriminate|]. injection S as <-.
      destruct (add_vars _ _ _ _ Y) as [V| ->]; [now left|]. right. left. exists i, x. cbn. repeat split; auto.
    + destruct (negb (lent x) && unborrowed w i) eqn:C; [|discriminate]. injection S as <-.
      apply andb_true_iff in C. destruct C as [L B]. apply negb_true_iff in L.
      destruct (set_vars _ _ _ _ _ _ X Y) as [V| ->]; [now left|]. right. left. exists i, x. cbn. repeat split; auto.
  - destruct (type x) as [k|k|[]] eqn:T; try discriminate.
    destruct (negb (lent x) && alone w i (object x)) eqn:C; [|discriminate]. injection S as <-.
    apply andb_true_iff in C. destruct C as [L A]. apply negb_true_iff in L.
    destruct (set_vars _ _ _ _ _ _ X Y) as [V| ->]; [now left|]. right. left. exists i, x. now cbn.
  - destruct (unborrowed w i) eqn:B; [|discriminate]. injection S as <-.
    rewrite var_set in Y by (eapply var_lt, X). destruct (j =? i); [discriminate|now left].
Qed.

Lemma step_things w p w' : step w p = Some w' ->
  things w' = things w \/ exists th k q, p = New th k q /\ things w' = things w ++ [{| what := q; home := th |}].
Proof.
  intros S. destruct p as [th k p|t i th|t i th|i|i|i|i k|i|i|i|i]; cbn [step] in S.
  1: { injection S as <-. right. now exists th, k, p. }
  all: left; destruct (var w i) as [x|] eqn:X; [|discriminate];
    repeat match type of S with
    | (if ?b then _ else _) = _ => destruct b; try discriminate
    | match ?t with Plain _ => _ | Once _ => _ | Raw _ => _ end = _ => destruct t as [[]|[]|[]]; try discriminate
    end; injection S as <-; easy.
Qed.

(** What holds of every variable made, holds of every variable. *)
Lemma run_all (P : thing -> pointer -> Prop) (ok : op -> Prop) :
  (forall th k q, ok (New th k q) -> P {| what := q; home := th |} {| object := 0; type := Plain k; lent := false; thread := th; parent := None |}) ->
  (forall t x o q, P t x -> P t {| object := o; type := type x; lent := lent x; thread := thread x; parent := q |}) ->
  (forall w p i x y t, inv w -> ok p -> var w i = Some x -> nth_error (things w) (object x) = Some t ->
     made w p x y -> P t x -> P t y) ->
  forall l w w', inv w -> Forall ok l -> run w l = Some w' ->
  (forall i x t, var w i = Some x -> nth_error (things w) (object x) = Some t -> P t x) ->
  forall i x t, var w' i = Some x -> nth_error (things w') (object x) = Some t -> P t x.
Proof.
  intros PN PE PM. induction l as [|p l IH]; intros w w' I F R H; cbn in R; [now injection R as <-|].
  inversion F as [|p0 l0 F1 F2]; subst p0 l0.
  destruct (step w p) as [w1|] eqn:S; [|discriminate].
  apply (IH w1 w' (inv_step w p w1 I S) F2 R). intros i x t V T.
  destruct (step_things w p w1 S) as [E|(th & k & q & -> & E)].
  - rewrite E in T. destruct (step_vars w p w1 i x S V) as [V'|[(j & z & Z & M)|(th & k & q & -> & ->)]].
    + exact (H i x t V' T).
    + pose proof (proj1 M) as O. rewrite O in T. exact (PM w p j z x t I F1 Z T M (H j z t Z T)).
    + exfalso. cbn in T. rewrite (proj2 (nth_error_None _ _)) in T by lia. discriminate.
  - rewrite E in T. destruct (step_vars w _ w1 i x S V) as [V'|[(j & z & Z & [_ []])|(th' & k' & q' & EQ & ->)]].
    + rewrite nth_error_app1 in T by exact (i_object w I i x V'). exact (H i x t V' T).
    + cbn in T. rewrite nth_error_app2, Nat.sub_diag in T by lia. injection T as <-. injection EQ as <- <- <-.
      exact (PE _ _ (length (things w)) None (PN th k q F1)).
Qed.

Definition home_ok (p : op) : Prop := match p with Lend (Raw k) _ _ => k = Ref | _ => True end.
Definition home_at (t : thing) (x : pointer) : Prop :=
  (lent x = true -> match type x with Raw k => k = Ref | _ => True end)
  /\ (exclusive x = true -> sendable (what t) = false -> thread x = home t).

Lemma home_made w p i x y t : inv w -> home_ok p -> var w i = Some x -> nth_error (things w) (object x) = Some t ->
  made w p x y -> home_at t x -> home_at t y.
Proof.
  intros I OK X T [O M] [HL HX]. unfold home_at, exclusive in *.
  destruct p as [th k p|q j th|q j th|j|j|j|j k|j|j|j|j]; try contradiction.
  - destruct M as (TX & M & -> & ->). split; [exact HL|]. intros EX NS. exfalso.
    unfold movable in M. rewrite T in M. apply andb_true_iff in EX. destruct EX as [L EX]. apply negb_true_iff in L. rewrite L in M.
    destruct (type x) as [[]|[]|[]]; cbn in M; rewrite ?NS in M; cbn in M; discriminate.
  - destruct M as (TX & -> & ->). split; [|discriminate]. intros _. rewrite TX. cbn in OK. destruct q; easy.
  - destruct M as (C & -> & -> & ->). split; [discriminate|]. intros EX NS.
    destruct (lent x) eqn:L; [|exact (HX EX NS)].
    pose proof (i_sync w I i x t X L T) as SY. exfalso. specialize (HL eq_refl).
    destruct (type x) as [[]|[]|[]]; cbn in *; try discriminate; rewrite ?NS in SY; discriminate.
  - destruct M as (-> & ->). split; discriminate.
  - destruct M as (L & -> & -> & k & E & ->). rewrite L, E in HX. split; [discriminate|exact HX].
  - destruct M as (L & -> & -> & E & ->). rewrite L, E in HX. split; [discriminate|exact HX].
  - destruct M as (-> & ->). split; discriminate.
  - destruct M as (L & -> & -> & [[E ->]|[E ->]]); (split; [discriminate|]); [discriminate|]. rewrite L, E in HX. exact HX.
  - destruct M as (L & -> & -> & E & ->). rewrite L, E in HX. split; [discriminate|exact HX].
Qed.

Definition count_ok (p : op) : Prop := match p with Move (Once Rc) _ _ => False | _ => True end.
Definition count_at (t : thing) (x : pointer) : Prop :=
  lent x = false -> type x = Plain Rc \/ type x = Once Rc -> thread x = home t.

Lemma count_made w p i x y t : inv w -> count_ok p -> var w i = Some x -> nth_error (things w) (object x) = Some t ->
  made w p x y -> count_at t x -> count_at t y.
Proof.
  intros I OK X T [O M] H. unfold count_at in *.
  destruct p as [th k p|q j th|q j th|j|j|j|j k|j|j|j|j]; try contradiction.
  - destruct M as (TX & M & -> & ->). intros L [E|E].
    + exfalso. unfold movable in M. rewrite T, L, E in M. discriminate.
    + rewrite <- TX, E in OK. contradiction.
  - destruct M as (TX & -> & ->). discriminate.
  - destruct M as (C & -> & -> & ->). intros _ E. destruct (lent x) eqn:L; [|now apply H].
    exfalso. pose proof (i_sync w I i x t X L T) as SY. destruct E as [E|E]; rewrite E in *; discriminate.
  - destruct M as (-> & ->). intros _ [E|E]; discriminate.
  - destruct M as (L & -> & -> & k & E & ->). intros _ [F|F]; [discriminate|]. injection F as ->. apply H; auto.
  - destruct M as (L & -> & -> & E & ->). intros _ [F|F]; [|discriminate]. injection F as ->. apply H; auto.
  - destruct M as (-> & ->). intros _ [E|E]; discriminate.
  - destruct M as (L & -> & -> & [[E ->]|[E ->]]); intros _ [F|F]; discriminate.
  - destruct M as (L & -> & -> & E & ->). intros _ [F|F]; discriminate.
Qed.

Lemma start_none i : var start i = None.
Proof. now destruct i. Qed.
