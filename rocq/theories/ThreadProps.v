(** C97: pointers and threads. *)
From Verif Require Import Base ThreadSpec ThreadModel ThreadProofs.

(** C97: an object that must not be shared is never within reach of two threads,
    whatever a program does. *)
Theorem threads_share_safely : forall l w, run start l = Some w -> shared_safely w.
Proof.
  intros l w R i j x y t X Y O T S. pose proof (inv_run l start w inv_start R) as I.
  exact (i_shared w I i j x y t X Y O T S).
Qed.
Print Assumptions threads_share_safely.

(** C97: an object that must not leave its thread can be changed or destroyed
    only there, unless references to a [Ptr] made from a mutable reference are
    given to other threads.  (Full property: without this condition.) *)
Theorem threads_keep_home_partial : forall l w, run start l = Some w ->
  (forall k i th, In (Lend (Raw k) i th) l -> k = Ref) -> kept_home w.
Proof.
  intros l w R F i x t X EX T NS.
  assert (G : Forall home_ok l).
  { apply Forall_forall. intros p P. destruct p as [| |[]| | | | | | | |]; cbn; try easy. eapply F, P. }
  enough (A : home_at t x) by exact (proj2 A EX NS).
  clear EX NS. revert i x t X T. apply (run_all home_at home_ok) with (l := l) (w := start); try assumption.
  - intros th k q _. split; [discriminate|reflexivity].
  - intros t x o q [A B]. split; [exact A|exact B].
  - intros w0 p i x y t. apply home_made.
  - exact inv_start.
  - intros i x t X. now rewrite start_none in X.
Qed.
Print Assumptions threads_keep_home_partial.

(** C97 is false of [Ptr], which can be copied through a reference although
    only [Sync] is asked for: a mutable reference to an object that must not
    be sent ends up on another thread. *)
Theorem threads_ptr_refuted : exists l w, run start l = Some w /\ ~ kept_home w.
Proof.
  exists [New 0 Mut {| sendable := false; shareable := true |}; Point 0; Lend (Raw Mut) 0 1; Copy 1; Drop 1; Drop 0; Take 2].
  eexists. split; [reflexivity|]. intros H.
  specialize (H 2 _ _ eq_refl eq_refl eq_refl eq_refl). discriminate.
Qed.
Print Assumptions threads_ptr_refuted.

(** C97: the counter of an [Rc] is used by one thread only, unless a [OnceRef]
    made from an [Rc] is given to another thread.  (Full property: without this
    condition.) *)
Theorem threads_count_partial : forall l w, run start l = Some w ->
  (forall i th, ~ In (Move (Once Rc) i th) l) -> counted_safely w.
Proof.
  intros l w R F i j x y X Y O TX TY LX LY.
  assert (G : Forall count_ok l).
  { apply Forall_forall. intros p P. destruct p as [|[|[]|]| | | | | | | | |]; cbn; try easy. eapply F, P. }
  pose proof (inv_run l start w inv_start R) as I.
  assert (A : forall i x t, var w i = Some x -> nth_error (things w) (object x) = Some t -> count_at t x).
  { apply (run_all count_at count_ok) with (l := l) (w := start); try assumption.
    - intros th k q _ _ _. reflexivity.
    - intros t z o q A. exact A.
    - intros w0 p i0 x0 y0 t. apply count_made.
    - exact inv_start.
    - intros i0 x0 t X0. now rewrite start_none in X0. }
  destruct (nth_error (things w) (object x)) as [t|] eqn:T.
  - transitivity (home t); [|symmetry].
    + apply (A i x t X T LX). now left.
    + apply (A j y t Y); [now rewrite <- O|exact LY|now left].
  - apply nth_error_None in T. pose proof (i_object w I i x X). lia.
Qed.
Print Assumptions threads_count_partial.

(** C97 is false of [OnceRef], which can be given to another thread when it was
    made from an [Rc]; restoring it there gives two threads an [Rc] to the same
    object. *)
Theorem threads_count_refuted : exists l w, run start l = Some w /\ ~ counted_safely w.
Proof.
  exists [New 0 Rc {| sendable := true; shareable := true |}; Copy 0; Into 1; Move (Once Rc) 1 1; From 1 Rc].
  eexists. split; [reflexivity|]. intros H.
  specialize (H 0 1 _ _ eq_refl eq_refl eq_refl eq_refl eq_refl eq_refl eq_refl). discriminate.
Qed.
Print Assumptions threads_count_refuted.

(** A program with objects of all kinds and two threads. *)
Definition program : list op :=
  [New 0 Box {| sendable := true; shareable := true |}; Into 0; Move (Once Box) 0 1; From 0 Box;
   New 0 Mut {| sendable := true; shareable := false |}; Move (Plain Mut) 1 1; Into 1; Deref 1;
   New 0 Rc {| sendable := false; shareable := true |}; Copy 3; Into 4; Lend (Once Rc) 4 1; Deref 5;
   New 0 Ref {| sendable := false; shareable := true |}; Point 7; Lend (Raw Ref) 8 1; Copy 9].

Example program_runs : exists w, run start program = Some w
  /\ (forall k i th, In (Lend (Raw k) i th) program -> k = Ref)
  /\ (forall i th, ~ In (Move (Once Rc) i th) program)
  /\ (exists x, var w 1 = Some x /\ object x = 1 /\ thread x = 1 /\ type x = Once Mut)
  /\ (exists x, var w 6 = Some x /\ object x = 2 /\ thread x = 1 /\ type x = Plain Ref)
  /\ (exists x, var w 3 = Some x /\ object x = 2 /\ thread x = 0 /\ type x = Plain Rc).
Proof.
  eexists. split; [reflexivity|]. split; [|split].
  - intros k i th H. cbn in H. repeat destruct H as [H|H]; try discriminate; try contradiction. now injection H as <- _ _.
  - intros i th H. cbn in H. repeat destruct H as [H|H]; try discriminate; contradiction.
  - split; [|split]; (eexists; split; [reflexivity|easy]).
Qed.

(** Programs that the markers reject. *)
Example program_rejected :
  run start [New 0 Mut {| sendable := true; shareable := false |}; Into 0; Move (Once Mut) 0 1] = None
  /\ run start [New 0 Ref {| sendable := false; shareable := true |}; Into 0; Move (Once Ref) 0 1] = None
  /\ run start [New 0 Mut {| sendable := true; shareable := false |}; Point 0; Lend (Raw Mut) 0 1] = None
  /\ run start [New 0 Box {| sendable := true; shareable := true |}; Into 0; Copy 0] = None
  /\ run start [New 0 Mut {| sendable := true; shareable := true |}; Into 0; Deref 0; Move (Once Mut) 0 1] = None.
Proof. now repeat split. Qed.
