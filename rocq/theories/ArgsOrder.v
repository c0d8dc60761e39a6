(** Order of paths, prefixes, sorted lists and binary search. *)
From Verif Require Import Base ArgsSpec ArgsModel.
From Coq Require Import Lia.

Record good {A} (cmp : A -> A -> comparison) : Prop := {
  g_eq : forall x y, cmp x y = Eq <-> x = y;
  g_anti : forall x y, cmp y x = CompOpp (cmp x y);
  g_trans : forall x y z, cmp x y = Lt -> cmp y z = Lt -> cmp x z = Lt }.

Lemma good_N : good N.compare.
Proof.
  split.
  - intros x y. apply N.compare_eq_iff.
  - intros x y. apply N.compare_antisym.
  - intros x y z. rewrite !N.compare_lt_iff. lia.
Qed.
Lemma good_lex {A} (cmp : A -> A -> comparison) : good cmp -> good (lex_cmp cmp).
Proof.
  intros [E An T]. split.
  - induction x as [|x a IH]; intros [|y b]; cbn; split; intros H; try discriminate; try reflexivity.
    + destruct (cmp x y) eqn:C; try discriminate. apply E in C. subst y. f_equal. apply IH, H.
    + injection H as -> ->. rewrite (proj2 (E y y) eq_refl). apply IH. reflexivity.
  - induction x as [|x a IH]; intros [|y b]; cbn; try reflexivity.
    rewrite (An x y). destruct (cmp x y); cbn; [apply IH|reflexivity|reflexivity].
  - induction x as [|x a IH]; intros [|y b] [|z c]; cbn; intros H1 H2; try discriminate; try reflexivity.
    destruct (cmp x y) eqn:C1; destruct (cmp y z) eqn:C2; try discriminate.
    + apply E in C1. subst y. rewrite C2. eapply IH; eassumption.
    + apply E in C1. subst y. rewrite C2. reflexivity.
    + apply E in C2. subst z. rewrite C1. reflexivity.
    + rewrite (T x y z C1 C2). reflexivity.
Qed.
Lemma good_str : good str_cmp.
Proof. exact (good_lex _ good_N). Qed.
Lemma good_path : good path_cmp.
Proof. exact (good_lex _ good_str). Qed.

Section Good.
  Context {A : Type} (cmp : A -> A -> comparison) (G : good cmp).
  Lemma cmp_refl x : cmp x x = Eq.
  Proof. apply (g_eq _ G). reflexivity. Qed.
  Lemma le_trans x y z : cmp x y <> Gt -> cmp y z <> Gt -> cmp x z <> Gt.
  Proof.
    intros H1 H2. destruct (cmp x y) eqn:C1; [| |contradiction].
    - apply (g_eq _ G) in C1. subst y. exact H2.
    - destruct (cmp y z) eqn:C2; [| |contradiction].
      + apply (g_eq _ G) in C2. subst z. rewrite C1. discriminate.
      + rewrite (g_trans _ G _ _ _ C1 C2). discriminate.
  Qed.
  Lemma le_anti x y : cmp x y <> Gt -> cmp y x <> Gt -> x = y.
  Proof.
    intros H1 H2. apply (g_eq _ G). rewrite (g_anti _ G x y) in H2.
    destruct (cmp x y); [reflexivity|exfalso; apply H2; reflexivity|contradiction].
  Qed.
  Lemma le_gt x y : cmp x y <> Gt \/ cmp y x <> Gt.
  Proof. rewrite (g_anti _ G x y). destruct (cmp x y); cbn; [left|left|right]; discriminate. Qed.
End Good.

Lemma str_eqb_eq a b : str_eqb a b = true <-> a = b.
Proof.
  unfold str_eqb. rewrite <- (g_eq _ good_str). destruct (str_cmp a b); split; intros H; try reflexivity; discriminate.
Qed.

(** ** Prefixes *)

Lemma prefix_nil {A} (l : list A) : prefix [] l.
Proof. exists l. reflexivity. Qed.
Lemma prefix_refl {A} (l : list A) : prefix l l.
Proof. exists []. rewrite app_nil_r. reflexivity. Qed.
Lemma prefix_trans {A} (a b c : list A) : prefix a b -> prefix b c -> prefix a c.
Proof. intros [r ->] [s ->]. exists (r ++ s). apply app_assoc_reverse. Qed.
Lemma prefix_length {A} (a b : list A) : prefix a b -> length a <= length b.
Proof. intros [r ->]. rewrite app_length. lia. Qed.
Lemma prefix_firstn {A} (a b : list A) : prefix a b <-> firstn (length a) b = a.
Proof.
  split.
  - intros [r ->]. rewrite firstn_app, firstn_all, Nat.sub_diag. cbn. apply app_nil_r.
  - intros H. exists (skipn (length a) b). rewrite <- H at 1. symmetry. apply firstn_skipn.
Qed.
Lemma prefix_same {A} (a b : list A) : prefix a b -> length b <= length a -> a = b.
Proof. intros [r ->] L. rewrite app_length in L. destruct r; [symmetry; apply app_nil_r|cbn in L; lia]. Qed.
Lemma prefix_shorter {A} (a b c : list A) : prefix a c -> prefix b c -> length a <= length b -> prefix a b.
Proof.
  revert b c. induction a as [|x a IH]; intros b c [r ->] [s E] L; [apply prefix_nil|].
  destruct b as [|y b]; [cbn in L; lia|]. cbn in E, L. injection E as -> E.
  destruct (IH b (a ++ r)) as [t ->]; [exists r; reflexivity|exists s; exact E|lia|]. exists t. reflexivity.
Qed.
Lemma starts_with_prefix p q : starts_with p q = true <-> prefix q p.
Proof.
  revert p. induction q as [|y q IH]; intros p.
  - split; [intros _; apply prefix_nil|]. intros _. destruct p; reflexivity.
  - destruct p as [|x p]; [split; [discriminate|intros [r E]; discriminate]|].
    cbn [starts_with]. rewrite Bool.andb_true_iff, str_eqb_eq, IH. split.
    + intros [-> [r ->]]. exists r. reflexivity.
    + intros [r E]. injection E as -> ->. split; [reflexivity|exists r; reflexivity].
Qed.

Lemma prefix_le a b : prefix a b -> path_cmp a b <> Gt.
Proof.
  intros [r ->]. induction a as [|x a IH]; cbn; [destruct r; discriminate|].
  rewrite (cmp_refl _ good_str). exact IH.
Qed.
Lemma prefix_between a b c : prefix a c -> path_cmp a b <> Gt -> path_cmp b c <> Gt -> prefix a b.
Proof.
  intros [r ->]. revert b. induction a as [|x a IH]; intros b H1 H2; [apply prefix_nil|].
  destruct b as [|y b]; cbn in H1, H2; [contradiction|].
  rewrite (g_anti _ good_str x y) in H2. destruct (str_cmp x y) eqn:C; cbn in H2.
  - apply (g_eq _ good_str) in C. subst y. destruct (IH b H1 H2) as [t ->]. exists t. reflexivity.
  - contradiction.
  - contradiction.
Qed.
Lemma firstn_mono k a b : path_cmp a b <> Gt -> path_cmp (firstn k a) (firstn k b) <> Gt.
Proof.
  revert a b. induction k as [|k IH]; intros [|x a] [|y b] H; cbn in *; try discriminate; try contradiction.
  destruct (str_cmp x y); [apply IH, H|discriminate|contradiction].
Qed.
Lemma compare_prefix_spec (e p : path) (n : str) : compare_prefix e (p, n) = path_cmp (firstn (length p + 1) e) (p ++ [n]).
Proof.
  unfold compare_prefix. cbn [fst snd]. revert e. induction p as [|y p IH]; intros e.
  - cbn. destruct e as [|x e]; cbn; [reflexivity|]. destruct (str_cmp x n); reflexivity.
  - destruct e as [|x e]; [reflexivity|]. cbn. destruct (str_cmp x y); [apply IH|reflexivity|reflexivity].
Qed.
Lemma compare_prefix_eq (e p : path) (n : str) : compare_prefix e (p, n) = Eq <-> prefix (p ++ [n]) e.
Proof. rewrite compare_prefix_spec, (g_eq _ good_path), prefix_firstn, app_length. reflexivity. Qed.

(** ** Search *)

Definition rank (c : comparison) : nat := match c with Lt => 0 | Eq => 1 | Gt => 2 end.
Lemma rank_mono {A} (cmp : A -> A -> comparison) : good cmp ->
  forall x y t, cmp x y <> Gt -> rank (cmp x t) <= rank (cmp y t).
Proof.
  intros G x y t H. destruct (cmp y t) eqn:C.
  - apply (g_eq _ G) in C. subst y. destruct (cmp x t); cbn; [lia|lia|contradiction].
  - destruct (cmp x y) eqn:D; [|rewrite (g_trans _ G _ _ _ D C); lia|contradiction].
    apply (g_eq _ G) in D. subst y. rewrite C. lia.
  - destruct (cmp x t); cbn; lia.
Qed.
Lemma ordered_map {A} (R : A -> A -> Prop) (f : A -> comparison) l : StronglySorted R l ->
  (forall x y, R x y -> rank (f x) <= rank (f y)) -> ordered (map f l).
Proof.
  intros SS M. induction SS as [|x l SS IH F]; [exists 0, 0, 0; reflexivity|].
  destruct IH as (a & b & c & E). cbn [map].
  assert (K : forall y, In y (map f l) -> rank (f x) <= rank y).
  { intros y Hy. apply in_map_iff in Hy. destruct Hy as (z & <- & Hz). apply M. rewrite Forall_forall in F. apply F, Hz. }
  rewrite E in *. destruct (f x).
  - destruct a as [|a]; [exists 0, (S b), c; reflexivity|]. specialize (K Lt (or_introl eq_refl)). cbn in K. lia.
  - exists (S a), b, c. reflexivity.
  - destruct a as [|a]; [|specialize (K Lt (or_introl eq_refl)); cbn in K; lia].
    destruct b as [|b]; [|specialize (K Eq (or_introl eq_refl)); cbn in K; lia].
    exists 0, 0, (S c). reflexivity.
Qed.

(** ** Sorted lists by index *)

Lemma sorted_nth {A} (R : A -> A -> Prop) l : StronglySorted R l ->
  forall i j x y, i < j -> nth_error l i = Some x -> nth_error l j = Some y -> R x y.
Proof.
  intros S. induction S as [|z l S IH F]; intros i j x y L Hi Hj; [destruct i; discriminate|].
  destruct j as [|j]; [lia|]. cbn in Hj. destruct i as [|i]; cbn in Hi.
  - injection Hi as <-. rewrite Forall_forall in F. apply F. eapply nth_error_In, Hj.
  - apply (IH i j); [lia|exact Hi|exact Hj].
Qed.
Lemma nodup_nth {A B} (f : A -> B) l : NoDup (map f l) ->
  forall i j x y, nth_error l i = Some x -> nth_error l j = Some y -> f x = f y -> i = j.
Proof.
  intros D i j x y Hi Hj E. rewrite NoDup_nth_error in D. apply D.
  - rewrite map_length. apply nth_error_Some. rewrite Hi. discriminate.
  - rewrite !nth_error_map, Hi, Hj. cbn. rewrite E. reflexivity.
Qed.
