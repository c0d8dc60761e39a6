(** Strings compare as their code points do.

    The standard library compares strings by their UTF-8 bytes; StrModel.v
    compares lists of code points.  This shows that both are the same. *)
From Verif Require Import Base StrModel DvarDecSpec.
Local Open Scope N_scope.

Lemma str_cmp_refl p : str_cmp p p = Eq.
Proof. induction p as [|x p IH]; [easy|]. cbn. now rewrite N.compare_refl. Qed.

Lemma str_cmp_app p a b : str_cmp (p ++ a) (p ++ b) = str_cmp a b.
Proof. induction p as [|x p IH]; [easy|]. cbn. now rewrite N.compare_refl. Qed.

Lemma str_cmp_opp a : forall b, str_cmp b a = CompOpp (str_cmp a b).
Proof.
  induction a as [|x a IH]; intros [|y b]; try easy. cbn.
  rewrite (N.compare_antisym x y). destruct (x ?= y); cbn; [apply IH|easy|easy].
Qed.

(** The first byte that differs decides. *)
Lemma str_cmp_lt x y a b : x < y -> str_cmp (x :: a) (y :: b) = Lt.
Proof. intros L. cbn. now apply N.compare_lt_iff in L as ->. Qed.

Lemma str_cmp_step x y a b : x <= y -> (x = y -> str_cmp a b = Lt) ->
  str_cmp (x :: a) (y :: b) = Lt.
Proof.
  intros L E. cbn. destruct (N.compare_spec x y) as [Q|Q|Q]; [now apply E|easy|lia].
Qed.

Lemma div_le x y k : x <= y -> x / N.pos k <= y / N.pos k.
Proof. now apply N.div_le_mono. Qed.

Lemma utf8_lt x y r s : scalar x -> scalar y -> x < y ->
  str_cmp (utf8 x ++ r) (utf8 y ++ s) = Lt.
Proof.
  unfold scalar, utf8. intros SX SY L.
  assert (D : forall z k, z = N.pos k * (z / N.pos k) + z mod N.pos k)
    by (intros; now apply N.div_mod).
  assert (M : forall z k, z mod N.pos k < N.pos k) by (intros; now apply N.mod_upper_bound).
  pose proof (D x 64%positive). pose proof (M x 64%positive).
  pose proof (D (x / 64) 64%positive). pose proof (M (x / 64) 64%positive).
  pose proof (D (x / 4096) 64%positive). pose proof (M (x / 4096) 64%positive).
  pose proof (D y 64%positive). pose proof (M y 64%positive).
  pose proof (D (y / 64) 64%positive). pose proof (M (y / 64) 64%positive).
  pose proof (D (y / 4096) 64%positive). pose proof (M (y / 4096) 64%positive).
  assert (Q : forall z, z / 4096 = z / 64 / 64) by (intros; now rewrite N.div_div).
  assert (Q' : forall z, z / 262144 = z / 4096 / 64) by (intros; now rewrite N.div_div).
  rewrite ?Q', ?Q in *.
  set (x0 := x mod 64) in *. set (x1 := x / 64) in *. set (x2 := x1 / 64) in *. set (x3 := x2 / 64) in *.
  set (x1m := x1 mod 64) in *. set (x2m := x2 mod 64) in *.
  set (y0 := y mod 64) in *. set (y1 := y / 64) in *. set (y2 := y1 / 64) in *. set (y3 := y2 / 64) in *.
  set (y1m := y1 mod 64) in *. set (y2m := y2 mod 64) in *.
  clearbody x0 x1 x2 x3 x1m x2m y0 y1 y2 y3 y1m y2m. clear D M Q Q'.
  repeat match goal with |- context [if ?b then _ else _] => destruct b eqn:?H end;
    repeat match goal with
           | H : (_ <? _) = true |- _ => apply N.ltb_lt in H
           | H : (_ <? _) = false |- _ => apply N.ltb_ge in H
           end; cbn [app];
    repeat (apply str_cmp_step; [lia|intros ?]); try lia.
Qed.

(** For strings of Unicode scalar values. *)
Theorem str_cmp_utf8 a : forall b, Forall scalar a -> Forall scalar b ->
  str_cmp (flat_map utf8 a) (flat_map utf8 b) = str_cmp a b.
Proof.
  assert (NE : forall x s, exists c t, utf8 x ++ s = c :: t).
  { intros x s. unfold utf8. repeat match goal with |- context [if ?b then _ else _] => destruct b end;
      cbn; eauto. }
  induction a as [|x a IH]; intros [|y b] A B; try easy; cbn [flat_map].
  - destruct (NE y (flat_map utf8 b)) as (c & t & ->). easy.
  - destruct (NE x (flat_map utf8 a)) as (c & t & ->). easy.
  - apply Forall_cons_iff in A, B. destruct A as [X A], B as [Y B].
    cbn [str_cmp]. destruct (N.compare_spec x y) as [->|L|L].
    + rewrite str_cmp_app. now apply IH.
    + now apply utf8_lt.
    + rewrite str_cmp_opp. now rewrite utf8_lt.
Qed.
Print Assumptions str_cmp_utf8.
