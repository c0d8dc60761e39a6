(** Proofs about nested foreign-function types. *)
From Verif Require Import Base FfiSpec LayModel FfiModel FfiProofs WrapModel.

(** The innermost wrapper. *)
Fixpoint base (s : nest) : wrapper :=
  match s with Value w => w | IntegerOf s _ => base s | PointerOf s => base s end.
Fixpoint aligned (s : nest) : Prop :=
  match s with Value _ => True | IntegerOf s a => 0 < a /\ aligned s | PointerOf s => aligned s end.

Lemma swaps_base h s : swaps h s = needs_swap h (base s).
Proof. induction s; cbn; auto. Qed.

Lemma nest_make_base h t al s z :
  nest_make h t al s z = make h (base s) t (size_of (layout t al s)) z.
Proof. unfold nest_make, make, from_native. now rewrite swaps_base. Qed.
Lemma nest_value_base h t s m : nest_value h t s m = value h (base s) t m.
Proof. unfold nest_value, value, to_native. now rewrite swaps_base. Qed.

Lemma layout_size t al s : aligned s -> width (int t) <= size_of (layout t al s).
Proof.
  induction s as [w|s IH a|s IH]; cbn [aligned layout]; [easy| |exact IH].
  intros [A B]. specialize (IH B). rewrite integer_size by easy.
  pose proof (round_up_le (size_of (layout t al s)) a A). lia.
Qed.

Lemma repeat_repeat {A} (x : A) a b c : a <= b -> b <= c ->
  repeat x (b - a) ++ repeat x (c - b) = repeat x (c - a).
Proof. intros H K. rewrite <- repeat_app. f_equal. lia. Qed.

Lemma wrap_image h t al s z : aligned s ->
  wrap h t al s z =
    Some (map Some (image h (base s) t z) ++ repeat None (size_of (layout t al s) - width (int t))).
Proof.
  induction s as [w|s IH a|s IH]; cbn [aligned layout wrap base].
  - intros _. now rewrite make_image.
  - intros [A B]. rewrite (IH B). pose proof (layout_size t al s B) as L.
    rewrite integer_new_image; [|easy|].
    + rewrite <- app_assoc, repeat_repeat; [easy|easy|].
      rewrite integer_size by easy. now apply round_up_le.
    + rewrite app_length, map_length, image_length, repeat_length. lia.
  - exact IH.
Qed.

(** What [get] sees of an object that starts with given bytes. *)
Lemma get_prefix t al s a (l r : mem) : 0 < a -> aligned s ->
  length l = width (int t) -> length (l ++ r) = size_of (integer_ty (layout t al s) a) ->
  exists r', integer_get (layout t al s) a (l ++ r) = l ++ r'
    /\ length (l ++ r') = size_of (layout t al s).
Proof.
  intros A B L S. pose proof (layout_size t al s B) as LS.
  rewrite integer_size in S by easy.
  pose proof (round_up_le (size_of (layout t al s)) a A) as U.
  set (k := size_of (layout t al s)) in *. rewrite app_length in S.
  exists (firstn (k - length l) r).
  rewrite <- (firstn_skipn (k - length l) r) at 1. rewrite app_assoc.
  assert (Q : length (l ++ firstn (k - length l) r) = k).
  { rewrite app_length, firstn_length. lia. }
  split; [|easy]. now apply integer_get_image.
Qed.

Section Prefix.
Context (h : order) (t : raw) (al : nat) (z : Z).
Context (W : 0 < width (int t)) (R : in_range (int t) z) (NZ : nonzero t = true -> z <> 0%Z).

Lemma unwrap_prefix s r : aligned s ->
  length (map Some (image h (base s) t z) ++ r) = size_of (layout t al s) ->
  unwrap h t al s (map Some (image h (base s) t z) ++ r) = Some z.
Proof.
  revert r. induction s as [w|s IH a|s IH]; intros r; cbn [aligned layout unwrap base].
  - intros _ _. now apply value_make.
  - intros [A B] S.
    destruct (get_prefix t al s a (map Some (image h (base s) t z)) r) as (r' & -> & Q); try easy.
    { now rewrite map_length, image_length. }
    now apply IH.
  - apply IH.
Qed.

Lemma hash_prefix S (f : Z -> S -> S) s r st : aligned s ->
  length (map Some (image h (base s) t z) ++ r) = size_of (layout t al s) ->
  nest_hash h t al f s (map Some (image h (base s) t z) ++ r) st = Some (f z st).
Proof.
  revert r. induction s as [w|s IH a|s IH]; intros r; cbn [aligned layout nest_hash base].
  - intros _ _. unfold end_hash. now rewrite value_make.
  - intros [A B] L.
    destruct (get_prefix t al s a (map Some (image h (base s) t z)) r) as (r' & -> & Q); try easy.
    { now rewrite map_length, image_length. }
    now apply IH.
  - apply IH.
Qed.

Lemma to_usize_prefix u s r : aligned s -> base s = Native ->
  length (map Some (image h (base s) t z) ++ r) = size_of (layout t al s) ->
  nest_to_usize h t al u s (map Some (image h (base s) t z) ++ r) = Some (to_usize u t z).
Proof.
  revert r. induction s as [w|s IH a|s IH]; intros r; cbn [aligned layout nest_to_usize base].
  - intros _ -> _. now rewrite value_make.
  - intros [A B] N L.
    destruct (get_prefix t al s a (map Some (image h (base s) t z)) r) as (r' & -> & Q); try easy.
    { now rewrite map_length, image_length. }
    now apply IH.
  - apply IH.
Qed.

Context (y : Z) (R' : in_range (int t) y) (NZ' : nonzero t = true -> y <> 0%Z).
Lemma compare_prefix s r r' : aligned s ->
  length (map Some (image h (base s) t z) ++ r) = size_of (layout t al s) ->
  length (map Some (image h (base s) t y) ++ r') = size_of (layout t al s) ->
  nest_eq h t al s (map Some (image h (base s) t z) ++ r) (map Some (image h (base s) t y) ++ r')
    = Some (z =? y)%Z
  /\ nest_cmp h t al s (map Some (image h (base s) t z) ++ r) (map Some (image h (base s) t y) ++ r')
    = Some (z ?= y)%Z.
Proof.
  revert r r'. induction s as [w|s IH a|s IH]; intros r r'; cbn [aligned layout nest_eq nest_cmp base].
  - intros _ _ _. unfold end_eq, end_cmp. now rewrite !value_make.
  - intros [A B] L L'.
    destruct (get_prefix t al s a (map Some (image h (base s) t z)) r) as (q & -> & Q); try easy.
    { now rewrite map_length, image_length. }
    destruct (get_prefix t al s a (map Some (image h (base s) t y)) r') as (q' & -> & Q'); try easy.
    { now rewrite map_length, image_length. }
    now apply IH.
  - apply IH.
Qed.
End Prefix.

Lemma from_usize_wrap h t al u s v : aligned s -> base s = Native -> width (int t) = u ->
  (0 <= v < 2 ^ (8 * Z.of_nat u))%Z ->
  nest_from_usize h t al u s v = match wrap h t al s v with Some m => Some (Ok m) | None => None end.
Proof.
  intros A B U V. induction s as [w|s IH a|s IH]; cbn [aligned base nest_from_usize wrap] in *.
  - subst w. unfold from_usize_unchecked. rewrite U, Nat.leb_refl, Z.mod_small by easy.
    easy.
  - destruct A as [A A']. rewrite IH by easy. now destruct (wrap h t al s v).
  - now apply IH.
Qed.
