(** Proofs about the syntax of arguments. *)
From Verif Require Import Base ArgsSpec ArgsModel ArgsOrder.
From Verif Require DvarDecode.
From Coq Require Import Lia.

Lemma valid_iff s : DvarModel.utf8_valid s = true <-> text s.
Proof. exact (DvarDecode.utf8_exact s). Qed.
Lemma text_dec s : text s \/ ~ text s.
Proof. destruct (DvarModel.utf8_valid s) eqn:E; [left; apply valid_iff, E|right; rewrite <- valid_iff, E; discriminate]. Qed.
Lemma text_nil : text [].
Proof. exists []. split; [constructor|reflexivity]. Qed.
Lemma text_app a b : text a -> text b -> text (a ++ b).
Proof.
  intros (x & Fx & ->) (y & Fy & ->). exists (x ++ y). split; [apply Forall_app; split; assumption|].
  rewrite flat_map_app. reflexivity.
Qed.

Lemma utf8_ascii c : (c < 128)%N -> DvarDecSpec.utf8 c = [c].
Proof. intros L. unfold DvarDecSpec.utf8. rewrite (proj2 (N.ltb_lt _ _)) by exact L. reflexivity. Qed.
Lemma utf8_wide c : (128 <= c)%N -> DvarDecSpec.utf8 c <> [] /\ Forall (fun b => 128 <= b)%N (DvarDecSpec.utf8 c).
Proof.
  intros L. unfold DvarDecSpec.utf8. rewrite (proj2 (N.ltb_ge _ _)) by exact L.
  destruct (_ <? _)%N; [|destruct (_ <? _)%N]; (split; [discriminate|repeat constructor; lia]).
Qed.
Lemma text_one c : (c < 128)%N -> text [c].
Proof.
  intros L. exists [c]. split; [constructor; [|constructor]|cbn; rewrite utf8_ascii by exact L; reflexivity].
  unfold DvarDecSpec.scalar. lia.
Qed.
Lemma wide_covers (w : list N) c a rest r : Forall (fun b => 128 <= b)%N w -> (c < 128)%N ->
  w ++ rest = a ++ c :: r -> exists a', a = w ++ a' /\ rest = a' ++ c :: r.
Proof.
  intros F L. revert a. induction F as [|b w Hb F IH]; intros a E; [exists a; split; [reflexivity|exact E]|].
  destruct a as [|x a]; cbn in E.
  - injection E as -> _. lia.
  - injection E as -> E. destruct (IH a E) as (a' & -> & E'). exists a'. split; [reflexivity|exact E'].
Qed.
(** ASCII characters separate text. *)
Lemma text_split a c r : (c < 128)%N -> (text (a ++ c :: r) <-> text a /\ text r).
Proof.
  intros L. split.
  - intros (cs & F & E). revert a E. induction F as [|k cs Hk F IH]; intros a E; [destruct a; discriminate|].
    cbn [flat_map] in E. destruct (N.lt_ge_cases k 128) as [K|K].
    + rewrite utf8_ascii in E by exact K. destruct a as [|x a]; cbn in E.
      * injection E as -> ->. split; [exact text_nil|]. exists cs. split; [exact F|reflexivity].
      * injection E as -> E. destruct (IH a E) as [T1 T2]. split; [|exact T2].
        apply (text_app [k] a); [apply text_one, K|exact T1].
    + destruct (utf8_wide k K) as [_ W]. destruct (wide_covers _ c a _ r W L (eq_sym E)) as (a' & -> & E').
      destruct (IH a' (eq_sym E')) as [T1 T2]. split; [|exact T2]. apply text_app; [|exact T1].
      exists [k]. split; [constructor; [exact Hk|constructor]|cbn; rewrite app_nil_r; reflexivity].
  - intros [T1 T2]. apply text_app; [exact T1|]. apply (text_app [c] r); [apply text_one, L|exact T2].
Qed.
Lemma text_cons c r : (c < 128)%N -> (text (c :: r) <-> text r).
Proof. intros L. rewrite (text_split [] c r L). split; [intros [_ T]; exact T|intros T; split; [exact text_nil|exact T]]. Qed.
Lemma text_dashes x : text (double_dash ++ x) <-> text x.
Proof. cbn. rewrite !text_cons by reflexivity. reflexivity. Qed.

(** ** The longest valid prefix *)

Lemma valid_len_ok n s : n <= length s ->
  valid_len n s <= n /\ text (firstn (valid_len n s) s) /\ forall k, k <= n -> text (firstn k s) -> k <= valid_len n s.
Proof.
  induction n as [|n IH]; intros L; cbn [valid_len].
  - split; [lia|]. split; [exact text_nil|]. intros; lia.
  - destruct (DvarModel.utf8_valid (firstn (S n) s)) eqn:E.
    + split; [lia|]. split; [apply valid_iff, E|]. intros; lia.
    + destruct IH as (A & B & D); [lia|]. split; [lia|]. split; [exact B|]. intros k K T.
      destruct (Nat.eq_dec k (S n)) as [->|]; [|apply D; [lia|exact T]]. apply valid_iff in T. congruence.
Qed.
Lemma front_ok s : exists tl, s = valid_front s ++ tl /\ text (valid_front s) /\
  forall a b, s = a ++ b -> text a -> length a <= length (valid_front s).
Proof.
  unfold valid_front. destruct (valid_len_ok (length s) s (le_n _)) as (A & B & D).
  exists (skipn (valid_len (length s) s) s). split; [symmetry; apply firstn_skipn|]. split; [exact B|].
  intros a b E T. rewrite firstn_length_le by exact A. apply D.
  - rewrite E, app_length. lia.
  - rewrite E, firstn_app, firstn_all, Nat.sub_diag. cbn. rewrite app_nil_r. exact T.
Qed.

Lemma strip_iff p s x : strip_prefix p s = Some x <-> s = p ++ x.
Proof.
  revert s. induction p as [|c p IH]; intros s; cbn; [split; [intros H; injection H as ->; reflexivity|intros ->; reflexivity]|].
  destruct s as [|y s]; [split; discriminate|]. destruct (N.eqb_spec c y) as [->|N].
  - rewrite IH. split; [intros ->; reflexivity|intros H; injection H as ->; reflexivity].
  - split; [discriminate|]. intros H. injection H as E _. congruence.
Qed.
Lemma split_ok c s : match split_once c s with
  | Some (a, b) => s = a ++ c :: b /\ ~ In c a
  | None => ~ In c s
  end.
Proof.
  induction s as [|x s IH]; cbn; [intros []|]. destruct (N.eqb_spec x c) as [->|N]; [split; [reflexivity|intros []]|].
  destruct (split_once c s) as [[a b]|]; [destruct IH as [-> IH]; split; [reflexivity|]|]; intros [E|E]; congruence || exact (IH E).
Qed.

(** ** Arguments as the parser reads them *)

Lemma read_long arg dd : strip_prefix double_dash (valid_front arg) = Some dd ->
  let tail := negb (length (valid_front arg) =? length arg) in
  match split_once equals dd with
  | None => if tail then unreadable arg else long arg dd None
  | Some (before, _) => long arg before (Some (skipn (2 + length before + 1) arg))
  end.
Proof.
  intros E. apply strip_iff in E. destruct (front_ok arg) as (tl & SE & T & M). cbv zeta.
  rewrite E in SE, T, M |- *. apply (proj1 (text_dashes _)) in T.
  pose proof (split_ok equals dd) as K. destruct (split_once equals dd) as [[before after]|].
  - destruct K as [-> K]. apply text_split in T; [|reflexivity].
    replace (skipn (2 + length before + 1) arg) with (after ++ tl).
    + rewrite SE. rewrite <- !app_assoc. cbn [app]. apply long_value; [apply T|exact K].
    + rewrite SE. cbn [double_dash app skipn]. rewrite <- app_assoc. cbn.
      rewrite Nat.add_1_r. rewrite skipn_app. rewrite skipn_all2 by lia.
      replace (S (length before) - length before) with 1 by lia. reflexivity.
  - rewrite SE. destruct tl as [|t tl].
    + rewrite app_nil_r, Nat.eqb_refl. cbn [negb]. apply long_plain; assumption.
    + replace (length (double_dash ++ dd) =? length ((double_dash ++ dd) ++ t :: tl)) with false
        by (symmetry; apply Nat.eqb_neq; rewrite (app_length (double_dash ++ dd)); cbn; lia).
      cbn [negb]. rewrite <- app_assoc.
      pose proof (split_ok equals (dd ++ t :: tl)) as Q. destruct (split_once equals (dd ++ t :: tl)) as [[n v]|].
      * destruct Q as [Q1 Q2]. rewrite Q1. apply ur_value; [|exact Q2]. intros X.
        assert (Z : length (double_dash ++ n ++ [equals]) <= length (double_dash ++ dd)).
        { apply (M _ v); [rewrite SE, <- app_assoc, Q1, <- !app_assoc; reflexivity|].
          apply text_dashes, text_app; [exact X|apply text_one; reflexivity]. }
        cbn in Z. rewrite app_length in Z. cbn in Z.
        assert (P : prefix n dd).
        { apply (prefix_shorter n dd (dd ++ t :: tl)); [exists (equals :: v); exact Q1|exists (t :: tl); reflexivity|lia]. }
        destruct P as [r ->]. rewrite <- app_assoc in Q1. apply app_inv_head in Q1.
        destruct r as [|e r]; [rewrite app_nil_r in Z; lia|]. cbn in Q1. injection Q1 as -> _. apply K. apply in_or_app. right. left. reflexivity.
      * apply ur_plain; [|exact Q]. intros X.
        assert (Z : length (double_dash ++ dd ++ t :: tl) <= length (double_dash ++ dd)).
        { apply (M _ []); [rewrite SE, app_nil_r, <- app_assoc; reflexivity|]. apply text_dashes, X. }
        rewrite !app_length in Z. cbn in Z. lia.
Qed.
Lemma read_other arg : strip_prefix double_dash (valid_front arg) = None ->
  forall x, arg <> double_dash ++ x.
Proof.
  intros E x ->. destruct (front_ok (double_dash ++ x)) as (tl & SE & T & M).
  assert (L : length double_dash <= length (valid_front (double_dash ++ x))).
  { apply (M _ x); [reflexivity|]. rewrite <- (app_nil_r double_dash). apply text_dashes, text_nil. }
  assert (P : prefix double_dash (valid_front (double_dash ++ x))).
  { apply (prefix_shorter _ _ (double_dash ++ x)); [exists x; reflexivity|exists tl; exact SE|exact L]. }
  destruct P as [r P]. apply strip_iff in P. congruence.
Qed.
Lemma read_whole arg : (if negb (length (valid_front arg) =? length arg) then ~ text arg else text arg /\ valid_front arg = arg).
Proof.
  destruct (front_ok arg) as (tl & SE & T & M). destruct (Nat.eqb_spec (length (valid_front arg)) (length arg)) as [E|E]; cbn [negb].
  - assert (tl = []) as ->. { apply (f_equal (@length N)) in SE. rewrite app_length in SE. destruct tl; [reflexivity|cbn in SE; lia]. }
    rewrite app_nil_r in SE. rewrite <- SE. split; [rewrite SE; exact T|reflexivity].
  - intros X. specialize (M arg [] (eq_sym (app_nil_r _)) X). apply (f_equal (@length N)) in SE. rewrite app_length in SE. lia.
Qed.
