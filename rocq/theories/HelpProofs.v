(** Proofs about the rendering of help. *)
From Coq Require Import String.
From Coq Require Import List.
From Verif Require Import Base ArgsSpec ArgsModel ArgsOrder ArgsProofs ArgsText ArgsLayout ReportSpec ReportModel.
From Verif Require Import DvarDecSpec.
From Coq Require Import Lia.

(** ** Characters *)

Lemma count_app a b : char_count (a ++ b) = char_count a + char_count b.
Proof. unfold char_count. rewrite filter_app, app_length. reflexivity. Qed.
Lemma count_utf8 c : scalar c -> char_count (utf8 c) = 1.
Proof.
  unfold scalar, utf8. intros S.
  assert (M : forall z, (128 <= 128 + z mod 64 /\ 128 + z mod 64 < 192)%N).
  { intros z. pose proof (N.mod_upper_bound z 64 ltac:(discriminate)). lia. }
  assert (K : forall z, ((128 <=? 128 + z mod 64) && (128 + z mod 64 <? 192))%N = true).
  { intros z. destruct (M z) as [A B]. apply N.leb_le in A. apply N.ltb_lt in B. rewrite A, B. reflexivity. }
  assert (F : forall b, (b < 128 \/ 192 <= b)%N -> ((128 <=? b) && (b <? 192))%N = false).
  { intros b H. destruct (N.leb_spec 128 b), (N.ltb_spec b 192); try reflexivity; lia. }
  unfold char_count.
  repeat match goal with |- context [if (?x <? ?y)%N then _ else _] => destruct (N.ltb_spec x y) end;
    cbn [filter]; rewrite ?K; cbn [negb]; rewrite F by lia; reflexivity.
Qed.
Lemma chars_count s n : chars s n -> char_count s = n.
Proof.
  intros (cs & F & -> & <-). induction F as [|c cs S F IH]; [reflexivity|]. cbn [flat_map].
  rewrite count_app, IH, (count_utf8 c S). reflexivity.
Qed.
Lemma text_chars s : text s -> chars s (char_count s).
Proof.
  intros (cs & F & E). exists cs. split; [exact F|]. split; [exact E|]. symmetry. apply chars_count.
  exists cs. auto.
Qed.

(** ** Widths *)

Lemma wider_some l w : exists w', fold_left wider l (Some w) = Some w' /\ w <= w' /\
  (forall s, In s l -> char_count s <= w') /\ (w' = w \/ exists s, In s l /\ w' = char_count s).
Proof.
  revert w. induction l as [|x l IH]; intros w; cbn [fold_left].
  - exists w. repeat split; [lia|intros s []|left; reflexivity].
  - destruct (IH (Nat.max w (char_count x))) as (w' & E & L & A & B). exists w'. split; [exact E|].
    split; [lia|]. split.
    + intros s [<-|I]; [lia|apply A, I].
    + destruct B as [->|(s & I & ->)]; [|right; exists s; split; [right; exact I|reflexivity]].
      destruct (Nat.max_spec w (char_count x)) as [[_ ->]|[_ ->]]; [right; exists x; split; [left; reflexivity|reflexivity]|left; reflexivity].
Qed.
Lemma wider_none l : match fold_left wider l None with
  | None => l = []
  | Some w => l <> [] /\ (forall s, In s l -> char_count s <= w) /\ exists s, In s l /\ w = char_count s
  end.
Proof.
  destruct l as [|x l]; [reflexivity|]. cbn [fold_left].
  change (wider None x) with (Some (Nat.max 0 (char_count x))). rewrite Nat.max_0_l.
  destruct (wider_some l (char_count x)) as (w & E & L & A & B). rewrite E. split; [discriminate|]. split.
  - intros s [<-|I]; [exact L|apply A, I].
  - destruct B as [->|(s & I & ->)]; [exists x; split; [left; reflexivity|reflexivity]|exists s; split; [right; exact I|reflexivity]].
Qed.
Lemma section_ok title names entries : Forall text names ->
  section title names entries
    (match fold_left wider names None with Some w => WSection title :: entries w | None => [] end).
Proof.
  intros T. pose proof (wider_none names) as W. destruct (fold_left wider names None) as [w|].
  - destruct W as (N & A & s & I & ->). apply se_some; [exact N|]. split.
    + intros s' n I' C. rewrite <- (chars_count _ _ C). apply A, I'.
    + exists s. split; [exact I|]. apply text_chars. rewrite Forall_forall in T. apply T, I.
  - apply se_none, W.
Qed.

(** ** Commands below *)

Lemma take_while_filter {A} (f : A -> bool) l :
  (forall i j x y, i < j -> nth_error l i = Some x -> nth_error l j = Some y -> f y = true -> f x = true) ->
  take_while f l = filter f l.
Proof.
  induction l as [|x l IH]; intros H; [reflexivity|]. cbn. destruct (f x) eqn:E.
  - rewrite IH; [reflexivity|]. intros i j a b L Ha Hb. apply (H (S i) (S j) a b); [lia|exact Ha|exact Hb].
  - clear IH. symmetry.
    assert (K : forall y, In y l -> f y = false).
    { intros y I. apply In_nth_error in I. destruct I as [j I]. destruct (f y) eqn:F; [|reflexivity].
      rewrite (H 0 (S j) x y) in E; [discriminate|lia|reflexivity|exact I|exact F]. }
    clear - K. induction l as [|y l IH]; [reflexivity|]. cbn. rewrite K by (left; reflexivity).
    apply IH. intros z I. apply K. right. exact I.
Qed.
Lemma path_cmp_app p a b : path_cmp (p ++ a) (p ++ b) = path_cmp a b.
Proof.
  induction p as [|x p IH]; [reflexivity|]. cbn. unfold path_cmp in *. cbn [lex_cmp].
  rewrite (proj2 (g_eq _ good_str x x) eq_refl). exact IH.
Qed.
Lemma path_cmp_one x y : path_cmp [x] [y] = str_cmp x y.
Proof. unfold path_cmp. cbn. destruct (str_cmp x y); reflexivity. Qed.
Lemma one_longer {A} (p q : list A) d : prefix p q -> length q = length p + 1 -> q = p ++ [nth (length p) q d].
Proof.
  intros [r ->] L. rewrite app_length in L. destruct r as [|x [|y r]]; cbn in L; try lia.
  rewrite app_nth2, Nat.sub_diag by lia. reflexivity.
Qed.
Lemma sorted_filter {A} (R : A -> A -> Prop) f l : StronglySorted R l -> StronglySorted R (filter f l).
Proof.
  induction 1 as [|x l S IH F]; cbn; [constructor|]. destruct (f x); [|exact IH]. constructor; [exact IH|].
  rewrite Forall_forall in *. intros y I. apply filter_In in I. apply F, I.
Qed.
Lemma sorted_skipn {A} (R : A -> A -> Prop) n l : StronglySorted R l -> StronglySorted R (skipn n l).
Proof.
  revert l. induction n as [|n IH]; intros l S; [exact S|]. destruct S as [|x l S F]; [constructor|]. apply IH, S.
Qed.

Lemma nth_error_skipn {A} n (l : list A) k : nth_error (skipn n l) k = nth_error l (n + k).
Proof. revert l. induction n as [|n IH]; intros [|x l]; cbn; try reflexivity; [destruct k; reflexivity|apply IH]. Qed.

Lemma strict_sorted l : ordered_paths (map c_path l) -> distinct l ->
  StronglySorted (fun x y => path_cmp (c_path x) (c_path y) = Lt) l.
Proof.
  unfold distinct. induction l as [|x l IH]; intros S Dn; [constructor|].
  cbn in S, Dn. inversion S as [|? ? S1 S2]; subst. inversion Dn as [|? ? D1 D2]; subst. constructor; [apply IH; assumption|].
  rewrite Forall_forall in *. intros y I. specialize (S2 (c_path y) (in_map _ _ _ I)).
  unfold le_path in S2. destruct (path_cmp (c_path x) (c_path y)) eqn:E; [|reflexivity|contradiction].
  apply (g_eq _ good_path) in E. exfalso. apply D1. rewrite E. apply in_map, I.
Qed.

Section Help.
  Context (cmds cs : list command) (s : schema) (L : layout_sorted cmds cs) (D : distinct cmds) (C : compiled cs s).
  Context (T : text_layout cmds).

  Lemma same_cs : same cmds cs.
  Proof. exact (layout_same _ _ L). Qed.
  Lemma cs_strict i j c d : i < j -> nth_error cs i = Some c -> nth_error cs j = Some d -> path_cmp (c_path c) (c_path d) = Lt.
  Proof.
    intros Li Hi Hj.
    assert (N : path_cmp (c_path c) (c_path d) <> Gt).
    { eapply (sorted_nth _ _ (co_sorted _ _ C) i j); [exact Li| |]; rewrite nth_error_map; [rewrite Hi|rewrite Hj]; reflexivity. }
    destruct (path_cmp (c_path c) (c_path d)) eqn:E; [|reflexivity|contradiction]. apply (g_eq _ good_path) in E.
    assert (X : i = j); [|lia]. eapply (NoDup_nth_error (map c_path cs)); [exact (co_distinct _ _ C)| |].
    - rewrite map_length. apply nth_error_Some. rewrite Hi. discriminate.
    - rewrite !nth_error_map, Hi, Hj. cbn. rewrite E. reflexivity.
  Qed.

  Definition below (p : path) (v : command) : bool :=
    (length p <? length (c_path v)) && is_eq (path_cmp (firstn (length p) (c_path v)) p).
  Lemma below_spec p v : below p v = true <-> prefix p (c_path v) /\ length p < length (c_path v).
  Proof.
    unfold below. rewrite andb_true_iff, Nat.ltb_lt, prefix_firstn.
    assert (X : is_eq (path_cmp (firstn (length p) (c_path v)) p) = true <-> firstn (length p) (c_path v) = p).
    { rewrite <- (g_eq _ good_path). destruct (path_cmp _ _); cbn; split; congruence. }
    rewrite X. tauto.
  Qed.

  Lemma in_cs_nth_after i c d : nth_error cs i = Some c -> In d cs -> path_cmp (c_path c) (c_path d) = Lt ->
    In d (skipn (i + 1) cs).
  Proof.
    intros Hi I Lt. apply In_nth_error in I. destruct I as [j Hj].
    assert (Lj : i < j).
    { destruct (Nat.lt_trichotomy i j) as [X|[->|X]]; [exact X| |].
      - rewrite Hi in Hj. injection Hj as ->. rewrite (proj2 (g_eq _ good_path (c_path d) (c_path d)) eq_refl) in Lt. discriminate.
      - pose proof (cs_strict _ _ _ _ X Hj Hi) as Y. rewrite (g_anti _ good_path), Y in Lt. discriminate. }
    assert (E : nth_error (skipn (i + 1) cs) (j - (i + 1)) = Some d).
    { rewrite nth_error_skipn. replace (i + 1 + (j - (i + 1))) with j by lia. exact Hj. }
    eapply nth_error_In, E.
  Qed.

  Lemma write_ok hc hf info entry i c : nth_error cs i = Some c ->
    exists calls, help_write hc hf info entry s i = Ok calls /\ help_text cmds hc hf info entry (c_path c) calls.
  Proof.
    intros Hi. unfold help_write, info_at.
    pose proof Hi as Hs. rewrite <- (co_info _ _ C), nth_error_map in Hs.
    destruct (nth_error s i) as [d|] eqn:Ed; [|discriminate]. cbn in Hs. injection Hs as Hs. cbn [bind]. rewrite Hs.
    set (p := c_path c). rewrite <- skipn_map, (co_info _ _ C).
    change (fun v => (length p <? length (c_path v)) && is_eq (path_cmp (firstn (length p) (c_path v)) p)) with (below p).
    assert (After : forall k e, nth_error (skipn (i + 1) cs) k = Some e -> nth_error cs (i + 1 + k) = Some e).
    { intros k e. rewrite nth_error_skipn. auto. }
    assert (Gt_p : forall e, In e (skipn (i + 1) cs) -> path_cmp p (c_path e) = Lt).
    { intros e I. apply In_nth_error in I. destruct I as [k I]. apply After in I. eapply (cs_strict i); [|exact Hi|exact I]. lia. }
    assert (TW : take_while (below p) (skipn (i + 1) cs) = filter (below p) (skipn (i + 1) cs)).
    { apply take_while_filter. intros a b x y Lab Ha Hb B. rewrite below_spec in *. destruct B as [B Bl].
      assert (X : path_cmp p (c_path x) = Lt) by (apply Gt_p; eapply nth_error_In, Ha).
      assert (P : prefix p (c_path x)).
      { eapply prefix_between; [exact B|rewrite X; discriminate|].
        rewrite (cs_strict (i + 1 + a) (i + 1 + b) x y); [discriminate|lia|apply After, Ha|apply After, Hb]. }
      split; [exact P|]. destruct (Nat.lt_ge_cases (length p) (length (c_path x))) as [|Le]; [assumption|].
      rewrite <- (prefix_same _ _ P Le), (proj2 (g_eq _ good_path p p) eq_refl) in X. discriminate. }
    rewrite TW. set (iter := filter _ (filter (below p) (skipn (i + 1) cs))).
    set (sub := fun v : command => nth (length p) (c_path v) ([] : str)).
    assert (It : forall v, In v iter <-> In v cs /\ c_path v = p ++ [sub v]).
    { intros v. unfold iter. rewrite !filter_In, below_spec, Nat.eqb_eq. split.
      - intros [[I [P Lp]] Ln]. split; [|apply one_longer; assumption].
        rewrite <- (firstn_skipn (i + 1) cs). apply in_or_app. right. exact I.
      - intros [I E].
        assert (X : length (c_path v) = length p + 1) by (rewrite E, app_length; reflexivity).
        split; [split|exact X].
        + apply (in_cs_nth_after i c); [exact Hi|exact I|]. fold p. rewrite E.
          replace p with (p ++ []) at 1 by apply app_nil_r. rewrite path_cmp_app. reflexivity.
        + split; [exists [sub v]; exact E|lia]. }
    assert (Sub : forall x, In x (map sub iter) <-> is_command cmds (p ++ [x])).
    { intros x. rewrite in_map_iff. destruct same_cs as [S1 S2]. split.
      - intros (v & <- & I). apply It in I. destruct I as [I E]. destruct (S2 v I) as (v' & I' & Ep & _). exists v'. split; [exact I'|congruence].
      - intros (v & I & E). destruct (S1 v I) as (v' & I' & Ep & _). exists v'.
        assert (Ev : c_path v' = p ++ [x]) by congruence.
        assert (Es : sub v' = x). { unfold sub. rewrite Ev, app_nth2, Nat.sub_diag by lia. reflexivity. }
        split; [exact Es|]. apply It. split; [exact I'|rewrite Es; exact Ev]. }
    assert (Ss : StronglySorted (fun a b => str_cmp a b = Lt) (map sub iter)).
    { assert (S0 : StronglySorted (fun x y => path_cmp (c_path x) (c_path y) = Lt) iter).
      { apply sorted_filter, sorted_filter, sorted_skipn.
        apply strict_sorted; [exact (co_sorted _ _ C)|exact (co_distinct _ _ C)]. }
      assert (It' : forall v, In v iter -> c_path v = p ++ [sub v]) by (intros v I; apply It, I).
      clear - S0 It'. clearbody iter. induction S0 as [|x l S IH F]; cbn; constructor.
      - apply IH. intros v I. apply It'. right. exact I.
      - rewrite Forall_forall in *. intros y I. apply in_map_iff in I. destruct I as (v & <- & I).
        specialize (F v I). rewrite (It' x (or_introl eq_refl)), (It' v (or_intror I)), path_cmp_app, path_cmp_one in F. exact F. }
    destruct same_cs as [S1 S2].
    destruct L as (mid & F & Pm & _).
    assert (Ic : In c mid) by (eapply Permutation_in; [apply Permutation_sym, Pm|eapply nth_error_In, Hi]).
    assert (Src : exists c0, In c0 cmds /\ c_path c0 = p /\ sorted_by by_name (c_flags c0) (c_flags c)).
    { clear - F Ic. induction F as [|a b l m [E Sb] F IH]; [destruct Ic|]. destruct Ic as [->|I].
      - exists a. split; [left; reflexivity|]. split; [symmetry; exact E|exact Sb].
      - destruct (IH I) as (c0 & I0 & R). exists c0. split; [right; exact I0|exact R]. }
    destruct Src as (c0 & I0 & E0 & Sb).
    assert (Tf : Forall text (map f_name (c_flags c))).
    { destruct (T c0 I0) as [_ Tf]. destruct Sb as [Pf _]. rewrite Forall_forall in *. intros x I. apply Tf.
      eapply Permutation_in; [apply Permutation_sym, Permutation_map, Pf|exact I]. }
    assert (Ts : Forall text (map sub iter)).
    { rewrite Forall_forall. intros x I. apply Sub in I. destruct I as (v & I & E). destruct (T v I) as [Tp _].
      rewrite Forall_forall in Tp. apply Tp. rewrite E. apply in_or_app. right. left. reflexivity. }
    eexists. split; [reflexivity|].
    exists c0, (c_flags c), (map sub iter). do 2 eexists. split; [exact I0|]. split; [exact E0|]. split; [exact Sb|]. split; [exact Ss|].
    split; [exact Sub|]. split; [|split].
    3: reflexivity.
    - apply (section_ok _ _ (fun w => map (fun f => WFlag (f_name f) (f_mode f) (hf p (f_name f)) w) (c_flags c))), Tf.
    - assert (Em : forall w, map (fun x => WCommand x (hc (p ++ [x])) w) (map sub iter) =
                    map (fun v => WCommand (sub v) (hc (c_path v)) w) iter).
      { intros w. rewrite map_map. apply map_ext_in. intros v I. apply It in I. destruct I as [_ E]. rewrite <- E. reflexivity. }
      pose proof (section_ok (ascii "Commands") (map sub iter) (fun w => map (fun x => WCommand x (hc (p ++ [x])) w) (map sub iter)) Ts) as X.
      destruct (fold_left wider (map sub iter) None) as [w|]; [rewrite Em in X|]; exact X.
  Qed.
End Help.
