(** Proofs about lossy conversion. *)
From Verif Require Import Base DvarModel DvarDecSpec DvarDecode EtcModel LossyModel LossySpec.
Local Open Scope N_scope.
Local Open Scope res_scope.

Lemma in_range_no lo hi b : ~ (lo <= b <= hi) -> in_range lo hi b = false.
Proof. intros H. destruct (in_range lo hi b) eqn:E; [|reflexivity]. apply in_range_iff in E. contradiction. Qed.
Lemma in_range_yes lo hi b : lo <= b <= hi -> in_range lo hi b = true.
Proof. apply in_range_iff. Qed.

(** The shapes of a character. *)
Inductive shape : list N -> Prop :=
| sh1 a : a < 128 -> shape [a]
| sh2 a b : 194 <= a <= 223 -> 128 <= b <= 191 -> shape [a; b]
| sh3 a b c : 224 <= a <= 239 -> second3 a b = true -> 128 <= c <= 191 -> shape [a; b; c]
| sh4 a b c d : 240 <= a <= 244 -> second4 a b = true -> 128 <= c <= 191 -> 128 <= d <= 191 -> shape [a; b; c; d].

Lemma second3_cont a b : second3 a b = true -> 128 <= b <= 191.
Proof. unfold second3. destruct (a =? 224), (a =? 237); intros H; apply in_range_iff in H; lia. Qed.
Lemma second4_cont a b : second4 a b = true -> 128 <= b <= 191.
Proof. unfold second4. destruct (a =? 240), (a =? 244); intros H; apply in_range_iff in H; lia. Qed.

Lemma shape_valid s : shape s -> utf8_valid s = true.
Proof.
  intros [a A|a b A B|a b c A B C|a b c d A B C D]; cbn [utf8_valid].
  - rewrite (proj2 (N.ltb_lt _ _) A). reflexivity.
  - rewrite (proj2 (N.ltb_ge _ _)) by lia. rewrite (in_range_yes _ _ _ A). unfold cont. rewrite (in_range_yes _ _ _ B). reflexivity.
  - rewrite (proj2 (N.ltb_ge _ _)) by lia. rewrite (in_range_no 194 223) by lia. rewrite (in_range_yes _ _ _ A).
    unfold cont at 2. rewrite (in_range_yes _ _ _ C). unfold second3 in B. rewrite B. reflexivity.
  - rewrite (proj2 (N.ltb_ge _ _)) by lia. rewrite (in_range_no 194 223), (in_range_no 224 239) by lia. rewrite (in_range_yes _ _ _ A).
    unfold second4 in B. rewrite B. unfold cont. rewrite (in_range_yes _ _ _ C), (in_range_yes _ _ _ D). reflexivity.
Qed.

Lemma utf8_shape c : scalar c -> shape (utf8 c).
Proof.
  intros Hc. pose proof (utf8_one c [] Hc) as V. rewrite app_nil_r in V. cbn in V. revert V. unfold utf8.
  assert (M0 : c mod 64 < 64) by (apply N.mod_lt; lia).
  assert (M1 : c / 64 mod 64 < 64) by (apply N.mod_lt; lia).
  assert (M2 : c / 4096 mod 64 < 64) by (apply N.mod_lt; lia).
  destruct (N.ltb_spec c 128) as [A|A]; [intros _; constructor; exact A|].
  destruct (N.ltb_spec c 2048) as [B|B].
  { assert (c / 64 < 32) by (apply N.div_lt_upper_bound; lia). assert (2 <= c / 64) by (apply N.div_le_lower_bound; lia).
    intros _; constructor; lia. }
  destruct (N.ltb_spec c 65536) as [C|C].
  { assert (c / 4096 < 16) by (apply N.div_lt_upper_bound; lia). cbn [utf8_valid].
    rewrite (proj2 (N.ltb_ge _ _)) by lia. rewrite (in_range_no 194 223), (in_range_yes 224 239) by lia.
    rewrite !andb_true_iff. intros [[V _] _]. constructor; [lia| |lia]. exact V. }
  assert (Hc' : c < 1114112) by (destruct Hc; lia).
  assert (c / 262144 < 5) by (apply N.div_lt_upper_bound; lia). cbn [utf8_valid].
  rewrite (proj2 (N.ltb_ge _ _)) by lia. rewrite (in_range_no 194 223), (in_range_no 224 239), (in_range_yes 240 244) by lia.
  rewrite !andb_true_iff. intros [[[V _] _] _]. constructor; [lia|exact V|lia|lia].
Qed.

Lemma pass_shape p s : shape p -> pass (p ++ s) = (true, length p).
Proof.
  intros [a A|a b A B|a b c A B C|a b c d A B C D]; unfold pass, safe_get; cbn [nth app length].
  - rewrite (proj2 (N.ltb_lt _ _) A). reflexivity.
  - rewrite (proj2 (N.ltb_ge _ _)) by lia. unfold cont. rewrite !in_range_yes by lia. reflexivity.
  - rewrite (proj2 (N.ltb_ge _ _)) by lia. rewrite (in_range_no 194 223) by lia. rewrite B. unfold cont. rewrite !in_range_yes by lia. reflexivity.
  - rewrite (proj2 (N.ltb_ge _ _)) by lia. rewrite (in_range_no 194 223), (in_range_no 224 239) by lia. rewrite B. unfold cont.
    rewrite !in_range_yes by lia. reflexivity.
Qed.

Lemma shape_char p : shape p -> exists c, scalar c /\ utf8 c = p.
Proof.
  intros S. destruct (proj1 (utf8_exact p) (shape_valid p S)) as [cs [F E]].
  destruct F as [|c cs Hc F]; [subst p; inversion S|]. cbn [flat_map] in E. exists c. split; [exact Hc|].
  pose proof (pass_shape (utf8 c) (flat_map utf8 cs) (utf8_shape c Hc)) as P. rewrite <- E in P.
  pose proof (pass_shape p [] S) as Q. rewrite app_nil_r, P in Q. injection Q as Q.
  rewrite E, app_length in Q. destruct (flat_map utf8 cs) as [|x r]; [rewrite E, app_nil_r; reflexivity|].
  cbn [length] in Q. lia.
Qed.

Ltac ranges :=
  repeat match goal with
  | H : in_range _ _ _ = true |- _ => apply in_range_iff in H
  | H : cont _ = true |- _ => apply in_range_iff in H
  end.

(** What a pass that found a character took. *)
Lemma pass_true l n : l <> [] -> pass l = (true, n) -> (n <= length l)%nat /\ shape (firstn n l).
Proof.
  intros L. unfold pass. destruct l as [|a l]; [contradiction|]. change (safe_get (a :: l) 0) with a.
  assert (Z : cont 0 = false) by reflexivity.
  assert (Z3 : second3 a 0 = false) by (unfold second3; destruct (a =? 224), (a =? 237); reflexivity).
  assert (Z4 : second4 a 0 = false) by (unfold second4; destruct (a =? 240), (a =? 244); reflexivity).
  destruct (N.ltb_spec a 128) as [A|A]; [intros E; injection E as <-; cbn; split; [lia|constructor; exact A]|].
  destruct (in_range 194 223 a) eqn:R2.
  { destruct l as [|b l]; unfold safe_get; cbn [nth]; [rewrite Z; discriminate|].
    destruct (cont b) eqn:B; [|discriminate]. intros E; injection E as <-. cbn. ranges. split; [lia|constructor; lia]. }
  destruct (in_range 224 239 a) eqn:R3.
  { destruct l as [|b l]; unfold safe_get; cbn [nth]; [rewrite Z3; discriminate|].
    destruct (second3 a b) eqn:B; [|discriminate]. destruct l as [|c l]; cbn [nth]; [rewrite Z; discriminate|].
    destruct (cont c) eqn:C; [|discriminate]. intros E; injection E as <-. cbn. ranges. split; [lia|constructor; [lia|exact B|lia]]. }
  destruct (in_range 240 244 a) eqn:R4; [|discriminate].
  destruct l as [|b l]; unfold safe_get; cbn [nth]; [rewrite Z4; discriminate|].
  destruct (second4 a b) eqn:B; [|discriminate]. destruct l as [|c l]; cbn [nth]; [rewrite Z; discriminate|].
  destruct (cont c) eqn:C; [|discriminate]. destruct l as [|d l]; cbn [nth]; [rewrite Z; discriminate|].
  destruct (cont d) eqn:D; [|discriminate]. intros E; injection E as <-. cbn. ranges. split; [lia|constructor; [lia|exact B|lia|lia]].
Qed.

(** What a pass that found none took, and that no more is needed to see it. *)
Lemma pass_false l n : l <> [] -> pass l = (false, n) ->
  (1 <= n <= 3)%nat /\ (n <= length l)%nat /\ (n = 1%nat \/ exists q, shape (firstn n l ++ q)) /\
  forall m q, (n < m <= length l)%nat -> pass (firstn m l ++ q) = (false, n).
Proof.
  intros L. unfold pass at 1. destruct l as [|a l]; [contradiction|]. change (safe_get (a :: l) 0) with a.
  assert (Z : cont 0 = false) by reflexivity.
  destruct (a <? 128) eqn:A; [discriminate|].
  assert (X : forall m q, (1 < m)%nat -> safe_get (firstn m (a :: l) ++ q) 0 = a).
  { intros [|m] q Hm; [lia|reflexivity]. }
  destruct (in_range 194 223 a) eqn:R2.
  { destruct (cont (safe_get (a :: l) 1)) eqn:B; [discriminate|]. intros E; injection E as <-.
    split; [lia|]. split; [cbn; lia|]. split; [left; reflexivity|]. intros m q Hm. unfold pass. rewrite X by lia. rewrite A, R2.
    destruct l as [|b l]; [cbn in Hm; lia|]. destruct m as [|[|m]]; [lia|lia|]. unfold safe_get in *. cbn [firstn app nth] in *.
    rewrite B. reflexivity. }
  destruct (in_range 224 239 a) eqn:R3.
  { destruct (second3 a (safe_get (a :: l) 1)) eqn:B.
    - destruct l as [|b l]; [unfold safe_get in B; cbn in B; apply second3_cont in B; lia|].
      change (safe_get (a :: b :: l) 1) with b in B.
      destruct (cont (safe_get (a :: b :: l) 2)) eqn:C; [discriminate|]. intros E; injection E as <-.
      split; [lia|]. split; [cbn; lia|]. split; [right; exists [128]; ranges; constructor; [lia|exact B|lia]|].
      intros m q Hm. unfold pass. rewrite X by lia. rewrite A, R2, R3.
      destruct l as [|c l]; [cbn in Hm; lia|]. destruct m as [|[|[|m]]]; try lia. unfold safe_get in *. cbn [firstn app nth] in *.
      rewrite B, C. reflexivity.
    - intros E; injection E as <-.
      split; [lia|]. split; [cbn; lia|]. split; [left; reflexivity|]. intros m q Hm. unfold pass. rewrite X by lia. rewrite A, R2, R3.
      destruct l as [|b l]; [cbn in Hm; lia|]. destruct m as [|[|m]]; [lia|lia|]. unfold safe_get in *. cbn [firstn app nth] in *.
      rewrite B. reflexivity. }
  destruct (in_range 240 244 a) eqn:R4.
  { destruct (second4 a (safe_get (a :: l) 1)) eqn:B.
    - destruct l as [|b l]; [unfold safe_get in B; cbn in B; apply second4_cont in B; lia|].
      change (safe_get (a :: b :: l) 1) with b in B.
      destruct (cont (safe_get (a :: b :: l) 2)) eqn:C.
      + destruct l as [|c l]; [discriminate C|]. change (safe_get (a :: b :: c :: l) 2) with c in C.
        destruct (cont (safe_get (a :: b :: c :: l) 3)) eqn:D; [discriminate|]. intros E; injection E as <-.
        split; [lia|]. split; [cbn; lia|]. split; [right; exists [128]; ranges; constructor; [lia|exact B|lia|lia]|].
        intros m q Hm. unfold pass. rewrite X by lia. rewrite A, R2, R3, R4.
        destruct l as [|d l]; [cbn in Hm; lia|]. destruct m as [|[|[|[|m]]]]; try lia. unfold safe_get in *. cbn [firstn app nth] in *.
        rewrite B, C, D. reflexivity.
      + intros E; injection E as <-.
        split; [lia|]. split; [cbn; lia|]. split; [right; exists [128; 128]; ranges; constructor; [lia|exact B|lia|lia]|].
        intros m q Hm. unfold pass. rewrite X by lia. rewrite A, R2, R3, R4.
        destruct l as [|c l]; [cbn in Hm; lia|]. destruct m as [|[|[|m]]]; try lia. unfold safe_get in *. cbn [firstn app nth] in *.
        rewrite B, C. reflexivity.
    - intros E; injection E as <-.
      split; [lia|]. split; [cbn; lia|]. split; [left; reflexivity|]. intros m q Hm. unfold pass. rewrite X by lia. rewrite A, R2, R3, R4.
      destruct l as [|b l]; [cbn in Hm; lia|]. destruct m as [|[|m]]; [lia|lia|]. unfold safe_get in *. cbn [firstn app nth] in *.
      rewrite B. reflexivity. }
  intros E; injection E as <-.
  split; [lia|]. split; [cbn; lia|]. split; [left; reflexivity|]. intros m q Hm. unfold pass. rewrite X by lia. rewrite A, R2, R3, R4. reflexivity.
Qed.

Lemma pass_bad l n : l <> [] -> pass l = (false, n) ->
  unconvertible (firstn n l ++ skipn n l) /\ maximal_subpart (firstn n l) (skipn n l).
Proof.
  intros L P. destruct (pass_false l n L P) as [H1 [H2 [H3 H4]]]. rewrite firstn_skipn. split.
  - intros c s Hc E. rewrite E, (pass_shape _ _ (utf8_shape c Hc)) in P. discriminate.
  - assert (Hl : length (firstn n l) = n) by (rewrite firstn_length; lia). split.
    + destruct H3 as [->|[q Q]]; [left; exact Hl|]. right. split; [intros E; rewrite E in Hl; cbn in Hl; lia|].
      destruct (shape_char _ Q) as [c [Hc E]]. exists c, q. split; assumption.
    + rewrite firstn_skipn, Hl. intros p s E Hp [c [q [Hc U]]].
      pose proof (H4 (length p) q) as X. rewrite E, app_length in X. rewrite firstn_app, firstn_all, Nat.sub_diag in X. cbn in X.
      rewrite app_nil_r, <- U in X. pose proof (pass_shape _ [] (utf8_shape c Hc)) as Y. rewrite app_nil_r, X in Y; [discriminate|lia].
Qed.

(** The function, without chunks. *)
Inductive conv : list N -> list N -> Prop :=
| cv_end : conv [] []
| cv_char l n t : l <> [] -> pass l = (true, n) -> conv (skipn n l) t -> conv l (firstn n l ++ t)
| cv_bad l n t : l <> [] -> pass l = (false, n) -> conv (skipn n l) t -> conv l (replacement ++ t).

Lemma conv_converts l t : conv l t -> converts l t.
Proof.
  induction 1 as [|l n t L P _ IH|l n t L P _ IH]; [constructor| |].
  - destruct (pass_true l n L P) as [_ S]. destruct (shape_char _ S) as [c [Hc E]].
    pose proof (conv_char c _ _ Hc IH) as X. rewrite E, firstn_skipn in X. exact X.
  - destruct (pass_bad l n L P) as [U M]. pose proof (conv_bad _ _ _ U M IH) as X. rewrite firstn_skipn in X. exact X.
Qed.

Lemma pass_pos l n b : l <> [] -> pass l = (b, n) -> (1 <= n <= length l)%nat.
Proof.
  intros L P. destruct b.
  - destruct (pass_true l n L P) as [H S]. destruct n; [inversion S|lia].
  - destruct (pass_false l n L P) as [H [H' _]]. lia.
Qed.

Lemma text_pass l n b : text l -> l <> [] -> pass l = (b, n) -> b = true /\ text (skipn n l).
Proof.
  intros [cs [F E]] L P. destruct F as [|c cs Hc F]; [contradiction|]. cbn [flat_map] in E. subst l.
  rewrite (pass_shape _ _ (utf8_shape c Hc)) in P. injection P as <- <-. split; [reflexivity|].
  rewrite skipn_app, skipn_all, Nat.sub_diag. cbn. exists cs. split; [exact F|reflexivity].
Qed.

Lemma next_chunk_ok fuel : forall l, (length l < fuel)%nat ->
  exists v i r, next_chunk fuel l = Ok (v, i, r) /\ (length r <= length l)%nat /\ (i = [] -> r = [] /\ l = v /\ conv l v) /\
    (i <> [] -> (length r < length l)%nat /\ forall t, conv r t -> conv l (v ++ replacement ++ t)) /\
    (text l -> i = []).
Proof.
  induction fuel as [|fuel IH]; intros l H; [lia|]. cbn [next_chunk]. destruct l as [|a l'] eqn:El.
  { exists [], [], []. split; [reflexivity|]. split; [cbn; lia|]. split; [intros _; repeat split; constructor|]. split; [contradiction|reflexivity]. }
  rewrite <- El in *. assert (L : l <> []) by (rewrite El; discriminate).
  destruct (pass l) as [b n] eqn:P. pose proof (pass_pos l n b L P) as Hn. destruct b.
  - destruct (IH (skipn n l)) as [v [i [r [E [Lr [H1 [H2 H3]]]]]]]; [rewrite skipn_length; lia|]. rewrite E. cbn [bind].
    exists (firstn n l ++ v), i, r. rewrite skipn_length in *. split; [reflexivity|]. split; [lia|]. split; [|split].
    + intros Ei. destruct (H1 Ei) as [-> [Ev C]]. split; [reflexivity|]. split; [rewrite <- Ev; symmetry; apply firstn_skipn|].
      apply cv_char; assumption.
    + intros Ei. destruct (H2 Ei) as [Hr C]. split; [lia|]. intros t Ht. rewrite <- app_assoc. apply cv_char; [assumption..|]. apply C, Ht.
    + intros T. apply H3. apply (text_pass l n true T L P).
  - exists [], (firstn n l), (skipn n l). assert (F : firstn n l <> []).
    { intros E. apply (f_equal (@length N)) in E. rewrite firstn_length in E. cbn in E. lia. }
    rewrite skipn_length. split; [reflexivity|]. split; [lia|]. split; [intros E; contradiction|]. split; [|intros T; destruct (text_pass l n false T L P) as [X _]; discriminate].
    intros _. split; [lia|]. intros t C. cbn [app]. eapply cv_bad; eassumption.
Qed.

Lemma push_ok fuel : forall l, (length l < fuel)%nat -> exists t, push_chunks fuel l = Ok t /\ conv l t.
Proof.
  induction fuel as [|fuel IH]; intros l H; [lia|]. cbn [push_chunks]. destruct l as [|a l'] eqn:El.
  { exists []. split; [reflexivity|constructor]. }
  rewrite <- El in *. destruct (next_chunk_ok (S (length l)) l ltac:(lia)) as [v [i [r [E [Lr [H1 [H2 H3]]]]]]]. rewrite E. cbn [bind].
  destruct i as [|x i].
  - destruct (H1 eq_refl) as [-> [Ev C]]. destruct fuel; [subst l; cbn in H; lia|]. cbn [push_chunks bind]. rewrite !app_nil_r.
    exists v. split; [reflexivity|exact C].
  - destruct (H2 ltac:(discriminate)) as [Hr C]. destruct (IH r ltac:(lia)) as [t [Et Ct]]. rewrite Et. cbn [bind].
    eexists. split; [reflexivity|]. apply C, Ct.
Qed.

Definition bytes_of (c : cow) : list N := match c with Borrowed s | Owned s => s end.


Lemma repl_scalar : scalar 0xfffd.
Proof. right. lia. Qed.

Lemma converts_text s t : converts s t -> text t.
Proof.
  induction 1 as [|c s t Hc _ IH|p s t _ _ _ IH]; [exists []; split; [constructor|reflexivity]|apply text_cons; assumption|].
  apply text_cons; [apply repl_scalar|assumption].
Qed.

Lemma converts_same s : text s -> converts s s.
Proof. intros [cs [F ->]]. induction F as [|c cs Hc F IH]; [constructor|]. cbn [flat_map]. constructor; assumption. Qed.

Lemma lossy_ok l : exists c, to_string_lossy l = Ok c /\ converts l (bytes_of c) /\
  match c with Borrowed t => t = l /\ text l | Owned _ => ~ text l end.
Proof.
  unfold to_string_lossy, as_encoded_bytes, from_utf8_lossy. destruct l as [|a l'] eqn:El.
  { exists (Borrowed []). split; [reflexivity|]. split; [constructor|]. split; [reflexivity|]. exists []. split; [constructor|reflexivity]. }
  rewrite <- El in *. destruct (next_chunk_ok (S (length l)) l ltac:(lia)) as [v [i [r [E [Lr [H1 [H2 H3]]]]]]]. rewrite E. cbn [bind].
  destruct i as [|x i].
  - destruct (H1 eq_refl) as [-> [Ev C]]. apply conv_converts in C. exists (Borrowed v). split; [reflexivity|]. split; [exact C|].
    split; [symmetry; exact Ev|]. rewrite Ev. apply (converts_text _ _ C).
  - destruct (H2 ltac:(discriminate)) as [Hr C]. destruct (push_ok (S (length r)) r ltac:(lia)) as [t [Et Ct]]. rewrite Et. cbn [bind].
    eexists. split; [reflexivity|]. split; [apply conv_converts, C, Ct|]. intros T. discriminate (H3 T).
Qed.

Lemma app_prefix {A} (a b c d : list A) : a ++ b = c ++ d -> length a = length c -> a = c /\ b = d.
Proof.
  revert c. induction a as [|x a IH]; intros [|y c]; cbn; intros E L; try discriminate; [split; [reflexivity|exact E]|].
  injection E as -> E. injection L as L. destruct (IH _ E L) as [-> ->]. split; reflexivity.
Qed.

Lemma char_unique c s c' s' : scalar c -> scalar c' -> utf8 c ++ s = utf8 c' ++ s' -> utf8 c = utf8 c' /\ s = s'.
Proof.
  intros H H' E. apply app_prefix; [exact E|].
  pose proof (pass_shape _ s (utf8_shape c H)) as P. rewrite E, (pass_shape _ s' (utf8_shape c' H')) in P. injection P as P. symmetry. exact P.
Qed.

Lemma char_nonempty c : scalar c -> utf8 c <> [].
Proof. intros H E. pose proof (utf8_shape c H) as S. rewrite E in S. inversion S. Qed.

Lemma subpart_nonempty p s : maximal_subpart p s -> p <> [].
Proof. intros [[H|[H _]] _]; [intros ->; discriminate|exact H]. Qed.

Lemma converts_unique s t : converts s t -> forall t', converts s t' -> t = t'.
Proof.
  induction 1 as [|c s t Hc _ IH|p s t U M _ IH]; intros t' H.
  - inversion H as [|c s t Hc _ E|p s t _ M _ E]; [reflexivity| |].
    + destruct (app_eq_nil _ _ E) as [X _]. destruct (char_nonempty c Hc X).
    + destruct (app_eq_nil _ _ E) as [X _]. destruct (subpart_nonempty _ _ M X).
  - inversion H as [E|c' s' t1 Hc' H' E|p s' t1 U M _ E].
    + symmetry in E. destruct (app_eq_nil _ _ E) as [X _]. destruct (char_nonempty c Hc X).
    + destruct (char_unique _ _ _ _ Hc Hc' (eq_sym E)) as [-> ->]. f_equal. apply IH, H'.
    + destruct (U c s Hc E).
  - inversion H as [E|c' s' t1 Hc' H' E|p' s' t1 U' M' H' E].
    + symmetry in E. destruct (app_eq_nil _ _ E) as [X _]. destruct (subpart_nonempty _ _ M X).
    + destruct (U c' s' Hc' (eq_sym E)).
    + assert (L : length p = length p').
      { pose proof (subpart_nonempty _ _ M) as N1. pose proof (subpart_nonempty _ _ M') as N2.
        destruct M as [M1 M2], M' as [M1' M2'].
        assert (1 <= length p)%nat by (destruct p; [contradiction|cbn; lia]). assert (1 <= length p')%nat by (destruct p'; [contradiction|cbn; lia]).
        destruct (Nat.lt_trichotomy (length p) (length p')) as [X|[X|X]]; [|exact X|]; exfalso.
        - apply (M2 p' s' (eq_sym E) X). destruct M1' as [Y|[_ Y]]; [lia|exact Y].
        - apply (M2' p s E X). destruct M1 as [Y|[_ Y]]; [lia|exact Y]. }
      destruct (app_prefix _ _ _ _ E (eq_sym L)) as [_ ->]. f_equal. apply IH, H'.
Qed.

(** Lengths. *)
Lemma utf8_len c : scalar c -> (1 <= length (utf8 c) <= 4)%nat.
Proof. intros H. destruct (utf8_shape c H); cbn; lia. Qed.

Lemma subpart_len p s : unconvertible (p ++ s) -> maximal_subpart p s -> (1 <= length p <= 3)%nat.
Proof.
  intros U [[H|[N1 [c [q [Hc E]]]]] _]; [lia|]. assert (1 <= length p)%nat by (destruct p; [contradiction|cbn; lia]).
  pose proof (utf8_len c Hc) as L. rewrite E, app_length in L. destruct q as [|x q]; [|cbn in L; lia].
  rewrite app_nil_r in E. subst p. destruct (U c s Hc eq_refl).
Qed.

Lemma converts_length s t : converts s t -> (length s <= length t <= 3 * length s)%nat.
Proof.
  induction 1 as [|c s t Hc _ IH|p s t U M _ IH]; [cbn; lia| |].
  - rewrite !app_length. lia.
  - rewrite !app_length. change (length (utf8 65533)) with 3%nat. pose proof (subpart_len p s U M). lia.
Qed.

(** Bytes that are no continuation start afresh. *)
Lemma char_tail c x a y : scalar c -> utf8 c = x ++ a :: y -> x <> [] -> 128 <= a <= 191.
Proof.
  intros H E X. destruct x as [|b x]; [contradiction|]. pose proof (utf8_shape c H) as S. rewrite E in S. cbn [app] in S.
  assert (I : In a (x ++ a :: y)) by (apply in_or_app; right; left; reflexivity).
  remember (b :: x ++ a :: y) as w eqn:W. destruct S as [a1 A|a1 b1 A B|a1 b1 c1 A B C|a1 b1 c1 d1 A B C D]; injection W as _ W; rewrite <- W in I; cbn in I.
  - destruct I.
  - destruct I as [<-|[]]. exact B.
  - apply second3_cont in B. destruct I as [<-|[<-|[]]]; assumption.
  - apply second4_cont in B. destruct I as [<-|[<-|[<-|[]]]]; assumption.
Qed.

Lemma app_split {A} (a b c d : list A) : a ++ b = c ++ d -> (exists e, a = c ++ e) \/ (exists x e, c = a ++ x :: e /\ b = x :: e ++ d).
Proof.
  revert c. induction a as [|x a IH]; intros c; cbn.
  - destruct c as [|y c]; intros E; [left; exists []; reflexivity|]. right. exists y, c. split; [reflexivity|exact E].
  - destruct c as [|y c]; intros E; [left; exists (x :: a); reflexivity|]. injection E as -> E.
    destruct (IH c E) as [[e ->]|[z [e [-> ->]]]]; [left; exists e; reflexivity|right; exists z, e; split; reflexivity].
Qed.

Lemma converts_split s t : converts s t -> forall u t', (forall a v, u = a :: v -> ~ (128 <= a <= 191)) -> converts u t' ->
  converts (s ++ u) (t ++ t').
Proof.
  intros H u t' F Hu. induction H as [|c s t Hc _ IH|p s t U M _ IH]; [exact Hu| |].
  - rewrite <- !app_assoc. constructor; assumption.
  - rewrite <- !app_assoc. pose proof (subpart_nonempty _ _ M) as NE. constructor; [| |exact IH].
    + intros c r Hc E. rewrite app_assoc in E. destruct (app_split _ _ _ _ E) as [[e X]|[x [e [X Y]]]].
      * exact (U c e Hc X).
      * apply (F x _ Y). apply (char_tail c (p ++ s) x e Hc X). destruct p; [contradiction|discriminate].
    + destruct M as [M1 M2]. split; [exact M1|]. intros p' s' E L S. rewrite app_assoc in E.
      destruct (app_split _ _ _ _ E) as [[e X]|[x [e [X Y]]]].
      * exact (M2 p' e X L S).
      * destruct S as [c [q [Hc Z]]]. rewrite X, <- app_assoc in Z. apply (F x _ Y). apply (char_tail c (p ++ s) x (e ++ q) Hc Z).
        destruct p; [contradiction|discriminate].
Qed.

Lemma converts_app a s t : text a -> converts s t -> converts (a ++ s) (a ++ t).
Proof.
  intros [cs [F ->]] H. induction F as [|c cs Hc F IH]; [exact H|]. cbn [flat_map]. rewrite <- !app_assoc. constructor; assumption.
Qed.
