(** Proofs about what the D-Bus wire format leaves out of a value. *)
From Verif Require Import Base DbusSpec DbusSigTheory DvarModel DvarSpec DvarProofs DvarEncode DvarDecode DvarLossSpec.
Local Open Scope N_scope.

Lemma app_cut {A} (a : list A) : forall a' b b', length a = length a' -> a ++ b = a' ++ b' -> a = a' /\ b = b'.
Proof.
  induction a as [|x a IH]; intros [|x' a'] b b' L E; try discriminate L; [auto|].
  cbn in E. injection E as -> E. destruct (IH a' b b' ltac:(now injection L) E) as [-> ->]. auto.
Qed.
Lemma int_length big n v : length (int big n v) = n.
Proof. pose proof (size_int big n v) as H. unfold size in H. lia. Qed.
Lemma int_inj big n v v' r r' : v < 256 ^ N.of_nat n -> v' < 256 ^ N.of_nat n -> int big n v ++ r = int big n v' ++ r' -> v = v' /\ r = r'.
Proof.
  intros H H' E. apply app_cut in E; [|now rewrite !int_length]. destruct E as [E ->]. split; [|reflexivity].
  pose proof (de_int big n v H) as D. pose proof (de_int big n v' H') as D'. rewrite E in D. congruence.
Qed.
Lemma size_eq_length {A} (a b : list A) : size a = size b -> length a = length b.
Proof. unfold size. lia. Qed.
Lemma counted_inj big n s s' r r' : size s < 256 ^ N.of_nat n -> size s' < 256 ^ N.of_nat n ->
  counted big n s ++ r = counted big n s' ++ r' -> s = s' /\ r = r'.
Proof.
  unfold counted. intros H H' E. rewrite <- !app_assoc in E. apply int_inj in E; [|assumption|assumption].
  destruct E as [L E]. apply app_cut in E; [|now apply size_eq_length]. destruct E as [-> E]. now injection E.
Qed.

Fixpoint kept_all (ts : list ty) (vs : list value) : list value :=
  match ts, vs with t :: ts, v :: vs => kept t v :: kept_all ts vs | _, _ => [] end.
Lemma kept_struct ts vs : kept (TStruct ts) (VStruct vs) = VStruct (kept_all ts vs).
Proof.
  cbn [kept]. f_equal. revert ts. induction vs as [|v vs IH]; intros [|t ts]; cbn [kept_all]; try reflexivity. f_equal. apply IH.
Qed.
Lemma kept_repeat u vs : kept_all (repeat u (length vs)) vs = map (kept u) vs.
Proof. induction vs as [|v vs IH]; cbn; [reflexivity|]. now rewrite IH. Qed.

Section Ty.
Context (Q : ty -> Prop).
Context (Hb : forall b, Q (TBasic b)) (Hv : Q TVariant) (Ha : forall t, Q t -> Q (TArray t)) (Hm : forall t, Q t -> Q (TMaybe t))
  (Hs : forall ts, Forall Q ts -> Q (TStruct ts)) (Hd : forall k t, Q t -> Q (TDict k t)).
Fixpoint ty_rect'' (t : ty) : Q t :=
  match t return Q t with
  | TBasic b => Hb b | TVariant => Hv | TArray t => Ha t (ty_rect'' t) | TMaybe t => Hm t (ty_rect'' t)
  | TStruct ts => Hs ts ((fix all ts : Forall Q ts :=
      match ts with [] => Forall_nil Q | t :: ts => @Forall_cons _ Q t ts (ty_rect'' t) (all ts) end) ts)
  | TDict k t => Hd k t (ty_rect'' t)
  end.
End Ty.

(** Only values of blank types have no bytes, and they have none where they are aligned. *)
Lemma no_bytes big : forall t v pos, marshal big t v pos = Some [] -> blank t = true.
Proof.
  assert (I : forall n v, int big (S n) v <> []) by (intros n v E; apply (f_equal (@length N)) in E; rewrite int_length in E; discriminate E).
  refine (ty_rect'' (fun t => forall v pos, marshal big t v pos = Some [] -> blank t = true) _ _ _ _ _ _).
  - intros b v pos H. exfalso. destruct b, v; try discriminate H; cbn [marshal] in H; destruct (_ <? _); try discriminate H;
      injection H as H; apply (f_equal (@length N)) in H; unfold counted in H; rewrite ?app_length, ?int_length in H; cbn [length] in H; lia.
  - intros v pos H. exfalso. destruct v; try discriminate H. cbn [marshal] in H. destruct (_ <? _); [|discriminate H]. cbv zeta in H.
    destruct (marshal _ _ _ _); [|discriminate H]. injection H as H. apply app_eq_nil in H. destruct H as [H _]. unfold counted in H.
    apply app_eq_nil in H. destruct H as [H _]. exact (I _ _ H).
  - intros t _ v pos H. exfalso. destruct v; try discriminate H. rewrite marshal_array in H. cbv zeta in H.
    destruct (marshal_all _ _ _ _); [|discriminate H]. destruct (_ <? _); [|discriminate H]. injection H as H.
    apply app_eq_nil in H. destruct H as [_ H]. apply app_eq_nil in H. destruct H as [H _]. exact (I _ _ H).
  - intros t _ v pos H. destruct v; discriminate H.
  - intros ts F v pos H. destruct v; try discriminate H. rewrite marshal_struct in H.
    destruct (marshal_all _ _ _ _) as [b|] eqn:E; [|discriminate H]. injection H as H. apply app_eq_nil in H. destruct H as [_ ->].
    cbn [blank]. revert E. generalize (pos + size (padding pos 3)). revert vs. induction F as [|t ts Ft F IH]; intros vs q E; [reflexivity|].
    destruct vs as [|v vs]; [discriminate E|]. cbn [marshal_all] in E. destruct (marshal big t v q) as [b1|] eqn:E1; [|discriminate E].
    destruct (marshal_all big ts vs _) as [b2|] eqn:E2; [|discriminate E]. injection E as E. apply app_eq_nil in E. destruct E as [-> ->].
    cbn [forallb]. rewrite (Ft v q E1). exact (IH vs _ E2).
  - intros k t Ht v pos H. exfalso. destruct v as [| | | | | | | | |kv v]; try discriminate H. rewrite marshal_dict in H.
    destruct (marshal_all _ _ _ _) as [b|] eqn:E; [|discriminate H]. injection H as H. apply app_eq_nil in H. destruct H as [_ ->].
    cbn [marshal_all] in E. destruct (marshal big (TBasic k) kv _) as [b1|] eqn:E1; [|discriminate E].
    destruct (marshal big t v _); [|discriminate E]. injection E as E. apply app_eq_nil in E. destruct E as [-> _].
    revert E1. generalize (pos + size (padding pos 3)). intros q H. destruct k, kv; try discriminate H; cbn [marshal] in H; destruct (_ <? _); try discriminate H;
      injection H as H; apply (f_equal (@length N)) in H; unfold counted in H; rewrite ?app_length, ?int_length in H; cbn [length] in H; lia.
Qed.
Lemma padding_none pos k : padding (pad_to (2 ^ k) pos) k = [].
Proof.
  unfold padding. replace (pad_to (2 ^ k) (pad_to (2 ^ k) pos)) with (pad_to (2 ^ k) pos); [rewrite N.sub_diag; reflexivity|].
  unfold pad_to. set (m := 2 ^ k). assert (0 < m) by (apply N.neq_0_lt_0, N.pow_nonzero; lia).
  set (q := (pos + m - 1) / m). replace (q * m + m - 1) with (m - 1 + q * m) by lia. rewrite N.div_add by lia.
  rewrite (N.div_small (m - 1) m) by lia. lia.
Qed.
Lemma blank_bytes big : forall t v pos b, blank t = true -> padding pos 3 = [] -> marshal big t v pos = Some b -> b = [].
Proof.
  refine (ty_rect'' (fun t => forall v pos b, blank t = true -> padding pos 3 = [] -> marshal big t v pos = Some b -> b = []) _ _ _ _ _ _);
    try (intros; discriminate).
  intros ts F v pos b B P H. destruct v; try discriminate H. rewrite marshal_struct, P in H.
  replace (pos + size (@nil N)) with pos in H by (unfold size; cbn; lia).
  destruct (marshal_all _ _ _ _) as [b1|] eqn:E; [|discriminate H]. injection H as <-.
  cbn [blank] in B. revert vs b1 E. induction F as [|t ts Ft F IH]; intros vs b1 E.
  - destruct vs; [|discriminate E]. now injection E.
  - destruct vs as [|v vs]; [discriminate E|]. cbn [marshal_all] in E. destruct (marshal big t v pos) as [b2|] eqn:E1; [|discriminate E].
    destruct (marshal_all big ts vs _) as [b3|] eqn:E2; [|discriminate E]. injection E as <-.
    cbn [forallb] in B. apply andb_prop in B. destruct B as [B1 B2].
    rewrite (Ft v pos b2 B1 P E1) in *. replace (pos + size (@nil N)) with pos in E2 by (unfold size; cbn; lia). exact (IH B2 vs b3 E2).
Qed.
Lemma blank_align t : blank t = true -> dvar_align t = 3.
Proof. destruct t; try discriminate. reflexivity. Qed.
Lemma blank_array big u pos : blank u = true -> padding pos 3 = [] -> forall vs b, marshal_all big (repeat u (length vs)) vs pos = Some b -> b = [].
Proof.
  intros B P vs. induction vs as [|v vs IH]; intros b E; cbn in E; [now injection E|].
  destruct (marshal big u v pos) as [b1|] eqn:E1; [|discriminate E]. rewrite (blank_bytes big u v pos b1 B P E1) in E.
  replace (pos + size (@nil N)) with pos in E by (unfold size; cbn; lia). destruct (marshal_all _ _ vs pos) as [b2|]; [|discriminate E].
  injection E as <-. cbn. apply IH. reflexivity.
Qed.

(** * Bytes determine what is kept *)
Definition told big v := forall v' t pos b b' r r', marshal big t v pos = Some b -> marshal big t v' pos = Some b' ->
  b ++ r = b' ++ r' -> kept t v = kept t v' /\ b = b'.
Lemma told_all big vs : Forall (told big) vs -> forall vs' ts pos b b' r r', marshal_all big ts vs pos = Some b -> marshal_all big ts vs' pos = Some b' ->
  b ++ r = b' ++ r' -> kept_all ts vs = kept_all ts vs' /\ b = b'.
Proof.
  induction 1 as [|v vs Hv F IH]; intros [|v' vs'] [|t ts] pos b b' r r' E E' H; try discriminate; cbn [marshal_all kept_all] in *.
  - injection E as <-. injection E' as <-. auto.
  - destruct (marshal big t v pos) as [b1|] eqn:E1; [|discriminate E]. destruct (marshal big t v' pos) as [b1'|] eqn:E1'; [|discriminate E'].
    destruct (marshal_all big ts vs _) as [b2|] eqn:E2; [|discriminate E]. destruct (marshal_all big ts vs' _) as [b2'|] eqn:E2'; [|discriminate E'].
    injection E as <-. injection E' as <-. rewrite <- !app_assoc in H. destruct (Hv v' t pos b1 b1' _ _ E1 E1' H) as [K ->].
    apply app_inv_head in H. destruct (IH vs' ts _ b2 b2' r r' E2 E2' H) as [K2 ->]. now rewrite K, K2.
Qed.
Lemma told_array big u vs : blank u = false -> Forall (told big) vs -> forall vs' pos b,
  marshal_all big (repeat u (length vs)) vs pos = Some b -> marshal_all big (repeat u (length vs')) vs' pos = Some b -> map (kept u) vs = map (kept u) vs'.
Proof.
  intros B. induction 1 as [|v vs Hv F IH]; intros [|v' vs'] pos b E E'; cbn [length repeat marshal_all map] in *.
  - reflexivity.
  - exfalso. injection E as <-. destruct (marshal big u v' pos) as [b1|] eqn:E1; [|discriminate E']. destruct (marshal_all _ _ vs' _); [|discriminate E'].
    injection E' as E'. apply app_eq_nil in E'. destruct E' as [-> _]. apply no_bytes in E1. congruence.
  - exfalso. injection E' as <-. destruct (marshal big u v pos) as [b1|] eqn:E1; [|discriminate E]. destruct (marshal_all _ _ vs _); [|discriminate E].
    injection E as E. apply app_eq_nil in E. destruct E as [-> _]. apply no_bytes in E1. congruence.
  - destruct (marshal big u v pos) as [b1|] eqn:E1; [|discriminate E]. destruct (marshal big u v' pos) as [b1'|] eqn:E1'; [|discriminate E'].
    destruct (marshal_all _ _ vs _) as [b2|] eqn:E2; [|discriminate E]. destruct (marshal_all _ _ vs' _) as [b2'|] eqn:E2'; [|discriminate E'].
    injection E as <-. injection E' as H. destruct (Hv v' u pos b1 b1' b2 b2' E1 E1' (eq_sym H)) as [K ->].
    apply app_inv_head in H. subst b2'. now rewrite K, (IH vs' _ b2 E2 E2').
Qed.
Theorem tells big v : told big v.
Proof.
  revert v. refine (value_rect' (told big) _ _ _ _ _); [intros v|intros u v IH|intros vs IH|intros vs IH|intros k v IHk IHv].
  - destruct v as [n|n|n|s|s|s| | | |]; try exact Logic.I; intros v' [[]| | | | |] pos b b' r r' E E' H; try discriminate E;
      destruct v' as [n'|n'|n'|s'|s'|s'| | | |]; try discriminate E'; cbn [marshal] in E, E';
      match type of E with context [if ?a <? ?c then _ else _] => destruct (N.ltb_spec a c) as [L|]; [|discriminate E] end;
      match type of E' with context [if ?a <? ?c then _ else _] => destruct (N.ltb_spec a c) as [L'|]; [|discriminate E'] end;
      injection E as <-; injection E' as <-; rewrite <- ?app_assoc in H; try apply app_inv_head in H.
    + apply int_inj in H; [|exact L|exact L']. destruct H as [-> _]. auto.
    + apply int_inj in H; [|exact L|exact L']. destruct H as [-> _]. auto.
    + apply int_inj in H; [|exact L|exact L']. destruct H as [-> _]. auto.
    + apply counted_inj in H; [|exact L|exact L']. destruct H as [-> _]. auto.
    + apply counted_inj in H; [|exact L|exact L']. destruct H as [-> _]. auto.
    + apply counted_inj in H; [|exact L|exact L']. destruct H as [-> _]. auto.
  - intros v' [[]| | | | |] pos b b' r r' E E' H; try discriminate E. destruct v' as [| | | | | |u' v'| | |]; try discriminate E'.
    cbn [marshal] in E, E'. cbv zeta in E, E'.
    destruct (N.ltb_spec (size (print u)) (2 ^ 8)) as [L|]; [|discriminate E]. destruct (N.ltb_spec (size (print u')) (2 ^ 8)) as [L'|]; [|discriminate E'].
    destruct (marshal big u v _) as [b1|] eqn:E1; [|discriminate E]. destruct (marshal big u' v' _) as [b1'|] eqn:E1'; [|discriminate E'].
    injection E as <-. injection E' as <-. rewrite <- !app_assoc in H. apply counted_inj in H; [|exact L|exact L']. destruct H as [P H].
    apply print_inj in P. subst u'. destruct (IH v' u _ b1 b1' r r' E1 E1' H) as [K ->]. cbn [kept]. now rewrite K.
  - intros v' [[]| |u| | |] pos b b' r r' E E' H; try discriminate E. destruct v' as [| | | | | | |vs'| |]; try discriminate E'.
    rewrite marshal_array in E, E'. cbv zeta in E, E'.
    destruct (marshal_all _ _ vs _) as [b1|] eqn:E1; [|discriminate E]. destruct (marshal_all _ _ vs' _) as [b1'|] eqn:E1'; [|discriminate E'].
    destruct (N.ltb_spec (size b1) (2 ^ 32)) as [L|]; [|discriminate E]. destruct (N.ltb_spec (size b1') (2 ^ 32)) as [L'|]; [|discriminate E'].
    injection E as <-. injection E' as <-. rewrite <- !app_assoc in H. apply app_inv_head in H. apply int_inj in H; [|exact L|exact L'].
    destruct H as [S H]. apply app_inv_head in H. apply app_cut in H; [|now apply size_eq_length]. destruct H as [<- _]. split; [|reflexivity].
    cbn [kept]. f_equal. destruct (blank u) eqn:B; [reflexivity|]. exact (told_array big u vs B IH vs' _ b1 E1 E1').
  - intros v' [[]| |u| |ts|] pos b b' r r' E E' H; try discriminate E. destruct v' as [| | | | | | | |vs'|]; try discriminate E'.
    rewrite marshal_struct in E, E'. destruct (marshal_all _ _ vs _) as [b1|] eqn:E1; [|discriminate E]. destruct (marshal_all _ _ vs' _) as [b1'|] eqn:E1'; [|discriminate E'].
    injection E as <-. injection E' as <-. rewrite <- !app_assoc in H. apply app_inv_head in H. rewrite !kept_struct.
    destruct (told_all big vs IH vs' ts _ b1 b1' r r' E1 E1' H) as [-> ->]. auto.
  - intros v' [[]| |u| |ts|kt u] pos b b' r r' E E' H; try discriminate E. destruct v' as [| | | | | | | | |k' v']; try discriminate E'.
    rewrite marshal_dict in E, E'. destruct (marshal_all _ _ [k; v] _) as [b1|] eqn:E1; [|discriminate E]. destruct (marshal_all _ _ [k'; v'] _) as [b1'|] eqn:E1'; [|discriminate E'].
    injection E as <-. injection E' as <-. rewrite <- !app_assoc in H. apply app_inv_head in H.
    destruct (told_all big [k; v] ltac:(auto) [k'; v'] _ _ b1 b1' r r' E1 E1' H) as [K ->]. split; [|reflexivity].
    cbn [kept_all] in K. injection K as K1 K2. cbn [kept]. rewrite K2. f_equal.
    destruct k; destruct k'; destruct kt; try exact K1; cbn in K1; try discriminate K1; exact K1.
Qed.

(** * What is kept determines the bytes *)
Definition kin big v := forall v' t pos b b', marshal big t v pos = Some b -> marshal big t v' pos = Some b' -> kept t v = kept t v' -> b = b'.
Lemma kin_all big vs : Forall (kin big) vs -> forall vs' ts pos b b', marshal_all big ts vs pos = Some b -> marshal_all big ts vs' pos = Some b' ->
  kept_all ts vs = kept_all ts vs' -> b = b'.
Proof.
  induction 1 as [|v vs Hv F IH]; intros [|v' vs'] [|t ts] pos b b' E E' H; try discriminate; cbn [marshal_all kept_all] in *.
  - congruence.
  - injection H as H1 H2. destruct (marshal big t v pos) as [b1|] eqn:E1; [|discriminate E]. destruct (marshal big t v' pos) as [b1'|] eqn:E1'; [|discriminate E'].
    destruct (marshal_all big ts vs _) as [b2|] eqn:E2; [|discriminate E]. destruct (marshal_all big ts vs' _) as [b2'|] eqn:E2'; [|discriminate E'].
    injection E as <-. injection E' as <-. rewrite (Hv v' t pos b1 b1' E1 E1' H1) in *. now rewrite (IH vs' ts _ b2 b2' E2 E2' H2).
Qed.
Theorem kins big v : kin big v.
Proof.
  revert v. refine (value_rect' (kin big) _ _ _ _ _); [intros v|intros u v IH|intros vs IH|intros vs IH|intros k v IHk IHv].
  - destruct v as [n|n|n|s|s|s| | | |]; try exact Logic.I; intros v' [[]| | | | |] pos b b' E E' H; try discriminate E;
      destruct v' as [n'|n'|n'|s'|s'|s'| | | |]; try discriminate E'; cbn [kept] in H; congruence.
  - intros v' [[]| | | | |] pos b b' E E' H; try discriminate E. destruct v' as [| | | | | |u' v'| | |]; try discriminate E'.
    cbn [kept] in H. injection H as <- H. cbn [marshal] in E, E'. cbv zeta in E, E'. destruct (size (print u) <? 2 ^ 8); [|discriminate E].
    destruct (marshal big u v _) as [b1|] eqn:E1; [|discriminate E]. destruct (marshal big u v' _) as [b1'|] eqn:E1'; [|discriminate E'].
    injection E as <-. injection E' as <-. now rewrite (IH v' u _ b1 b1' E1 E1' H).
  - intros v' [[]| |u| | |] pos b b' E E' H; try discriminate E. destruct v' as [| | | | | | |vs'| |]; try discriminate E'.
    rewrite marshal_array in E, E'. cbv zeta in E, E'.
    destruct (marshal_all _ _ vs _) as [b1|] eqn:E1; [|discriminate E]. destruct (marshal_all _ _ vs' _) as [b1'|] eqn:E1'; [|discriminate E'].
    assert (b1 = b1') as <-; [|congruence]. cbn [kept] in H. injection H as H. rewrite pad_padding in E1, E1'. destruct (blank u) eqn:B.
    + rewrite (blank_align u B) in E1, E1'.
      rewrite (blank_array big u _ B (padding_none _ 3) vs b1 E1). symmetry. exact (blank_array big u _ B (padding_none _ 3) vs' b1' E1').
    + assert (L : length vs = length vs') by (apply (f_equal (@length value)) in H; now rewrite !map_length in H).
      rewrite <- L in E1'. refine (kin_all big vs IH vs' _ _ b1 b1' E1 E1' _). rewrite kept_repeat, L, kept_repeat. exact H.
  - intros v' [[]| |u| |ts|] pos b b' E E' H; try discriminate E. destruct v' as [| | | | | | | |vs'|]; try discriminate E'.
    rewrite !kept_struct in H. injection H as H. rewrite marshal_struct in E, E'.
    destruct (marshal_all _ _ vs _) as [b1|] eqn:E1; [|discriminate E]. destruct (marshal_all _ _ vs' _) as [b1'|] eqn:E1'; [|discriminate E'].
    injection E as <-. injection E' as <-. now rewrite (kin_all big vs IH vs' ts _ b1 b1' E1 E1' H).
  - intros v' [[]| |u| |ts|kt u] pos b b' E E' H; try discriminate E. destruct v' as [| | | | | | | | |k' v']; try discriminate E'.
    cbn [kept] in H. injection H as <- H.
    rewrite marshal_dict in E, E'. destruct (marshal_all _ _ [k; v] _) as [b1|] eqn:E1; [|discriminate E]. destruct (marshal_all _ _ [k; v'] _) as [b1'|] eqn:E1'; [|discriminate E'].
    injection E as <-. injection E' as <-. rewrite (kin_all big [k; v] ltac:(auto) [k; v'] _ _ b1 b1' E1 E1'); [reflexivity|]. cbn [kept_all]. now rewrite H.
Qed.

(** * Values of which everything is kept *)
Lemma solid_not_blank t : solid t = true -> blank t = false.
Proof. destruct t; try reflexivity. cbn. intros H. apply andb_prop in H. now apply negb_true_iff. Qed.
Theorem keeps big v : forall t pos b, marshal big t v pos = Some b -> solid t = true -> solid_variants v -> kept t v = v.
Proof.
  set (Q := fun v => forall t pos b, marshal big t v pos = Some b -> solid t = true -> solid_variants v -> kept t v = v).
  assert (A : forall vs, Forall Q vs -> forall ts pos b, marshal_all big ts vs pos = Some b -> forallb solid ts = true ->
    (fix all vs := match vs with [] => True | v :: vs => solid_variants v /\ all vs end) vs -> kept_all ts vs = vs).
  { induction 1 as [|v0 vs Hv F IH]; intros [|t ts] pos b E S V; try discriminate E; cbn [kept_all marshal_all] in *; [reflexivity|].
    destruct (marshal big t v0 pos) as [b1|] eqn:E1; [|discriminate E]. destruct (marshal_all big ts vs _) as [b2|] eqn:E2; [|discriminate E].
    cbn [forallb] in S. apply andb_prop in S. destruct S as [S1 S2]. destruct V as [V1 V2].
    rewrite (Hv t pos b1 E1 S1 V1). now rewrite (IH ts _ b2 E2 S2 V2). }
  revert v. refine (value_rect' Q _ _ _ _ _); [intros v|intros u v IH|intros vs IH|intros vs IH|intros k v IHk IHv].
  - destruct v; try exact Logic.I; intros [[]| | | | |] pos b H S V; try discriminate H; reflexivity.
  - intros [[]| | | | |] pos b H S V; try discriminate H. cbn [marshal] in H. destruct (_ <? 2 ^ 8); [|discriminate].
    cbv zeta in H. destruct (marshal big u v _) as [b1|] eqn:E; [|discriminate]. destruct V as [V1 V2]. cbn [kept]. now rewrite (IH u _ b1 E V1 V2).
  - intros [[]| |u| | |] pos b H S V; try discriminate H. rewrite marshal_array in H. cbv zeta in H.
    destruct (marshal_all _ _ _ _) as [b1|] eqn:E; [|discriminate]. cbn [kept]. cbn [solid] in S. rewrite (solid_not_blank u S).
    rewrite <- kept_repeat. f_equal. refine (A vs IH _ _ b1 E _ V). clear -S. induction (length vs) as [|n I]; cbn; [reflexivity|]. now rewrite S.
  - intros [[]| |u| |ts|] pos b H S V; try discriminate H. rewrite marshal_struct in H. rewrite kept_struct.
    destruct (marshal_all _ _ _ _) as [b1|] eqn:E; [|discriminate]. f_equal. cbn [solid] in S. apply andb_prop in S.
    exact (A vs IH ts _ b1 E (proj2 S) V).
  - intros [[]| |u| |ts|kt u] pos b H S V; try discriminate H. rewrite marshal_dict in H.
    destruct (marshal_all _ _ _ _) as [b1|] eqn:E; [|discriminate]. destruct V as [V1 V2]. cbn [kept].
    pose proof (A [k; v] ltac:(auto) _ _ b1 E ltac:(cbn [forallb solid]; cbn [solid] in S; now rewrite S) (conj V1 (conj V2 Logic.I))) as K.
    cbn [kept_all] in K. injection K as _ K. now rewrite K.
Qed.

(** * Calls determine the value *)
Lemma encodes_starts : forall t v cs, encodes t v cs -> exists c l, cs = c :: l /\ c <> CClose /\ c <> CCommit.
Proof. destruct 1; eexists; eexists; (split; [reflexivity|split; discriminate]). Qed.
Scheme encodes_mind := Induction for encodes Sort Prop with encodes_all_mind := Induction for encodes_all Sort Prop.
Definition agree (ts ts' : list ty) := forall k t t', nth_error ts k = Some t -> nth_error ts' k = Some t' -> t = t'.
Lemma agree_repeat (u : ty) n n' : agree (repeat u n) (repeat u n').
Proof. intros k t t' H H'. apply nth_error_In, repeat_spec in H. apply nth_error_In, repeat_spec in H'. congruence. Qed.
Lemma agree_refl ts : agree ts ts.
Proof. intros k t t' H H'. congruence. Qed.
Ltac flat H := cbn [app] in H; rewrite <- ?app_assoc in H; cbn [app] in H.
Theorem encodes_functional : forall t v cs, encodes t v cs -> forall v' cs' r r', encodes t v' cs' -> cs ++ r = cs' ++ r' -> v = v' /\ cs = cs'.
Proof.
  refine (encodes_mind (fun t v cs _ => forall v' cs' r r', encodes t v' cs' -> cs ++ r = cs' ++ r' -> v = v' /\ cs = cs')
    (fun ts vs cs _ => forall ts' vs' cs' r r', encodes_all ts' vs' cs' -> agree ts ts' -> cs ++ CClose :: r = cs' ++ CClose :: r' -> vs = vs' /\ cs = cs') _ _ _ _ _ _ _ _ _ _ _ _ _ _).
  - intros n v' cs' r r' H E. inversion H; subst; flat E; try discriminate E. injection E as -> _. auto.
  - intros n v' cs' r r' H E. inversion H; subst; flat E; try discriminate E. injection E as -> _. auto.
  - intros n v' cs' r r' H E. inversion H; subst; flat E; try discriminate E. injection E as -> _. auto.
  - intros n v' cs' r r' H E. inversion H; subst; flat E; try discriminate E. injection E as -> _. auto.
  - intros n v' cs' r r' H E. inversion H; subst; flat E; try discriminate E. injection E as -> _. auto.
  - intros n v' cs' r r' H E. inversion H; subst; flat E; try discriminate E. injection E as -> _. auto.
  - intros t v cs _ IH v' cs' r r' H E. inversion H as [| | | | | |t2 v2 cs2 H2| | | | |]; subst; flat E; try discriminate E.
    injection E as P E. apply print_inj in P. subst t2. destruct (IH _ _ _ _ H2 E) as [-> ->]. auto.
  - intros t vs cs _ IH v' cs' r r' H E. inversion H as [| | | | | | |t2 vs2 cs2 H2| | | |]; subst; flat E; try discriminate E.
    injection E as E. destruct (IH _ _ _ _ _ H2 (agree_repeat t _ _) E) as [-> ->]. auto.
  - intros ts vs cs _ IH v' cs' r r' H E. inversion H as [| | | | | | | |ts2 vs2 cs2 H2| | |]; subst; flat E; try discriminate E.
    injection E as E. destruct (IH _ _ _ _ _ H2 (agree_refl ts) E) as [-> ->]. auto.
  - intros k t kv v cs _ IH v' cs' r r' H E. inversion H as [| | | | | | | | |k2 t2 kv2 v2 cs2 H2| |]; subst; flat E; try discriminate E.
    injection E as E. destruct (IH _ _ _ _ _ H2 (agree_refl _) E) as [K ->]. injection K as -> ->. auto.
  - intros t v cs _ IH v' cs' r r' H E. inversion H as [| | | | | | | | | |t2 v2 cs2 H2|]; subst; flat E; try discriminate E.
    injection E as E. destruct (IH _ _ _ _ H2 E) as [-> ->]. auto.
  - intros t v cs _ IH v' cs' r r' H E. inversion H as [| | | | | | | | | | |t2 v2 cs2 H2]; subst; flat E; try discriminate E.
    injection E as E. destruct (IH _ _ _ _ H2 E) as [-> ->]. auto.
  - intros ts' vs' cs' r r' H A E. inversion H as [|t ts v vs cs1 cs2 H1 H2]; subst; [auto|].
    exfalso. destruct (encodes_starts _ _ _ H1) as [c [l [-> [N _]]]]. cbn in E. injection E as E _. congruence.
  - intros t ts v vs cs1 cs2 H1 IH1 H2 IH2 ts' vs' cs' r r' H A E. inversion H as [|t' ts2 v2 vs2 cs3 cs4 H3 H4]; subst.
    + exfalso. destruct (encodes_starts _ _ _ H1) as [c [l [-> [N _]]]]. cbn in E. injection E as E _. congruence.
    + assert (t = t') as <- by exact (A 0%nat _ _ eq_refl eq_refl). rewrite <- !app_assoc in E.
      destruct (IH1 _ _ _ _ H3 E) as [-> ->]. apply app_inv_head in E.
      destruct (IH2 _ _ _ _ _ H4 (fun k => A (S k)) E) as [-> ->]. auto.
Qed.
