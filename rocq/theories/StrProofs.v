(** Proofs about string utilities. *)
From Verif Require Import Base StrSpec StrModel.
Local Open Scope res_scope.

(** ** Lexicographic orders *)

Section Lex.
Context {A : Type} (c : A -> A -> comparison).
Fixpoint lex (a b : list A) : comparison :=
  match a, b with
  | [], [] => Eq
  | [], _ => Lt
  | _, [] => Gt
  | x :: a, y :: b => match c x y with Eq => lex a b | v => v end
  end.
Hypothesis c_eq : forall x y, c x y = Eq <-> x = y.
Hypothesis c_opp : forall x y, c y x = CompOpp (c x y).
Lemma lex_eq a : forall b, lex a b = Eq <-> a = b.
Proof.
  induction a as [|x a IH]; intros [|y b]; cbn; try (split; [discriminate|discriminate]); [split; reflexivity|].
  destruct (c x y) eqn:E.
  - apply c_eq in E. subst y. rewrite IH. split; [intros ->; reflexivity|intros H; injection H as ->; reflexivity].
  - split; [discriminate|]. intros H. injection H as -> ->. rewrite (proj2 (c_eq y y) eq_refl) in E. discriminate.
  - split; [discriminate|]. intros H. injection H as -> ->. rewrite (proj2 (c_eq y y) eq_refl) in E. discriminate.
Qed.
Lemma lex_opp a : forall b, lex b a = CompOpp (lex a b).
Proof.
  induction a as [|x a IH]; intros [|y b]; cbn; try reflexivity. rewrite (c_opp x y). destruct (c x y); cbn; [apply IH|reflexivity|reflexivity].
Qed.
Variable P : A -> Prop.
Hypothesis c_trans : forall x y z, P x -> P y -> P z -> c x y = Lt -> c y z = Lt -> c x z = Lt.
Lemma lex_trans a : forall b d, Forall P a -> Forall P b -> Forall P d -> lex a b = Lt -> lex b d = Lt -> lex a d = Lt.
Proof.
  induction a as [|x a IH]; intros [|y b] [|z d] FA FB FD; cbn; try discriminate; try reflexivity.
  inversion FA; subst. inversion FB; subst. inversion FD; subst.
  destruct (c x y) eqn:E1; try discriminate; intros K1; destruct (c y z) eqn:E2; try discriminate; intros K2.
  - apply c_eq in E1, E2. subst. rewrite (proj2 (c_eq z z) eq_refl). apply (IH b d); assumption.
  - apply c_eq in E1. subst. rewrite E2. reflexivity.
  - apply c_eq in E2. subst. rewrite E1. reflexivity.
  - rewrite (c_trans x y z) by assumption. reflexivity.
Qed.
End Lex.

Lemma str_cmp_lex a : forall b, str_cmp a b = lex N.compare a b.
Proof. induction a as [|x a IH]; intros [|y b]; cbn; try reflexivity. Qed.
Lemma str_eq a b : str_cmp a b = Eq <-> a = b.
Proof. rewrite str_cmp_lex. apply lex_eq. intros x y. apply N.compare_eq_iff. Qed.
Lemma str_opp a b : str_cmp b a = CompOpp (str_cmp a b).
Proof. rewrite !str_cmp_lex. apply lex_opp. intros x y. apply N.compare_antisym. Qed.
Lemma all_true {A} (l : list A) : Forall (fun _ => True) l.
Proof. induction l; constructor; auto. Qed.
Lemma str_trans a b c : str_cmp a b = Lt -> str_cmp b c = Lt -> str_cmp a c = Lt.
Proof.
  rewrite !str_cmp_lex. apply (lex_trans N.compare) with (P := fun _ => True); try apply all_true.
  - intros x y. apply N.compare_eq_iff.
  - intros x y z _ _ _. rewrite !N.compare_lt_iff. lia.
Qed.
Lemma str_refl a : str_cmp a a = Eq.
Proof. apply str_eq. reflexivity. Qed.

(** ** Numbers *)

Definition cmp_value (l r : list N) : comparison :=
  match parse_u64 l, parse_u64 r with Some l, Some r => N.compare l r | _, _ => Eq end.
Definition cmp_num (l r : list N) : comparison :=
  match cmp_value l r with Eq => str_cmp l r | v => v end.
Definition parsed (d : list N) : Prop :=
  d = [] \/ (exists v, parse_u64 d = Some v) \/ exists c r, d = c :: r /\ (0x39 < c)%N.
Lemma parse_late c r : (0x39 < c)%N -> parse_u64 (c :: r) = None.
Proof.
  intros C. unfold parse_u64. rewrite (proj2 (N.eqb_neq c 0x2b)) by lia. cbn [parse_digits].
  rewrite (proj2 (N.leb_gt c 0x39)) by lia. rewrite andb_false_r. reflexivity.
Qed.
Lemma parse_early x v : parse_u64 x = Some v -> exists d r, x = d :: r /\ (d <= 0x39)%N.
Proof.
  destruct x as [|d r]; [discriminate|]. intros H. exists d, r. split; [reflexivity|].
  destruct (N.le_gt_cases d 0x39) as [L|L]; [exact L|]. rewrite parse_late in H by exact L. discriminate.
Qed.
Lemma value_refl d : cmp_value d d = Eq.
Proof. unfold cmp_value. destruct (parse_u64 d); [apply N.compare_refl|reflexivity]. Qed.
Lemma value_opp l r : cmp_value r l = CompOpp (cmp_value l r).
Proof. unfold cmp_value. destruct (parse_u64 l), (parse_u64 r); try reflexivity. apply N.compare_antisym. Qed.
Lemma num_eq l r : cmp_num l r = Eq <-> l = r.
Proof.
  unfold cmp_num. split; [|intros ->; rewrite value_refl; apply str_refl].
  destruct (cmp_value l r); try discriminate. apply str_eq.
Qed.
Lemma num_opp l r : cmp_num r l = CompOpp (cmp_num l r).
Proof. unfold cmp_num. rewrite value_opp. destruct (cmp_value l r); cbn; [apply str_opp|reflexivity|reflexivity]. Qed.
Lemma num_trans a b c : parsed a -> parsed b -> parsed c -> cmp_num a b = Lt -> cmp_num b c = Lt -> cmp_num a c = Lt.
Proof.
  assert (NL : forall x, str_cmp x [] <> Lt) by (intros [|x l]; discriminate).
  assert (EL : forall x v, parse_u64 x = Some v -> str_cmp [] x = Lt) by (intros [|x l] v H; [discriminate|reflexivity]).
  assert (EE : forall x v c r, parse_u64 x = Some v -> (0x39 < c)%N -> str_cmp x (c :: r) = Lt).
  { intros x v e r H C. destruct (parse_early x v H) as (d & t & -> & D). cbn. rewrite (proj2 (N.compare_lt_iff d e)) by lia. reflexivity. }
  assert (EG : forall x v c r, parse_u64 x = Some v -> (0x39 < c)%N -> str_cmp (c :: r) x <> Lt).
  { intros x v e r H C. destruct (parse_early x v H) as (d & t & -> & D). cbn. rewrite (proj2 (N.compare_gt_iff e d)) by lia. discriminate. }
  unfold cmp_num, cmp_value.
  intros [-> | [[va A]|(ca & ra & -> & A)]] [-> | [[vb B]|(cb & rb & -> & B)]] [-> | [[vc C]|(cc & rc & -> & C)]];
    try (pose proof (parse_late _ ra A) as PA); try (pose proof (parse_late _ rb B) as PB); try (pose proof (parse_late _ rc C) as PC);
    rewrite ?PA, ?PB, ?PC; try rewrite A; try rewrite B; try rewrite C;
    cbn [parse_u64]; intros H1 H2;
    try (exfalso; exact (NL _ H1)); try (exfalso; exact (NL _ H2));
    try (exfalso; eapply EG; [| |exact H1]; eassumption); try (exfalso; eapply EG; [| |exact H2]; eassumption);
    try (eapply EE; eassumption); try (eapply EL; eassumption); try exact eq_refl;
    try (eapply str_trans; eassumption).
  revert H1 H2. destruct (N.compare_spec va vb) as [->|L|L]; try discriminate; destruct (N.compare_spec vb vc) as [->|L2|L2]; try discriminate.
  - apply str_trans.
  - reflexivity.
  - intros _ _. rewrite (proj2 (N.compare_lt_iff _ _) L). reflexivity.
  - intros _ _. rewrite (proj2 (N.compare_lt_iff va vc)) by lia. reflexivity.
Qed.
Lemma fold_grows s : forall v, (v <= fold_left (fun v d => v * 10 + (d - 0x30)) s v)%N.
Proof. induction s as [|c s IH]; intros v; cbn; [lia|]. specialize (IH (v * 10 + (c - 48))%N). lia. Qed.
Lemma parse_digits_ok s : forall v, Forall ascii_digit s -> (fold_left (fun v d => v * 10 + (d - 0x30)) s v < 2 ^ 64)%N ->
  parse_digits v s = Some (fold_left (fun v d => v * 10 + (d - 0x30)) s v)%N.
Proof.
  induction s as [|c s IH]; intros v F L; [reflexivity|]. inversion F as [|? ? D F']; subst. cbn [parse_digits]. cbn [fold_left] in *.
  unfold ascii_digit in D. rewrite (proj2 (N.leb_le 0x30 c)), (proj2 (N.leb_le c 0x39)) by lia. cbn [andb].
  rewrite (proj2 (N.ltb_lt _ _)); [apply IH; assumption|]. eapply N.le_lt_trans; [apply fold_grows|exact L].
Qed.
Lemma parse_number ds : number ds -> (StrSpec.value ds < 2 ^ 64)%N -> parse_u64 ds = Some (StrSpec.value ds).
Proof.
  intros [NE F] L. destruct ds as [|c ds]; [congruence|]. unfold parse_u64.
  inversion F as [|? ? D F']; subst. unfold ascii_digit in D. rewrite (proj2 (N.eqb_neq c 0x2b)) by lia. apply parse_digits_ok; assumption.
Qed.

(** ** Segments *)

Lemma split_find_app p s a b : split_find p s = (a, b) -> s = a ++ b /\ Forall (fun c => p c = false) a /\
  (forall c b', b = c :: b' -> p c = true).
Proof.
  revert a b. induction s as [|c s IH]; intros a b E; cbn in E.
  - injection E as <- <-. split; [reflexivity|]. split; [constructor|discriminate].
  - destruct (p c) eqn:P.
    + injection E as <- <-. split; [reflexivity|]. split; [constructor|]. intros c' b' H. injection H as <- <-. exact P.
    + destruct (split_find p s) as [a' b'] eqn:Q. injection E as <- <-. destruct (IH a' b' eq_refl) as (-> & F & H).
      split; [reflexivity|]. split; [constructor; assumption|exact H].
Qed.
Lemma split_find_unique p a b : Forall (fun c => p c = false) a -> (forall c b', b = c :: b' -> p c = true) ->
  split_find p (a ++ b) = (a, b).
Proof.
  intros F H. induction F as [|c a C F IH]; cbn.
  - destruct b as [|c b]; [reflexivity|]. cbn. rewrite (H c b eq_refl). reflexivity.
  - rewrite C, IH. reflexivity.
Qed.

Section Chars.
Variable numeric : N -> bool.
Notation advance := (advance numeric).
Lemma advance_app s name num rest : advance s = (name, num, rest) ->
  s = name ++ num ++ rest /\ Forall (fun c => numeric c = false) name /\ Forall (fun c => numeric c = true) num /\
  (forall c r, rest = c :: r -> numeric c = false) /\ (num = [] -> rest = []).
Proof.
  unfold StrModel.advance. destruct (split_find numeric s) as [n r] eqn:E1. destruct (split_find _ r) as [d r'] eqn:E2. intros E. injection E as <- <- <-.
  apply split_find_app in E1, E2. destruct E1 as (-> & F1 & H1). destruct E2 as (-> & F2 & H2).
  split; [reflexivity|]. split; [exact F1|]. split; [|split].
  - eapply Forall_impl; [|exact F2]. intros c. apply negb_false_iff.
  - intros c r E. apply negb_true_iff, (H2 _ _ E).
  - intros ->. destruct r' as [|c r']; [reflexivity|]. specialize (H1 c r' eq_refl). specialize (H2 c r' eq_refl).
    rewrite H1 in H2. discriminate.
Qed.
Lemma advance_unique name num rest : Forall (fun c => numeric c = false) name -> Forall (fun c => numeric c = true) num ->
  (forall c r, rest = c :: r -> numeric c = false) -> (num = [] -> rest = []) -> advance (name ++ num ++ rest) = (name, num, rest).
Proof.
  intros F1 F2 H1 H2. unfold StrModel.advance. rewrite split_find_unique.
  - rewrite split_find_unique; [reflexivity| |].
    + eapply Forall_impl; [|exact F2]. intros c. apply negb_false_iff.
    + intros c r E. apply negb_true_iff, (H1 _ _ E).
  - exact F1.
  - intros c b E. destruct num as [|x num]; [rewrite (H2 eq_refl) in E; discriminate|]. injection E as <- _. inversion F2; assumption.
Qed.
Lemma advance_shorter s name num rest : advance s = (name, num, rest) -> s <> [] -> length rest < length s.
Proof.
  intros E NE. destruct (advance_app _ _ _ _ E) as (-> & _ & _ & _ & H). rewrite !app_length.
  destruct name; cbn; [|lia]. destruct num; cbn; [|lia]. rewrite (H eq_refl) in NE. now elim NE.
Qed.
Lemma advance_less c s name num rest : advance (c :: s) = (name, num, rest) -> length rest < length (c :: s).
Proof. intros E. exact (advance_shorter _ _ _ _ E ltac:(discriminate)). Qed.
Definition seg := (list N * list N)%type.
Fixpoint segs_f (fuel : nat) (s : list N) : list seg :=
  match fuel, s with
  | S fuel, _ :: _ => let '(name, num, rest) := advance s in (name, num) :: segs_f fuel rest
  | _, _ => []
  end.
Definition segs (s : list N) : list seg := segs_f (length s) s.
Lemma segs_fuel f : forall g s, length s <= f -> length s <= g -> segs_f f s = segs_f g s.
Proof.
  induction f as [|f IH]; intros g s LF LG; [destruct s; [|cbn in LF; lia]; destruct g; reflexivity|].
  destruct s as [|c s]; [destruct g; reflexivity|]. destruct g as [|g]; [cbn in LG; lia|]. cbn [segs_f].
  destruct (advance (c :: s)) as [[name num] rest] eqn:E. pose proof (advance_less _ _ _ _ _ E). cbn in *.
  f_equal. apply IH; lia.
Qed.
Lemma segs_cons s name num rest : s <> [] -> advance s = (name, num, rest) -> segs s = (name, num) :: segs rest.
Proof.
  intros NE E. unfold segs. destruct s as [|c s]; [congruence|]. cbn [length segs_f]. rewrite E. f_equal.
  pose proof (advance_shorter _ _ _ _ E NE). cbn in *. apply segs_fuel; lia.
Qed.
Lemma segs_more c s name num rest : advance (c :: s) = (name, num, rest) -> segs (c :: s) = (name, num) :: segs rest.
Proof. apply segs_cons. discriminate. Qed.
Lemma segs_inj n : forall a b, length a <= n -> segs a = segs b -> a = b.
Proof.
  induction n as [|n IH]; intros a b L E.
  - destruct a; [|cbn in L; lia]. destruct b as [|c b]; [reflexivity|].
    destruct (advance (c :: b)) as [[name num] rest] eqn:EB. rewrite (segs_more _ _ _ _ _ EB) in E. discriminate.
  - destruct a as [|x a]; destruct b as [|y b].
    + reflexivity.
    + destruct (advance (y :: b)) as [[name num] rest] eqn:EB. rewrite (segs_more _ _ _ _ _ EB) in E. discriminate.
    + destruct (advance (x :: a)) as [[name num] rest] eqn:EA. rewrite (segs_more _ _ _ _ _ EA) in E. discriminate.
    + destruct (advance (x :: a)) as [[name num] rest] eqn:EA. destruct (advance (y :: b)) as [[name' num'] rest'] eqn:EB.
      rewrite (segs_more _ _ _ _ _ EA), (segs_more _ _ _ _ _ EB) in E. injection E as -> -> E.
      pose proof (advance_less _ _ _ _ _ EA).
      apply IH in E; [|cbn in *; lia]. subst rest'. apply advance_app in EA, EB. destruct EA as [-> _]. destruct EB as [-> _]. reflexivity.
Qed.

Definition cmp_seg (a b : seg) : comparison :=
  match str_cmp (fst a) (fst b) with Eq => cmp_num (snd a) (snd b) | v => v end.
Lemma seg_eq a b : cmp_seg a b = Eq <-> a = b.
Proof.
  destruct a as [n d], b as [n' d']. unfold cmp_seg. cbn [fst snd]. destruct (str_cmp n n') eqn:E.
  - apply str_eq in E. subst n'. rewrite num_eq. split; [intros ->; reflexivity|intros H; injection H as ->; reflexivity].
  - split; [discriminate|]. intros H. injection H as -> ->. rewrite str_refl in E. discriminate.
  - split; [discriminate|]. intros H. injection H as -> ->. rewrite str_refl in E. discriminate.
Qed.
Lemma seg_opp a b : cmp_seg b a = CompOpp (cmp_seg a b).
Proof. unfold cmp_seg. rewrite (str_opp (fst a) (fst b)). destruct (str_cmp (fst a) (fst b)); cbn; [apply num_opp|reflexivity|reflexivity]. Qed.
Lemma seg_trans a b c : parsed (snd a) -> parsed (snd b) -> parsed (snd c) -> cmp_seg a b = Lt -> cmp_seg b c = Lt -> cmp_seg a c = Lt.
Proof.
  intros PA PB PC. unfold cmp_seg. destruct (str_cmp (fst a) (fst b)) eqn:E1; try discriminate; destruct (str_cmp (fst b) (fst c)) eqn:E2; try discriminate.
  - apply str_eq in E1, E2. rewrite E1, E2, str_refl. apply num_trans; assumption.
  - apply str_eq in E1. rewrite E1, E2. auto.
  - apply str_eq in E2. rewrite <- E2, E1. auto.
  - rewrite (str_trans _ _ _ E1 E2). auto.
Qed.
Definition cmp (a b : list N) : comparison := lex cmp_seg (segs a) (segs b).
Lemma loop_ok fuel : forall a b, length a + length b < fuel -> cmp_loop numeric fuel a b = Ok (cmp a b).
Proof.
  induction fuel as [|fuel IH]; intros a b L; [lia|]. unfold cmp. cbn [cmp_loop].
  assert (EM : forall c s, lex cmp_seg [] (segs (c :: s)) = Lt /\ lex cmp_seg (segs (c :: s)) [] = Gt /\
    exists name num rest, advance (c :: s) = (name, num, rest) /\ (name = [] -> num <> [])).
  { intros c s. destruct (advance (c :: s)) as [[name num] rest] eqn:E. rewrite (segs_more _ _ _ _ _ E).
    split; [reflexivity|]. split; [reflexivity|]. exists name, num, rest. split; [reflexivity|].
    intros -> ->. destruct (advance_app _ _ _ _ E) as (X & _ & _ & _ & R). rewrite (R eq_refl) in X. discriminate. }
  destruct a as [|x a]; destruct b as [|y b].
  - reflexivity.
  - destruct (EM y b) as (E1 & _ & name & num & rest & E & NE). change (segs []) with (@nil seg). rewrite E1, E.
    change (advance []) with (@nil N, @nil N, @nil N). cbn beta iota. destruct name as [|n name]; [|reflexivity].
    destruct num as [|d num]; [now elim NE|]. cbn. reflexivity.
  - destruct (EM x a) as (_ & E1 & name & num & rest & E & NE). change (segs []) with (@nil seg). rewrite E1, E.
    change (advance []) with (@nil N, @nil N, @nil N). cbn beta iota. destruct name as [|n name]; [|reflexivity].
    destruct num as [|d num]; [now elim NE|]. cbn [str_cmp].
    destruct (parse_u64 (d :: num)); reflexivity.
  - destruct (EM x a) as (_ & _ & n1 & d1 & r1 & E1 & _). destruct (EM y b) as (_ & _ & n2 & d2 & r2 & E2 & _).
    rewrite (segs_more _ _ _ _ _ E1), (segs_more _ _ _ _ _ E2), E1, E2.
    cbn [lex]. unfold cmp_seg. cbn [fst snd]. destruct (str_cmp n1 n2); try reflexivity.
    unfold cmp_num. fold (cmp_value d1 d2). destruct (cmp_value d1 d2); try reflexivity.
    destruct (str_cmp d1 d2); try reflexivity. apply IH.
    pose proof (advance_less _ _ _ _ _ E1). pose proof (advance_less _ _ _ _ _ E2). lia.
Qed.
Theorem cmp_ok a b : cmp_natural numeric a b = Ok (cmp a b).
Proof. apply loop_ok. lia. Qed.
Theorem cmp_eq a b : cmp a b = Eq <-> a = b.
Proof.
  unfold cmp. rewrite (lex_eq cmp_seg seg_eq). split; [apply (segs_inj (length a)); lia|intros ->; reflexivity].
Qed.
Theorem cmp_opp a b : cmp b a = CompOpp (cmp a b).
Proof. apply lex_opp. apply seg_opp. Qed.

Lemma small_parsed n : forall s, length s <= n -> small_numbers numeric s -> Forall (fun x => parsed (snd x)) (segs s).
Proof.
  induction n as [|n IH]; intros s L SM; [destruct s; [constructor|cbn in L; lia]|].
  destruct s as [|c s]; [constructor|]. destruct (advance (c :: s)) as [[name num] rest] eqn:E.
  rewrite (segs_more _ _ _ _ _ E). pose proof (advance_less _ _ _ _ _ E).
  destruct (advance_app _ _ _ _ E) as (Q & F1 & F2 & H1 & H2). rewrite Q in SM.
  assert (LAST : forall (x y : list N) p c, x ++ y = p ++ [c] -> (y = [] /\ x = p ++ [c]) \/ exists q, y = q ++ [c]).
  { intros x y p z X. destruct y as [|y0 y]; [rewrite app_nil_r in X; auto|right].
    destruct (@exists_last _ (y0 :: y) ltac:(discriminate)) as (q & w & W). rewrite W in *. rewrite app_assoc in X.
    apply app_inj_tail in X. destruct X as [_ ->]. eauto. }
  constructor.
  - cbn [snd]. destruct num as [|d num]; [left; reflexivity|right].
    destruct (SM name (d :: num) rest) as [[NU LT]|LATE]; [|left; exists (StrSpec.value (d :: num)); apply parse_number; assumption|right; exact LATE].
    split; [reflexivity|]. split; [discriminate|]. split; [exact F2|]. split; [|exact H1].
    intros p x X. subst name. apply Forall_app in F1. destruct F1 as [_ F1]. inversion F1; assumption.
  - apply IH; [cbn in *; lia|]. intros b run a (R1 & R2 & R3 & R4 & R5).
    apply (SM (name ++ num ++ b) run a). split; [rewrite R1, <- !app_assoc; reflexivity|]. split; [exact R2|]. split; [exact R3|]. split; [|exact R5].
    intros p x X. rewrite app_assoc in X. destruct (LAST _ _ _ _ X) as [[-> _]|[q ->]]; [|eapply R4; reflexivity].
    exfalso. destruct run as [|y run]; [congruence|]. cbn in R1. specialize (H1 _ _ R1). inversion R3; congruence.
Qed.
Theorem cmp_trans a b c : small_numbers numeric a -> small_numbers numeric b -> small_numbers numeric c ->
  cmp a b = Lt -> cmp b c = Lt -> cmp a c = Lt.
Proof.
  intros SA SB SC. unfold cmp. apply (lex_trans cmp_seg seg_eq (fun x => parsed (snd x))).
  - intros x y z. apply seg_trans.
  - exact (small_parsed _ a (Nat.le_refl _) SA).
  - exact (small_parsed _ b (Nat.le_refl _) SB).
  - exact (small_parsed _ c (Nat.le_refl _) SC).
Qed.

(** Strings that differ in one number. *)
Lemma cmp_number n : forall p s x y, length p <= n -> is_run numeric (p ++ x ++ s) p x s -> is_run numeric (p ++ y ++ s) p y s ->
  x <> y -> cmp (p ++ x ++ s) (p ++ y ++ s) = cmp_num x y.
Proof.
  induction n as [|n IH]; intros p s x y L RX RY NE; destruct RX as (_ & X1 & X2 & X3 & X4); destruct RY as (_ & Y1 & Y2 & _ & _).
  all: destruct (advance p) as [[name num] rest] eqn:E; destruct (advance_app _ _ _ _ E) as (Q & F1 & F2 & H1 & H2).
  all: destruct num as [|d num].
  1, 3: (rewrite (H2 eq_refl), !app_nil_r in Q; subst p; clear E H1 H2;
    assert (AX : advance (name ++ x ++ s) = (name, x, s)) by (apply advance_unique; [exact F1|exact X2|exact X4|congruence]);
    assert (AY : advance (name ++ y ++ s) = (name, y, s)) by (apply advance_unique; [exact F1|exact Y2|exact X4|congruence]);
    assert (NX : name ++ x ++ s <> []) by (destruct name; destruct x; discriminate || congruence);
    assert (NY : name ++ y ++ s <> []) by (destruct name; destruct y; discriminate || congruence);
    unfold cmp; rewrite (segs_cons _ _ _ _ NX AX), (segs_cons _ _ _ _ NY AY);
    cbn [lex]; unfold cmp_seg; cbn [fst snd]; rewrite str_refl;
    destruct (cmp_num x y) eqn:C; [apply num_eq in C; congruence|reflexivity|reflexivity]).
  - subst p. rewrite !app_length in L. cbn in L. lia.
  - assert (RN : rest <> []).
    { intros ->. rewrite app_nil_r in Q. destruct (@exists_last _ (d :: num) ltac:(discriminate)) as (q & z & Z).
      rewrite Z in Q, F2. rewrite app_assoc in Q. specialize (X3 _ _ Q). apply Forall_app in F2. destruct F2 as [_ F2]. inversion F2; congruence. }
    assert (AD : forall w, advance (p ++ w) = (name, d :: num, rest ++ w)).
    { intros w. rewrite Q, <- !app_assoc. apply advance_unique; [exact F1|exact F2| |discriminate].
      intros c r R. destruct rest as [|c' rest]; [congruence|]. injection R as <- _. eapply H1. reflexivity. }
    assert (PN : forall w, p ++ w <> []) by (intros w; rewrite Q; destruct name; discriminate).
    unfold cmp. rewrite (segs_cons _ _ _ _ (PN _) (AD _)), (segs_cons _ _ _ _ (PN _) (AD _)). cbn [lex].
    rewrite (proj2 (seg_eq _ _) eq_refl). fold (cmp (rest ++ x ++ s) (rest ++ y ++ s)). apply IH.
    + rewrite Q, !app_length in L. cbn in L. lia.
    + split; [reflexivity|]. split; [exact X1|]. split; [exact X2|]. split; [|exact X4].
      intros q c ->. apply (X3 (name ++ (d :: num) ++ q)). rewrite Q, <- !app_assoc. reflexivity.
    + split; [reflexivity|]. split; [exact Y1|]. split; [exact Y2|]. split; [|exact X4].
      intros q c ->. apply (X3 (name ++ (d :: num) ++ q)). rewrite Q, <- !app_assoc. reflexivity.
    + exact NE.
Qed.
End Chars.
