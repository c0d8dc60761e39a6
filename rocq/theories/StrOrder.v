(** Proofs: natural comparison and the first difference. *)
From Verif Require Import Base StrModel StrSpec StrProofs StrOrderSpec.

Lemma str_app p a b : str_cmp (p ++ a) (p ++ b) = str_cmp a b.
Proof. induction p as [|c p IH]; [reflexivity|]. cbn. rewrite N.compare_refl. exact IH. Qed.
Lemma str_prefix p c r : str_cmp p (p ++ c :: r) = Lt.
Proof. induction p as [|d p IH]; [reflexivity|]. cbn. rewrite N.compare_refl. exact IH. Qed.
Lemma str_dictionary a : forall b, str_cmp a b = Lt <-> dictionary a b.
Proof.
  intros b. split.
  - revert b. induction a as [|c a IH]; intros [|d b]; cbn; try discriminate; intros E.
    + apply (dictionary_prefix []).
    + destruct (N.compare_spec c d) as [->|L|L]; try discriminate.
      * destruct (IH b E) as [p x r|p x r y s L]; [apply (dictionary_prefix (d :: p))|apply (dictionary_char (d :: p)), L].
      * apply (dictionary_char []), L.
  - intros [p c r|p c r d s L]; [apply str_prefix|]. rewrite str_app. cbn. rewrite (proj2 (N.compare_lt_iff _ _) L). reflexivity.
Qed.

Lemma parse_digits_some s : forall v w, parse_digits v s = Some w -> (v < 2 ^ 64)%N ->
  Forall ascii_digit s /\ w = fold_left (fun v d => v * 10 + (d - 0x30))%N s v /\ (w < 2 ^ 64)%N.
Proof.
  induction s as [|c s IH]; intros v w E L; cbn [parse_digits fold_left] in *.
  - injection E as <-. split; [constructor|]. split; [reflexivity|exact L].
  - destruct ((48 <=? c) && (c <=? 57))%N eqn:D; [|discriminate].
    destruct (v * 10 + (c - 48) <? 2 ^ 64)%N eqn:B; [|discriminate]. apply N.ltb_lt in B.
    destruct (IH _ _ E B) as (F & W & H). split; [|split; assumption]. constructor; [|exact F].
    apply andb_true_iff in D. rewrite !N.leb_le in D. exact D.
Qed.
Lemma parse_fits numeric x v : numeric_class numeric -> Forall (fun c => numeric c = true) x ->
  (parse_u64 x = Some v <-> fits x /\ v = StrSpec.value x).
Proof.
  intros NC F. split.
  - intros E. destruct x as [|c x]; [discriminate|]. cbn in E. destruct (c =? 43)%N eqn:P.
    { apply N.eqb_eq in P. subst c. inversion F as [|? ? D _]; subst. apply NC in D; [|lia]. unfold ascii_digit in D. lia. }
    destruct (parse_digits_some (c :: x) 0%N v E ltac:(lia)) as (D & W & L). unfold fits, number, StrSpec.value. rewrite <- W.
    split; [split; [split; [discriminate|exact D]|exact L]|reflexivity].
  - intros [[N1 L] ->]. apply parse_number; assumption.
Qed.
Lemma fits_dec numeric x : numeric_class numeric -> Forall (fun c => numeric c = true) x -> {fits x} + {~ fits x}.
Proof.
  intros NC F. destruct (parse_u64 x) as [v|] eqn:E.
  - left. apply (parse_fits numeric x v NC F), E.
  - right. intros X. pose proof (proj2 (parse_fits numeric x _ NC F) (conj X eq_refl)) as Y. congruence.
Qed.
Lemma run_num numeric x y : numeric_class numeric -> Forall (fun c => numeric c = true) x -> Forall (fun c => numeric c = true) y ->
  (cmp_num x y = Lt <-> run_less x y).
Proof.
  intros NC FX FY. unfold cmp_num, cmp_value.
  destruct (parse_u64 x) as [v|] eqn:EX; [destruct (parse_u64 y) as [w|] eqn:EY|].
  - apply (parse_fits numeric _ _ NC) in EX, EY; [|assumption|assumption]. destruct EX as [HX ->], EY as [HY ->].
    destruct (N.compare_spec (StrSpec.value x) (StrSpec.value y)) as [E|L|L].
    + rewrite str_dictionary. split; [apply run_same; assumption|]. intros R. inversion R; subst; [lia|assumption|tauto].
    + split; [intros _; apply run_value; assumption|reflexivity].
    + split; [discriminate|]. intros R. inversion R; subst; [lia|lia|tauto].
  - rewrite str_dictionary. assert (NY : ~ fits y).
    { intros H. pose proof (proj2 (parse_fits numeric y _ NC FY) (conj H eq_refl)). congruence. }
    split; [apply run_other; tauto|]. intros R. inversion R; subst; tauto.
  - rewrite str_dictionary. assert (NX : ~ fits x).
    { intros H. pose proof (proj2 (parse_fits numeric x _ NC FX) (conj H eq_refl)). congruence. }
    split; [apply run_other; tauto|]. intros R. inversion R; subst; tauto.
Qed.
Lemma num_prefix numeric x y : numeric_class numeric -> Forall (fun c => numeric c = true) x -> Forall (fun c => numeric c = true) y ->
  y <> [] -> cmp_num x (x ++ y) = Lt.
Proof.
  intros NC FX FY NE. destruct y as [|c y]; [congruence|].
  assert (FXY : Forall (fun c => numeric c = true) (x ++ c :: y)) by (apply Forall_app; split; assumption).
  apply (run_num numeric); [assumption|assumption|assumption|].
  destruct (fits_dec numeric x NC FX) as [HX|HX]; [destruct (fits_dec numeric _ NC FXY) as [HY|HY]|].
  - assert (L : (StrSpec.value x <= StrSpec.value (x ++ c :: y))%N).
    { unfold StrSpec.value. rewrite fold_left_app. apply fold_grows. }
    destruct (N.eq_dec (StrSpec.value x) (StrSpec.value (x ++ c :: y))) as [E|E].
    + apply run_same; [assumption|assumption|assumption|apply dictionary_prefix].
    + apply run_value; [assumption|assumption|lia].
  - apply run_other; [tauto|apply dictionary_prefix].
  - apply run_other; [tauto|apply dictionary_prefix].
Qed.

Section Order.
Variable numeric : N -> bool.
Hypothesis NC : numeric_class numeric.
Notation advance := (advance numeric).
Notation cmp := (cmp numeric).
Notation segs := (segs numeric).

(** The numeric characters at the front. *)
Lemma front s : exists x r, s = x ++ r /\ Forall (fun c => numeric c = true) x /\ forall c t, r = c :: t -> numeric c = false.
Proof.
  induction s as [|c s (x & r & -> & F & H)]; [exists [], []; repeat split; [constructor|discriminate]|].
  destruct (numeric c) eqn:E.
  - exists (c :: x), r. repeat split; [constructor; assumption|exact H].
  - exists [], (c :: x ++ r). repeat split; [constructor|]. intros d t Q. injection Q as <- _. exact E.
Qed.
(** The numeric characters at the end. *)
Lemma back s : exists p d, s = p ++ d /\ Forall (fun c => numeric c = true) d /\ ~ ends_numeric numeric p.
Proof.
  induction s as [|c s (p & d & -> & F & H)] using rev_ind.
  - exists [], []. repeat split; [constructor|]. intros (q & c & E & _). destruct q; discriminate.
  - destruct (numeric c) eqn:E.
    + exists p, (d ++ [c]). rewrite app_assoc. repeat split; [|exact H]. apply Forall_app. split; [exact F|]. constructor; [exact E|constructor].
    + exists ((p ++ d) ++ [c]), []. rewrite app_nil_r. repeat split; [constructor|]. intros (q & c' & Q & X).
      apply app_inj_tail in Q. destruct Q as [_ ->]. congruence.
Qed.
Lemma ends_not q : ~ ends_numeric numeric q -> forall p c, q = p ++ [c] -> numeric c = false.
Proof. intros H p c E. destruct (numeric c) eqn:X; [|reflexivity]. elim H. exists p, c. split; assumption. Qed.

(** [step p]: either [p] ends within its first segment, or the segment is the same whatever follows. *)
Lemma peel p : exists name num rest, p = name ++ num ++ rest /\ Forall (fun c => numeric c = false) name /\
  Forall (fun c => numeric c = true) num /\
  (rest = [] \/ rest <> [] /\ length rest < length p /\ forall a b, cmp (p ++ a) (p ++ b) = cmp (rest ++ a) (rest ++ b)).
Proof.
  destruct (advance p) as [[name num] rest] eqn:E. destruct (advance_app _ _ _ _ _ E) as (Q & F1 & F2 & H1 & H2).
  exists name, num, rest. split; [exact Q|]. split; [exact F1|]. split; [exact F2|].
  destruct rest as [|z rest]; [left; reflexivity|right]. split; [discriminate|].
  assert (NN : num <> []) by (intros ->; specialize (H2 eq_refl); discriminate).
  split.
  - rewrite Q, !app_length. destruct num; [congruence|]. cbn. lia.
  - assert (AD : forall w, advance (p ++ w) = (name, num, (z :: rest) ++ w)).
    { intros w. rewrite Q, <- !app_assoc. apply advance_unique; [exact F1|exact F2| |congruence].
      intros c r R. injection R as <- _. eapply H1. reflexivity. }
    assert (PN : forall w, p ++ w <> []) by (intros w; rewrite Q; destruct name; [destruct num; [congruence|]|]; discriminate).
    intros a b. unfold StrProofs.cmp. rewrite (segs_cons _ _ _ _ _ (PN _) (AD _)), (segs_cons _ _ _ _ _ (PN _) (AD _)). cbn [lex].
    rewrite (proj2 (seg_eq _ _) eq_refl). reflexivity.
Qed.
(** A string that begins with a name. *)
Lemma named name s : Forall (fun c => numeric c = false) name -> name ++ s <> [] -> exists name' num rest,
  s = name' ++ num ++ rest /\ segs (name ++ s) = (name ++ name', num) :: segs rest /\
  Forall (fun c => numeric c = false) name' /\ Forall (fun c => numeric c = true) num /\
  (forall c t, s = c :: t -> numeric c = true -> name' = [] /\ num <> []) /\
  (forall c t, s = c :: t -> numeric c = false -> exists n, name' = c :: n).
Proof.
  intros F NE. destruct (advance s) as [[name' num] rest] eqn:E. destruct (advance_app _ _ _ _ _ E) as (Q & F1 & F2 & H1 & H2).
  exists name', num, rest. split; [exact Q|]. split.
  { apply segs_cons; [exact NE|]. rewrite Q, app_assoc. apply advance_unique; [apply Forall_app; split; assumption|exact F2|exact H1|exact H2]. }
  split; [exact F1|]. split; [exact F2|]. split.
  - intros c t -> C. destruct name' as [|n name']; [|injection Q as -> _; inversion F1; congruence]. split; [reflexivity|].
    intros ->. rewrite (H2 eq_refl) in Q. discriminate.
  - intros c t -> C. destruct name' as [|n name']; [|injection Q as -> _; exists name'; reflexivity].
    destruct num as [|n num]; [rewrite (H2 eq_refl) in Q; discriminate|]. injection Q as -> _. inversion F2; congruence.
Qed.
(** A string that begins with a name and a number. *)
Lemma numbered name num rest : Forall (fun c => numeric c = false) name -> Forall (fun c => numeric c = true) num -> num <> [] ->
  (forall c t, rest = c :: t -> numeric c = false) -> segs (name ++ num ++ rest) = (name, num) :: segs rest.
Proof.
  intros F1 F2 NE H. apply segs_cons; [destruct name; [destruct num; [congruence|]|]; discriminate|].
  apply advance_unique; [exact F1|exact F2|exact H|congruence].
Qed.
Ltac same := cbn [lex]; unfold cmp_seg; cbn [fst snd].

Lemma less_prefix n : forall p c r, length p <= n -> cmp p (p ++ c :: r) = Lt.
Proof.
  induction n as [n IH] using lt_wf_ind. intros p c r L.
  destruct (peel p) as (name & num & rest & Q & F1 & F2 & [->|(NE & LR & H)]).
  - rewrite app_nil_r in Q. subst p. destruct num as [|d num].
    + rewrite app_nil_r. destruct name as [|z name].
      * cbn [app]. unfold StrProofs.cmp. destruct (named [] (c :: r) (Forall_nil _) ltac:(discriminate)) as (? & ? & ? & _ & E & _). cbn [app] in E. rewrite E. reflexivity.
      * destruct (named (z :: name) (c :: r) F1 ltac:(discriminate)) as (name' & num' & rest' & _ & E & F1' & F2' & H1 & H2).
        assert (E0 : segs (z :: name) = [(z :: name, [])]).
        { rewrite (segs_cons _ (z :: name) (z :: name) [] []); [reflexivity|discriminate|]. rewrite <- (app_nil_r (z :: name)) at 1.
          apply (advance_unique numeric (z :: name) [] []); [exact F1|constructor|discriminate|reflexivity]. }
        unfold StrProofs.cmp. rewrite E, E0. same. destruct (numeric c) eqn:C.
        -- destruct (H1 c r eq_refl C) as [-> NN]. rewrite app_nil_r, str_refl. pose proof (num_prefix numeric [] num' NC (Forall_nil _) F2' NN) as NP. cbn [app] in NP. rewrite NP. reflexivity.
        -- destruct (H2 c r eq_refl C) as (m & ->). rewrite str_prefix. reflexivity.
    + set (ds := d :: num) in *. assert (DN : ds <> []) by discriminate. clearbody ds.
      destruct (front (c :: r)) as (x & t & E & FX & HT).
      assert (E0 : segs (name ++ ds) = [(name, ds)]).
      { rewrite <- (app_nil_r ds) at 1. rewrite (numbered name ds []); [reflexivity|assumption|assumption|assumption|discriminate]. }
      rewrite E. rewrite <- app_assoc, (app_assoc ds). unfold StrProofs.cmp. rewrite E0, (numbered name (ds ++ x) t F1); [| |destruct ds; [congruence|discriminate]|exact HT].
      2:{ apply Forall_app. split; assumption. }
      same. rewrite str_refl. destruct x as [|y x].
      * rewrite app_nil_r, (proj2 (num_eq _ _) eq_refl). cbn in E. subst t.
        destruct (named [] (c :: r) (Forall_nil _) ltac:(discriminate)) as (? & ? & ? & _ & E1 & _). cbn [app] in E1. rewrite E1. reflexivity.
      * rewrite (num_prefix numeric ds (y :: x) NC F2 FX ltac:(discriminate)). reflexivity.
  - rewrite <- (app_nil_r p) at 1. rewrite H, app_nil_r. apply (IH (length rest)); [lia|lia].
Qed.
Lemma less_char0 name c r d s : Forall (fun c => numeric c = false) name -> numeric c = false -> numeric d = false -> (c < d)%N ->
  cmp (name ++ c :: r) (name ++ d :: s) = Lt.
Proof.
  intros F C D L.
  destruct (named name (c :: r) F ltac:(destruct name; discriminate)) as (n1 & d1 & r1 & _ & E1 & _ & _ & _ & H1).
  destruct (named name (d :: s) F ltac:(destruct name; discriminate)) as (n2 & d2 & r2 & _ & E2 & _ & _ & _ & H2).
  destruct (H1 c r eq_refl C) as (m1 & ->), (H2 d s eq_refl D) as (m2 & ->).
  unfold StrProofs.cmp. rewrite E1, E2. same. rewrite str_app. cbn. rewrite (proj2 (N.compare_lt_iff _ _) L). reflexivity.
Qed.
Lemma less_char n : forall p c r d s, length p <= n -> numeric c = false -> numeric d = false -> (c < d)%N ->
  cmp (p ++ c :: r) (p ++ d :: s) = Lt.
Proof.
  induction n as [n IH] using lt_wf_ind. intros p c r d s L C D CD.
  destruct (peel p) as (name & num & rest & Q & F1 & F2 & [->|(NE & LR & H)]).
  - rewrite app_nil_r in Q. subst p. destruct num as [|z num].
    + rewrite app_nil_r. apply less_char0; assumption.
    + rewrite <- !app_assoc. unfold StrProofs.cmp. rewrite !numbered; try assumption; try discriminate.
      * cbn [lex]. rewrite (proj2 (seg_eq _ _) eq_refl). apply (less_char0 [] c r d s (Forall_nil _) C D CD).
      * intros x t E. injection E as <- _. exact D.
      * intros x t E. injection E as <- _. exact C.
  - rewrite H. apply (IH (length rest)); [lia|lia|assumption|assumption|assumption].
Qed.
Lemma less_begin n : forall p c r d s, length p <= n -> ~ ends_numeric numeric p -> numeric c = true -> numeric d = false ->
  cmp (p ++ c :: r) (p ++ d :: s) = Lt.
Proof.
  induction n as [n IH] using lt_wf_ind. intros p c r d s L NE C D.
  destruct (peel p) as (name & num & rest & Q & F1 & F2 & [->|(NR & LR & H)]).
  - rewrite app_nil_r in Q. subst p. assert (num = []) as ->.
    { destruct num as [|z num]; [reflexivity|]. destruct (@exists_last _ (z :: num) ltac:(discriminate)) as (q & y & E). elim NE.
      exists (name ++ q), y. rewrite E, app_assoc. split; [reflexivity|]. rewrite E in F2. apply Forall_app in F2. destruct F2 as [_ F2]. inversion F2; assumption. }
    rewrite app_nil_r.
    destruct (named name (c :: r) F1 ltac:(destruct name; discriminate)) as (n1 & d1 & r1 & _ & E1 & _ & _ & H1 & _).
    destruct (named name (d :: s) F1 ltac:(destruct name; discriminate)) as (n2 & d2 & r2 & _ & E2 & _ & _ & _ & H2).
    destruct (H1 c r eq_refl C) as (-> & _), (H2 d s eq_refl D) as (m2 & ->).
    unfold StrProofs.cmp. rewrite E1, E2. same. rewrite str_app. reflexivity.
  - rewrite H. apply (IH (length rest)); [lia|lia| |assumption|assumption].
    intros (q & y & E & Y). apply NE. exists (name ++ num ++ q), y. rewrite Q, E, <- !app_assoc. split; [reflexivity|exact Y].
Qed.
Lemma less_number n : forall p x y r s, length p <= n -> is_run numeric (p ++ x ++ r) p x r -> is_run numeric (p ++ y ++ s) p y s ->
  cmp_num x y = Lt -> cmp (p ++ x ++ r) (p ++ y ++ s) = Lt.
Proof.
  induction n as [n IH] using lt_wf_ind. intros p x y r s L (_ & X1 & X2 & X3 & X4) (_ & Y1 & Y2 & Y3 & Y4) LT.
  destruct (peel p) as (name & num & rest & Q & F1 & F2 & [->|(NR & LR & H)]).
  - rewrite app_nil_r in Q. subst p. assert (num = []) as ->.
    { destruct num as [|z num]; [reflexivity|]. destruct (@exists_last _ (z :: num) ltac:(discriminate)) as (q & w & E).
      rewrite E in *. specialize (X3 (name ++ q) w (app_assoc _ _ _)). apply Forall_app in F2. destruct F2 as [_ F2]. inversion F2; congruence. }
    rewrite app_nil_r. unfold StrProofs.cmp. rewrite !numbered; try assumption. same. rewrite str_refl, LT. reflexivity.
  - rewrite H. apply (IH (length rest)); [lia|lia| | |exact LT].
    + repeat split; try assumption. intros q c ->. apply (X3 (name ++ num ++ q)). rewrite Q, <- !app_assoc. reflexivity.
    + repeat split; try assumption. intros q c ->. apply (Y3 (name ++ num ++ q)). rewrite Q, <- !app_assoc. reflexivity.
Qed.
Theorem less_cmp a b : natural_less numeric a b -> cmp a b = Lt.
Proof.
  intros [p c r|p c r d s C D L|p c r d s NE C D|p x y r s RX RY LT].
  - apply (less_prefix (length p)). lia.
  - apply (less_char (length p)); [lia|assumption|assumption|assumption].
  - apply (less_begin (length p)); [lia|assumption|assumption|assumption].
  - apply (less_number (length p)); [lia|assumption|assumption|]. apply (run_num numeric); [exact NC|apply RX|apply RY|exact LT].
Qed.
(** One of two different strings is less. *)
Lemma first_difference (a : list N) : forall b, a = b \/ (exists c r, b = a ++ c :: r) \/ (exists c r, a = b ++ c :: r) \/
  exists p c r d s, a = p ++ c :: r /\ b = p ++ d :: s /\ c <> d.
Proof.
  induction a as [|c a IH]; intros [|d b].
  - left. reflexivity.
  - right. left. exists d, b. reflexivity.
  - right. right. left. exists c, a. reflexivity.
  - destruct (N.eq_dec c d) as [->|NE]; [|right; right; right; exists [], c, a, d, b; repeat split; assumption].
    destruct (IH b) as [->|[(x & r & ->)|[(x & r & ->)|(p & x & r & y & s & -> & -> & NE)]]].
    + left. reflexivity.
    + right. left. exists x, r. reflexivity.
    + right. right. left. exists x, r. reflexivity.
    + right. right. right. exists (d :: p), x, r, y, s. repeat split; assumption.
Qed.
Lemma run_total x y : Forall (fun c => numeric c = true) x -> Forall (fun c => numeric c = true) y -> x <> y -> run_less x y \/ run_less y x.
Proof.
  intros FX FY NE. destruct (cmp_num x y) eqn:E; [apply num_eq in E; congruence| |].
  - left. apply (run_num numeric); assumption.
  - right. apply (run_num numeric); [assumption|assumption|assumption|]. rewrite num_opp, E. reflexivity.
Qed.
Theorem less_total a b : a = b \/ natural_less numeric a b \/ natural_less numeric b a.
Proof.
  destruct (first_difference a b) as [->|[(c & r & ->)|[(c & r & ->)|(p & c & r & d & s & -> & -> & NE)]]].
  - left. reflexivity.
  - right. left. apply natural_prefix.
  - right. right. apply natural_prefix.
  - right. destruct (back p) as (q & e & -> & FE & NQ). pose proof (ends_not q NQ) as QN.
    destruct (front (c :: r)) as (x & r' & EX & FX & HX), (front (d :: s)) as (y & s' & EY & FY & HY).
    assert (G : e ++ x <> [] -> e ++ y <> [] -> x <> y ->
      natural_less numeric ((q ++ e) ++ c :: r) ((q ++ e) ++ d :: s) \/ natural_less numeric ((q ++ e) ++ d :: s) ((q ++ e) ++ c :: r)).
    { intros G1 G2 G3. rewrite EX, EY, <- !app_assoc, (app_assoc e x r'), (app_assoc e y s').
      assert (GX : Forall (fun c => numeric c = true) (e ++ x)) by (apply Forall_app; split; assumption).
      assert (GY : Forall (fun c => numeric c = true) (e ++ y)) by (apply Forall_app; split; assumption).
      destruct (run_total (e ++ x) (e ++ y) GX GY) as [R|R].
      - intros E. apply app_inv_head in E. congruence.
      - left. apply natural_number; [repeat split; assumption|repeat split; assumption|exact R].
      - right. apply natural_number; [repeat split; assumption|repeat split; assumption|exact R]. }
    destruct (numeric c) eqn:C, (numeric d) eqn:D.
    + destruct x as [|x0 x]; [specialize (HX c r (eq_sym EX)); congruence|]. destruct y as [|y0 y]; [specialize (HY d s (eq_sym EY)); congruence|].
      injection EX as <- _. injection EY as <- _. apply G; [destruct e; discriminate|destruct e; discriminate|congruence].
    + destruct y as [|y0 y]; [|injection EY as <- _; inversion FY; congruence].
      destruct x as [|x0 x]; [specialize (HX c r (eq_sym EX)); congruence|].
      destruct e as [|z e]; [|apply G; discriminate]. left. rewrite app_nil_r. apply natural_begin; assumption.
    + destruct x as [|x0 x]; [|injection EX as <- _; inversion FX; congruence].
      destruct y as [|y0 y]; [specialize (HY d s (eq_sym EY)); congruence|].
      destruct e as [|z e]; [|apply G; discriminate]. right. rewrite app_nil_r. apply natural_begin; assumption.
    + destruct (N.lt_trichotomy c d) as [L|[->|L]]; [left|congruence|right]; apply natural_char; assumption.
Qed.
Theorem cmp_less a b : cmp a b = Lt <-> natural_less numeric a b.
Proof.
  split; [|apply less_cmp]. intros E. destruct (less_total a b) as [->|[H|H]]; [|exact H|].
  - rewrite (proj2 (cmp_eq numeric b b) eq_refl) in E. discriminate.
  - apply less_cmp in H. rewrite cmp_opp, E in H. discriminate.
Qed.
Lemma less_after p a b : ~ ends_numeric numeric p -> natural_less numeric a b -> natural_less numeric (p ++ a) (p ++ b).
Proof.
  intros NE [q c r|q c r d s C D L|q c r d s NQ C D|q x y r s RX RY LT].
  - rewrite app_assoc. apply natural_prefix.
  - rewrite !app_assoc. apply natural_char; assumption.
  - rewrite !app_assoc. apply natural_begin; [|assumption|assumption]. intros (t & z & E & Z).
    destruct q as [|z' q] using rev_ind; [rewrite app_nil_r in E; apply NE; exists t, z; split; assumption|].
    rewrite app_assoc in E. apply app_inj_tail in E. destruct E as [_ ->]. apply NQ. exists q, z. split; [reflexivity|exact Z].
  - rewrite !(app_assoc p). destruct RX as (_ & X1 & X2 & X3 & X4), RY as (_ & Y1 & Y2 & Y3 & Y4).
    assert (PQ : forall t z, p ++ q = t ++ [z] -> numeric z = false).
    { intros t z E. destruct q as [|z' q _] using rev_ind; [rewrite app_nil_r in E; apply (ends_not p NE t z E)|].
      rewrite app_assoc in E. apply app_inj_tail in E. destruct E as [_ ->]. apply (X3 q z eq_refl). }
    apply natural_number; [repeat split; assumption|repeat split; assumption|exact LT].
Qed.
End Order.
