(** The specification depends on the layout only up to order, and determines
    what is reported. *)
From Verif Require Import Base ArgsSpec ArgsOrder ArgsText.
From Coq Require Import Lia.

(** ** Order of the layout *)

Definition covers (a b : list command) : Prop := forall c, In c a ->
  exists c', In c' b /\ c_path c' = c_path c /\ forall f, In f (c_flags c') <-> In f (c_flags c).
Definition same (a b : list command) : Prop := covers a b /\ covers b a.
Lemma same_sym a b : same a b -> same b a.
Proof. intros [X Y]. split; assumption. Qed.

Lemma layout_same cmds cs : layout_sorted cmds cs -> same cmds cs.
Proof.
  intros (mid & F & P & _). split.
  - intros c Hc. assert (exists c', In c' mid /\ flags_sorted c c') as (c' & H1 & E & Pf & _).
    { clear P. induction F as [|x y l l' Hxy F IH]; [destruct Hc|]. destruct Hc as [->|Hc]; [exists y; split; [left; reflexivity|exact Hxy]|].
      destruct (IH Hc) as (c' & A & B). exists c'. split; [right; exact A|exact B]. }
    exists c'. split; [eapply Permutation_in; eassumption|]. split; [exact E|]. intros f.
    split; intros K; [eapply Permutation_in; [apply Permutation_sym; exact Pf|exact K]|eapply Permutation_in; eassumption].
  - intros c Hc. apply Permutation_sym in P. eapply Permutation_in in Hc; [|exact P].
    assert (exists c', In c' cmds /\ flags_sorted c' c) as (c' & H1 & E & Pf & _).
    { clear P. induction F as [|x y l l' Hxy F IH]; [destruct Hc|]. destruct Hc as [->|Hc]; [exists x; split; [left; reflexivity|exact Hxy]|].
      destruct (IH Hc) as (c' & A & B). exists c'. split; [right; exact A|exact B]. }
    exists c'. split; [exact H1|]. split; [symmetry; exact E|]. intros f.
    split; intros K; [eapply Permutation_in; eassumption|eapply Permutation_in; [apply Permutation_sym; exact Pf|exact K]].
Qed.
Lemma layout_distinct cmds cs : layout_sorted cmds cs -> distinct cmds -> distinct cs.
Proof.
  intros (mid & F & P & _) D. unfold distinct in *. apply (Permutation_NoDup (Permutation_map c_path P)).
  replace (map c_path mid) with (map c_path cmds); [exact D|]. clear - F.
  induction F as [|x y l l' [E _] F IH]; [reflexivity|]. cbn. rewrite E, IH. reflexivity.
Qed.
Lemma layout_flags cmds cs c : layout_sorted cmds cs -> In c cs -> StronglySorted (fun x y => by_name x y <> Gt) (c_flags c).
Proof.
  intros (mid & F & P & _) Hc. apply Permutation_sym in P. eapply Permutation_in in Hc; [|exact P]. clear P.
  induction F as [|x y l l' (E & _ & S) F IH]; [destruct Hc|]. destruct Hc as [<-|Hc]; [exact S|exact (IH Hc)].
Qed.
Lemma layout_paths cmds cs : layout_sorted cmds cs -> StronglySorted (fun x y => by_path x y <> Gt) cs.
Proof. intros (mid & _ & _ & S). exact S. Qed.

Section Same.
  Context (a b : list command) (S : same a b).
  Lemma same_command p : is_command a p -> is_command b p.
  Proof. intros (c & H & <-). destruct (proj1 S c H) as (c' & H' & E & _). exists c'. split; assumption. Qed.
  Lemma same_leads p : leads a p -> leads b p.
  Proof. intros (c & H & P). destruct (proj1 S c H) as (c' & H' & E & _). exists c'. split; [exact H'|rewrite E; exact P]. Qed.
  Lemma same_not_command p : ~ is_command a p -> ~ is_command b p.
  Proof. intros N (c & H & <-). apply N. destruct (proj2 S c H) as (c' & H' & E & _). exists c'. split; assumption. Qed.
  Lemma same_not_leads p : ~ leads a p -> ~ leads b p.
  Proof. intros N (c & H & P). apply N. destruct (proj2 S c H) as (c' & H' & E & _). exists c'. split; [exact H'|rewrite E; exact P]. Qed.
  Lemma same_back p : is_command b p -> is_command a p.
  Proof. intros (c & H & <-). destruct (proj2 S c H) as (c' & H' & E & _). exists c'. split; assumption. Qed.
  Lemma same_missing p n : missing a p n -> missing b p n.
  Proof.
    intros M c m H P K. destruct (proj2 S c H) as (c' & H' & E & F). apply (M c' m H'); [rewrite E; exact P|apply F, K].
  Qed.
  Lemma same_found p n q m : found a p n q m -> found b p n q m.
  Proof.
    intros (c & H & <- & P & K & N). destruct (proj1 S c H) as (c' & H' & E & F). exists c'. split; [exact H'|]. split; [exact E|].
    split; [exact P|]. split; [apply F, K|]. intros d m' Hd Pd L K'. destruct (proj2 S d Hd) as (d' & Hd' & Ed & Fd).
    apply (N d' m' Hd'); [rewrite Ed; exact Pd|rewrite Ed; exact L|apply Fd, K'].
  Qed.
  Lemma same_innermost p q : innermost a p q -> innermost b p q.
  Proof.
    intros (I1 & P & M). split; [apply same_command, I1|]. split; [exact P|]. intros q' I' P'. apply M; [apply same_back, I'|exact P'].
  Qed.
  Lemma same_named p arg q n m t : named a p arg q n m t -> named b p arg q n m t.
  Proof. intros [arg' q' m' F|n' q' m' M F]; [apply nm_plain, same_found, F|apply nm_no; [apply same_missing, M|apply same_found, F]]. Qed.
  Lemma same_nameless p arg : nameless a p arg -> nameless b p arg.
  Proof. intros [M1 M2]. split; [apply same_missing, M1|]. intros n E. apply same_missing, M2, E. Qed.
  Lemma same_used p o q : used_on a p o q -> used_on b p o q.
  Proof.
    intros [q' I'|N]; [apply uo_inner, same_innermost, I'|]. apply uo_owner. intros q' I' P. exact (N q' (same_back _ I') P).
  Qed.
  Lemma same_use p sc arg v r e r' : flag_use a p sc arg v r e r' -> flag_use b p sc arg v r e r'.
  Proof.
    intros [v' r0 N|v' r0 q n m N M|v' r0 q n N|v' r0 q n t N|r0 q n c N U|r0 q n t c N U|q n N|v' r0 q n c N U|v' r0 q n c N U].
    - apply fu_unknown, same_nameless, N.
    - eapply fu_no; [apply same_named, N|exact M].
    - eapply fu_set_value, same_named, N.
    - eapply fu_toggle_value, same_named, N.
    - apply fu_set; [apply same_named, N|apply same_used, U].
    - apply fu_toggle; [apply same_named, N|apply same_used, U].
    - eapply fu_no_value, same_named, N.
    - apply fu_next; [apply same_named, N|apply same_used, U].
    - apply fu_inline; [apply same_named, N|apply same_used, U].
  Qed.
  Lemma same_parameter p x e : parameter a p x e -> parameter b p x e.
  Proof. intros [K|K]; [apply pm_command, same_command, K|apply pm_none, same_not_command, K]. Qed.
  Lemma same_ending p e : ending a p e -> ending b p e.
  Proof. intros [K|K]; [apply en_command, same_command, K|apply en_none, same_not_command, K]. Qed.
  Lemma same_scope p q : first_scope a p q -> first_scope b p q.
  Proof.
    intros [(K & P & M)|[N E]].
    - left. split; [apply same_command, K|]. split; [exact P|]. intros r Kr Pr. apply M; [apply same_back, Kr|exact Pr].
    - right. split; [apply same_not_leads, N|exact E].
  Qed.
  Lemma same_step (sc sc' : path -> path -> Prop) g args ev g' args' : (forall p q, sc p q -> sc' p q) ->
    step a sc g args ev g' args' -> step b sc' g args ev g' args'.
  Proof.
    intros Q [p sel rest|p sel arg rest U|p sel arg n v rest q e rest' L D Sc F|p sel arg rest K|p fl arg rest W T L|p fl arg rest e W N P|p fl arg rest e W P].
    - apply st_double_dash.
    - apply st_unreadable, U.
    - eapply st_flag; [exact L|exact D|apply Q, Sc|apply same_use, F].
    - apply st_short, K.
    - apply st_enter; [exact W|exact T|apply same_leads, L].
    - apply st_stop; [exact W| |apply same_parameter, P].
      destruct (text_dec arg) as [T|T]; [|intros [T' _]; exact (T T')].
      intros [_ X]. apply (same_not_leads (p ++ [arg])); [|exact X]. intros Y. apply N. split; assumption.
    - apply st_parameter; [exact W|apply same_parameter, P].
  Qed.
  Lemma same_steps (sc sc' : path -> path -> Prop) g args ev g' args' : (forall p q, sc p q -> sc' p q) ->
    steps a sc g args ev g' args' -> steps b sc' g args ev g' args'.
  Proof.
    intros Q. induction 1 as [g args|g args ev g' args' ev' g'' args'' St Sts IH]; [apply sts_none|].
    eapply sts_more; [eapply same_step; eassumption|exact IH].
  Qed.
  Lemma same_runs (sc sc' : path -> path -> Prop) args ev p : (forall p q, sc p q -> sc' p q) -> runs a sc args ev p -> runs b sc' args ev p.
  Proof.
    intros Q (g & e1 & e2 & Sts & E & En & Ee). exists g, e1, e2. split; [eapply same_steps; eassumption|]. split; [exact E|].
    split; [apply same_ending, En|exact Ee].
  Qed.
End Same.
Lemma same_refl a : same a a.
Proof. split; intros c H; exists c; (split; [exact H|split; [reflexivity|reflexivity]]). Qed.

(** ** Determinism *)

Section Unique.
  Context (cmds : list command) (D : distinct cmds) (DF : distinct_flags cmds).
  Lemma nodup_inj {A B} (f : A -> B) l x y : NoDup (map f l) -> In x l -> In y l -> f x = f y -> x = y.
  Proof.
    intros N Hx Hy E. apply In_nth_error in Hx, Hy. destruct Hx as [i Hi]. destruct Hy as [j Hj].
    pose proof (nodup_nth f l N i j x y Hi Hj E). subst j. congruence.
  Qed.
  Lemma prefix_eq {A} (q q' a : list A) : prefix q a -> prefix q' a -> length q = length q' -> q = q'.
  Proof. intros P P' L. apply prefix_same; [apply (prefix_shorter q q' a P P'); lia|lia]. Qed.
  Lemma found_fun a n q m q' m' : found cmds a n q m -> found cmds a n q' m' -> q = q' /\ m = m'.
  Proof.
    intros (c & H & E & P & K & N) (c' & H' & E' & P' & K' & N').
    assert (Eq : q = q').
    { apply (prefix_eq q q' a P P'). destruct (Nat.lt_trichotomy (length q) (length q')) as [X|[X|X]]; [|exact X|]; exfalso; subst.
      - exact (N c' m' H' P' X K'). - exact (N' c m H P X K). }
    split; [exact Eq|].
    assert (c = c') as <- by (apply (nodup_inj c_path cmds); [exact D|exact H|exact H'|congruence]).
    assert (Q : mkFlag n m = mkFlag n m') by (apply (nodup_inj f_name (c_flags c)); [apply DF, H|exact K|exact K'|reflexivity]).
    injection Q as ->. reflexivity.
  Qed.
  Lemma found_missing a n q m : found cmds a n q m -> missing cmds a n -> False.
  Proof. intros (c & H & <- & P & K & _) M. exact (M c m H P K). Qed.
  Lemma named_fun a arg q n m t q' n' m' t' : named cmds a arg q n m t -> named cmds a arg q' n' m' t' ->
    q = q' /\ n = n' /\ m = m' /\ t = t'.
  Proof.
    intros H H'. inversion H as [x1 x2 x3 F|x1 x2 x3 M F]; subst; inversion H' as [y1 y2 y3 F'|y1 y2 y3 M' F']; subst.
    - destruct (found_fun _ _ _ _ _ _ F F') as [-> ->]. repeat split.
    - destruct (found_missing _ _ _ _ F M').
    - destruct (found_missing _ _ _ _ F' M).
    - destruct (found_fun _ _ _ _ _ _ F F') as [-> ->]. repeat split.
  Qed.
  Lemma named_nameless a arg q n m t : named cmds a arg q n m t -> nameless cmds a arg -> False.
  Proof.
    intros H [N1 N2]. inversion H as [x1 x2 x3 F|x1 x2 x3 M F]; subst; [exact (found_missing _ _ _ _ F N1)|].
    exact (found_missing _ _ _ _ F (N2 n eq_refl)).
  Qed.
  Lemma used_fun p o q q' : used_on cmds p o q -> used_on cmds p o q' -> q = q'.
  Proof.
    intros [q1 (I1 & P1 & M1)|N1] [q2 (I2 & P2 & M2)|N2].
    - apply (prefix_eq q1 q2 p P1 P2). pose proof (M1 q2 I2 P2). pose proof (M2 q1 I1 P1). lia.
    - destruct (N2 q1 I1 P1).
    - destruct (N1 q2 I2 P2).
    - reflexivity.
  Qed.
  Lemma use_fun p a arg v r e1 r1 e2 r2 : flag_use cmds p a arg v r e1 r1 -> flag_use cmds p a arg v r e2 r2 -> e1 = e2 /\ r1 = r2.
  Proof.
    intros U1 U2.
    inversion U1; subst; inversion U2; subst; try (split; reflexivity);
      try match goal with N : named _ _ _ _ _ _ _, M : nameless _ _ _ |- _ => destruct (named_nameless _ _ _ _ _ _ N M) end;
      match goal with N : named _ _ ?arg ?q ?n ?m ?t, M : named _ _ ?arg ?q' ?n' ?m' ?t' |- _ =>
        first [constr_eq N M; fail 1 | destruct (named_fun _ _ _ _ _ _ _ _ _ _ N M) as (-> & -> & Em & Et)]
      end; try discriminate; subst; try contradiction; try (split; reflexivity);
      try match goal with U : used_on _ _ _ _, W : used_on _ _ _ _ |- _ =>
        first [constr_eq U W; fail 1 | rewrite (used_fun _ _ _ _ U W)] end; try (split; reflexivity).
  Qed.
  Lemma first_fun p a a' : first_scope cmds p a -> first_scope cmds p a' -> a = a'.
  Proof.
    intros [(I1 & P1 & M1)|[N1 ->]] [(I2 & P2 & M2)|[N2 ->]].
    - apply (le_anti _ good_path); [apply M1; assumption|apply M2; assumption].
    - destruct I1 as (c & H & <-). destruct N2. exists c. split; assumption.
    - destruct I2 as (c & H & <-). destruct N1. exists c. split; assumption.
    - reflexivity.
  Qed.
  Lemma split_fun (n n' v v' : str) : ~ In equals n -> ~ In equals n' -> n ++ equals :: v = n' ++ equals :: v' -> n = n' /\ v = v'.
  Proof.
    revert n'. induction n as [|x n IH]; intros [|y n'] N N' E; cbn in *.
    - injection E as ->. split; reflexivity.
    - injection E as <- _. destruct N'. left. reflexivity.
    - injection E as -> _. destruct N. left. reflexivity.
    - injection E as -> E. destruct (IH n') as [-> ->]; [tauto|tauto|exact E|]. split; reflexivity.
  Qed.
  Lemma split_none (n v : str) : ~ In equals (n ++ equals :: v) -> False.
  Proof. intros N. apply N, in_or_app. right. left. reflexivity. Qed.
  Definition inline (v : option str) : str := match v with None => [] | Some v => equals :: v end.
  Lemma inline_fun n v n' v' : ~ In equals n -> ~ In equals n' -> n ++ inline v = n' ++ inline v' -> n = n' /\ v = v'.
  Proof.
    intros N N' E. destruct v as [v|], v' as [v'|]; cbn [inline] in E; rewrite ?app_nil_r in E.
    - destruct (split_fun _ _ _ _ N N' E) as [-> ->]. split; reflexivity.
    - subst. destruct (split_none _ _ N').
    - subst. destruct (split_none _ _ N).
    - subst. split; reflexivity.
  Qed.
  Lemma long_shape arg n v : long arg n v -> text n /\ ~ In equals n /\ arg = double_dash ++ n ++ inline v.
  Proof. intros [x T N|x y T N]; (split; [exact T|split; [exact N|]]); cbn [inline]; rewrite ?app_nil_r; reflexivity. Qed.
  Lemma unreadable_shape arg : unreadable arg -> exists n v, ~ text n /\ ~ In equals n /\ arg = double_dash ++ n ++ inline v.
  Proof.
    intros [x T N|x y T N]; [exists x, None|exists x, (Some y)]; (split; [exact T|split; [exact N|]]); cbn [inline]; rewrite ?app_nil_r; reflexivity.
  Qed.
  Lemma long_fun arg n v n' v' : long arg n v -> long arg n' v' -> n = n' /\ v = v'.
  Proof.
    intros L L'. apply long_shape in L, L'. destruct L as (_ & N & ->). destruct L' as (_ & N' & E).
    apply app_inv_head in E. apply inline_fun; assumption.
  Qed.
  Lemma long_unreadable arg n v : long arg n v -> unreadable arg -> False.
  Proof.
    intros L U. apply long_shape in L. destruct L as (T & N & ->). apply unreadable_shape in U. destruct U as (n' & v' & T' & N' & E).
    apply app_inv_head in E. apply inline_fun in E; [|assumption|assumption]. destruct E as [-> _]. exact (T' T).
  Qed.
  Lemma long_dashes arg n v : long arg n v -> exists x, arg = dash :: dash :: x.
  Proof. intros [x T N|x y T N]; eexists; reflexivity. Qed.
  Lemma unreadable_dashes arg : unreadable arg -> exists x, arg = dash :: dash :: x.
  Proof. intros [x T N|x y T N]; eexists; reflexivity. Qed.
  Lemma dd_readable : ~ unreadable double_dash.
  Proof.
    intros U. apply (long_unreadable double_dash [] None); [|exact U]. apply (long_plain []); [apply text_nil|intros []].
  Qed.
  Lemma parameter_fun p x e e' : parameter cmds p x e -> parameter cmds p x e' -> e = e'.
  Proof. intros [K|K] [K'|K']; try reflexivity; contradiction. Qed.
  Lemma ending_fun p e e' : ending cmds p e -> ending cmds p e' -> e = e'.
  Proof. intros [K|K] [K'|K']; try reflexivity; contradiction. Qed.

  Context (sc : path -> path -> Prop) (SC : forall p a a', sc p a -> sc p a' -> a = a').
  Lemma not_word {P : Prop} x : (true = true -> word (dash :: dash :: x)) -> P.
  Proof. intros W. destruct (W eq_refl dash x eq_refl). Qed.
  Lemma not_short x : ~ short (dash :: dash :: x).
  Proof. intros (c & y & E & N). injection E as <- _. exact (N eq_refl). Qed.
  Lemma short_word {P : Prop} arg : short arg -> (true = true -> word arg) -> P.
  Proof. intros (c & y & -> & N) W. destruct (W eq_refl c y eq_refl). Qed.

  Lemma step_fun g args e1 g1 r1 e2 g2 r2 : step cmds sc g args e1 g1 r1 -> step cmds sc g args e2 g2 r2 ->
    e1 = e2 /\ g1 = g2 /\ r1 = r2.
  Proof.
    intros S1 S2.
    inversion S1 as [p sel rest|p sel arg rest U|p sel arg n v rest q e rest' L Dd Sc F|p sel arg rest K|p fl arg rest W T L|p fl arg rest e W N P|p fl arg rest e W P]; subst;
    inversion S2 as [p' sel' rest0|p' sel' arg' rest0 U'|p' sel' arg' n' v' rest0 q' e' rest0' L' Dd' Sc' F'|p' sel' arg' rest0 K'|p' fl' arg' rest0 W' T' L'|p' fl' arg' rest0 e' W' N' P'|p' fl' arg' rest0 e' W' P']; subst;
    try (split; [reflexivity|split; reflexivity]);
    try contradiction;
    try (exfalso; exact (dd_readable U)); try (exfalso; exact (dd_readable U'));
    try (exfalso; exact (not_short [] K)); try (exfalso; exact (not_short [] K'));
    try (exact (not_word [] W)); try (exact (not_word [] W'));
    try (exfalso; exact (long_unreadable _ _ _ L U')); try (exfalso; exact (long_unreadable _ _ _ L' U));
    try (destruct (unreadable_dashes _ U) as [x ->]; first [exact (not_word x W') | exfalso; exact (not_short x K')]);
    try (destruct (unreadable_dashes _ U') as [x ->]; first [exact (not_word x W) | exfalso; exact (not_short x K)]);
    try (destruct (long_dashes _ _ _ L) as [x ->]; first [exact (not_word x W') | exfalso; exact (not_short x K')]);
    try (destruct (long_dashes _ _ _ L') as [x ->]; first [exact (not_word x W) | exfalso; exact (not_short x K)]);
    try (exact (short_word _ K W')); try (exact (short_word _ K' W)).
    - destruct (long_fun _ _ _ _ _ L L') as [<- <-]. rewrite (SC _ _ _ Sc' Sc) in F'.
      destruct (use_fun _ _ _ _ _ _ _ _ _ F F') as [-> ->]. split; [reflexivity|split; reflexivity].
    - destruct N'. split; assumption.
    - destruct N. split; assumption.
    - rewrite (parameter_fun _ _ _ _ P P'). split; [reflexivity|split; reflexivity].
    - rewrite (parameter_fun _ _ _ _ P P'). split; [reflexivity|split; reflexivity].
  Qed.
  Lemma steps_fun g args e1 g1 : steps cmds sc g args e1 g1 [] ->
    forall e2 g2, steps cmds sc g args e2 g2 [] -> e1 = e2 /\ g1 = g2.
  Proof.
    intros S1. remember [] as fin eqn:Ef. induction S1 as [g args|g args ev g' args' ev' g'' args'' St Sts IH]; intros e2 g2 S2.
    - subst. inversion S2 as [|a1 a2 a3 a4 a5 a6 a7 a8 X Y]; subst; [split; reflexivity|]. inversion X.
    - subst. inversion S2 as [|a1 a2 a3 a4 a5 a6 a7 a8 X Y]; subst; [inversion St|].
      destruct (step_fun _ _ _ _ _ _ _ _ St X) as (<- & <- & <-). destruct (IH eq_refl _ _ Y) as [<- <-]. split; reflexivity.
  Qed.
  Lemma steps_fun_pre g args e1 g1 r1 : steps cmds sc g args e1 g1 r1 ->
    forall e2 g2, steps cmds sc g args e2 g2 [] -> exists e3, e2 = e1 ++ e3 /\ steps cmds sc g1 r1 e3 g2 [].
  Proof.
    induction 1 as [g args|g args ev g' args' ev' g'' args'' St Sts IH]; intros e2 g2 S2.
    - exists e2. split; [reflexivity|exact S2].
    - inversion S2 as [|a1 a2 a3 a4 a5 a6 a7 a8 X Y]; subst; [inversion St|].
      destruct (step_fun _ _ _ _ _ _ _ _ St X) as (<- & <- & <-). destruct (IH _ _ Y) as (e3 & -> & Z).
      exists e3. split; [symmetry; apply app_assoc_reverse|exact Z].
  Qed.
  Lemma runs_fun args e1 p1 e2 p2 : runs cmds sc args e1 p1 -> runs cmds sc args e2 p2 -> e1 = e2 /\ p1 = p2.
  Proof.
    intros (g & a1 & b1 & S1 & E1 & N1 & ->) (g' & a2 & b2 & S2 & E2 & N2 & ->).
    destruct (steps_fun _ _ _ _ S1 _ _ S2) as [<- <-]. subst. split; [|reflexivity]. rewrite (ending_fun _ _ _ N1 N2). reflexivity.
  Qed.
End Unique.
