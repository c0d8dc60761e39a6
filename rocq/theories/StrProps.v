(** Properties C46-C48: string utilities. *)
From Verif Require Import Base StrModel StrSpec StrProofs.

(** ** C46: natural comparison *)

(** The comparison always returns; [natural] is what it returns. *)
Definition natural (numeric : N -> bool) (a b : list N) : comparison :=
  match cmp_natural numeric a b with Ok c => c | _ => Eq end.
Theorem str_natural_returns : forall numeric a b, cmp_natural numeric a b = Ok (natural numeric a b).
Proof. intros numeric a b. unfold natural. rewrite cmp_ok. reflexivity. Qed.
Lemma natural_cmp numeric a b : natural numeric a b = cmp numeric a b.
Proof. unfold natural. rewrite cmp_ok. reflexivity. Qed.

(** For all strings and any class of numeric characters: only equal strings are
    equal, and swapping the arguments swaps the result. *)
Theorem str_natural_eq : forall numeric a b, natural numeric a b = Eq <-> a = b.
Proof. intros. rewrite natural_cmp. apply cmp_eq. Qed.
Theorem str_natural_opp : forall numeric a b, natural numeric b a = CompOpp (natural numeric a b).
Proof. intros. rewrite !natural_cmp. apply cmp_opp. Qed.
(** Full statement: [forall numeric, numeric_class numeric -> total_order (fun _ => True) (natural numeric)].
    It holds for strings all of whose numbers are ASCII numbers below 2^64 or
    begin with a numeric character that is not an ASCII digit;
    [str_natural_refuted] shows that others break transitivity. *)
Theorem str_natural_partial : forall numeric, total_order (small_numbers numeric) (natural numeric).
Proof.
  intros numeric. split; [|split].
  - intros a b _ _. apply str_natural_eq.
  - intros a b _ _. apply str_natural_opp.
  - intros a b c A B C. rewrite !natural_cmp. apply cmp_trans; assumption.
Qed.
Definition ascii (c : N) : bool := ((0x30 <=? c) && (c <=? 0x39))%N.
Lemma ascii_class : numeric_class ascii.
Proof. intros c _. unfold ascii, ascii_digit. rewrite andb_true_iff, !N.leb_le. reflexivity. Qed.
Lemma small_cons c s : ascii c = false -> small_numbers ascii s -> small_numbers ascii (c :: s).
Proof.
  intros C SM b run a (E & NE & F & H1 & H2). destruct b as [|x b]; cbn in E.
  - destruct run as [|x run]; [congruence|]. injection E as <- _. inversion F; congruence.
  - injection E as <- E. apply (SM b run a). split; [exact E|]. split; [exact NE|]. split; [exact F|]. split; [|exact H2].
    intros p z ->. apply (H1 (c :: p)). reflexivity.
Qed.
Lemma small_number ds : number ds -> (value ds < 2 ^ 64)%N -> small_numbers ascii ds.
Proof.
  intros [NE F] L b run a (E & NR & FR & H1 & H2).
  assert (FA : Forall (fun c => ascii c = true) ds).
  { eapply Forall_impl; [|exact F]. intros c D. unfold ascii, ascii_digit in *. apply andb_true_iff. rewrite !N.leb_le. exact D. }
  rewrite E in FA. apply Forall_app in FA. destruct FA as [FB FA]. apply Forall_app in FA. destruct FA as [_ FA].
  assert (b = []).
  { destruct b as [|x b]; [reflexivity|]. destruct (@exists_last _ (x :: b) ltac:(discriminate)) as (q & z & Z). rewrite Z in *.
    apply Forall_app in FB. destruct FB as [_ FB]. inversion FB. specialize (H1 q z eq_refl). congruence. }
  assert (a = []). { destruct a as [|x a]; [reflexivity|]. inversion FA. specialize (H2 x a eq_refl). congruence. }
  subst a b. cbn in E. rewrite app_nil_r in E. subst run. left. split; [split|]; assumption.
Qed.
(** Beside: v2, v10, v010. *)
Example str_natural_case :
  small_numbers ascii [0x76; 0x32]%N /\ small_numbers ascii [0x76; 0x31; 0x30]%N /\ small_numbers ascii [0x76; 0x30; 0x31; 0x30]%N /\
  natural ascii [0x76; 0x32]%N [0x76; 0x31; 0x30]%N = Lt /\ natural ascii [0x76; 0x30; 0x31; 0x30]%N [0x76; 0x31; 0x30]%N = Lt.
Proof.
  assert (D : forall ds, ds <> [] -> forallb ascii ds = true -> (value ds <? 2 ^ 64)%N = true -> small_numbers ascii (0x76%N :: ds)).
  { intros ds NE F L. apply small_cons; [reflexivity|]. apply small_number; [split; [exact NE|]|apply N.ltb_lt, L].
    apply Forall_forall. intros c I. rewrite forallb_forall in F. apply ascii_class; [|apply F, I].
    specialize (F c I). unfold ascii in F. apply andb_true_iff in F. rewrite !N.leb_le in F. lia. }
  split; [apply D; [discriminate|reflexivity|reflexivity]|]. split; [apply D; [discriminate|reflexivity|reflexivity]|].
  split; [apply D; [discriminate|reflexivity|reflexivity]|]. split; reflexivity.
Qed.
(** Beside: a superscript two, U+00B2, which is numeric but not a digit. *)
Example str_natural_late :
  let numeric := fun c => ascii c || (c =? 0xb2)%N in
  small_numbers numeric [0xb2; 0x31]%N /\ natural numeric [0x31; 0x30]%N [0xb2; 0x31]%N = Lt.
Proof.
  split; [|reflexivity]. intros b run a (E & NE & F & H1 & H2). right.
  destruct b as [|x b].
  - destruct run as [|c run]; [congruence|]. cbn in E. injection E as <- _. exists 0xb2%N, run. split; [reflexivity|lia].
  - exfalso. destruct (@exists_last _ (x :: b) ltac:(discriminate)) as (q & z & Z). specialize (H1 q z Z).
    rewrite Z in E. destruct q as [|q0 q].
    + cbn in E. injection E as <- E. discriminate.
    + cbn in E. injection E as <- E. destruct q as [|q1 q]; cbn in E.
      * injection E as <- E. discriminate.
      * injection E as _ E. destruct q; discriminate.
Qed.

(** A run of digits on its own. *)
Lemma run_alone numeric ds : numeric_class numeric -> number ds -> is_run numeric ([] ++ ds ++ []) [] ds [].
Proof.
  intros NC [NE F]. split; [reflexivity|]. split; [exact NE|]. split; [|split; [intros p c H; destruct p; discriminate|discriminate]].
  eapply Forall_impl; [|exact F]. intros c D. apply NC; [unfold ascii_digit in D; lia|exact D].
Qed.
Lemma alone numeric x y : numeric_class numeric -> number x -> number y -> x <> y -> natural numeric x y = cmp_num x y.
Proof.
  intros NC X Y NE. rewrite natural_cmp. rewrite <- (app_nil_r x), <- (app_nil_r y) at 1.
  exact (cmp_number numeric 0 [] [] x y (Nat.le_refl _) (run_alone numeric x NC X) (run_alone numeric y NC Y) NE).
Qed.
Definition nine : list N := [0x39]%N.
Definition ten : list N := [0x31; 0x30]%N.
(** 2^64 = 18446744073709551616 *)
Definition large : list N :=
  [0x31; 0x38; 0x34; 0x34; 0x36; 0x37; 0x34; 0x34; 0x30; 0x37; 0x33; 0x37; 0x30; 0x39; 0x35; 0x35; 0x31; 0x36; 0x31; 0x36]%N.
Lemma digits ds : ds <> [] -> forallb ascii ds = true -> number ds.
Proof.
  intros NE F. split; [exact NE|]. apply Forall_forall. intros c I. rewrite forallb_forall in F. apply ascii_class; [|apply F, I].
  specialize (F c I). unfold ascii in F. apply andb_true_iff in F. rewrite !N.leb_le in F. lia.
Qed.
(** Not an order: 9 < 10 < 18446744073709551616 < 9. *)
Theorem str_natural_refuted : forall numeric, numeric_class numeric -> exists a b c,
  natural numeric a b = Lt /\ natural numeric b c = Lt /\ natural numeric c a = Lt.
Proof.
  intros numeric NC. exists nine, ten, large.
  assert (N1 : number nine) by (apply digits; [discriminate|reflexivity]).
  assert (N2 : number ten) by (apply digits; [discriminate|reflexivity]).
  assert (N3 : number large) by (apply digits; [discriminate|reflexivity]).
  rewrite !alone by (assumption || discriminate). vm_compute. auto.
Qed.

(** ** C47: numbers are compared by value *)

(** Full statement: the same without a bound on the numbers. *)
Theorem str_number_partial : forall numeric before x y after,
  is_run numeric (before ++ x ++ after) before x after -> is_run numeric (before ++ y ++ after) before y after ->
  number x -> number y -> (value x < 2 ^ 64)%N -> (value y < 2 ^ 64)%N -> value x <> value y ->
  natural numeric (before ++ x ++ after) (before ++ y ++ after) = N.compare (value x) (value y).
Proof.
  intros numeric b x y a RX RY NX NY LX LY NE. rewrite natural_cmp, (cmp_number numeric (length b) b a x y) by (assumption || lia || congruence).
  unfold cmp_num, cmp_value. rewrite (parse_number x NX LX), (parse_number y NY LY).
  destruct (N.compare_spec (value x) (value y)); [congruence|reflexivity|reflexivity].
Qed.
(** Equal values (leading zeros) are ordered like strings. *)
Theorem str_number_zeros : forall numeric before x y after,
  is_run numeric (before ++ x ++ after) before x after -> is_run numeric (before ++ y ++ after) before y after ->
  number x -> number y -> (value x < 2 ^ 64)%N -> value x = value y -> x <> y ->
  natural numeric (before ++ x ++ after) (before ++ y ++ after) = str_cmp x y.
Proof.
  intros numeric b x y a RX RY NX NY LX E NE. rewrite natural_cmp, (cmp_number numeric (length b) b a x y) by (assumption || lia || congruence).
  unfold cmp_num, cmp_value. rewrite (parse_number x NX LX), (parse_number y NY) by congruence. rewrite E, N.compare_refl. reflexivity.
Qed.
(** Beside: a9b and a10b. *)
Example str_number_case : is_run ascii ([0x61] ++ nine ++ [0x62])%N [0x61]%N nine [0x62]%N /\
  is_run ascii ([0x61] ++ ten ++ [0x62])%N [0x61]%N ten [0x62]%N /\
  natural ascii ([0x61] ++ nine ++ [0x62])%N ([0x61] ++ ten ++ [0x62])%N = Lt.
Proof.
  assert (R : forall ds, ds <> [] -> forallb ascii ds = true -> is_run ascii ([0x61] ++ ds ++ [0x62])%N [0x61]%N ds [0x62]%N).
  { intros ds NE F. split; [reflexivity|]. split; [exact NE|]. split; [apply Forall_forall; apply forallb_forall; exact F|]. split.
    - intros p c H. destruct p as [|? [|? ?]]; [|discriminate|discriminate]. injection H as <-. reflexivity.
    - intros c p H. injection H as <- _. reflexivity. }
  split; [apply R; [discriminate|reflexivity]|]. split; [apply R; [discriminate|reflexivity]|]. reflexivity.
Qed.
(** False from 2^64 on: the string 18446744073709551616 is less than 9. *)
Theorem str_number_refuted : forall numeric, numeric_class numeric -> exists x y, number x /\ number y /\
  is_run numeric ([] ++ x ++ []) [] x [] /\ is_run numeric ([] ++ y ++ []) [] y [] /\
  (value x > value y)%N /\ natural numeric x y = Lt.
Proof.
  intros numeric NC. assert (N1 : number nine) by (apply digits; [discriminate|reflexivity]).
  assert (N3 : number large) by (apply digits; [discriminate|reflexivity]). exists large, nine.
  split; [exact N3|]. split; [exact N1|]. split; [apply run_alone; assumption|]. split; [apply run_alone; assumption|].
  split; [vm_compute; reflexivity|]. rewrite alone by (assumption || discriminate). vm_compute. reflexivity.
Qed.

(** ** C48: symbols *)

Theorem str_symbol : forall numeric alphabetic s, numeric_class numeric -> symbol numeric alphabetic (symbolize numeric alphabetic s).
Proof.
  intros numeric alphabetic s NC.
  assert (U : numeric 0x5f%N = false).
  { destruct (numeric 0x5f%N) eqn:E; [|reflexivity]. apply NC in E; [|lia]. unfold ascii_digit in E. lia. }
  assert (F : Forall (fun c => alphabetic c = true \/ numeric c = true \/ c = 0x5f%N)
    (map (fun c => if alphanumeric numeric alphabetic c then c else 0x5f%N) s)).
  { apply Forall_forall. intros c I. apply in_map_iff in I. destruct I as (x & <- & _). unfold alphanumeric.
    destruct (alphabetic x) eqn:A; [left; exact A|]. destruct (numeric x) eqn:B; cbn; auto. }
  unfold symbolize, symbol. destruct s as [|c s].
  - cbn. split; [constructor; auto|]. exists 0x5f%N, []. auto.
  - destruct (numeric c) eqn:E.
    + split; [constructor; auto|]. eexists. eexists. split; [reflexivity|exact U].
    + split; [exact F|]. cbn [app map]. eexists. eexists. split; [reflexivity|]. destruct (alphanumeric numeric alphabetic c); assumption.
Qed.
Theorem str_symbol_identity : forall numeric alphabetic s, symbol numeric alphabetic s -> symbolize numeric alphabetic s = s.
Proof.
  intros numeric alphabetic s [F (c & s' & -> & E)]. unfold symbolize. rewrite E. cbn [app]. 
  rewrite <- (map_id (c :: s')) at 2. apply map_ext_in. intros x I. rewrite Forall_forall in F. unfold alphanumeric.
  destruct (F x I) as [A|[A|A]]; rewrite A; [reflexivity|rewrite orb_true_r; reflexivity|]. destruct (_ || _); reflexivity.
Qed.
Theorem str_symbol_idempotent : forall numeric alphabetic s, numeric_class numeric ->
  symbolize numeric alphabetic (symbolize numeric alphabetic s) = symbolize numeric alphabetic s.
Proof. intros. apply str_symbol_identity, str_symbol. assumption. Qed.
(** Character by character: letters and digits stay, anything else becomes an
    underscore; one is put in front if the string is empty or begins with a digit. *)
Theorem str_symbol_content : forall numeric alphabetic s, exists prefix,
  (prefix = [] \/ prefix = [0x5f%N]) /\ (prefix = [] <-> exists c s', s = c :: s' /\ numeric c = false) /\
  exists t, symbolize numeric alphabetic s = prefix ++ t /\
    Forall2 (fun c d => if alphabetic c || numeric c then d = c else d = 0x5f%N) s t.
Proof.
  intros numeric alphabetic s. exists (if match s with [] => true | c :: _ => numeric c end then [0x5f%N] else []).
  split; [destruct (match s with [] => true | c :: _ => numeric c end); auto|]. split.
  { destruct s as [|c s]; [split; [discriminate|intros (c & s' & H & _); discriminate]|]. destruct (numeric c) eqn:E.
    - split; [discriminate|]. intros (x & s' & H & X). injection H as <- <-. congruence.
    - split; [intros _; exists c, s; auto|reflexivity]. }
  eexists. split; [reflexivity|]. induction s as [|c s IH]; [constructor|]. cbn [map]. constructor; [|exact IH].
  unfold alphanumeric. destruct (_ || _); reflexivity.
Qed.
(** Beside: 0-a becomes _0_a. *)
Definition letters (c : N) : bool := ((0x41 <=? c) && (c <=? 0x5a) || (0x61 <=? c) && (c <=? 0x7a))%N.
Example str_symbol_case : numeric_class ascii /\ alphabetic_class letters /\
  symbolize ascii letters [0x30; 0x2d; 0x61]%N = [0x5f; 0x30; 0x5f; 0x61]%N.
Proof.
  split; [exact ascii_class|]. split; [|reflexivity]. intros c _. unfold letters. rewrite orb_true_iff, !andb_true_iff, !N.leb_le. reflexivity.
Qed.

Print Assumptions str_natural_returns.
Print Assumptions str_natural_eq.
Print Assumptions str_natural_opp.
Print Assumptions str_natural_partial.
Print Assumptions str_natural_refuted.
Print Assumptions str_number_partial.
Print Assumptions str_number_zeros.
Print Assumptions str_number_refuted.
Print Assumptions str_symbol.
Print Assumptions str_symbol_identity.
Print Assumptions str_symbol_idempotent.
Print Assumptions str_symbol_content.

(** A string as an option: none if it is empty, and otherwise itself. *)
Theorem str_some : forall v, (some v = None <-> v = []) /\ (forall x, some v = Some x <-> v <> [] /\ x = v).
Proof.
  intros [|c v]; cbn; split.
  - split; reflexivity.
  - intros x. split; [discriminate|]. intros [H _]. exfalso. apply H. reflexivity.
  - split; discriminate.
  - intros x. split; [intros H; injection H as <-; split; [discriminate|reflexivity]|]. intros [_ ->]. reflexivity.
Qed.
Print Assumptions str_some.
