(** Property C129: in natural string comparison the first difference decides. *)
From Verif Require Import Base StrModel StrSpec StrProofs StrProps StrOrderSpec StrOrder.

(** For all strings and any class of numeric characters, whatever the numbers in them. *)
Theorem str_natural_exact : forall numeric a b, numeric_class numeric ->
  (natural numeric a b = Lt <-> natural_less numeric a b) /\
  (natural numeric a b = Gt <-> natural_less numeric b a).
Proof.
  intros numeric a b NC. rewrite natural_cmp. split; [apply cmp_less, NC|].
  rewrite <- (cmp_less numeric NC), (cmp_opp numeric a b). destruct (cmp numeric a b); cbn; split; congruence.
Qed.
(** What two strings begin with makes no difference, unless it ends within a number. *)
Theorem str_natural_cancel : forall numeric p a b, numeric_class numeric -> ~ ends_numeric numeric p ->
  natural numeric (p ++ a) (p ++ b) = natural numeric a b.
Proof.
  intros numeric p a b NC NE. destruct (natural numeric a b) eqn:E.
  - apply str_natural_eq in E. subst b. apply str_natural_eq. reflexivity.
  - apply (proj1 (str_natural_exact _ _ _ NC)). apply less_after; [exact NE|]. apply (proj1 (str_natural_exact _ _ _ NC)), E.
  - apply (proj2 (str_natural_exact _ _ _ NC)). apply less_after; [exact NE|]. apply (proj2 (str_natural_exact _ _ _ NC)), E.
Qed.
(** Strings without numbers are compared as in a dictionary. *)
Theorem str_natural_plain : forall numeric a b, numeric_class numeric ->
  Forall (fun c => numeric c = false) a -> Forall (fun c => numeric c = false) b ->
  (natural numeric a b = Lt <-> dictionary a b).
Proof.
  intros numeric a b NC FA FB. rewrite (proj1 (str_natural_exact numeric a b NC)). split.
  - intros H. destruct H as [p c r|p c r d s C D L|p c r d s NE C D|p x y r s (_ & X1 & X2 & _) _ _].
    + apply dictionary_prefix.
    + apply dictionary_char, L.
    + apply Forall_app in FA. destruct FA as [_ FA]. inversion FA; congruence.
    + destruct x as [|c x]; [congruence|]. apply Forall_app in FA. destruct FA as [_ FA]. inversion FA; subst. inversion X2; congruence.
  - intros H. destruct H as [p c r|p c r d s L]; [apply natural_prefix|]. apply Forall_app in FA, FB. destruct FA as [_ FA], FB as [_ FB].
    apply natural_char; [inversion FA; assumption|inversion FB; assumption|exact L].
Qed.
(** Beside: a1 comes before a! although the digit has the greater code, a9b before
    a10!, a07 before a7, and a18446744073709551616 before a9. *)
Example str_natural_exact_case :
  natural ascii [0x61; 0x31]%N [0x61; 0x21]%N = Lt /\ natural_less ascii [0x61; 0x31]%N [0x61; 0x21]%N /\
  natural_less ascii [0x61; 0x39; 0x62]%N [0x61; 0x31; 0x30; 0x21]%N /\ natural_less ascii [0x61; 0x30; 0x37]%N [0x61; 0x37]%N /\
  natural_less ascii (0x61%N :: large) [0x61; 0x39]%N /\ ~ ends_numeric ascii [0x31; 0x61]%N.
Proof.
  assert (G : forall a b, natural ascii a b = Lt -> natural_less ascii a b) by (intros a b; apply str_natural_exact, ascii_class).
  split; [reflexivity|]. split; [apply G; reflexivity|]. split; [apply G; reflexivity|]. split; [apply G; reflexivity|].
  split; [apply G; reflexivity|]. intros (q & c & E & C). change [0x31; 0x61]%N with ([0x31] ++ [0x61])%N in E.
  apply app_inj_tail in E. destruct E as [_ <-]. discriminate.
Qed.

Print Assumptions str_natural_exact.
Print Assumptions str_natural_cancel.
Print Assumptions str_natural_plain.
