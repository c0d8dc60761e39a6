(** Values of alignment markers (C105). *)
From Coq Require Import String DecimalString.
From Verif Require Import Base EtcSpec LayModel EtcModel EtcProps MarkModel.

(** A type has one value. *)
Lemma has_type_unique h m a : has_type h m a -> forall b, has_type h m b -> a = b.
Proof.
  induction 1 as [m E|m i v E Hv IH]; intros b Hb; inversion Hb; subst; try congruence.
  f_equal. apply IH. congruence.
Qed.
Lemma eq_refl_ v : eq v v = true. Proof. induction v; auto. Qed.
Lemma cmp_refl v : cmp v v = Eq. Proof. induction v; auto. Qed.
Lemma partial_cmp_refl v : partial_cmp v v = Some Eq. Proof. induction v; auto. Qed.
Lemma hash_nothing {S} (write : S -> list N -> S) v s : hash write v s = s.
Proof. induction v; auto. Qed.
Lemma default_assoc_typed h t : has_type h (assoc h t) (default_assoc t).
Proof.
  induction t; cbn; auto;
    repeat first [ eapply TTuple; [reflexivity|cbn] | apply TEmpty; reflexivity ].
Qed.

(** ** C105: values of alignment markers *)

(** There is exactly one value of each marker, the default; all values of it are
    equal in every comparison, are copies of one another, and add nothing to a
    hash. *)
Theorem marker_single_value {S} (write : S -> list N -> S) h m a b s :
  has_type h m a -> has_type h m b ->
  eq a b = true /\ cmp a b = Eq /\ partial_cmp a b = Some Eq /\
  clone a = b /\ default m = a /\ hash write a s = s.
Proof.
  intros Ha Hb. rewrite <- (has_type_unique h m a Ha b Hb).
  repeat split; auto using eq_refl_, cmp_refl, partial_cmp_refl, hash_nothing.
  apply (has_type_unique h m); [|exact Ha].
  destruct m as [n|n|t]; cbn.
  - apply TEmpty; reflexivity.
  - eapply TTuple; [reflexivity|]. apply TEmpty; reflexivity.
  - eapply TTuple; [reflexivity|]. apply default_assoc_typed.
Qed.
Theorem marker_has_value h m : has_type h m (default m).
Proof.
  destruct m as [n|n|t]; cbn.
  - apply TEmpty; reflexivity.
  - eapply TTuple; [reflexivity|]. apply TEmpty; reflexivity.
  - eapply TTuple; [reflexivity|]. apply default_assoc_typed.
Qed.

(** The fields of two objects of one structure: [inl] other data, [inr] a marker
    of the same type in both. *)
Inductive same_struct {X} (h : host) : list (X + value) -> list (X + value) -> Prop :=
| SNil : same_struct h [] []
| SData x y a b : same_struct h a b -> same_struct h (inl x :: a) (inl y :: b)
| SMark m v w a b : has_type h m v -> has_type h m w -> same_struct h a b ->
                    same_struct h (inr v :: a) (inr w :: b).
(** The structure without its markers. *)
Definition data {X} (fs : list (X + value)) : list X :=
  flat_map (fun f => match f with inl x => [x] | inr _ => [] end) fs.
(** Comparing and hashing data field by field. *)
Fixpoint all_equal {X} (xeq : X -> X -> bool) (a b : list X) : bool :=
  match a, b with [], [] => true | x :: a, y :: b => xeq x y && all_equal xeq a b | _, _ => false end.
Fixpoint lexicographic {X} (xcmp : X -> X -> comparison) (a b : list X) : comparison :=
  match a, b with
  | [], [] => Eq
  | x :: a, y :: b => match xcmp x y with Eq => lexicographic xcmp a b | c => c end
  | [], _ => Lt
  | _, _ => Gt
  end.

(** Markers can be put anywhere into a structure: its derived comparisons and its
    hash are those of the other fields. *)
Theorem marker_no_trace {X S} (xeq : X -> X -> bool) xcmp xhash (write : S -> list N -> S) h a b s :
  same_struct h a b ->
  struct_eq xeq a b = all_equal xeq (data a) (data b) /\
  struct_cmp xcmp a b = lexicographic xcmp (data a) (data b) /\
  struct_hash xhash write a s = fold_left (fun s x => xhash x s) (data a) s.
Proof.
  intros H. revert s. induction H as [|x y a b H IH|m v w a b Hv Hw H IH]; intros s.
  - auto.
  - cbn. destruct (IH (xhash x s)) as (E1 & E2 & E3). rewrite E3.
    repeat split; [now rewrite E1|now rewrite E2].
  - cbn. rewrite <- (has_type_unique h m v Hv w Hw), eq_refl_, cmp_refl, hash_nothing. cbn. apply IH.
Qed.

(** The name of the type of a marker, without its parameter. *)
Definition type_name (m : marker) : string :=
  match m with Fixed n => name_fixed n | AlignAs _ => "AlignAs" | AlignOf _ => "AlignOf" end.

(** Debug output starts with the name of the type: for all markers but [AlignOf].
    *)
Theorem marker_debug_name_partial h m : (forall t, m <> AlignOf t) ->
  exists rest, debug h m = (type_name m ++ rest)%string.
Proof.
  intros H. destruct m as [n|n|t]; [| |now destruct (H t)].
  - exists ""%string. cbn. generalize (name_fixed n). induction s; cbn; congruence.
  - eexists. reflexivity.
Qed.
(** Never for [AlignOf], which passes for [AlignAs]: the marker of the alignment
    of [AlignAs<n>] is shown like the latter. *)
Theorem marker_debug_name_refuted h :
  (forall t rest, debug h (AlignOf t) <> (type_name (AlignOf t) ++ rest)%string) /\
  (forall n, debug h (AlignOf (As n)) = debug h (AlignAs n)).
Proof. split; [|reflexivity]. intros t rest. cbn. congruence. Qed.

(** The alignment of a marker: that of its innermost field. *)
Inductive aligned_to (h : host) (n : nat) : marker -> Prop :=
| AtFixed : aligned_to h n (Fixed n)
| AtInner m i : inner h m = Some i -> aligned_to h n i -> aligned_to h n m.
(** The marker that a type names has the alignment of the type, and so has the
    marker made for the type. *)
Theorem marker_of_type_alignment h t m : compiles h = true -> align_of_type h t = Some m ->
  exists l, layout h t = Some l /\ aligned_to h (align_of l) (assoc h t) /\ aligned_to h (align_of l) (AlignOf t).
Proof.
  intros C E. apply compiles_address in C. unfold align_of_type in E. destruct (align_type h t) as [x|] eqn:X; [|discriminate]. clear E.
  assert (A : forall n, aligned_to h n (AlignAs n)) by (intros n; eapply AtInner; [reflexivity|constructor]).
  assert (G : exists l, layout h t = Some l /\ aligned_to h (align_of l) (assoc h t)).
  { revert x X. induction t as [c n| | | |n t IH|t IH| | |n]; intros x X; cbn [align_type layout assoc] in *.
    1-4: eexists; split; [reflexivity|apply A].
    1-2: destruct (IH _ X) as (l & -> & H); eexists; split; [reflexivity|exact H].
    1-2: eexists; split; [reflexivity|]; cbn [align_of]; rewrite <- C; eapply AtInner; [reflexivity|apply A].
    unfold align_as. rewrite X. eexists. split; [reflexivity|].
    destruct (align_as_layout n (Transparent x)) as [_ ->]; [unfold align_as; now rewrite X|constructor]. }
  destruct G as (l & L & G). exists l. repeat split; [exact L|exact G|]. eapply AtInner; [reflexivity|exact G].
Qed.
Print Assumptions marker_of_type_alignment.
Theorem marker_alignment_unique h m n n' : aligned_to h n m -> aligned_to h n' m -> n = n'.
Proof.
  intros H. induction H as [|m i E H IH]; intros H'; inversion H' as [|? ? E' H'']; subst; try discriminate; [reflexivity|].
  rewrite E in E'. injection E' as <-. exact (IH H'').
Qed.
Print Assumptions marker_alignment_unique.
Example marker_of_type_case :
  let h := {| number_align := fun _ n => Nat.min n 4; address := 8; address_align := 4 |} in
  compiles h = true /\ (exists m, align_of_type h (SliceOf (ArrayOf 3 Reference)) = Some m) /\
  assoc h (SliceOf (ArrayOf 3 Reference)) = AlignOf Size /\ aligned_to h 4 (AlignOf Size) /\ aligned_to h 1 (assoc h Str).
Proof.
  repeat split; [eexists; reflexivity|..]; repeat (eapply AtInner; [reflexivity|]); constructor.
Qed.

(** The text shows the alignment [n]: it is the name of [Align1] to [Align128],
    with [AlignAs] around it any number of times. *)
Inductive shows (n : nat) : string -> Prop :=
| ShName : shows n ("Align" ++ NilZero.string_of_uint (Nat.to_uint n))
| ShAround s : shows n s -> shows n ("AlignAs(" ++ s ++ ")").
Lemma name_shows n : supported n -> shows n (name_fixed n).
Proof.
  intros (k & L & ->). do 8 (destruct k as [|k]; [exact (ShName _)|]). lia.
Qed.
(** Debug output shows the alignment that the marker has. *)
Theorem marker_debug_alignment h :
  (forall n, supported n -> shows n (debug h (Fixed n)) /\ shows n (debug h (AlignAs n))) /\
  (forall t m, align_of_type h t = Some m -> shows (align_of m) (debug h (AlignOf t))).
Proof.
  assert (A : forall n m, align_as n = Some m -> supported n /\ align_of m = n).
  { intros n m E. split; [|now apply align_as_layout]. unfold align_as in E. apply align_n_supported.
    destruct (align_n n) as [x|]; [eauto|discriminate]. }
  split.
  - intros n S. split; [now apply name_shows|]. apply (ShAround _ _ (name_shows n S)).
  - intros t m E. unfold align_of_type in E. destruct (align_type h t) as [x|] eqn:X; [|discriminate]. injection E as <-.
    change (align_of (Transparent x)) with (align_of x). apply ShAround.
    revert x X. induction t as [c n| | | |n t IH|t IH| | |n]; intros x X; cbn [align_type debug_assoc] in *; auto.
    1-4: apply A in X as (S & ->); apply (ShAround _ _ (name_shows _ S)).
    1-2: destruct (align_as _) as [y|] eqn:Y; [|discriminate]; injection X as <-; apply A in Y as (S & E);
         change (align_of (Transparent y)) with (align_of y); rewrite E;
         apply ShAround; apply (ShAround _ _ (name_shows _ S)).
    destruct (A n (Transparent x)) as (S & E); [unfold align_as; now rewrite X|].
    change (align_of (Transparent x)) with (align_of x) in E. rewrite E. now apply name_shows.
Qed.

(** A host of 64 bits: a pair of a number and the marker of native alignment. *)
Example marker_case :
  let h := {| number_align := fun _ n => n; address := 8; address_align := 8 |} in
  let f x := [inl x; inr (Tuple (Tuple Empty)); inl 5%N; inr (Tuple Empty)] in
  same_struct (X := N) h (f 3%N) (f 4%N) /\
  has_type h (AlignOf Size) (Tuple (Tuple Empty)) /\
  has_type h (AlignOf Reference) (Tuple (Tuple (Tuple Empty))) /\
  struct_eq N.eqb (f 3%N) (f 4%N) = false /\ struct_eq N.eqb (f 3%N) (f 3%N) = true /\
  struct_cmp N.compare (f 3%N) (f 4%N) = Lt /\
  debug h (AlignOf Reference) = "AlignAs(AlignAs(AlignAs(Align8)))"%string /\
  debug h (AlignAs 4) = "AlignAs(Align4)"%string.
Proof.
  cbv zeta.
  assert (N1 : forall h, has_type h (AlignAs 8) (Tuple Empty)).
  { intros h. eapply TTuple; [reflexivity|]. apply TEmpty; reflexivity. }
  repeat split; try reflexivity.
  - constructor. eapply SMark with (m := AlignOf Size).
    1,2: eapply TTuple; [reflexivity|]; apply N1.
    constructor. eapply SMark with (m := AlignAs 8); auto. constructor.
  - eapply TTuple; [reflexivity|]. apply N1.
  - eapply TTuple; [reflexivity|]. eapply TTuple; [reflexivity|]. apply N1.
Qed.

Print Assumptions marker_single_value.
Print Assumptions marker_has_value.
Print Assumptions marker_no_trace.
Print Assumptions marker_debug_name_partial.
Print Assumptions marker_debug_name_refuted.
Print Assumptions marker_debug_alignment.
