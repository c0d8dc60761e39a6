(** Properties of ownership conversions and of comparisons (C79, C80). *)
From Coq Require Import Permutation.
From Verif Require Import Base OwnSpec OwnModel OwnProofs.

(* ------------------------------------------------------------------ *)
(** ** C79: converting pointers into [OnceRef] and back keeps ownership

    Whatever the allocator does, as long as it does not hand out memory that is
    in use, every program that the rules of ownership allow runs without touching
    memory that is not there, and shows exactly what the rules say: values read,
    objects destroyed and when, pointers that are identical.  In the end
    (and, as the program is arbitrary, at any time) pointers lead to the same
    address exactly if they belong to the same object. *)
Theorem conversions_keep_ownership place ps w es :
  fits place -> run start ps = Some (w, es) ->
  exists m at_, execs place boot ps = Some (m, map (render at_) es)
    /\ (forall i x, var w i = Some x -> exists v, local m i = Some v /\ target v = at_ (object x))
    /\ (forall i j x y, var w i = Some x -> var w j = Some y -> (at_ (object x) = at_ (object y) <-> object x = object y)).
Proof.
  intros F H. destruct (run_execs place ps F _ _ _ _ related_start H) as (m & E & R & _).
  exists m, (locate (mem m)). split; [exact E|]. split.
  - intros i x V. destruct (var_local _ _ _ _ R V) as (c & t & _ & L & _ & M & _ & _ & Oc & _).
    eexists. split; [exact L|]. rewrite image_target by auto. unfold locate. now rewrite M.
  - intros i j x y V U. destruct (var_local _ _ _ _ R V) as (c & t & _ & _ & _ & M & _ & Lc & _).
    destruct (var_local _ _ _ _ R U) as (d & u & _ & _ & _ & N & _ & Ld & _). unfold locate. rewrite M, N. split; intros Q.
    + destruct (Nat.eq_dec (object x) (object y)) as [|D]; [assumption|].
      exfalso. exact (data_apart _ (r_apart _ _ R) _ _ _ _ D M N Lc Ld Q).
    + rewrite Q in M. congruence.
Qed.
Print Assumptions conversions_keep_ownership.

(** An allocator that fits: behind everything else. *)
Definition behind (h : heap) : addr := fold_right (fun c a => N.max (base c + 17)%N a) 4096%N h.
Lemma behind_fits : fits behind.
Proof.
  intros h c I _. right. unfold behind. change header with 16%N. revert c I. induction h as [|d h IH]; [contradiction|]. intros c [->|I].
  - cbn [fold_right]. lia.
  - specialize (IH _ I). cbn [fold_right]. lia.
Qed.

(** An [Arc] is cloned and one of the two converted; the object goes when the
    restored one does. *)
Definition trip : list op :=
  [New Box 5; New Arc 7; Clone 1; Into 2; Into 0; Same 1 2; Same 0 1; Read 2; Drop 1; From 2 Arc; From 0 Box; Where 2; Drop 2; Drop 0].
Example conversions_keep_ownership_case :
  fits behind /\ option_map snd (run start trip) =
    Some [Silent; Silent; Silent; Silent; Silent; Answer true; Answer false; Value 7; Silent; Silent; Silent; At 1; Destroyed 7; Destroyed 5]
  /\ option_map snd (execs behind boot trip) =
    Some [Silent; Silent; Silent; Silent; Silent; Answer true; Answer false; Value 7; Silent; Silent; Silent;
          At 4129%N; Destroyed 7; Destroyed 5].
Proof. split; [exact behind_fits|]. split; reflexivity. Qed.

(** Every object that somebody owned is destroyed exactly once, or still owned:
    by a variable, or by a wrapper that was dropped or turned into a plain
    reference without being restored. *)
Theorem conversions_destroy_once place ps w es :
  fits place -> run start ps = Some (w, es) ->
  exists m es', execs place boot ps = Some (m, es') /\ Permutation (created ps) (destroyed es' ++ owned w).
Proof.
  intros F H. destruct (run_execs place ps F _ _ _ _ related_start H) as (m & E & R & _).
  do 2 eexists. split; [exact E|]. rewrite destroyed_render.
  rewrite <- (run_owned _ _ _ _ sound_start H). change (owned start) with (@nil Z). now rewrite app_nil_r.
Qed.
Print Assumptions conversions_destroy_once.

(** So if no variable is left and every wrapper was restored, nothing leaks. *)
Theorem conversions_do_not_leak place ps w es :
  fits place -> run start ps = Some (w, es) ->
  (forall i, var w i = None) -> (forall t, In t (things w) -> forgotten t = 0) ->
  exists m es', execs place boot ps = Some (m, es') /\ Permutation (created ps) (destroyed es').
Proof.
  intros F H V T. destruct (conversions_destroy_once place ps w es F H) as (m & es' & E & P).
  exists m, es'. split; [exact E|]. rewrite P. replace (owned w) with (@nil Z); [now rewrite app_nil_r|].
  symmetry. rewrite owned_holding.
  assert (Z : forall l, (forall o, In o l -> holding w o = []) -> flat_map (holding w) l = []).
  { induction l as [|o l IH]; intros Q; [reflexivity|]. cbn. rewrite Q by (now left). apply IH. intros o' I. apply Q. now right. }
  apply Z. intros o _. unfold holding. destruct (nth_error (things w) o) as [t|] eqn:N; [|reflexivity].
  apply nth_error_In in N. rewrite (T _ N). unfold owners.
  replace (filter (owns o) (vars w)) with (@nil (option owner)); [reflexivity|]. symmetry.
  destruct (filter (owns o) (vars w)) as [|a l] eqn:G; [reflexivity|].
  assert (I : In a (filter (owns o) (vars w))) by (rewrite G; now left). apply filter_In in I as (I & A).
  destruct a as [x|]; [|discriminate]. apply In_nth_error in I as (i & I). specialize (V i). unfold var in V. rewrite I in V. discriminate.
Qed.
Print Assumptions conversions_do_not_leak.

Example conversions_do_not_leak_case :
  exists w es, run start trip = Some (w, es) /\ (forall i, var w i = None) /\ (forall t, In t (things w) -> forgotten t = 0)
    /\ created trip = [5; 7]%Z /\ destroyed es = [7; 5]%Z.
Proof.
  do 2 eexists. split; [reflexivity|]. split; [intros [|[|[|i]]]; reflexivity || (destruct i; reflexivity)|].
  split; [|split; reflexivity]. intros t [<-|[<-|[]]]; reflexivity.
Qed.

(** A wrapper that is dropped keeps its object alive for ever: the last of the
    other owners does not destroy it. *)
Example dropped_wrapper_case :
  option_map snd (execs behind boot [New Rc 7; Clone 0; Into 0; Unwrap 0; Drop 1; Read 0])
    = Some [Silent; Silent; Silent; Silent; Silent; Value 7].
Proof. reflexivity. Qed.

(* ------------------------------------------------------------------ *)
(** ** C80: comparisons *)

(** [Identity] and [Ptr] compare where things are: their equality is identity of
    addresses, their order is a total order that agrees with it, and what they
    hash is the same exactly if they are equal. *)
Definition lawful (eq : addr -> addr -> bool) (cmp : addr -> addr -> comparison) (hash : addr -> addr) : Prop :=
  (forall p q, eq p q = true <-> p = q)
  /\ (forall p q, cmp p q = Eq <-> eq p q = true)
  /\ (forall p q, cmp q p = CompOpp (cmp p q))
  /\ (forall p q r, cmp p q = Lt -> cmp q r = Lt -> cmp p r = Lt)
  /\ (forall p q, hash p = hash q <-> eq p q = true).

Theorem addresses_compare_lawfully :
  lawful identity_eq identity_cmp identity_hash /\ lawful ptr_eq ptr_cmp ptr_hash
  /\ (forall p q, identity_partial_cmp p q = Some (identity_cmp p q)) /\ (forall p, ptr_eq (ptr_clone p) p = true).
Proof.
  assert (L : lawful N.eqb N.compare (fun p => p)).
  { unfold lawful. split; [exact N.eqb_eq|]. split; [intros p q; rewrite N.eqb_eq; apply N.compare_eq_iff|].
    split; [apply N.compare_antisym|]. split; [|intros p q; symmetry; apply N.eqb_eq].
    intros p q r. rewrite !N.compare_lt_iff. apply N.lt_trans. }
  split; [exact L|]. split; [exact L|]. split; [reflexivity|]. intros p. apply N.eqb_refl.
Qed.
Print Assumptions addresses_compare_lawfully.

(** [OnceRef] is documented to behave like a reference, with differences that do
    not include comparisons.  References compare what they lead to; two
    [OnceRef] that lead to equal values are different. *)
Theorem onceref_compares_values_refuted :
  exists m p q v, execs behind boot [New Ref v; New Ref v; Into 0; Into 1] = Some (m, [Silent; Silent; Silent; Silent])
    /\ local m 0 = Some (Once p) /\ local m 1 = Some (Once q)
    /\ option_map snd (execs behind m [Read 0; Read 1]) = Some [Value v; Value v]
    /\ once_eq p q = false.
Proof. do 3 eexists. exists 7%Z. repeat split. Qed.
Print Assumptions onceref_compares_values_refuted.

(** What holds: they are equal exactly if they lead to the same object. *)
Theorem onceref_compares_identity_partial place ps w es i j x y :
  fits place -> run start ps = Some (w, es) ->
  var w i = Some x -> var w j = Some y -> wrapped x = true -> wrapped y = true ->
  exists m es' p q, execs place boot ps = Some (m, es') /\ local m i = Some (Once p) /\ local m j = Some (Once q)
    /\ (once_eq p q = true <-> object x = object y).
Proof.
  intros F H V U Wx Wy. destruct (run_execs place ps F _ _ _ _ related_start H) as (m & E & R & _).
  destruct (var_local _ _ _ _ R V) as (c & t & _ & L & _ & M & _ & Lc & _).
  destruct (var_local _ _ _ _ R U) as (d & u & _ & K & _ & N & _ & Ld & _).
  unfold image in L, K. rewrite Wx in L. rewrite Wy in K.
  do 4 eexists. split; [exact E|]. split; [exact L|]. split; [exact K|]. unfold once_eq. rewrite N.eqb_eq. split; intros Q.
  - destruct (Nat.eq_dec (object x) (object y)) as [|D]; [assumption|].
    exfalso. exact (data_apart _ (r_apart _ _ R) _ _ _ _ D M N Lc Ld Q).
  - rewrite Q in M. congruence.
Qed.
Print Assumptions onceref_compares_identity_partial.

Example onceref_compares_identity_case :
  exists w es x y, run start [New Rc 7; Clone 0; Into 0; Into 1] = Some (w, es) /\ var w 0 = Some x /\ var w 1 = Some y
    /\ wrapped x = true /\ wrapped y = true /\ object x = object y.
Proof. do 4 eexists. repeat split. Qed.

(** A [Mown] is compared, ordered and hashed as the value it gives access to,
    whether it owns it or borrows it. *)
Definition mown_of {B O} (m : B + O) : mown B O := match m with inl v => new_borrowed v | inr v => new_owned v end.

Theorem mown_is_its_value {B O S : Type} (borrow : O -> B) (eq : B -> B -> bool) (cmp : B -> B -> comparison)
    (pcmp : B -> B -> option comparison) (hash : B -> S -> S) (clone : O -> O) (m n : B + O) (s : S) :
  mderef borrow (mown_of m) = seen borrow m
  /\ meq borrow eq (mown_of m) (mown_of n) = eq (seen borrow m) (seen borrow n)
  /\ mcmp borrow cmp (mown_of m) (mown_of n) = cmp (seen borrow m) (seen borrow n)
  /\ mpartial_cmp borrow pcmp (mown_of m) (mown_of n) = pcmp (seen borrow m) (seen borrow n)
  /\ mhash borrow hash (mown_of m) s = hash (seen borrow m) s
  /\ (seen borrow m = seen borrow n -> mhash borrow hash (mown_of m) s = mhash borrow hash (mown_of n) s)
  /\ is_borrowed (mown_of m) = negb (is_owned (mown_of m))
  /\ is_borrowed (mclone clone (mown_of m)) = is_borrowed (mown_of m)
  /\ ((forall o, borrow (clone o) = borrow o) -> mderef borrow (mclone clone (mown_of m)) = seen borrow m)
  /\ (is_borrowed (mown_of m) = true <-> exists v, m = inl v).
Proof.
  destruct m as [v|v], n as [u|u]; repeat split; cbn; auto; try congruence; try (intros (? & [=])); eauto;
    unfold mhash; cbn; congruence.
Qed.
Print Assumptions mown_is_its_value.

(** Made from a reference it borrows that value, made by default it owns the
    default; conversions to references are those of the value. *)
Theorem mown_is_made {B O T : Type} (borrow : O -> B) (as_ref : B -> T) (default : O) (v : B) (m : B + O) :
  mown_of (O := O) (inl v) = mfrom v /\ mderef borrow (mfrom (O := O) v) = v /\ is_borrowed (mfrom (O := O) v) = true
  /\ mderef borrow (mdefault default) = borrow default /\ is_owned (mdefault (B := B) default) = true
  /\ mas_ref borrow as_ref (mown_of m) = as_ref (seen borrow m).
Proof. repeat split. now destruct m. Qed.
Print Assumptions mown_is_made.

Example mown_is_its_value_case :
  meq (fun o : nat * nat => fst o) Nat.eqb (mown_of (inl 3)) (mown_of (inr (3, 4))) = true
  /\ meq (fun o : nat * nat => fst o) Nat.eqb (mown_of (inl 4)) (mown_of (inr (3, 4))) = false.
Proof. split; reflexivity. Qed.
