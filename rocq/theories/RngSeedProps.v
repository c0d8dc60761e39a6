(** C133: different seeds give different generators. *)
From Verif Require Import Base RngModel RngSpec RngProofs RngProps RngEqModel RngEqProps.
Local Open Scope N_scope.

(** ** C133 *)

(** What stands in for zero: the first number of the SplitMix64 generator with the
    seed 0. *)
Definition stand_in : N := sm_out64 (sm_with_seed 0) 0.

Lemma zero_words v : X v v v v = zero <-> v = 0.
Proof. split; [intros E; now injection E|intros ->; reflexivity]. Qed.
Lemma stand_in_seed : x_with_seed zero = X stand_in stand_in stand_in stand_in.
Proof. vm_compute. reflexivity. Qed.
Lemma x_eq_iff s t : x_eq s t = true <-> s = t.
Proof. unfold x_eq. rewrite !Bool.andb_true_iff, !N.eqb_eq. destruct s, t; cbn. split; [intros (-> & -> & -> & ->)|intros [= -> -> -> ->]]; auto. Qed.
Lemma seed_cases s : x_with_seed s = if x_eq s zero then X stand_in stand_in stand_in stand_in else s.
Proof.
  destruct (xoshiro_with_seed s) as [A B]. destruct (x_eq s zero) eqn:E.
  - apply x_eq_iff in E. subst s.
    exact stand_in_seed.
  - apply B. intros ->. vm_compute in E. discriminate E.
Qed.

Lemma same_numbers s t : x_reachable s -> x_reachable t -> ((forall k, x_out s k = x_out t k) <-> s = t).
Proof. intros S T. rewrite <- (xoshiro_equal_outputs s t S T). apply x_eq_iff. Qed.

(** Two seeds give generators that return the same numbers only if they are the
    same, but for the seed that consists of zeros. *)
Theorem xoshiro_seeds_distinct : forall a b, x_wf a -> x_wf b ->
  ((forall k, x_out (x_with_seed a) k = x_out (x_with_seed b) k) <->
   a = b \/ (a = zero /\ b = X stand_in stand_in stand_in stand_in) \/ (b = zero /\ a = X stand_in stand_in stand_in stand_in)).
Proof.
  intros a b A B. rewrite same_numbers by (constructor; assumption). rewrite (seed_cases a), (seed_cases b).
  destruct (x_eq a zero) eqn:Ea; destruct (x_eq b zero) eqn:Eb.
  - apply x_eq_iff in Ea, Eb. split; intros _; [left; congruence|reflexivity].
  - apply x_eq_iff in Ea. split; [intros <-; right; left; auto|].
    intros [-> |[[_ ->]|[-> _]]]; [subst; vm_compute in Eb; discriminate Eb|reflexivity|vm_compute in Eb; discriminate Eb].
  - apply x_eq_iff in Eb. split; [intros ->; right; right; auto|].
    intros [-> |[[-> _]|[_ ->]]]; [subst; vm_compute in Ea; discriminate Ea|vm_compute in Ea; discriminate Ea|reflexivity].
  - split; [intros ->; left; reflexivity|].
    intros [-> |[[-> _]|[-> _]]]; [reflexivity|vm_compute in Ea; discriminate Ea|vm_compute in Eb; discriminate Eb].
Qed.
Print Assumptions xoshiro_seeds_distinct.

(** The generator made of the [i]th number of a SplitMix64 generator. *)
Definition made (s : SplitMix64) (i : N) : Xoshiro := fst (x_from_splitmix64 (N.iter i sm_skip s)).

Lemma made_words s i : made s i = x_with_seed (X (sm_out64 s i) (sm_out64 s i) (sm_out64 s i) (sm_out64 s i)).
Proof. unfold made, x_from_splitmix64, sm_out64. destruct (sm_next64 (N.iter i sm_skip s)). reflexivity. Qed.

(** Of the 2^64 generators that can be made one after the other from a SplitMix64
    generator, two return the same numbers only if one of them was made of zero and
    the other one of what stands in for it. *)
Theorem xoshiro_made_distinct : forall s i j, sm_reachable s -> i < 2 ^ 64 -> j < 2 ^ 64 ->
  ((forall k, x_out (made s i) k = x_out (made s j) k) <->
   i = j \/ (sm_out64 s i = 0 /\ sm_out64 s j = stand_in) \/ (sm_out64 s j = 0 /\ sm_out64 s i = stand_in)).
Proof.
  intros s i j R I J. destruct (splitmix64_full_period s R) as (D & _ & _ & L). rewrite !made_words.
  assert (W : forall v, v < 2 ^ 64 -> x_wf (X v v v v)) by (intros v V; split; [exact V|split; [exact V|split; exact V]]).
  rewrite xoshiro_seeds_distinct by (apply W, L). rewrite !zero_words.
  assert (Q : forall v w, X v v v v = X w w w w <-> v = w) by (intros v w; split; [intros E; now injection E|intros ->; reflexivity]).
  rewrite !Q. split; (intros [E|E]; [left|right; exact E]); [exact (D i j I J E)|congruence].
Qed.
Print Assumptions xoshiro_made_distinct.

(** Both numbers do occur, so there are two such generators: 2^64 - 1 in all. *)
Theorem xoshiro_made_twice : forall s, sm_reachable s ->
  exists i j, i < 2 ^ 64 /\ j < 2 ^ 64 /\ i <> j /\ (forall k, x_out (made s i) k = x_out (made s j) k).
Proof.
  intros s R. destruct (splitmix64_full_period s R) as (D & S & _ & _).
  destruct (S 0) as (i & I & Ei); [vm_compute; reflexivity|]. destruct (S stand_in) as (j & J & Ej); [vm_compute; reflexivity|].
  exists i, j. split; [exact I|]. split; [exact J|]. split.
  - intros <-. rewrite Ei in Ej. vm_compute in Ej. discriminate Ej.
  - apply xoshiro_made_distinct; auto.
Qed.
Print Assumptions xoshiro_made_twice.

(** Two generators made of one SplitMix64 generator, and the first numbers of both. *)
Example xoshiro_made_case :
  let s := sm_with_seed 7 in
  sm_reachable s /\ made s 1 = fst (x_from_splitmix64 (snd (x_from_splitmix64 s))) /\
  x_out (made s 0) 0 <> x_out (made s 1) 0 /\ stand_in = 16294208416658607535.
Proof. split; [constructor; vm_compute; reflexivity|]. split; [vm_compute; reflexivity|]. split; [vm_compute; discriminate|vm_compute; reflexivity]. Qed.
