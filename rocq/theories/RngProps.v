(** Properties C07-C12, C53-C55 and C94-C96: random number generators. *)
From Verif Require Import Base RngModel RngSpec RngProofs XoshiroProofs XoshiroPoly XoshiroPeriod RngMore RngDist.
From Verif Require RngRef.
Local Open Scope N_scope.

(** Known values, from the unit tests of rng.rs (lines 326-407). *)
Fixpoint take64 {A} (f : A -> N * A) (n : nat) (s : A) : list N * A :=
  match n with
  | O => ([], s)
  | S n => let '(v, s) := f s in let '(l, s) := take64 f n s in (v :: l, s)
  end.
Example sm64_known :
  fst (take64 sm_next64 4 (sm_with_seed 0)) =
    [16294208416658607535; 7960286522194355700; 487617019471545679; 17909611376780542444] /\
  fst (take64 mix_next64 4 (mix_with_seed 1234567)) =
    [6457827717110365317; 3203168211198807973; 9817491932198370423; 4593380528125082431].
Proof. split; vm_compute; reflexivity. Qed.
Example xoshiro_known :
  let '(a, s) := take64 x_next64 4 (x_with_seed (X 1 2 3 4)) in
  let '(b, s) := take64 x_next64 4 (x_jump128 s) in
  let '(c, s) := take64 x_next64 4 (x_jump192 s) in
  (a, b, c) =
  ([41943041; 58720359; 3588806011781223; 3591011842654386],
   [10838999831620499216; 8680420094678800874; 9570055643283944810; 7079802948504130534],
   [7229965972965062926; 2140690761664815708; 5733913562642225265; 10699737370828579003]).
Proof. vm_compute. reflexivity. Qed.

(** ** C07 *)
(** Every generator obtainable through the interface, including split ones. *)
Theorem splitmix64_full_period : forall s, sm_reachable s ->
  (forall i j, i < 2 ^ 64 -> j < 2 ^ 64 -> sm_out64 s i = sm_out64 s j -> i = j) /\
  (forall v, v < 2 ^ 64 -> exists i, i < 2 ^ 64 /\ sm_out64 s i = v) /\
  (forall i, sm_out64 s (i + 2 ^ 64) = sm_out64 s i) /\
  (forall i, sm_out64 s i < 2 ^ 64).
Proof. exact (fun s R => full_period s (reachable_wf s R)). Qed.
Print Assumptions splitmix64_full_period.
(** For any odd increment, whether or not a split can produce it. *)
Theorem splitmix64_odd_period : forall m g, m < 2 ^ 64 -> g < 2 ^ 64 -> N.odd g = true ->
  let s := {| mix := m; gamma := g |} in
  (forall i j, i < 2 ^ 64 -> j < 2 ^ 64 -> sm_out64 s i = sm_out64 s j -> i = j) /\
  (forall v, v < 2 ^ 64 -> exists i, i < 2 ^ 64 /\ sm_out64 s i = v) /\
  (forall i, sm_out64 s (i + 2 ^ 64) = sm_out64 s i) /\
  (forall i, sm_out64 s i < 2 ^ 64).
Proof. exact (fun m g Hm Hg Ho => full_period {| mix := m; gamma := g |} (conj Hm (conj Hg Ho))). Qed.
Print Assumptions splitmix64_odd_period.
Example splitmix64_case : sm_reachable (fst (sm_split (snd (sm_next64 (sm_with_seed 7))))).
Proof. apply R_child, R_next64, R_seed. reflexivity. Qed.
Example splitmix64_odd_case : 5 < 2 ^ 64 /\ 3 < 2 ^ 64 /\ N.odd 3 = true.
Proof. repeat split. Qed.

(** ** C08 *)
Theorem splitmix64_split : forall s, sm_reachable s ->
  sm_reachable (fst (sm_split s)) /\
  N.odd (gamma (fst (sm_split s))) = true /\ gamma (fst (sm_split s)) < 2 ^ 64 /\
  snd (sm_split s) = snd (sm_next64 (snd (sm_next64 s))) /\
  mix (fst (sm_split s)) = sm_out64 s 0.
Proof.
  exact (fun s R =>
    let W := reachable_wf _ (R_child s R) in
    conj (R_child s R) (conj (proj2 (proj2 W)) (conj (proj1 (proj2 W))
      (conj (proj2 (proj2 (split_ok s (reachable_wf s R)))) eq_refl)))).
Qed.
Print Assumptions splitmix64_split.
(** Mix64 behaves as SplitMix64 with the fixed increment. *)
Theorem mix64_as_splitmix64 : forall m,
  fst (mix_next64 m) = fst (sm_next64 (sm_from_mix64 m)) /\
  sm_from_mix64 (snd (mix_next64 m)) = snd (sm_next64 (sm_from_mix64 m)) /\
  fst (mix_next32 m) = fst (sm_next32 (sm_from_mix64 m)) /\
  sm_from_mix64 (snd (mix_next32 m)) = snd (sm_next32 (sm_from_mix64 m)) /\
  fst (mix_split m) = fst (sm_split (sm_from_mix64 m)) /\
  sm_from_mix64 (snd (mix_split m)) = snd (sm_split (sm_from_mix64 m)).
Proof. exact mix_is_splitmix. Qed.
Print Assumptions mix64_as_splitmix64.

(** ** C53 *)
(** In 2^64 successive calls of next32, each 32-bit value [v] is produced at
    exactly 2^32 positions: [f] enumerates them without repetition. *)
Theorem splitmix32_equidistributed : forall s v, sm_reachable s -> v < 2 ^ 32 ->
  exists f : N -> N,
    (forall k, k < 2 ^ 32 -> f k < 2 ^ 64 /\ sm_out32 s (f k) = v) /\
    (forall k l, k < 2 ^ 32 -> l < 2 ^ 32 -> f k = f l -> k = l) /\
    (forall i, i < 2 ^ 64 -> sm_out32 s i = v -> exists k, k < 2 ^ 32 /\ i = f k).
Proof. exact (fun s v R => equidistributed32 s v (reachable_wf s R)). Qed.
Print Assumptions splitmix32_equidistributed.

(** ** C54 *)
(** The increment of every generator changes bits at least 24 times. *)
Theorem splitmix64_gamma_transitions : forall s, sm_reachable s ->
  (24 <= bit_transitions (gamma s))%nat.
Proof. exact reachable_transitions. Qed.
Print Assumptions splitmix64_gamma_transitions.

(** ** C09 *)
Theorem xoshiro_bijective :
  (forall a b, x_wf a -> x_wf b -> x_skip a = x_skip b -> a = b) /\
  (forall t, x_wf t -> exists s, x_wf s /\ x_skip s = t) /\
  x_skip zero = zero.
Proof. exact x_bijective. Qed.
Print Assumptions xoshiro_bijective.
Theorem xoshiro_never_zero : forall s, x_reachable s -> x_wf s /\ s <> zero.
Proof. exact x_reachable_ok. Qed.
Print Assumptions xoshiro_never_zero.
Example xoshiro_reachable_case :
  x_reachable (snd (x_next64 (x_jump192 (x_jump128 (x_with_seed zero))))).
Proof. apply XR_next, XR_jump192, XR_jump128, XR_seed. repeat split. Qed.

(** ** C10 *)
Theorem xoshiro_jump128 : forall s, x_wf s -> x_jump128 s = N.iter (2 ^ 128) x_skip s.
Proof. exact jump128_ok. Qed.
Print Assumptions xoshiro_jump128.
Theorem xoshiro_jump192 : forall s, x_wf s -> x_jump192 s = N.iter (2 ^ 192) x_skip s.
Proof. exact jump192_ok. Qed.
Print Assumptions xoshiro_jump192.
Example xoshiro_wf_case : x_wf (X 1 2 3 (2 ^ 64 - 1)) /\ X 1 2 3 (2 ^ 64 - 1) <> zero.
Proof. repeat split. discriminate. Qed.

(** ** C11 *)
Theorem xoshiro_period : forall s, x_wf s -> s <> zero ->
  N.iter (2 ^ 256 - 1) x_skip s = s /\
  (forall i j, i < 2 ^ 256 - 1 -> j < 2 ^ 256 - 1 ->
     N.iter i x_skip s = N.iter j x_skip s -> i = j).
Proof. exact x_period. Qed.
Print Assumptions xoshiro_period.
(** Hence every non-zero state is reached from every other one. *)
Theorem xoshiro_single_cycle : forall s t, x_wf s -> s <> zero -> x_wf t -> t <> zero ->
  exists k, k < 2 ^ 256 - 1 /\ N.iter k x_skip s = t.
Proof. exact single_cycle. Qed.
Print Assumptions xoshiro_single_cycle.

(** ** C55 *)
(** Streams set apart by jump128 share no state in their first 2^128 calls. *)
Theorem xoshiro_jump_streams_disjoint : forall s a b i j, x_wf s -> s <> zero ->
  a < 2 ^ 128 - 1 -> b < 2 ^ 128 - 1 -> i < 2 ^ 128 -> j < 2 ^ 128 ->
  N.iter i x_skip (N.iter a x_jump128 s) = N.iter j x_skip (N.iter b x_jump128 s) ->
  a = b /\ i = j.
Proof. exact disjoint_streams. Qed.
Print Assumptions xoshiro_jump_streams_disjoint.

(** ** C12 *)
(** The claim is false of the code: `[mix.next64(); 4]` evaluates the call once. *)
Theorem xoshiro_from_splitmix64_refuted : exists s, sm_reachable s /\
  fst (x_from_splitmix64 s) <> X (sm_out64 s 0) (sm_out64 s 1) (sm_out64 s 2) (sm_out64 s 3) /\
  snd (x_from_splitmix64 s) <> N.iter 4 sm_skip s.
Proof.
  exists (sm_with_seed 0). split; [apply R_seed; reflexivity|].
  split; vm_compute; intros E; discriminate E.
Qed.
Print Assumptions xoshiro_from_splitmix64_refuted.
(** What holds: all four words are the same, namely the next output unless that
    is zero, the state is not zero, and the source advances once.  Missing: the
    words being four successive outputs. *)
Theorem xoshiro_from_splitmix64_partial : forall s, sm_reachable s ->
  exists v, fst (x_from_splitmix64 s) = X v v v v /\ v <> 0 /\
    (sm_out64 s 0 <> 0 -> v = sm_out64 s 0) /\ snd (x_from_splitmix64 s) = sm_skip s.
Proof. exact from_splitmix_copies. Qed.
Print Assumptions xoshiro_from_splitmix64_partial.
(** The documented meaning of the all-zero seed, and of all other seeds. *)
Theorem xoshiro_with_seed : forall s,
  (s = zero -> x_with_seed s = fst (x_from_splitmix64 (sm_with_seed 0))) /\
  (s <> zero -> x_with_seed s = s).
Proof. exact with_seed_spec. Qed.
Print Assumptions xoshiro_with_seed.

(** ** C94 *)
(** A seeded generator answers every sequence of calls as published. *)
Theorem splitmix64_published : forall seed calls, seed < 2 ^ 64 ->
  sm_calls (sm_with_seed seed) calls = RngRef.splitmix seed RngRef.golden 0 calls.
Proof.
  intros seed calls H. apply sm_calls_ok; [|reflexivity].
  rewrite N.mul_0_l, N.add_0_r. symmetry. now apply N.mod_small.
Qed.
Print Assumptions splitmix64_published.
(** So does a generator that was split off: it continues from the seed and the
    increment that the call of split is published to return. *)
Theorem splitmix64_child_published : forall s calls, sm_reachable s ->
  let c := fst (sm_split s) in
  sm_calls s [RngRef.Split] = [RngRef.Child (mix c) (gamma c)] /\
  sm_calls c calls = RngRef.splitmix (mix c) (gamma c) 0 calls.
Proof.
  intros s calls R c. split; [reflexivity|]. apply sm_calls_ok; [|reflexivity].
  rewrite N.mul_0_l, N.add_0_r. symmetry. apply N.mod_small.
  apply (proj1 (reachable_wf _ (R_child s R))).
Qed.
Print Assumptions splitmix64_child_published.
Example splitmix64_published_case :
  sm_calls (sm_with_seed 0) [RngRef.Next64; RngRef.Next32; RngRef.Split] =
  [RngRef.Word 16294208416658607535; RngRef.Word (RngRef.murmur4 (2 * RngRef.golden mod 2 ^ 64));
   RngRef.Child 487617019471545679 (RngRef.increment (4 * RngRef.golden mod 2 ^ 64))].
Proof. vm_compute. reflexivity. Qed.
(** "Will produce the same results as other implementations with this seed
    (except if the seed is 0)." *)
Theorem xoshiro_published : forall seed n, x_wf seed -> seed <> zero ->
  x_take n (x_with_seed seed) = RngRef.xoshiro (x_words seed) n.
Proof.
  intros seed n W Z. rewrite (proj2 (with_seed_spec seed) Z). now apply take_ok.
Qed.
Print Assumptions xoshiro_published.
Example xoshiro_published_case : RngRef.xoshiro (1, 2, 3, 4) 4 = [41943041; 58720359; 3588806011781223; 3591011842654386].
Proof. vm_compute. reflexivity. Qed.

(** ** C95 *)
(** In 2^256 - 1 successive calls every sequence of three values is returned at
    exactly 2^64 positions, and three zeros at one less: [f] enumerates the
    positions without repetition. *)
Theorem xoshiro_triples_equidistributed : forall s a b c, x_reachable s ->
  a < 2 ^ 64 -> b < 2 ^ 64 -> c < 2 ^ 64 ->
  let count := if (a =? 0) && (b =? 0) && (c =? 0) then 2 ^ 64 - 1 else 2 ^ 64 in
  exists f : N -> N,
    (forall k, k < count -> f k < 2 ^ 256 - 1 /\
       x_out s (f k) = a /\ x_out s (f k + 1) = b /\ x_out s (f k + 2) = c) /\
    (forall k l, k < count -> l < count -> f k = f l -> k = l) /\
    (forall i, i < 2 ^ 256 - 1 -> x_out s i = a -> x_out s (i + 1) = b -> x_out s (i + 2) = c ->
       exists k, k < count /\ i = f k).
Proof. intros s a b c R. destruct (x_reachable_ok s R) as (W & Z). exact (triples s a b c W Z). Qed.
Print Assumptions xoshiro_triples_equidistributed.
(** Every single value is returned at exactly 2^192 positions, zero at one less. *)
Theorem xoshiro_equidistributed : forall s v, x_reachable s -> v < 2 ^ 64 ->
  let count := if v =? 0 then 2 ^ 192 - 1 else 2 ^ 192 in
  exists f : N -> N,
    (forall k, k < count -> f k < 2 ^ 256 - 1 /\ x_out s (f k) = v) /\
    (forall k l, k < count -> l < count -> f k = f l -> k = l) /\
    (forall i, i < 2 ^ 256 - 1 -> x_out s i = v -> exists k, k < count /\ i = f k).
Proof. intros s v R. destruct (x_reachable_ok s R) as (W & Z). exact (singles s v W Z). Qed.
Print Assumptions xoshiro_equidistributed.
Example xoshiro_equidistributed_case :
  let s := x_with_seed (X 1 2 3 4) in
  x_reachable s /\ x_out s 0 = 41943041 /\ x_out s 1 = 58720359 /\ x_out s 2 = 3588806011781223.
Proof. split; [apply XR_seed; repeat split|]. vm_compute. repeat split. Qed.

(** ** C96 *)
(** Streams of streams: up to 2^64 - 1 groups set apart by jump192, of 2^64
    streams set apart by jump128, share no state in the first 2^128 calls of
    each. *)
Theorem xoshiro_jump_groups_disjoint : forall s a b a' b' i j, x_reachable s ->
  a < 2 ^ 64 - 1 -> a' < 2 ^ 64 - 1 -> b < 2 ^ 64 -> b' < 2 ^ 64 -> i < 2 ^ 128 -> j < 2 ^ 128 ->
  N.iter i x_skip (N.iter b x_jump128 (N.iter a x_jump192 s)) =
  N.iter j x_skip (N.iter b' x_jump128 (N.iter a' x_jump192 s)) -> a = a' /\ b = b' /\ i = j.
Proof. intros s a b a' b' i j R. destruct (x_reachable_ok s R) as (W & Z). exact (disjoint_streams2 s a b a' b' i j W Z). Qed.
Print Assumptions xoshiro_jump_groups_disjoint.
