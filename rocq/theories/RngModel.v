(** Model of lib/osi/src/rng.rs.  Values of type u64 and u32 are numbers of type
    [N]; every wrapping operation reduces modulo 2^64.  Nothing here panics: the
    only assertion (line 68) is evaluated at compile time and is a lemma of the
    proofs. *)
From Verif Require Import Base.
Local Open Scope N_scope.

(** Rust semantics: the number of values of the u64 at lib/osi/src/rng.rs:31,
    41 and 56. *)
Definition W64 : N := 2 ^ 64.
(** Rust semantics: u64::wrapping_add, as at lib/osi/src/rng.rs:120 and
    204-206. *)
Definition wadd (a b : N) : N := (a + b) mod W64.
(** Rust semantics: u64::wrapping_mul, as at lib/osi/src/rng.rs:81-99. *)
Definition wmul (a b : N) : N := (a * b) mod W64.
(** Rust semantics: << on u64 (bits shifted out are lost), as at
    lib/osi/src/rng.rs:210 and 228. *)
Definition shl64 (a n : N) : N := N.shiftl a n mod W64.
(** Rust semantics: u64::rotate_left, as at lib/osi/src/rng.rs:205 and 218. *)
Definition rotl64 (a n : N) : N := N.lor (shl64 a n) (N.shiftr a (64 - n)).

(** u64::count_ones. Called at lib/osi/src/rng.rs:101. *)
Fixpoint popcount_pos (p : positive) : N :=
  match p with
  | xH => 1
  | xO p' => popcount_pos p'
  | xI p' => 1 + popcount_pos p'
  end.
(** Rust semantics: u64::count_ones, called at lib/osi/src/rng.rs:101. *)
Definition popcount (n : N) : N := match n with 0 => 0 | Npos p => popcount_pos p end.

(** rng.rs:30-32 Mix64 is its state. *)
Definition Mix64 : Type := N.
(** rng.rs:39-42 SplitMix64. *)
Record SplitMix64 := { mix : Mix64; gamma : N }.

(** rng.rs:76 GAMMA. *)
Definition GAMMA : N := 0x9e3779b97f4a7c15.

(** rng.rs:80-84 mix32. *)
Definition mix32 (v : N) : N :=
  let v := wmul (N.lxor v (N.shiftr v 33)) 0x62a9d9ed799705f5 in
  let v := wmul (N.lxor v (N.shiftr v 28)) 0xcb24d0a5c88c35b3 in
  N.shiftr v 32 mod 2 ^ 32.

(** rng.rs:88-92 mix64. *)
Definition mix64 (v : N) : N :=
  let v := wmul (N.lxor v (N.shiftr v 30)) 0xbf58476d1ce4e5b9 in
  let v := wmul (N.lxor v (N.shiftr v 27)) 0x94d049bb133111eb in
  N.lxor v (N.shiftr v 31).

(** rng.rs:97-106 mixg. *)
Definition mixg (v : N) : N :=
  let v := wmul (N.lxor v (N.shiftr v 33)) 0xff51afd7ed558ccd in
  let v := wmul (N.lxor v (N.shiftr v 33)) 0xc4ceb9fe1a85ec53 in
  let v := N.lor (N.lxor v (N.shiftr v 33)) 1 in
  if popcount (N.lxor v (N.shiftr v 1)) <? 24
  then N.lxor v 0xaaaaaaaaaaaaaaaa
  else v.

(** rng.rs:113-117 Mix64::with_seed. *)
Definition mix_with_seed (seed : N) : Mix64 := seed.
(** rng.rs:119-122 Mix64::step; returns the new state, which is also the value. *)
Definition mix_step (m : Mix64) (g : N) : Mix64 := wadd m g.
(** rng.rs:125-127 Mix64::next32. *)
Definition mix_next32 (m : Mix64) : N * Mix64 :=
  let m := mix_step m GAMMA in (mix32 m, m).
(** rng.rs:130-132 Mix64::next64. *)
Definition mix_next64 (m : Mix64) : N * Mix64 :=
  let m := mix_step m GAMMA in (mix64 m, m).
(** rng.rs:146-151 SplitMix64::with. *)
Definition sm_with (seed g : N) : SplitMix64 := {| mix := mix_with_seed seed; gamma := g |}.
(** rng.rs:137-142 Mix64::split; the arguments are evaluated in order. *)
Definition mix_split (m : Mix64) : SplitMix64 * Mix64 :=
  let m1 := mix_step m GAMMA in
  let m2 := mix_step m1 GAMMA in
  (sm_with (mix64 m1) (mixg m2), m2).

(** rng.rs:158-160 SplitMix64::with_seed. *)
Definition sm_with_seed (seed : N) : SplitMix64 := sm_with seed GAMMA.
(** rng.rs:163-165 from_mix64 (and From, 196-200). *)
Definition sm_from_mix64 (m : Mix64) : SplitMix64 := sm_with m GAMMA.
(** rng.rs:168-170 next32. *)
Definition sm_next32 (s : SplitMix64) : N * SplitMix64 :=
  let m := mix_step (mix s) (gamma s) in (mix32 m, {| mix := m; gamma := gamma s |}).
(** rng.rs:173-175 next64. *)
Definition sm_next64 (s : SplitMix64) : N * SplitMix64 :=
  let m := mix_step (mix s) (gamma s) in (mix64 m, {| mix := m; gamma := gamma s |}).
(** rng.rs:188-193 split. *)
Definition sm_split (s : SplitMix64) : SplitMix64 * SplitMix64 :=
  let m1 := mix_step (mix s) (gamma s) in
  let m2 := mix_step m1 (gamma s) in
  (sm_with (mix64 m1) (mixg m2), {| mix := m2; gamma := gamma s |}).

(** rng.rs:54-57 Xoshiro256pp: four words. *)
Record Xoshiro := X { x0 : N; x1 : N; x2 : N; x3 : N }.

(** rng.rs:62-73 MIX64_0.  The repeat expression evaluates its operand once. *)
Definition MIX64_0 : Xoshiro :=
  let v := fst (mix_next64 (mix_with_seed 0)) in X v v v v.

(** rng.rs:203-207 combine. *)
Definition combine (s : Xoshiro) : N :=
  wadd (rotl64 (wadd (x0 s) (x3 s)) 23) (x0 s).

(** rng.rs:209-219 step; the updates in program order. *)
Definition step (s : Xoshiro) : Xoshiro :=
  let t := shl64 (x1 s) 17 in
  let s2 := N.lxor (x2 s) (x0 s) in
  let s3 := N.lxor (x3 s) (x1 s) in
  let s1 := N.lxor (x1 s) s2 in
  let s0 := N.lxor (x0 s) s3 in
  let s2 := N.lxor s2 t in
  let s3 := rotl64 s3 45 in
  X s0 s1 s2 s3.

(** `t[k] ^= s[k]` for all four words (rng.rs:229-232). *)
Definition xor_words (t s : Xoshiro) : Xoshiro :=
  X (N.lxor (x0 t) (x0 s)) (N.lxor (x1 t) (x1 s)) (N.lxor (x2 t) (x2 s)) (N.lxor (x3 t) (x3 s)).

(** rng.rs:227-236: inner loop over the bits [j ..] of one table word, [n]
    iterations left; state [s] and accumulator [t]. *)
Fixpoint jump_bits (n : nat) (j : N) (w : N) (st : Xoshiro * Xoshiro) : Xoshiro * Xoshiro :=
  match n with
  | O => st
  | S n' =>
    let '(s, t) := st in
    let t := if negb (N.land w (shl64 1 j) =? 0) then xor_words t s else t in
    jump_bits n' (j + 1) w (step s, t)
  end.
(** lib/osi/src/rng.rs:225-238, one round of the outer loop. *)
Definition jump_word (st : Xoshiro * Xoshiro) (w : N) : Xoshiro * Xoshiro := jump_bits 64 0 w st.
(** lib/osi/src/rng.rs:225-238, the outer loop over the table words. *)
Definition jump_words (table : list N) (st : Xoshiro * Xoshiro) : Xoshiro * Xoshiro :=
  fold_left jump_word table st.
(** lib/osi/src/rng.rs:221-241, the whole function. *)
Definition jump (s : Xoshiro) (table : list N) : Xoshiro :=
  snd (jump_words table (s, X 0 0 0 0)).

(** lib/osi/src/rng.rs:247-252. *)
Definition TABLE128 : list N :=
  [0x180ec6d33cfd0aba; 0xd5a61266f0c9392c; 0xa9582618e03fc9aa; 0x39abdc4529b1661c].
(** lib/osi/src/rng.rs:244-254. *)
Definition step128 (s : Xoshiro) : Xoshiro := jump s TABLE128.
(** lib/osi/src/rng.rs:260-265. *)
Definition TABLE192 : list N :=
  [0x76e15d3efefdcbbf; 0xc5004e441c522fb3; 0x77710069854ee241; 0x39109bb02acbe635].
(** lib/osi/src/rng.rs:257-267. *)
Definition step192 (s : Xoshiro) : Xoshiro := jump s TABLE192.

(** rng.rs:277-287 with_seed. *)
Definition x_with_seed (seed : Xoshiro) : Xoshiro :=
  if (x0 seed =? 0) && (x1 seed =? 0) && (x2 seed =? 0) && (x3 seed =? 0)
  then MIX64_0 else seed.
(** rng.rs:293-295 from_splitmix64 (and From, 315-319). *)
Definition x_from_splitmix64 (s : SplitMix64) : Xoshiro * SplitMix64 :=
  let '(v, s) := sm_next64 s in (x_with_seed (X v v v v), s).
(** rng.rs:298-302 next64. *)
Definition x_next64 (s : Xoshiro) : N * Xoshiro := (combine s, step s).
(** lib/osi/src/rng.rs:305-307. *)
Definition x_jump128 (s : Xoshiro) : Xoshiro := step128 s.
(** lib/osi/src/rng.rs:310-312. *)
Definition x_jump192 (s : Xoshiro) : Xoshiro := step192 s.
