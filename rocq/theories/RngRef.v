(** The published algorithms, written from the articles and their reference
    programs (Steele, Lea, Flood: Fast splittable pseudorandom number
    generators; Blackman, Vigna: Scrambled linear pseudorandom number
    generators).  Does not use the model. *)
From Verif Require Import Base.
Local Open Scope N_scope.

(** ** SplitMix64 *)

(** A mixing function: shift, xor and multiply in turn. *)
Definition avalanche (rounds : list (N * N)) (z : N) : N :=
  fold_left (fun z '(shift, factor) => (N.lxor z (z / 2 ^ shift) * factor) mod 2 ^ 64) rounds z.
(** The function for 64-bit values (Stafford's variant 13), for 32-bit values
    (upper half of variant 4), and for increments (MurmurHash3). *)
Definition murmur13 (z : N) : N := avalanche [(30, 0xbf58476d1ce4e5b9); (27, 0x94d049bb133111eb); (31, 1)] z.
Definition murmur4 (z : N) : N := avalanche [(33, 0x62a9d9ed799705f5); (28, 0xcb24d0a5c88c35b3)] z / 2 ^ 32.
Definition murmur3 (z : N) : N := avalanche [(33, 0xff51afd7ed558ccd); (33, 0xc4ceb9fe1a85ec53); (33, 1)] z.

(** The number of ones among the lowest [n] bits. *)
Fixpoint ones_of (n : nat) (z : N) : N :=
  match n with O => 0 | S n => z mod 2 + ones_of n (z / 2) end.
(** Increments are odd, and every second bit is flipped if too few neighbouring
    bits differ. *)
Definition increment (z : N) : N :=
  let z := N.lor (murmur3 z) 1 in
  if ones_of 64 (N.lxor z (z / 2)) <? 24 then N.lxor z 0xaaaaaaaaaaaaaaaa else z.

(** The golden ratio, the increment of generators that were not split off. *)
Definition golden : N := 0x9e3779b97f4a7c15.

(** The calls, and what they return: a number, or a generator given by its
    seed and its increment. *)
Inductive call := Next32 | Next64 | Split.
Inductive answer := Word (v : N) | Child (seed gamma : N).

(** The answers to calls on the generator with a seed and an increment that
    has made [i] steps: the state after [k] steps is [seed + k * gamma]. *)
Fixpoint splitmix (seed gamma i : N) (calls : list call) : list answer :=
  let state k := (seed + k * gamma) mod 2 ^ 64 in
  match calls with
  | [] => []
  | Next32 :: calls => Word (murmur4 (state (i + 1))) :: splitmix seed gamma (i + 1) calls
  | Next64 :: calls => Word (murmur13 (state (i + 1))) :: splitmix seed gamma (i + 1) calls
  | Split :: calls => Child (murmur13 (state (i + 1))) (increment (state (i + 2))) :: splitmix seed gamma (i + 2) calls
  end.

(** ** Xoshiro256++ *)

Definition rotate (k x : N) : N := (x * 2 ^ k) mod 2 ^ 64 + x / 2 ^ (64 - k).
(** One output and the next state (section 3.1 and figure 4 of the article:
    the linear engine as a matrix, and the scrambler ++ on the first and the
    last word). *)
Definition xoshiro_output '((a, b, c, d) : N * N * N * N) : N :=
  (rotate 23 ((a + d) mod 2 ^ 64) + a) mod 2 ^ 64.
Definition xoshiro_matrix '((a, b, c, d) : N * N * N * N) : N * N * N * N :=
  (N.lxor a (N.lxor b d),
   N.lxor a (N.lxor b c),
   N.lxor (N.lxor a c) ((b * 2 ^ 17) mod 2 ^ 64),
   rotate 45 (N.lxor b d)).
Fixpoint xoshiro (s : N * N * N * N) (n : nat) : list N :=
  match n with
  | O => []
  | S n => xoshiro_output s :: xoshiro (xoshiro_matrix s) n
  end.
