(** Independent specification: SHA-256 as written in FIPS 180-4. *)
From Verif Require Import Base.
Local Open Scope N_scope.

(** FIPS 180-4, 2.2.2 and 3.2: operations on 32-bit words. *)
Definition add32 (x y : N) : N := (x + y) mod 2 ^ 32.
Definition not_ (x : N) : N := N.lxor x (2 ^ 32 - 1).
Definition SHR (n x : N) : N := N.shiftr x n.
Definition ROTR (n x : N) : N :=
  N.lor (N.shiftr x n) (N.land (N.shiftl x (32 - n)) (2 ^ 32 - 1)).

(** FIPS 180-4, 4.1.2. *)
Definition Ch (x y z : N) : N := N.lxor (N.land x y) (N.land (not_ x) z).
Definition Maj (x y z : N) : N :=
  N.lxor (N.lxor (N.land x y) (N.land x z)) (N.land y z).
Definition Sigma0 (x : N) : N := N.lxor (N.lxor (ROTR 2 x) (ROTR 13 x)) (ROTR 22 x).
Definition Sigma1 (x : N) : N := N.lxor (N.lxor (ROTR 6 x) (ROTR 11 x)) (ROTR 25 x).
Definition sigma0 (x : N) : N := N.lxor (N.lxor (ROTR 7 x) (ROTR 18 x)) (SHR 3 x).
Definition sigma1 (x : N) : N := N.lxor (N.lxor (ROTR 17 x) (ROTR 19 x)) (SHR 10 x).

(** Integer square and cube root, by bisection on bits. *)
Fixpoint iroot_bits (k : N) (bits : nat) (acc n : N) : N :=
  match bits with
  | O => acc
  | S b =>
    let t := acc + 2 ^ N.of_nat b in
    iroot_bits k b (if t ^ k <=? n then t else acc) n
  end.
(** First 32 bits of the fractional part of the [k]-th root of [p]. *)
Definition frac_root (k p : N) : N := iroot_bits k 40 0 (p * 2 ^ (32 * k)) mod 2 ^ 32.

Definition is_prime (n : nat) : bool :=
  Nat.leb 2 n && forallb (fun d => negb (Nat.eqb (Nat.modulo n d) 0)) (seq 2 (n - 2)).
(** The primes below 312: the first sixty-four. *)
Definition primes : list N := map N.of_nat (filter is_prime (seq 2 310)).

(** FIPS 180-4, 4.2.2: cube roots of the first sixty-four primes;
    5.3.3: square roots of the first eight. *)
Definition K : list N := map (frac_root 3) primes.
Definition H0 : list N := map (frac_root 2) (firstn 8 primes).

(** FIPS 180-4, 5.1.1 (in bytes): append the bit 1, then the smallest number
    of zero bits that leaves room for a 64-bit length in a multiple of 512. *)
Definition zeros_needed (len : N) : N := (64 - (len + 1 + 8) mod 64) mod 64.
Definition be32 (w : N) : list N :=
  [ (w / 2 ^ 24) mod 256; (w / 2 ^ 16) mod 256; (w / 2 ^ 8) mod 256; w mod 256 ].
Definition be64 (w : N) : list N := be32 (w / 2 ^ 32) ++ be32 (w mod 2 ^ 32).
Definition pad (m : list N) : list N :=
  let len := N.of_nat (length m) in
  m ++ [0x80] ++ repeat 0 (N.to_nat (zeros_needed len)) ++ be64 (8 * len).

(** FIPS 180-4, 5.2.1: 512-bit blocks and their sixteen 32-bit words. *)
Definition blocks (p : list N) : list (list N) :=
  map (fun i => firstn 64 (skipn (64 * i) p)) (seq 0 (length p / 64)).
Definition word (b : list N) (i : nat) : N :=
  nth (4 * i) b 0 * 2 ^ 24 + nth (4 * i + 1) b 0 * 2 ^ 16 +
  nth (4 * i + 2) b 0 * 2 ^ 8 + nth (4 * i + 3) b 0.
Definition words (b : list N) : list N := map (word b) (seq 0 16).

(** FIPS 180-4, 6.2.2 step 1: the message schedule, W_16 to W_63. *)
Fixpoint schedule (n : nat) (W : list N) : list N :=
  match n with
  | O => W
  | S n' =>
    let t := length W in
    schedule n' (W ++ [ add32 (add32 (add32 (sigma1 (nth (t - 2) W 0)) (nth (t - 7) W 0))
                                     (sigma0 (nth (t - 15) W 0)))
                              (nth (t - 16) W 0) ])
  end.

(** FIPS 180-4, 6.2.2 step 3: one round on the working variables a..h. *)
Definition round (v : list N) (kw : N * N) : list N :=
  match v with
  | [a; b; c; d; e; f; g; h] =>
    let T1 := add32 (add32 (add32 (add32 h (Sigma1 e)) (Ch e f g)) (fst kw)) (snd kw) in
    let T2 := add32 (Sigma0 a) (Maj a b c) in
    [add32 T1 T2; a; b; c; add32 d T1; e; f; g]
  | _ => v
  end.

(** FIPS 180-4, 6.2.2: the hash computation of one block, given the constants
    (so that they are computed once), and of a message. *)
Definition compress_with (Kc : list N) (Hv : list N) (b : list N) : list N :=
  let W := schedule 48 (words b) in
  map (fun p => add32 (fst p) (snd p))
      (combine (fold_left round (combine Kc W) Hv) Hv).

Definition sha256 (m : list N) : list N :=
  let Kc := K in
  flat_map be32 (fold_left (compress_with Kc) (blocks (pad m)) H0).
