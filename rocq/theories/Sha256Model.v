(** Model of lib/osi/src/hash/sha256.rs and lib/osi/src/hash.rs. *)
From Verif Require Import Base.
From Verif Require Export HashApi.
Local Open Scope N_scope.
Local Open Scope res_scope.

(** lib/osi/src/hash/sha256.rs:12 SHA256_CHUNK. *)
Definition CHUNK : nat := 64.

(** ** The primitives of core on u32 *)

(** Rust semantics: the largest u32 (the type at sha256.rs:18). *)
Definition mask32 : N := 0xffffffff.
(** Rust semantics: u32::wrapping_add, as at sha256.rs:84. *)
Definition wadd (a b : N) : N := (a + b) mod 0x100000000.
(** Rust semantics: u32::rotate_right, as at sha256.rs:71. *)
Definition rotate_right (x n : N) : N :=
  N.lor (N.shiftr x n) (N.land (N.shiftl x (32 - n)) mask32).
(** Rust semantics: [!x] on u32, as at sha256.rs:81. *)
Definition not32 (x : N) : N := N.lxor x mask32.
(** Rust semantics: u32::from_be_bytes, as at sha256.rs:113. *)
Definition from_be_bytes (b0 b1 b2 b3 : N) : N :=
  ((b0 * 256 + b1) * 256 + b2) * 256 + b3.
(** Rust semantics: u32::to_be_bytes, as at sha256.rs:264. *)
Definition to_be_bytes32 (w : N) : list N :=
  [ (w / 0x1000000) mod 256; (w / 0x10000) mod 256; (w / 0x100) mod 256; w mod 256 ].
(** Rust semantics: u64::to_be_bytes, as at sha256.rs:246. *)
Definition to_be_bytes64 (w : N) : list N :=
  to_be_bytes32 (w / 0x100000000) ++ to_be_bytes32 (w mod 0x100000000).

(** sha256.rs:18 and 107.  The arrays [[u32; 8]] are an eight-field record: all their indices in the
    code are constants. *)
Record st8 := St8 { s0 : N; s1 : N; s2 : N; s3 : N; s4 : N; s5 : N; s6 : N; s7 : N }.

(** sha256.rs:27-36 SHA256_H. *)
Definition SHA256_H : st8 := St8
  0x6a09e667 0xbb67ae85 0x3c6ef372 0xa54ff53a
  0x510e527f 0x9b05688c 0x1f83d9ab 0x5be0cd19.

(** sha256.rs:41-58 SHA256_K. *)
Definition SHA256_K : list N := [
    0x428a2f98; 0x71374491; 0xb5c0fbcf; 0xe9b5dba5;
    0x3956c25b; 0x59f111f1; 0x923f82a4; 0xab1c5ed5;
    0xd807aa98; 0x12835b01; 0x243185be; 0x550c7dc3;
    0x72be5d74; 0x80deb1fe; 0x9bdc06a7; 0xc19bf174;
    0xe49b69c1; 0xefbe4786; 0x0fc19dc6; 0x240ca1cc;
    0x2de92c6f; 0x4a7484aa; 0x5cb0a9dc; 0x76f988da;
    0x983e5152; 0xa831c66d; 0xb00327c8; 0xbf597fc7;
    0xc6e00bf3; 0xd5a79147; 0x06ca6351; 0x14292967;
    0x27b70a85; 0x2e1b2138; 0x4d2c6dfc; 0x53380d13;
    0x650a7354; 0x766a0abb; 0x81c2c92e; 0x92722c85;
    0xa2bfe8a1; 0xa81a664b; 0xc24b8b70; 0xc76c51a3;
    0xd192e819; 0xd6990624; 0xf40e3585; 0x106aa070;
    0x19a4c116; 0x1e376c08; 0x2748774c; 0x34b0bcb5;
    0x391c0cb3; 0x4ed8aa4a; 0x5b9cca4f; 0x682e6ff3;
    0x748f82ee; 0x78a5636f; 0x84c87814; 0x8cc70208;
    0x90befffa; 0xa4506ceb; 0xbef9a3f7; 0xc67178f2 ].

(** sha256.rs:62-98 sha256_step.  Array accesses out of range, and the two
    assertions, are panics. *)
Definition sha256_step (schedule : list N) (state : st8) (block step : nat) : res st8 :=
  assert! Nat.ltb block 4;
  assert! Nat.ltb step 16;
  match nth_error SHA256_K (block * 16 + step), nth_error schedule step with
  | Some k, Some w =>
    let '(St8 a b c d e f g h) := state in
    let s0 := N.lxor (N.lxor (rotate_right a 2) (rotate_right a 13)) (rotate_right a 22) in
    let s1 := N.lxor (N.lxor (rotate_right e 6) (rotate_right e 11)) (rotate_right e 25) in
    let maj := N.lxor (N.lxor (N.land a b) (N.land a c)) (N.land b c) in
    let ch := N.lxor (N.land e f) (N.land (not32 e) g) in
    let temp1 := wadd (wadd (wadd (wadd h s1) ch) k) w in
    let temp2 := wadd s0 maj in
    Ok (St8 (wadd temp1 temp2) a b c (wadd d temp1) e f g)
  | _, _ => Panic
  end.

(** Rust semantics: [for i in from..from+n { body(i) }] with panics, as at
    sha256.rs:123, 129, 130, 142 and 148. *)
Fixpoint for_range {A} (from n : nat) (body : nat -> A -> res A) (a : A) : res A :=
  match n with
  | O => Ok a
  | S n' => do a' <- body from a; for_range (S from) n' body a'
  end.

(** sha256.rs:112-116 schedule_init. *)
Definition schedule_init (data : list N) (i : nat) : res N :=
  match nth_error data (i * 4), nth_error data (i * 4 + 1),
        nth_error data (i * 4 + 2), nth_error data (i * 4 + 3) with
  | Some b0, Some b1, Some b2, Some b3 => Ok (from_be_bytes b0 b1 b2 b3)
  | _, _, _, _ => Panic
  end.

(** sha256.rs:131-140: one in-place update of the message schedule. *)
Definition schedule_update (i : nat) (schedule : list N) : res (list N) :=
  match nth_error schedule ((i + 1) mod 16), nth_error schedule ((i + 14) mod 16),
        nth_error schedule i, nth_error schedule ((i + 9) mod 16) with
  | Some x1, Some x14, Some x0, Some x9 =>
    let s0 := N.lxor (N.lxor (rotate_right x1 7) (rotate_right x1 18)) (N.shiftr x1 3) in
    let s1 := N.lxor (N.lxor (rotate_right x14 17) (rotate_right x14 19)) (N.shiftr x14 10) in
    Ok (upd schedule i (wadd (wadd (wadd x0 s0) x9) s1))
  | _, _, _, _ => Panic
  end.

(** sha256.rs:148-150: addition of the round result. *)
Definition hash_add (h s : st8) : st8 :=
  let '(St8 h0 h1 h2 h3 h4 h5 h6 h7) := h in
  let '(St8 t0 t1 t2 t3 t4 t5 t6 t7) := s in
  St8 (wadd h0 t0) (wadd h1 t1) (wadd h2 t2) (wadd h3 t3)
      (wadd h4 t4) (wadd h5 t5) (wadd h6 t6) (wadd h7 t7).

(** sha256.rs:103-151 sha256_round. *)
Definition sha256_round (data : list N) (hash : st8) : res st8 :=
  do schedule <- for_range 0 16
      (fun i l => do w <- schedule_init data i; Ok (l ++ [w])) [];
  do state <- for_range 0 16 (fun i st => sha256_step schedule st 0 i) hash;
  do '(_, state) <- for_range 1 3
      (fun block '(schedule, st) =>
         do schedule <- for_range 0 16 schedule_update schedule;
         do st <- for_range 0 16 (fun i st => sha256_step schedule st block i) st;
         Ok (schedule, st))
      (schedule, state);
  Ok (hash_add hash state).

(** sha256.rs:17-22 struct Engine. [remaining] is a [usize] that indexes the
    chunk (nat), [total] a u64 (N). *)
Record engine := Engine {
  hash : st8;
  chunk : list N;
  remaining : nat;
  total : N;
}.

(** sha256.rs:153-162 Default::default. *)
Definition engine_default : engine := Engine SHA256_H (repeat 0 CHUNK) CHUNK 0.

(** sha256.rs:167-169 is_reset. *)
Definition is_reset (e : engine) : bool := total e =? 0.

(** sha256.rs:171-175 reset. *)
Definition reset (e : engine) : engine := Engine SHA256_H (chunk e) CHUNK 0.

(** sha256.rs:182-196 (and identically 205-219): the loop body after [n] and
    the bytes [d] (length [n]) to place in the chunk are known. *)
Definition absorb (e : engine) (d : list N) : res engine :=
  let n := length d in
  (* let idx = self.chunk.len().checked_sub(self.remaining).unwrap(); *)
  assert! Nat.leb (remaining e) (length (chunk e));
  let idx := (length (chunk e) - remaining e)%nat in
  (* self.chunk[idx..(idx + n)] is bounds checked *)
  assert! Nat.leb (idx + n) (length (chunk e));
  let chunk' := splice (chunk e) idx d in
  (* self.remaining.checked_sub(n).unwrap() *)
  assert! Nat.leb n (remaining e);
  let remaining' := (remaining e - n)%nat in
  (* self.total.checked_add(n).unwrap() *)
  assert! (total e + N.of_nat n <? 0x10000000000000000);
  let total' := total e + N.of_nat n in
  if Nat.eqb remaining' 0 then
    do h <- sha256_round chunk' (hash e);
    Ok (Engine h chunk' (length chunk') total')
  else Ok (Engine (hash e) chunk' remaining' total').

(** sha256.rs:178-197, the loop of push.  Every iteration consumes at least one byte, so
    [length data] iterations are enough; running out of fuel is [NoFuel]. *)
Fixpoint push_loop (fuel : nat) (e : engine) (data : list N) : res engine :=
  match data with
  | [] => Ok e
  | _ =>
    match fuel with
    | O => NoFuel
    | S fuel' =>
      let n := Nat.min (remaining e) (length data) in
      do e' <- absorb e (firstn n data);
      push_loop fuel' e' (skipn n data)
    end
  end.
(** sha256.rs:177-198 push. *)
Definition push (e : engine) (data : list N) : res engine := push_loop (length data) e data.

(** sha256.rs:201-220, the loop of push_zero. *)
Fixpoint push_zero_loop (fuel : nat) (e : engine) (len : nat) : res engine :=
  match len with
  | O => Ok e
  | _ =>
    match fuel with
    | O => NoFuel
    | S fuel' =>
      let n := Nat.min (remaining e) len in
      do e' <- absorb e (repeat 0 n);
      push_zero_loop fuel' e' (len - n)%nat
    end
  end.
(** sha256.rs:200-221 push_zero. *)
Definition push_zero (e : engine) (len : nat) : res engine := push_zero_loop len e len.

(** sha256.rs:252-273: the digest bytes, as many as SHA256_HASH (8), or it would
    not compile. *)
Definition flatten (h : st8) : list N :=
  to_be_bytes32 (s0 h) ++ to_be_bytes32 (s1 h) ++ to_be_bytes32 (s2 h) ++ to_be_bytes32 (s3 h) ++
  to_be_bytes32 (s4 h) ++ to_be_bytes32 (s5 h) ++ to_be_bytes32 (s6 h) ++ to_be_bytes32 (s7 h).

(** sha256.rs:223-280 finalize. *)
Definition finalize (e : engine) : res (list N * engine) :=
  (* let total = self.total.checked_mul(8).unwrap(); *)
  assert! (total e * 8 <? 0x10000000000000000);
  let bits := total e * 8 in
  (* assert_ne!(self.remaining, 0); *)
  assert! negb (Nat.eqb (remaining e) 0);
  (* self.chunk[self.chunk.len() - self.remaining] = 0x80; *)
  assert! Nat.leb (remaining e) (length (chunk e));
  let chunk' := upd (chunk e) (length (chunk e) - remaining e) 0x80 in
  let e := Engine (hash e) chunk' (remaining e - 1)%nat (total e) in
  do e <- (if Nat.ltb (remaining e) 8 then push_zero e (remaining e) else Ok e);
  assert! Nat.leb 8 (remaining e);
  do e <- push_zero e (remaining e - 8)%nat;
  do e <- push e (to_be_bytes64 bits);
  (* assert_eq!(self.remaining, self.chunk.len()); *)
  assert! Nat.eqb (remaining e) (length (chunk e));
  Ok (flatten (hash e), Engine SHA256_H (chunk e) (remaining e) 0).

(** hash.rs:64-68 hash::<Engine>. *)
Definition hash_once (data : list N) : res (list N) :=
  do e <- push engine_default data;
  do '(d, _) <- finalize e;
  Ok d.

(** lib/osi/src/hash.rs:90-98 digit_to_char; characters are their ASCII codes. *)
Definition digit_to_char (digit : N) : res N :=
  match digit with
  | 0x0 => Ok 48 | 0x1 => Ok 49 | 0x2 => Ok 50 | 0x3 => Ok 51
  | 0x4 => Ok 52 | 0x5 => Ok 53 | 0x6 => Ok 54 | 0x7 => Ok 55
  | 0x8 => Ok 56 | 0x9 => Ok 57 | 0xa => Ok 97 | 0xb => Ok 98
  | 0xc => Ok 99 | 0xd => Ok 100 | 0xe => Ok 101 | 0xf => Ok 102
  | _ => Panic
  end.
(** lib/osi/src/hash.rs:89-110 Hash::to_hex. *)
Fixpoint to_hex (h : list N) : res (list N) :=
  match h with
  | [] => Ok []
  | b :: h' =>
    do c1 <- digit_to_char (N.land (N.shiftr b 4) 0x0f);
    do c2 <- digit_to_char (N.land (N.shiftr b 0) 0x0f);
    do r <- to_hex h';
    Ok (c1 :: c2 :: r)
  end.

(** One call of a public method, sha256.rs:171-280, with the digest it returned
    (only [finalize] returns one). *)
Definition step (e : engine) (o : op) : res (option (list N) * engine) :=
  match o with
  | Push d => do e' <- push e d; Ok (None, e')
  | PushZero n => do e' <- push_zero e n; Ok (None, e')
  | Finalize => do '(d, e') <- finalize e; Ok (Some d, e')
  | Reset => Ok (None, reset e)
  end.

(** A program that makes such calls (sha256.rs:167-280) one after the other; the
    result lists for every call the digest it returned and the [is_reset()]
    answer after the call. *)
Fixpoint run (e : engine) (ops : list op) : res (list (option (list N) * bool) * engine) :=
  match ops with
  | [] => Ok ([], e)
  | o :: ops' =>
    do '(out, e') <- step e o;
    do '(outs, e'') <- run e' ops';
    Ok ((out, is_reset e') :: outs, e'')
  end.
