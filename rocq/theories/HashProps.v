(** Properties C01-C06: hashing and message authentication. *)
From Verif Require Import Base HashApi HashSpec.
From Verif Require Sha256Spec.
From Verif Require Import Sha256Model HmacModel HashProofs.
Local Open Scope N_scope.
Local Open Scope res_scope.

(** "abc" and its FIPS 180-4 digest: the specification is the standard. *)
Definition abc : list N := [97; 98; 99].
Definition abc_digest : list N :=
  [0xba;0x78;0x16;0xbf;0x8f;0x01;0xcf;0xea;0x41;0x41;0x40;0xde;0x5d;0xae;0x22;0x23;
   0xb0;0x03;0x61;0xa3;0x96;0x17;0x7a;0x9c;0xb4;0x10;0xff;0x61;0xf2;0x00;0x15;0xad].
Example spec_abc : Sha256Spec.sha256 abc = abc_digest.
Proof. vm_compute. reflexivity. Qed.

(** ** C01 *)
(** The full claim (every sequence of pushes of less than 2^61 bytes yields the
    digest) is false of the code: 63 bytes make [finalize] panic. *)
Theorem sha256_streaming_refuted :
  exists ops, forallb is_data ops = true /\
    N.of_nat (length (data_of ops)) < 2 ^ 61 /\
    run engine_default (ops ++ [Finalize]) = Panic.
Proof. exists [PushZero 63]. split; [reflexivity|]. split; [vm_compute; reflexivity|]. exact (panics_63 [PushZero 63] eq_refl eq_refl). Qed.
Print Assumptions sha256_streaming_refuted.

(** It holds for every sequence of pushes whose total is not 63 modulo 64.
    Missing: exactly those totals, see [sha256_streaming_refuted]. *)
Theorem sha256_streaming_partial : forall ops,
  forallb is_data ops = true ->
  N.of_nat (length (data_of ops)) < 2 ^ 61 ->
  N.of_nat (length (data_of ops)) mod 64 <> 63 ->
  exists outs e, run engine_default (ops ++ [Finalize]) = Ok (outs, e) /\
    map fst outs = map (fun _ => None) ops ++ [Some (Sha256Spec.sha256 (data_of ops))].
Proof. exact streaming. Qed.
Print Assumptions sha256_streaming_partial.
Example sha256_streaming_case :
  let ops := [Push [97]; PushZero 0; Push []; Push [98; 99]; PushZero 200] in
  forallb is_data ops = true /\ N.of_nat (length (data_of ops)) < 2 ^ 61 /\
  N.of_nat (length (data_of ops)) mod 64 <> 63 /\ data_of ops = abc ++ repeat 0 200.
Proof. repeat split; vm_compute; try reflexivity; discriminate. Qed.

(** The one-shot function. *)
Theorem sha256_once_partial : forall m,
  N.of_nat (length m) < 2 ^ 61 -> N.of_nat (length m) mod 64 <> 63 ->
  hash_once m = Ok (Sha256Spec.sha256 m).
Proof. exact hash_once_ok. Qed.
Print Assumptions sha256_once_partial.
Example sha256_once_case : hash_once abc = Ok abc_digest.
Proof. vm_compute. reflexivity. Qed.

(** ** C02 *)
(** Complete behaviour of an engine, for every history of calls: the outputs
    and the [is_reset] answers are those of the specification. *)
Theorem sha256_engine_exact : forall ops,
  terminates (run engine_default ops) /\
  outputs (run engine_default ops) = history Sha256Spec.sha256 fits64 actual_len [] ops.
Proof. exact run_exact. Qed.
Print Assumptions sha256_engine_exact.
(** A history with two messages and an abandoned one. *)
Example sha256_engine_case :
  outputs (run engine_default [Push abc; Finalize; Push [1; 2]; Reset; Push [97]; Push [98; 99]; Finalize]) =
  Some [(None, false); (Some abc_digest, true); (None, false); (None, true);
        (None, false); (None, false); (Some abc_digest, true)].
Proof. vm_compute. reflexivity. Qed.

Theorem sha256_reuse : forall pre o post e outs,
  (o = Finalize \/ o = Reset) ->
  run engine_default (pre ++ [o]) = Ok (outs, e) ->
  is_reset e = true /\ outputs (run e post) = outputs (run engine_default post) /\
  terminates (run e post).
Proof. exact reuse. Qed.
Print Assumptions sha256_reuse.
Example sha256_reuse_case : exists outs e,
  run engine_default ([Push (repeat 255 100)] ++ [Reset]) = Ok (outs, e) /\
  e <> engine_default.
Proof. do 2 eexists. split; [vm_compute; reflexivity|discriminate]. Qed.

(** ** C03 *)
Theorem sha256_panics_only_overlong_refuted :
  exists ops, forallb is_data ops = true /\
    ~ (run engine_default (ops ++ [Finalize]) = Panic <->
       2 ^ 61 <= N.of_nat (length (data_of ops))).
Proof.
  exists [PushZero 63]. split; [reflexivity|]. intros [H _].
  specialize (H (panics_63 [PushZero 63] eq_refl eq_refl)). vm_compute in H. exact (H eq_refl).
Qed.
Print Assumptions sha256_panics_only_overlong_refuted.

(** The exact set of panicking call sequences. *)
Theorem sha256_panics_exactly_partial : forall ops,
  forallb is_data ops = true ->
  (run engine_default (ops ++ [Finalize]) = Panic <->
   (2 ^ 61 <= N.of_nat (length (data_of ops)) \/
    N.of_nat (length (data_of ops)) mod 64 = 63)).
Proof. exact panic_iff. Qed.
Print Assumptions sha256_panics_exactly_partial.
Example sha256_panics_case :
  run engine_default ([Push (repeat 1 100); Push (repeat 2 27)] ++ [Finalize]) = Panic.
Proof. vm_compute. reflexivity. Qed.

(** ** C04 *)
Theorem hmac_rfc2104_refuted : exists key msg,
  N.of_nat (length key) < 2 ^ 61 /\ 64 + N.of_nat (length msg) < 2 ^ 61 /\
  (do h <- hmac_sha256_new key; hmac_run sha256_engine h [Push msg; Finalize]) = Panic.
Proof. exists abc, (repeat 0 63). split; [vm_compute; reflexivity|]. split; vm_compute; reflexivity. Qed.
Print Assumptions hmac_rfc2104_refuted.

(** Missing: the totals that make SHA-256 itself panic (C01), which are those
    of the message, and of a key longer than a block. *)
Theorem hmac_rfc2104_partial : forall key ops,
  forallb is_data ops = true ->
  (64 < N.of_nat (length key) -> N.of_nat (length key) < 2 ^ 61 /\ N.of_nat (length key) mod 64 <> 63) ->
  64 + N.of_nat (length (data_of ops)) < 2 ^ 61 ->
  N.of_nat (length (data_of ops)) mod 64 <> 63 ->
  exists h, (do h0 <- hmac_sha256_new key; hmac_run sha256_engine h0 (ops ++ [Finalize])) =
    Ok (map (fun _ => None) ops ++ [Some (rfc2104 Sha256Spec.sha256 64 key (data_of ops))], h).
Proof. exact hmac_streaming. Qed.
Print Assumptions hmac_rfc2104_partial.
Example hmac_rfc2104_case :
  let key := repeat 170 131 in let ops := [Push [84; 101]; PushZero 3; Push []; Push [115; 116]] in
  forallb is_data ops = true /\
  (64 < N.of_nat (length key) -> N.of_nat (length key) < 2 ^ 61 /\ N.of_nat (length key) mod 64 <> 63) /\
  64 + N.of_nat (length (data_of ops)) < 2 ^ 61 /\ N.of_nat (length (data_of ops)) mod 64 <> 63.
Proof. repeat split; vm_compute; try reflexivity; discriminate. Qed.

(** HMAC over any engine that behaves as a hash function: the generic code. *)
Theorem hmac_generic : forall (E : Type) (I : Engine E) (H : list N -> list N)
    (fits len_ok : N -> bool) (abs : E -> list N -> Prop),
  engine_ok I H fits len_ok abs ->
  forall B, (0 < B)%nat ->
  (forall m, (length (H m) <= B)%nat) ->
  (forall a b, a <= b -> fits b = true -> fits a = true) ->
  (forall m, fits (N.of_nat (B + length (H m))) = true /\ len_ok (N.of_nat (B + length (H m))) = true) ->
  forall key e ops, abs e [] ->
  ((B < length key)%nat -> fits (N.of_nat (length key)) = true /\ len_ok (N.of_nat (length key)) = true) ->
  let r := do h <- with_engine I B key e; hmac_run I h ops in
  terminates r /\
  outputs r = option_map (map fst)
    (history (rfc2104 H B key) (fun n => (n =? 0) || fits (N.of_nat B + n))
             (fun n => len_ok (N.of_nat B + n)) [] ops).
Proof. exact hmac_generic_ok. Qed.
Print Assumptions hmac_generic.
Example hmac_generic_case :
  engine_ok sha256_engine Sha256Spec.sha256 fits64 actual_len sha_abs /\ sha_abs engine_default [].
Proof. exact (conj sha_ok sha_abs_default). Qed.

(** ** C05 *)
(** Complete behaviour of an HMAC-SHA-256 instance, for every history. *)
Theorem hmac_exact_history : forall key ops,
  let r := do h <- hmac_sha256_new key; hmac_run sha256_engine h ops in
  terminates r /\ outputs r = hmac_history Sha256Spec.sha256 actual_len key ops.
Proof. exact hmac_exact. Qed.
Print Assumptions hmac_exact_history.
(** RFC 4231 test case 2 ("Jefe"), twice on one instance. *)
Definition jefe : list N := [0x4a; 0x65; 0x66; 0x65].
Definition jefe_msg : list N :=
  [0x77;0x68;0x61;0x74;0x20;0x64;0x6f;0x20;0x79;0x61;0x20;0x77;0x61;0x6e;0x74;0x20;
   0x66;0x6f;0x72;0x20;0x6e;0x6f;0x74;0x68;0x69;0x6e;0x67;0x3f].
Definition jefe_mac : list N :=
  [0x5b;0xdc;0xc1;0x46;0xbf;0x60;0x75;0x4e;0x6a;0x04;0x24;0x26;0x08;0x95;0x75;0xc7;
   0x5a;0x00;0x3f;0x08;0x9d;0x27;0x39;0x83;0x9d;0xec;0x58;0xb9;0x64;0xec;0x38;0x43].
Example hmac_exact_case :
  outputs (do h <- hmac_sha256_new jefe;
           hmac_run sha256_engine h [Push jefe_msg; Finalize; Push abc; Reset; Push jefe_msg; Finalize]) =
  Some [None; Some jefe_mac; None; None; None; Some jefe_mac].
Proof. vm_compute. reflexivity. Qed.

Theorem hmac_reuse_any_history : forall key pre o post h0 outs h,
  (o = Finalize \/ o = Reset) ->
  hmac_sha256_new key = Ok h0 ->
  hmac_run sha256_engine h0 (pre ++ [o]) = Ok (outs, h) ->
  outputs (hmac_run sha256_engine h post) = outputs (hmac_run sha256_engine h0 post).
Proof. exact hmac_reuse. Qed.
Print Assumptions hmac_reuse_any_history.
Example hmac_reuse_case : exists h0 outs h,
  hmac_sha256_new jefe = Ok h0 /\ hmac_run sha256_engine h0 ([Push abc] ++ [Reset]) = Ok (outs, h) /\ h <> h0.
Proof. do 3 eexists. split; [vm_compute; reflexivity|]. split; [vm_compute; reflexivity|discriminate]. Qed.

(** ** C06 *)
Theorem to_hex_correct : forall h, bytes h ->
  exists s, to_hex h = Ok s /\ length s = (2 * length h)%nat /\
    Forall (fun c => hex_digit c <> None) s /\ from_hex s = Some h.
Proof. exact to_hex_ok. Qed.
Print Assumptions to_hex_correct.
Theorem to_hex_injective : forall a b s,
  bytes a -> bytes b -> to_hex a = Ok s -> to_hex b = Ok s -> a = b.
Proof. exact to_hex_inj. Qed.
Print Assumptions to_hex_injective.
Example to_hex_case : bytes [0x0f; 0xa0] /\ to_hex [0x0f; 0xa0] = Ok [48; 102; 97; 48].
Proof. split; [repeat constructor|reflexivity]. Qed.

(** Default [push_zero] of the engine trait equals pushing zero bytes. *)
Theorem default_push_zero_correct : forall (E : Type) (I : Engine E) H fits len_ok abs,
  engine_ok I H fits len_ok abs ->
  (forall a b, a <= b -> fits b = true -> fits a = true) ->
  forall n e m, n <> 0%nat -> abs e m ->
  if fits (N.of_nat (length (m ++ repeat 0 n)))
  then exists e', default_push_zero (e_push I) e n = Ok e' /\ abs e' (m ++ repeat 0 n)
  else default_push_zero (e_push I) e n = Panic.
Proof. exact @default_push_zero_ok. Qed.
Print Assumptions default_push_zero_correct.
