(** Model of lib/osi/src/hmac.rs, generic over the hash engine as in the code,
    and of the default method of the engine trait in lib/osi/src/hash.rs. *)
From Verif Require Import Base.
From Verif Require Export HashApi.
From Verif Require Sha256Model.
Local Open Scope N_scope.
Local Open Scope res_scope.

(** hash.rs:15-54 trait Engine (state type [E], digests as byte lists). *)
Record Engine (E : Type) := {
  e_is_reset : E -> bool;
  e_reset : E -> E;
  e_push : E -> list N -> res E;
  e_push_zero : E -> nat -> res E;
  e_finalize : E -> res (list N * E);
}.
Arguments e_is_reset {E}. Arguments e_reset {E}. Arguments e_push {E}.
Arguments e_push_zero {E}. Arguments e_finalize {E}.

(** hash.rs:40-46 default push_zero: pieces of at most 128 zero bytes. *)
Fixpoint default_push_zero_loop {E} (push : E -> list N -> res E)
    (fuel : nat) (e : E) (len : nat) : res E :=
  match len with
  | O => Ok e
  | _ =>
    match fuel with
    | O => NoFuel
    | S fuel' =>
      let n := Nat.min len 128 in
      do e' <- push e (firstn n (repeat 0 128));
      default_push_zero_loop push fuel' e' (len - n)%nat
    end
  end.
(** lib/osi/src/hash.rs:40-46, the whole method; enough fuel for every length.
    *)
Definition default_push_zero {E} (push : E -> list N -> res E) (e : E) (len : nat) : res E :=
  default_push_zero_loop push len e len.

(** hmac.rs:11-15 struct Hmac. *)
Record hmac (E : Type) := Hmac { engine : E; ipad : list N; opad : list N }.
Arguments Hmac {E}. Arguments engine {E}. Arguments ipad {E}. Arguments opad {E}.

Section Hmac.
Context {E : Type} (I : Engine E).

(** hmac.rs:58-61: the loop over the key bytes; an index beyond the pad
    (a digest longer than the chunk) panics. *)
Fixpoint fill_pads (i : nat) (ukey : list N) (pads : list N * list N) : res (list N * list N) :=
  match ukey with
  | [] => Ok pads
  | v :: ukey' =>
    let '(ip, op) := pads in
    assert! Nat.ltb i (length ip);
    assert! Nat.ltb i (length op);
    fill_pads (S i) ukey' (upd ip i (N.lxor v 0x36), upd op i (N.lxor v 0x5c))
  end.

(** hmac.rs:29-64 with_engine. *)
Definition with_engine (CHUNK : nat) (key : list N) (e : E) : res (hmac E) :=
  assert! e_is_reset I e;
  let ip := repeat 0x36 CHUNK in
  let op := repeat 0x5c CHUNK in
  do '(ukey, e) <- (if Nat.ltb CHUNK (length key)
                    then do e <- e_push I e key; e_finalize I e
                    else Ok (key, e));
  do '(ip, op) <- fill_pads 0 ukey (ip, op);
  Ok (Hmac e ip op).

(** hmac.rs:72-74 reset. *)
Definition hmac_reset (h : hmac E) : hmac E :=
  Hmac (e_reset I (engine h)) (ipad h) (opad h).

(** hmac.rs:80-82, 92-94, 105-107: push the inner pad if nothing was pushed. *)
Definition lazy_ipad (h : hmac E) : res (hmac E) :=
  if e_is_reset I (engine h)
  then do e <- e_push I (engine h) (ipad h); Ok (Hmac e (ipad h) (opad h))
  else Ok h.

(** hmac.rs:78-85 push. *)
Definition hmac_push (h : hmac E) (data : list N) : res (hmac E) :=
  match data with
  | [] => Ok h
  | _ =>
    do h <- lazy_ipad h;
    do e <- e_push I (engine h) data;
    Ok (Hmac e (ipad h) (opad h))
  end.

(** hmac.rs:90-97 push_zero. *)
Definition hmac_push_zero (h : hmac E) (length : nat) : res (hmac E) :=
  match length with
  | O => Ok h
  | _ =>
    do h <- lazy_ipad h;
    do e <- e_push_zero I (engine h) length;
    Ok (Hmac e (ipad h) (opad h))
  end.

(** hmac.rs:104-113 finalize. *)
Definition hmac_finalize (h : hmac E) : res (list N * hmac E) :=
  do h <- lazy_ipad h;
  do '(v, e) <- e_finalize I (engine h);
  do e <- e_push I e (opad h);
  do e <- e_push I e v;
  do '(r, e) <- e_finalize I e;
  Ok (r, Hmac e (ipad h) (opad h)).

(** Histories of calls; outputs are the MACs that [finalize] returned. One
    call out of lib/osi/src/hmac.rs:72-113. *)
Definition hmac_step (h : hmac E) (o : op) : res (option (list N) * hmac E) :=
  match o with
  | Push d => do h' <- hmac_push h d; Ok (None, h')
  | PushZero n => do h' <- hmac_push_zero h n; Ok (None, h')
  | Finalize => do '(d, h') <- hmac_finalize h; Ok (Some d, h')
  | Reset => Ok (None, hmac_reset h)
  end.
(** A program that makes the calls of lib/osi/src/hmac.rs:72-113 one after the
    other. *)
Fixpoint hmac_run (h : hmac E) (ops : list op) : res (list (option (list N)) * hmac E) :=
  match ops with
  | [] => Ok ([], h)
  | o :: ops' =>
    do '(out, h') <- hmac_step h o;
    do '(outs, h'') <- hmac_run h' ops';
    Ok (out :: outs, h'')
  end.
End Hmac.

(** hmac.rs:18 HmacSha256: chunk size 64 and the SHA-256 engine. *)
Definition sha256_engine : Engine Sha256Model.engine := {|
  e_is_reset := Sha256Model.is_reset;
  e_reset := Sha256Model.reset;
  e_push := Sha256Model.push;
  e_push_zero := Sha256Model.push_zero;
  e_finalize := Sha256Model.finalize;
|}.
(** hmac.rs:124-126 new. *)
Definition hmac_sha256_new (key : list N) : res (hmac Sha256Model.engine) :=
  with_engine sha256_engine 64 key Sha256Model.engine_default.
