(** Specification of call histories on hash engines and on HMAC, for any hash
    function [H : bytes -> bytes].  Independent of the models. *)
From Verif Require Import Base HashApi.
Local Open Scope N_scope.

Section Spec.
(** The function computed on the current message, the message lengths that can
    be pushed, and the message lengths on which finalizing is allowed. *)
Variable H : list N -> list N.
Variable fits : N -> bool.
Variable len_ok : N -> bool.

(** What a history of calls must return: for every call, the digest (only
    [Finalize] returns one) and whether the message is empty afterwards.
    [None]: the history panics, because the message no longer fits or because
    [Finalize] is not allowed. *)
Fixpoint history (msg : list N) (ops : list op) : option (list (option (list N) * bool)) :=
  match ops with
  | [] => Some []
  | o :: ops' =>
    match
      match o with
      | Push _ | PushZero _ =>
        let msg' := msg ++ op_data o in
        if fits (N.of_nat (length msg')) then Some (None, msg') else None
      | Finalize => if len_ok (N.of_nat (length msg)) then Some (Some (H msg), []) else None
      | Reset => Some (None, [])
      end
    with
    | None => None
    | Some (out, msg') =>
      match history msg' ops' with
      | None => None
      | Some outs => Some ((out, match msg' with [] => true | _ => false end) :: outs)
      end
    end
  end.
End Spec.

(** A byte count of a SHA-256 message fits 64 bits. *)
Definition fits64 (n : N) : bool := n <? 2 ^ 64.
(** The bit count fits 64 bits: the documented limit of SHA-256. *)
Definition documented_len (n : N) : bool := n <? 2 ^ 61.
(** The lengths on which the code under test really succeeds. *)
Definition actual_len (n : N) : bool := (n <? 2 ^ 61) && negb (n mod 64 =? 63).

(** RFC 2104, with block size [B] and hash function [H]. *)
Definition xor_byte (c : N) (l : list N) : list N := map (N.lxor c) l.
Definition hmac_key (H : list N -> list N) (B : nat) (key : list N) : list N :=
  let k := if Nat.ltb B (length key) then H key else key in
  k ++ repeat 0 (B - length k).
Definition rfc2104 (H : list N -> list N) (B : nat) (key msg : list N) : list N :=
  let k := hmac_key H B key in
  H (xor_byte 0x5c k ++ H (xor_byte 0x36 k ++ msg)).

(** HMAC-SHA-256 on a history of calls: what every call must return, given the
    hash function and the lengths on which the hash succeeds.  The key is
    hashed only if it is longer than a block, and a non-empty message is hashed
    after the 64 bytes of the inner pad. *)
Definition hmac_history (H : list N -> list N) (len_ok : N -> bool) (key : list N) (ops : list op)
  : option (list (option (list N))) :=
  let klen := N.of_nat (length key) in
  if (klen <=? 64) || (fits64 klen && len_ok klen)
  then option_map (map fst)
         (history (rfc2104 H 64 key) (fun n => (n =? 0) || fits64 (64 + n))
                  (fun n => len_ok (64 + n)) [] ops)
  else None.

(** Hexadecimal text: the value of a lowercase digit, and reading a text. *)
Definition hex_digit (c : N) : option N :=
  if (48 <=? c) && (c <=? 57) then Some (c - 48)
  else if (97 <=? c) && (c <=? 102) then Some (c - 97 + 10)
  else None.
Fixpoint from_hex (s : list N) : option (list N) :=
  match s with
  | [] => Some []
  | a :: b :: s' =>
    match hex_digit a, hex_digit b, from_hex s' with
    | Some x, Some y, Some r => Some (16 * x + y :: r)
    | _, _, _ => None
    end
  | [_] => None
  end.
