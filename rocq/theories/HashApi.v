(** The public calls of a hash engine (trait [Engine], lib/osi/src/hash.rs:15-54)
    and of [Hmac] (lib/osi/src/hmac.rs:66-114) as data, so that histories of
    calls can be quantified over.  Bytes are [N]. *)
From Verif Require Import Base.

(** The calls [push], [push_zero], [finalize] and [reset]:
    lib/osi/src/hash.rs:31-53 and lib/osi/src/hmac.rs:72-113. *)
Inductive op : Type :=
| Push (d : list N)
| PushZero (n : nat)
| Finalize
| Reset.

(** The data a call adds to the current message. See lib/osi/src/hash.rs:35
    and 40. *)
Definition op_data (o : op) : list N :=
  match o with
  | Push d => d
  | PushZero n => repeat 0%N n
  | Finalize | Reset => []
  end.
(** A call that only adds data. These are lib/osi/src/hash.rs:35 and 40. *)
Definition is_data (o : op) : bool :=
  match o with Push _ | PushZero _ => true | Finalize | Reset => false end.
(** The data that calls add, see lib/osi/src/hash.rs:35 and 40; not code of
    its own. *)
Definition data_of (ops : list op) : list N := flat_map op_data ops.
