(** The tests of lib/tmp/src/io/stream.rs and [verify_sum16] of
    lib/tmp/src/msdosmz.rs, run on the model. *)
From Verif Require Import Base StreamModel FmtModel.
Local Open Scope res_scope.

(** The numbers from [from] on. *)
Definition count (from n : nat) : list N := map N.of_nat (seq from n).
(** lib/tmp/src/io/stream.rs:273-314, [write_basic], for an allocator that adds
    [grow] bytes: the two mappings that are looked at, and the vector. *)
Definition write_basic (grow : nat) : res (list N * list N * list N) :=
  let w := vec_map grow (mkVec [] []) 0 None in
  let w := vec_map grow w 128 None in
  do w <- vec_store w 0 (count 0 128);
  do '(w, first) <- vec_map_unchecked grow w 16;
  do w <- vec_commit w 16;
  do '(w, second) <- vec_map_unchecked grow w 16;
  do w <- vec_write grow w (count 0 16);
  Ok (first, second, v_data w).
Example replay_write_basic :
  write_basic 0 = Ok (count 0 16, count 16 16, count 0 16 ++ count 0 16)
  /\ write_basic 100 = Ok (count 0 16, count 16 16, count 0 16 ++ count 0 16).
Proof. split; vm_compute; reflexivity. Qed.

(** lib/tmp/src/msdosmz.rs:611-627, [verify_sum16]. *)
Example replay_sum16 :
  (sum16 [0x00; 0x00; 0x01; 0x00; 0x02; 0x00; 0x03; 0x00] = Ok 6
   /\ sum16 [0x00; 0x00; 0x01; 0x00; 0x02; 0x00; 0x03] = Ok 6
   /\ sum16 [0x01; 0x02; 0x02; 0x04] = Ok 0x0603
   /\ sum16 [0xff; 0xff; 0x02; 0x00] = Ok 1)%N.
Proof. repeat split. Qed.
