(** Properties of the failures of mapped I/O: C101. *)
From Verif Require Import Base DbusSpec IoMapModel IoMapSpec IoMapProofs IoErrProofs.
Local Open Scope N_scope.

(** ** C101: a failed access reports the answer to its last request. *)

(** An access that stops early leaves the index at the first byte that was not
    transferred, and what it returns is what the writer or reader answered
    when asked for exactly the bytes that were left, from this index on. *)
Theorem map_write_error : forall W (I : Write W) o idx data e o' idx',
  write I o idx data = Ok (Break e, o', idx') ->
  exists k w, k < size data /\ idx' = idx + k /\ w_map I w idx' (size data - k) = Ok (Break e, o_w o').
Proof. intros W I o idx data. exact (write_origin I _ o idx data). Qed.
Print Assumptions map_write_error.
Theorem map_write_iter_error : forall W (I : Write W) o idx it e o' idx',
  write_iter I o idx it = Ok (Break e, o', idx') ->
  exists k w, k < it_hint it /\ idx' = idx + k /\ w_map I w idx' (it_hint it - k) = Ok (Break e, o_w o').
Proof. intros W I o idx it. exact (write_iter_origin I _ o idx it). Qed.
Print Assumptions map_write_iter_error.
Theorem map_fill_error : forall W (I : Write W) o idx len x e o' idx',
  fill I o idx len x = Ok (Break e, o', idx') ->
  exists k w, k < len /\ idx' = idx + k /\ w_map I w idx' (len - k) = Ok (Break e, o_w o').
Proof. intros W I o idx len x. exact (fill_origin I x _ o idx len). Qed.
Print Assumptions map_fill_error.
Theorem map_read_error : forall R (I : Read R) r idx len e r' idx' got,
  read I r idx len = Ok (Break e, r', idx', got) ->
  exists k r0, k < len /\ idx' = idx + k /\ r_map I r0 idx' (len - k) = Ok (Break e, r').
Proof. intros R I r idx len e r' idx' got. exact (read_origin I _ r idx len [] e r' idx' got). Qed.
Print Assumptions map_read_error.
(** A writer of 8 bytes that maps 3 bytes at a time. *)
Example map_write_error_ex :
  let I := mkWrite (fun (w : unit) idx len =>
    if idx + len <=? 8 then Ok (Continue 3, w) else if idx <? 6 then Ok (Continue 3, w) else Ok (Break (Some Exceeded), w))
    (fun w _ => Ok w) in
  match write I (mkOut tt (fun _ => None)) 0 [1; 2; 3; 4; 5; 6; 7; 8; 9] with
  | Ok (r, o', i) => r = Break (Some Exceeded) /\ i = 6 /\ o_mem o' 5 = Some 6 /\ o_mem o' 6 = None
  | _ => False
  end.
Proof. vm_compute. repeat split. Qed.

(** Reading from a byte slice: the bytes if all of them are there, otherwise
    nothing, and which of the two errors depends only on whether the end of
    the range can be represented. *)
Theorem map_slice_answer : forall data idx len, size data < usize -> 0 < len ->
  (idx + len <= size data -> read slice_read data idx len =
    Ok (Continue tt, data, idx + len, slice data (N.to_nat idx) (N.to_nat (idx + len)))) /\
  (size data < idx + len < usize -> read slice_read data idx len = Ok (Break (Some Exceeded), data, idx, [])) /\
  (usize <= idx + len -> read slice_read data idx len = Ok (Break (Some Overflow), data, idx, [])).
Proof. exact slice_answer. Qed.
Print Assumptions map_slice_answer.
Example map_slice_answer_ex :
  read slice_read [7; 8; 9] 1 2 = Ok (Continue tt, [7; 8; 9], 3, [8; 9]) /\
  read slice_read [7; 8; 9] 2 2 = Ok (Break (Some Exceeded), [7; 8; 9], 2, []) /\
  read slice_read [7; 8; 9] (2 ^ 64 - 1) 1 = Ok (Break (Some Overflow), [7; 8; 9], 2 ^ 64 - 1, []).
Proof. repeat split. Qed.

(** Writing to a vector: it is stored if the end of the range is at most
    isize::MAX; beyond it is a panic, not an error; and only if the end cannot
    be represented is it the error Overflow, with nothing changed. *)
Theorem map_vec_answer : forall grow o idx data, vec_ok (o_w o) -> 0 < size data ->
  (idx + size data <= isize_max -> exists o', write (vec_write grow) o idx data = Ok (Continue tt, o', idx + size data) /\
     v_len (o_w o') = v_len (o_w o) /\ written (o_mem o) idx data (o_mem o')) /\
  (isize_max < idx + size data < usize -> write (vec_write grow) o idx data = Panic) /\
  (usize <= idx + size data -> write (vec_write grow) o idx data = Ok (Break (Some Overflow), o, idx)).
Proof. exact vec_answer. Qed.
Print Assumptions map_vec_answer.
Example map_vec_answer_ex : vec_ok (o_w (vec_of [1; 2] 3)) /\
  write (vec_write (fun c => c)) (vec_of [1; 2] 3) (2 ^ 63) [5] = Panic /\
  write (vec_write (fun c => c)) (vec_of [1; 2] 3) (2 ^ 64 - 1) [5] = Ok (Break (Some Overflow), vec_of [1; 2] 3, 2 ^ 64 - 1).
Proof. split; [split; vm_compute; discriminate|split; reflexivity]. Qed.

(** Aligning: for exponents below 31 it fills zeroes up to the next multiple,
    or if there is none below 2^64 reports Overflow without asking the writer.
    For 31 the multiple is one of 2^64 - 2^31, and above 31 is a panic. *)
Theorem map_align_answer : forall W (I : Write W) o idx exp, idx < usize ->
  (exp < 31 -> align_exp2 I o idx exp =
     if pad_to (2 ^ exp) idx <? usize then fill I o idx (pad_to (2 ^ exp) idx - idx) 0 else Ok (Break (Some Overflow), o, idx)) /\
  (exp = 31 -> align_exp2 I o idx exp =
     if idx <=? usize - 2 ^ 31 then fill I o idx (pad_to (usize - 2 ^ 31) idx - idx) 0 else Ok (Break (Some Overflow), o, idx)) /\
  (31 < exp -> align_exp2 I o idx exp = Panic).
Proof. exact @align_answer. Qed.
Print Assumptions map_align_answer.
Example map_align_answer_ex : pad_to (2 ^ 3) (2 ^ 64 - 3) = usize /\
  forall W (I : Write W) o, align_exp2 I o (2 ^ 64 - 3) 3 = Ok (Break (Some Overflow), o, 2 ^ 64 - 3).
Proof. split; [reflexivity|]. intros W I o. rewrite (proj1 (align_answer I o (2 ^ 64 - 3) 3 eq_refl) eq_refl). reflexivity. Qed.
