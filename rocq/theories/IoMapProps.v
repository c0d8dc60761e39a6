(** Properties of mapped I/O: C27, C28, C29. *)
From Verif Require Import Base DbusSpec IoMapModel IoMapSpec IoMapProofs.
Local Open Scope N_scope.

(** ** C27: writes, fills, alignment and reads do not depend on the chunks. *)

(** Whatever slices the writer maps and whether or not it fails in between,
    what has been stored is a prefix of the data, at the given index, and the
    index is advanced by its length.  All of the data on success. *)
Theorem map_write_effect : forall W (I : Write W) o idx data r o' idx',
  write I o idx data = Ok (r, o', idx') ->
  exists k, k <= size data /\ idx' = idx + k /\
    written (o_mem o) idx (firstn (N.to_nat k) data) (o_mem o') /\
    (r = Continue tt -> k = size data).
Proof. exact @write_any. Qed.
Print Assumptions map_write_effect.
(** It succeeds on any writer that serves the range in non-empty slices. *)
Theorem map_write_succeeds : forall W (I : Write W) P limit o idx data,
  serving I P limit -> limit < usize -> P (o_w o) -> idx + size data <= limit ->
  exists o', write I o idx data = Ok (Continue tt, o', idx + size data) /\ P (o_w o') /\
    forall j, o_mem o' j = store (o_mem o) idx data j.
Proof. exact @write_serving. Qed.
Print Assumptions map_write_succeeds.
(** It does not loop forever. *)
Theorem map_write_returns : forall W (I : Write W) o idx data, returning I -> write I o idx data <> NoFuel.
Proof. exact @write_returns. Qed.
Print Assumptions map_write_returns.
Theorem map_fill_effect : forall W (I : Write W) o idx len x r o' idx',
  fill I o idx len x = Ok (r, o', idx') ->
  exists k, k <= len /\ idx' = idx + k /\
    written (o_mem o) idx (repeat x (N.to_nat k)) (o_mem o') /\ (r = Continue tt -> k = len).
Proof. exact @fill_any. Qed.
Print Assumptions map_fill_effect.
Theorem map_fill_succeeds : forall W (I : Write W) P limit o idx len x,
  serving I P limit -> limit < usize -> P (o_w o) -> idx + len <= limit ->
  exists o', fill I o idx len x = Ok (Continue tt, o', idx + len) /\ P (o_w o') /\
    forall j, o_mem o' j = store (o_mem o) idx (repeat x (N.to_nat len)) j.
Proof. exact @fill_serving. Qed.
Print Assumptions map_fill_succeeds.
(** Aligning writes zeros up to the least multiple of the alignment.  Not for
    all exponents, see the next theorem. *)
Theorem map_align_partial : forall W (I : Write W) o idx exp r o' idx', exp < 31 ->
  align_exp2 I o idx exp = Ok (r, o', idx') ->
  exists k, k <= pad_to (2 ^ exp) idx - idx /\ idx' = idx + k /\
    written (o_mem o) idx (repeat 0 (N.to_nat k)) (o_mem o') /\
    (r = Continue tt -> idx' = pad_to (2 ^ exp) idx).
Proof. exact @align_any. Qed.
Print Assumptions map_align_partial.

(** A writer over 100 bytes that maps at most three bytes at a time and counts
    the requests. *)
Definition three : Write N := mkWrite
  (fun w idx len => if idx + len <=? 100 then Ok (Continue (N.min len 3), w + 1) else Ok (Break (Some Exceeded), w))
  (fun w _ => Ok w).
Example three_serving : serving three (fun _ => True) 100.
Proof.
  intros w idx len _ L B. exists (N.min len 3), (w + 1). cbn. rewrite (proj2 (N.leb_le _ _)) by exact B.
  split; [reflexivity|]. split; [lia|exact I].
Qed.
Example three_returning : returning three.
Proof. intros w idx len. cbn. destruct (_ <=? _); discriminate. Qed.
Example map_write_example :
  match write three (mkOut 0 (fun _ => None)) 7 [1; 2; 3; 4; 5; 6; 7; 8] with
  | Ok (Continue tt, o, 15) => o_w o = 3 /\ map (o_mem o) [6; 7; 8; 9; 10; 11; 12; 13; 14; 15] =
      [None; Some 1; Some 2; Some 3; Some 4; Some 5; Some 6; Some 7; Some 8; None]
  | _ => False
  end.
Proof. vm_compute. split; reflexivity. Qed.
Example map_align_example :
  match align_exp2 three (mkOut 0 (fun _ => None)) 9 3 with
  | Ok (Continue tt, o, 16) => map (o_mem o) [8; 9; 15; 16] = [None; Some 0; Some 0; None]
  | _ => False
  end.
Proof. vm_compute. reflexivity. Qed.
(** With the exponent 31 the alignment is computed as a negative 32-bit number:
    aligning index 1 asks for an index far beyond 2^31. *)
Theorem map_align_refuted : exists (I : Write N) o, serving I (fun _ => True) (2 ^ 31) /\
  exists r o' idx', align_exp2 I o 1 31 = Ok (r, o', idx') /\ r <> Continue tt /\ pad_to (2 ^ 31) 1 = 2 ^ 31.
Proof.
  exists (mkWrite (fun w idx len => if idx + len <=? 2 ^ 31 then Ok (Continue len, w) else Ok (Break (Some Exceeded), w))
            (fun w _ => Ok w)), (mkOut 0 (fun _ => None)).
  split.
  - intros w idx len _ L B. exists len, w. cbn. rewrite (proj2 (N.leb_le _ _)) by exact B. repeat split; lia.
  - exists (Break (Some Exceeded)). do 2 eexists. split; [|split; [discriminate|reflexivity]].
    unfold align_exp2. cbn [bind]. change (shl_usize 31) with (Ok (usize - 2 ^ 31)). cbn [bind].
    replace (checked_next_multiple_of 1 (usize - 2 ^ 31)) with (Some (usize - 2 ^ 31)) by reflexivity.
    replace (sub_usize (usize - 2 ^ 31) 1) with (Ok (usize - 2 ^ 31 - 1)) by reflexivity. cbn [bind].
    unfold zero, fill. generalize (N.to_nat (usize - 2 ^ 31 - 1)). intros n. cbn [fill_loop].
    reflexivity.
Qed.
Print Assumptions map_align_refuted.

(** Reading yields the bytes from the index on, whichever slices the reader
    maps and whether or not it fails in between. *)
Theorem map_read_effect : forall R (I : Read R) P data r idx len f r' idx' got,
  reading I P data -> P r -> read I r idx len = Ok (f, r', idx', got) ->
  got = slice data (N.to_nat idx) (N.to_nat idx') /\ idx <= idx' <= idx + len /\
  (idx < idx' -> idx' <= size data) /\ (f = Continue tt -> idx' = idx + len /\ P r').
Proof. exact @read_any. Qed.
Print Assumptions map_read_effect.
Theorem map_read_succeeds : forall R (I : Read R) P data r idx len,
  reading I P data -> reading_all I P data -> size data < usize -> P r -> idx + len <= size data ->
  exists r', read I r idx len = Ok (Continue tt, r', idx + len, slice data (N.to_nat idx) (N.to_nat (idx + len))) /\ P r'.
Proof. exact @read_all. Qed.
Print Assumptions map_read_succeeds.
(** Byte slices are such readers. *)
Theorem map_slice_reading : forall data, size data < usize ->
  reading slice_read (fun r => r = data) data /\ reading_all slice_read (fun r => r = data) data.
Proof. exact slice_reading. Qed.
Print Assumptions map_slice_reading.
Example map_read_example : read slice_read [10; 11; 12; 13; 14] 1 3 = Ok (Continue tt, [10; 11; 12; 13; 14], 4, [11; 12; 13]).
Proof. reflexivity. Qed.

(** ** C28: writing an iterator. *)

(** Holds for writers that never map more than they are asked for. *)
Theorem map_write_iter_partial : forall W (I : Write W) o idx data r o' idx', bounded I ->
  write_iter I o idx (mkIter (size data) data) = Ok (r, o', idx') ->
  exists k, k <= size data /\ idx' = idx + k /\
    written (o_mem o) idx (firstn (N.to_nat k) data) (o_mem o') /\ (r = Continue tt -> k = size data).
Proof. exact @write_iter_any. Qed.
Print Assumptions map_write_iter_partial.
Theorem map_write_iter_succeeds_partial : forall W (I : Write W) P limit o idx data,
  serving I P limit -> bounded I -> limit < usize -> P (o_w o) -> idx + size data <= limit ->
  exists o', write_iter I o idx (mkIter (size data) data) = Ok (Continue tt, o', idx + size data) /\ P (o_w o') /\
    forall j, o_mem o' j = store (o_mem o) idx data j.
Proof. exact @write_iter_serving. Qed.
Print Assumptions map_write_iter_succeeds_partial.
Example three_bounded : bounded three.
Proof. intros w idx len k w'. cbn. destruct (_ <=? _); intros [= <- <-]. lia. Qed.
(** Writers that map more than requested get the items at the end of the mapped
    slice instead: with a writer that always maps ten bytes, the items 1, 2
    written at index 0 end up at index 8 and 9 although the index says 2. *)
Theorem map_write_iter_refuted : exists (I : Write unit) o, serving I (fun _ => True) 2 /\
  exists o', write_iter I o 0 (mkIter 2 [1; 2]) = Ok (Continue tt, o', 2) /\
    ~ written (o_mem o) 0 [1; 2] (o_mem o') /\
    o_mem o' 0 = None /\ o_mem o' 8 = Some 1 /\ o_mem o' 9 = Some 2.
Proof.
  exists (mkWrite (fun w idx len => Ok (Continue 10, w)) (fun w _ => Ok w)), (mkOut tt (fun _ => None)).
  split; [intros w idx len _ _ _; exists 10, w; repeat split|].
  eexists. split; [reflexivity|]. cbn [o_mem]. split; [|repeat split].
  intros [H _]. specialize (H 0%nat 1 eq_refl). discriminate H.
Qed.
Print Assumptions map_write_iter_refuted.
(** The same with write is stored where it should be. *)
Example map_write_larger : exists o', write (mkWrite (fun w idx len => Ok (Continue 10, w)) (fun w _ => Ok w))
  (mkOut tt (fun _ => None)) 0 [1; 2] = Ok (Continue tt, o', 2) /\ o_mem o' 0 = Some 1 /\ o_mem o' 1 = Some 2.
Proof. eexists. split; [reflexivity|]. split; reflexivity. Qed.

(** ** C29: vectors. *)

(** Indices of the map count from the start of the vector, so appending works
    if all writes are at or beyond its length: the old bytes stay and the
    committed bytes are those written last, whatever capacity the vector has
    and however it grows. *)
Theorem vec_append_partial : forall grow l extra ws n, size l + extra <= isize_max ->
  Forall (fun '(i, d) => size l <= i /\ i + size d <= isize_max) ws -> size l + n < usize ->
  exists o', write_commit grow (vec_of l extra) ws n = Ok o' /\
    vec_contents o' = map Some l ++ firsts n (fun i => overlay (fun i => nth_error l (N.to_nat i)) ws (size l + i)).
Proof. exact write_commit_appends. Qed.
Print Assumptions vec_append_partial.
Example vec_append_example : exists o', write_commit (fun c => c) (vec_of [1; 2] 1) [(2, [7; 8]); (4, [9]); (3, [5])] 3 = Ok o' /\
  vec_contents o' = [Some 1; Some 2; Some 7; Some 5; Some 9].
Proof. eexists. split; reflexivity. Qed.
(** But a write at index 0, which the contract of commit suggests ("the first
    bytes of the map"), replaces old bytes, and as many uninitialised bytes
    become part of the vector. *)
Theorem vec_append_refuted : exists l ws n o',
  write_commit (fun c => c) (vec_of l 0) ws n = Ok o' /\
  Forall (fun '(i, d) => i + size d = n) ws /\
  firstn (length l) (vec_contents o') <> map Some l /\ In None (vec_contents o').
Proof.
  exists [1; 2; 3], [(0, [7; 8])], 2. eexists. split; [reflexivity|]. split; [repeat constructor|].
  split; [discriminate|]. vm_compute. tauto.
Qed.
Print Assumptions vec_append_refuted.
(** A vector is a writer that serves everything up to isize::MAX, exactly as
    requested. *)
Theorem vec_is_serving : forall grow n,
  serving (vec_write grow) (fun v => vec_ok v /\ v_len v = n) isize_max /\ bounded (vec_write grow).
Proof. intros grow n. split; [apply vec_serving|apply vec_bounded]. Qed.
Print Assumptions vec_is_serving.
Example vec_is_serving_example : vec_ok (o_w (vec_of [1; 2] 5)) /\ v_len (o_w (vec_of [1; 2] 5)) = 2.
Proof. repeat split; cbn; intros H; discriminate H. Qed.
