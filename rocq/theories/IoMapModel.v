(** Model of lib/tmp/src/io/map.rs: chunked access to linear memory. *)
From Verif Require Import Base DbusSpec.
Local Open Scope N_scope.
Local Open Scope res_scope.

(** map.rs:10-19 Error. *)
Inductive io_error := Overflow | Exceeded.

(** core::ops::ControlFlow. Imported at lib/tmp/src/io/map.rs:8. *)
Inductive flow (B C : Type) := Break (b : B) | Continue (c : C).
Arguments Break {B C} b.
Arguments Continue {B C} c.
(** The return type at lib/tmp/src/io/map.rs:29, 80, 101 and 130. *)
Definition flow_io := flow (option io_error) unit.

(** usize is 64 bits wide. Plain `+=` is modelled with overflow checks. The
    type of indices and lengths, lib/tmp/src/io/map.rs:23 and 74. *)
Definition usize : N := 2 ^ 64.
(** The standard library's, called at lib/tmp/src/io/map.rs:157 and 181. *)
Definition checked_add (a b : N) : option N := if a + b <? usize then Some (a + b) else None.
(** lib/tmp/src/io/map.rs:44, 91, 119, 137 and 172. *)
Definition add_usize (a b : N) : res N := assert! a + b <? usize; Ok (a + b).
(** lib/tmp/src/io/map.rs:118, 120, 138 and 150. *)
Definition sub_usize (a b : N) : res N := assert! b <=? a; Ok (a - b).
(** usize::checked_next_multiple_of (standard library). Called at
    lib/tmp/src/io/map.rs:148. *)
Definition checked_next_multiple_of (a m : N) : option N :=
  let r := a mod m in if r =? 0 then Some a else checked_add a (m - r).
(** `(1 << exp) as usize` (map.rs:148, dvar.rs:609): the literal is an i32,
    shifted with overflow checks and then sign-extended. *)
Definition shl_usize (exp : N) : res N :=
  if exp <? 31 then Ok (2 ^ exp)
  else if exp =? 31 then Ok (usize - 2 ^ 31)
  else Panic.

(** Linear memory behind a writer; None is uninitialised. The [Uninit<u8>]
    behind lib/tmp/src/io/map.rs:74. *)
Definition mem := N -> option N.
(** The assignment at lib/tmp/src/io/map.rs:90, 118 and 136. *)
Definition store (m : mem) (i : N) (data : list N) : mem :=
  fun j => if (i <=? j) && (j <? i + size data) then nth_error data (N.to_nat (j - i)) else m j.

(** map.rs:65-74 trait Write, without its provided methods.  The slice returned
    by map is memory from the index on; only its length is returned here.
    An implementation may keep any state and choose any length. *)
Record Write (W : Type) := mkWrite {
  w_map : W -> N -> N -> res (flow (option io_error) N * W);
  w_commit : W -> N -> res W;
}.
Arguments w_map {W} _ _ _ _.
Arguments w_commit {W} _ _ _.
Arguments mkWrite {W} _ _.
(** A writer together with its memory. The [self] of
    lib/tmp/src/io/map.rs:76-152. *)
Record out (W : Type) := mkOut { o_w : W; o_mem : mem }.
Arguments mkOut {W} _ _.
Arguments o_w {W} _.
Arguments o_mem {W} _ _.

(** map.rs:76-95 write. *)
Fixpoint write_loop {W} (fuel : nat) (I : Write W) (o : out W) (idx : N) (data : list N)
  : res (flow_io * out W * N) :=
  match fuel with
  | O => NoFuel
  | S fuel =>
    if 0 <? size data then
      do '(r, w) <- w_map I (o_w o) idx (size data);
      match r with
      | Break e => Ok (Break e, mkOut w (o_mem o), idx)
      | Continue map_len =>
        assert! 0 <? map_len;
        let n := N.min map_len (size data) in
        let m := store (o_mem o) idx (firstn (N.to_nat n) data) in
        do idx <- add_usize idx n;
        write_loop fuel I (mkOut w m) idx (skipn (N.to_nat n) data)
      end
    else Ok (Continue tt, o, idx)
  end.
(** lib/tmp/src/io/map.rs:76-95, the whole method; enough fuel for every
    input. *)
Definition write {W} (I : Write W) (o : out W) (idx : N) (data : list N) :=
  write_loop (S (length data)) I o idx data.

(** An ExactSizeIterator: the length it claims and what it yields. Its claim
    is decremented by every item (the only iterator passed by this code base,
    over signature elements, claims too much for some signatures). The
    argument at lib/tmp/src/io/map.rs:100. *)
Record iter := mkIter { it_hint : N; it_items : list N }.
(** [data.next()] at lib/tmp/src/io/map.rs:109 and 118. *)
Definition it_next (it : iter) : option N * iter :=
  match it_items it with
  | [] => (None, mkIter (N.pred (it_hint it)) [])
  | x :: l => (Some x, mkIter (N.pred (it_hint it)) l)
  end.
(** map.rs:117-121, the inner loop of write_iter; the slice starts at [base]. *)
Fixpoint iter_chunk (n : nat) (base map_len : N) (m : mem) (idx : N) (it : iter)
  : res (mem * N * iter) :=
  match n with
  | O => Ok (m, idx, it)
  | S n' =>
    do at_ <- sub_usize map_len (N.of_nat n);
    let '(x, it) := it_next it in
    match x with
    | None => Panic
    | Some x =>
      do idx <- add_usize idx 1;
      iter_chunk n' base map_len (store m (base + at_) [x]) idx it
    end
  end.
(** map.rs:97-123 write_iter. *)
Fixpoint write_iter_loop {W} (fuel : nat) (I : Write W) (o : out W) (idx : N) (it : iter)
  : res (flow_io * out W * N) :=
  match fuel with
  | O => NoFuel
  | S fuel =>
    let n := it_hint it in
    if n =? 0 then
      match fst (it_next it) with None => Ok (Continue tt, o, idx) | Some _ => Panic end
    else
      do '(r, w) <- w_map I (o_w o) idx n;
      match r with
      | Break e => Ok (Break e, mkOut w (o_mem o), idx)
      | Continue map_len =>
        assert! 0 <? map_len;
        let n := N.min n map_len in
        do '(m, idx, it) <- iter_chunk (N.to_nat n) idx map_len (o_mem o) idx it;
        write_iter_loop fuel I (mkOut w m) idx it
      end
  end.
(** lib/tmp/src/io/map.rs:97-123, the whole method; enough fuel for every
    input. *)
Definition write_iter {W} (I : Write W) (o : out W) (idx : N) (it : iter) :=
  write_iter_loop (S (N.to_nat (it_hint it))) I o idx it.

(** map.rs:125-141 fill. *)
Fixpoint fill_loop {W} (fuel : nat) (I : Write W) (o : out W) (idx : N) (len : N) (data : N)
  : res (flow_io * out W * N) :=
  match fuel with
  | O => NoFuel
  | S fuel =>
    if 0 <? len then
      do '(r, w) <- w_map I (o_w o) idx len;
      match r with
      | Break e => Ok (Break e, mkOut w (o_mem o), idx)
      | Continue map_len =>
        assert! 0 <? map_len;
        let n := N.min map_len len in
        let m := store (o_mem o) idx (repeat data (N.to_nat n)) in
        do idx <- add_usize idx n;
        do len <- sub_usize len n;
        fill_loop fuel I (mkOut w m) idx len data
      end
    else Ok (Continue tt, o, idx)
  end.
(** lib/tmp/src/io/map.rs:125-141, the whole method; enough fuel for every
    input. *)
Definition fill {W} (I : Write W) (o : out W) (idx len data : N) :=
  fill_loop (S (N.to_nat len)) I o idx len data.
(** map.rs:143-145 zero. *)
Definition zero {W} (I : Write W) (o : out W) (idx len : N) := fill I o idx len 0.
(** map.rs:147-152 align_exp2. *)
Definition align_exp2 {W} (I : Write W) (o : out W) (idx exp : N) : res (flow_io * out W * N) :=
  do m <- shl_usize exp;
  match checked_next_multiple_of idx m with
  | None => Ok (Break (Some Overflow), o, idx)
  | Some v => do len <- sub_usize v idx; zero I o idx len
  end.

(** map.rs:22-23 trait Read, without its provided methods.  The slice returned
    by map is given by its contents. *)
Record Read (R : Type) := mkRead {
  r_map : R -> N -> N -> res (flow (option io_error) (list N) * R);
}.
Arguments r_map {R} _ _ _ _.
Arguments mkRead {R} _.
(** map.rs:25-48 read_uninit and 50-61 read: the bytes stored into the buffer,
    in order (the rest of the buffer is not touched). *)
Fixpoint read_loop {R} (fuel : nat) (I : Read R) (r : R) (idx : N) (len : N) (got : list N)
  : res (flow_io * R * N * list N) :=
  match fuel with
  | O => NoFuel
  | S fuel =>
    if 0 <? len then
      do '(f, r) <- r_map I r idx len;
      match f with
      | Break e => Ok (Break e, r, idx, got)
      | Continue map =>
        assert! 0 <? size map;
        let n := N.min (size map) len in
        do idx <- add_usize idx n;
        read_loop fuel I r idx (len - n) (got ++ firstn (N.to_nat n) map)
      end
    else Ok (Continue tt, r, idx, got)
  end.
(** lib/tmp/src/io/map.rs:50-61, the whole method; enough fuel for every
    input. *)
Definition read {R} (I : Read R) (r : R) (idx len : N) := read_loop (S (N.to_nat len)) I r idx len [].

(** map.rs:155-166 Read for [u8]. *)
Definition slice_read : Read (list N) := mkRead (fun data idx len =>
  match checked_add idx len with
  | None => Ok (Break (Some Overflow), data)
  | Some e =>
    if size data <? e then Ok (Break (Some Exceeded), data)
    else Ok (Continue (firstn (N.to_nat len) (skipn (N.to_nat idx) data)), data)
  end).

(** map.rs:168-195 Write for Vec<u8>: the length and the capacity of the vector;
    its memory is that of [out].  [grow] stands for the amount by which the
    allocator rounds up.  Growing keeps all of the old allocation, as the
    standard library's does, not just the first [v_len] bytes it documents.
    A capacity over isize::MAX panics; running out of memory is not modelled. *)
Record vec := mkVec { v_len : N; v_cap : N }.
(** The limit of the standard library's [Vec::reserve], called at
    lib/tmp/src/io/map.rs:185. *)
Definition isize_max : N := 2 ^ 63 - 1.
(** The standard library's [Vec::reserve], called at
    lib/tmp/src/io/map.rs:185. *)
Definition vec_reserve (grow : N -> N) (v : vec) (additional : N) : res vec :=
  if v_cap v - v_len v <? additional then
    assert! v_len v + additional <=? isize_max;
    let cap := v_len v + additional in
    Ok (mkVec (v_len v) (N.min isize_max (cap + grow cap)))
  else Ok v.
(** lib/tmp/src/io/map.rs:168-195, [map] (176-194) and [commit] (169-174). *)
Definition vec_write (grow : N -> N) : Write vec := mkWrite
  (fun v idx len =>
     match checked_add idx len with
     | None => Ok (Break (Some Overflow), v)
     | Some e =>
       do v <- (if v_len v <? e then vec_reserve grow v (e - v_len v) else Ok v);
       assert! e <=? v_cap v;
       Ok (Continue (e - idx), v)
     end)
  (fun v len => do l <- add_usize (v_len v) len; Ok (mkVec l (v_cap v))).
(** A vector that holds the bytes [l], with [extra] bytes of spare capacity. A
    caller's value for the [self] of lib/tmp/src/io/map.rs:168. *)
Definition vec_of (l : list N) (extra : N) : out vec :=
  mkOut (mkVec (size l) (size l + extra)) (fun i => nth_error l (N.to_nat i)).
(** The contents of a vector: the initialised or uninitialised bytes up to its
    length. What a caller of lib/tmp/src/io/map.rs:168-195 sees. *)
Definition vec_contents (o : out vec) : list (option N) :=
  map (fun i => o_mem o (N.of_nat i)) (seq 0 (N.to_nat (v_len (o_w o)))).
