(** Model of lib/tmp/src/io/stream.rs: buffered streams. *)
From Verif Require Import Base StreamSpec.
Local Open Scope res_scope.

(** stream.rs:21-26 [More]. *)
Record More := mkMore { more_min : nat; more_max : option nat }.
(** stream.rs:8: core::ops::ControlFlow, with [More] as its break value. *)
Inductive flow (A : Type) := Break (m : More) | Cont (a : A).
Arguments Break {A} m.
Arguments Cont {A} a.

(** stream.rs:40-73 trait [Read].  The state of a reader is the data it has
    buffered; [v] decides how much of it a mapping shows.  [More] is reported as
    in the implementation for slices.  Indices are naturals: usize does not
    overflow because no buffer reaches its size. *)
Definition read_map (v : view) (buf : list N) (min : nat) (max : option nat) : flow (list N) :=
  if min <=? length buf then Cont (firstn (v buf min max) buf) else Break (mkMore min max).

(** stream.rs:237-250 [Read for &[u8]]: the mapping is the whole slice. *)
Definition slice_view : view := fun buf _ _ => length buf.
(** stream.rs:238-241 [advance]: slicing beyond the end panics. *)
Definition read_advance (buf : list N) (len : nat) : res (list N) :=
  assert! len <=? length buf; Ok (skipn len buf).

(** stream.rs:207-212: the inner loop; [todo] is the mapping from [n] on.  The
    boolean tells whether the predicate failed. *)
Fixpoint scan (p : nat -> N -> bool) (n : nat) (todo : list N) : nat * bool :=
  match todo with
  | [] => (n, false)
  | c :: todo => if negb (p n c) then (n, true) else scan p (S n) todo
  end.
(** stream.rs:200-217: the outer loop.  [max_v] is unlimited for [None]; the
    predicate is a function, without state of its own. *)
Fixpoint read_map_while_loop (fuel : nat) (v : view) (buf : list N) (n : nat) (max : option nat)
  (p : nat -> N -> bool) : res (nat * flow (list N)) :=
  match fuel with
  | O => NoFuel
  | S fuel =>
      let n1 := n + 1 in
      match read_map v buf n1 max with
      | Break m => Ok (n, Break m)
      | Cont map =>
          let map := match max with None => map | Some m => firstn (Nat.min (length map) m) map end in
          assert! n1 <=? length map;
          assert! (match max with None => true | Some m => length map <=? m end);
          let '(n, stop) := scan p n (skipn n map) in
          if stop then Ok (n, Cont map)
          else if (match max with None => false | Some m => m <=? n end) then Ok (n, Cont map)
          else read_map_while_loop fuel v buf n max p
      end
  end.
(** stream.rs:188-218 [read_map_while]. *)
Definition read_map_while (v : view) (buf : list N) (n : nat) (max : option nat) (p : nat -> N -> bool)
  : res (nat * flow (list N)) :=
  read_map_while_loop (S (length buf)) v buf n max p.

(** ** Writing to a vector *)

(** The type at stream.rs:252, a [Vec<u8>]: its contents and its spare capacity, where [None] is an
    uninitialised byte. *)
Record vec := mkVec { v_data : list N; v_spare : list (option N) }.
(** Rust semantics: [Vec::reserve], called at stream.rs:261: the spare capacity is kept if it is
    large enough, and otherwise replaced by an uninitialised one of at least
    the size asked for; [grow] is what the allocator adds to that. *)
Definition reserve (grow : nat) (w : vec) (n : nat) : vec :=
  if n <=? length (v_spare w) then w else mkVec (v_data w) (repeat None (n + grow)).
(** stream.rs:260-263 [map] of [Write for Vec<u8>]: the mapping is the spare capacity. *)
Definition vec_map (grow : nat) (w : vec) (min : nat) (max : option nat) : vec :=
  reserve grow w (match max with None => min | Some m => m end).
(** Rust semantics: the bytes if all are initialised, as stream.rs:256 asks. *)
Fixpoint initialised (l : list (option N)) : option (list N) :=
  match l with
  | [] => Some []
  | None :: _ => None
  | Some c :: l => match initialised l with Some d => Some (c :: d) | None => None end
  end.
(** stream.rs:253-258 [commit]: [set_len].  Beyond the capacity, or on an
    uninitialised byte, this is undefined behaviour (modelled as a panic). *)
Definition vec_commit (w : vec) (len : nat) : res vec :=
  assert! len <=? length (v_spare w);
  match initialised (firstn len (v_spare w)) with
  | Some d => Ok (mkVec (v_data w ++ d) (skipn len (v_spare w)))
  | None => Panic
  end.
(** What the caller does with a mapping, as at stream.rs:158: stores bytes at an
    index. *)
Definition vec_store (w : vec) (i : nat) (d : list N) : res vec :=
  assert! i + length d <=? length (v_spare w);
  Ok (mkVec (v_data w) (splice (v_spare w) i (map Some d))).
(** stream.rs:154-165 [write]. *)
Definition vec_write (grow : nat) (w : vec) (d : list N) : res vec :=
  let w := vec_map grow w (length d) (Some (length d)) in
  do w <- vec_store w 0 d;
  vec_commit w (length d).
(** stream.rs:135-144 [map_unchecked]: the first [len] bytes of the mapping, as
    initialised memory (undefined behaviour if they are not: a panic here). *)
Definition vec_map_unchecked (grow : nat) (w : vec) (len : nat) : res (vec * list N) :=
  let w := vec_map grow w len (Some len) in
  assert! len <=? length (v_spare w);
  match initialised (firstn len (v_spare w)) with Some d => Ok (w, d) | None => Panic end.
