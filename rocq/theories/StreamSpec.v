(** Specification for stream reading: what is asked of a reader, and what
    [read_map_while] is to find.  Does not use the model. *)
From Verif Require Import Base.

(** A reader holds data that arrived and was not consumed, and shows a prefix
    of it: the caller asks for at least [min] bytes and gives a hint [max] on
    how many it can make use of.  Which prefix a reader shows is its own
    business; [view data min max] is its length. *)
Definition view := list N -> nat -> option nat -> nat.
(** The documented contract: at least [min] bytes, if they are there. *)
Definition honest (v : view) : Prop := forall data min max,
  min <= length data -> min <= v data min max <= length data.

(** Index [i] is within the limit. *)
Definition below (i : nat) (max : option nat) : Prop := match max with None => True | Some m => i < m end.

(** All bytes from [n] to [e] are there and satisfy the predicate. *)
Definition run (p : nat -> N -> bool) (data : list N) (n e : nat) : Prop :=
  n <= e /\ forall i, n <= i < e -> exists c, nth_error data i = Some c /\ p i c = true.
(** The run that starts at [n] is known to end at [e]: at a byte that fails the
    predicate, or at the limit. *)
Definition ends_at (p : nat -> N -> bool) (max : option nat) (data : list N) (n e : nat) : Prop :=
  run p data n e /\
  ((below e max /\ exists c, nth_error data e = Some c /\ p e c = false) \/ (max = Some e /\ n < e)).
(** The data is used up before the end of the run is known. *)
Definition undetermined (p : nat -> N -> bool) (max : option nat) (data : list N) (n : nat) : Prop :=
  run p data n (Nat.max n (length data)) /\ below (Nat.max n (length data)) max.
