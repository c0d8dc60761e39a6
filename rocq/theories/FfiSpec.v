(** Specification vocabulary for the foreign-function types of [osi::ffi].

    Written from the documentation of the types, without reference to the
    model: what it means for bytes to hold a number in a given byte order, what
    an integer type is, and how large an aligned integer is. *)
From Verif Require Import Base.

(** Byte orders. *)
Inductive order := BigFirst | LittleFirst.

(** The significance of byte [i] of [n], counted in bytes: in little-endian
    order the first byte is the least significant one, in big-endian order the
    last one is. *)
Definition weight (o : order) (n i : nat) : nat :=
  match o with LittleFirst => i | BigFirst => n - 1 - i end.

(** Byte [i] of the [n] byte representation of [v]. *)
Definition byte_of (o : order) (n : nat) (v : N) (i : nat) : N :=
  ((v / 256 ^ N.of_nat (weight o n i)) mod 256)%N.

(** [bs] is the [n] byte representation of [v] in byte order [o]. *)
Definition stored (o : order) (n : nat) (v : N) (bs : list N) : Prop :=
  length bs = n /\ forall i, i < n -> nth_error bs i = Some (byte_of o n v i).

(** An integer type: signed or not, and its size in bytes.  Rust has the sizes
    1, 2, 4, 8 and 16; nothing below depends on that. *)
Record int_type := { signed : bool; width : nat }.

Definition in_range (t : int_type) (z : Z) : Prop :=
  if signed t
  then (- 2 ^ (8 * Z.of_nat (width t) - 1) <= z < 2 ^ (8 * Z.of_nat (width t) - 1))%Z
  else (0 <= z < 2 ^ (8 * Z.of_nat (width t)))%Z.

(** Two's complement. *)
Definition pattern (t : int_type) (z : Z) : N :=
  Z.to_N (z mod 2 ^ (8 * Z.of_nat (width t))).

(** The smallest multiple of [a] that is at least [s]. *)
Definition least_multiple (a s r : nat) : Prop :=
  s <= r /\ Nat.divide a r /\ forall q, s <= q -> Nat.divide a q -> r <= q.

(** What a program does with a cell that holds a value of type [V]: overwrite
    the value, exchange it, or take it out, which leaves the default [d]. *)
Inductive use (V : Type) := USet (x : V) | UReplace (x : V) | UTake (d : V).
Arguments USet {V}. Arguments UReplace {V}. Arguments UTake {V}.

(** A cell that holds [x] goes through some uses and then holds [z].  For each
    use, what it returned and what it destroyed: overwriting destroys the
    value held so far, exchanging and taking return it. *)
Inductive cell {V : Type} : V -> list (use V) -> list (option V * option V) -> V -> Prop :=
| cell_end x : cell x [] [] x
| cell_set x y us log z : cell y us log z -> cell x (USet y :: us) ((None, Some x) :: log) z
| cell_replace x y us log z : cell y us log z -> cell x (UReplace y :: us) ((Some x, None) :: log) z
| cell_take x d us log z : cell d us log z -> cell x (UTake d :: us) ((Some x, None) :: log) z.

(** The value a use puts into the cell. *)
Definition put {V : Type} (u : use V) : V :=
  match u with USet x => x | UReplace x => x | UTake d => d end.

(** What a log says was returned, and what was destroyed. *)
Definition given_back {V : Type} (log : list (option V * option V)) : list V :=
  flat_map (fun e => match fst e with Some x => [x] | None => [] end) log.
Definition destroyed {V : Type} (log : list (option V * option V)) : list V :=
  flat_map (fun e => match snd e with Some x => [x] | None => [] end) log.
