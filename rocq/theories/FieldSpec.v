(** What a reference to a member of a structure has to do.

    Addresses are numbers below [2^w]; memory gives each address a byte, or
    [None] where nothing was written.  Nothing here mentions the code. *)
From Verif Require Import Base.
Local Open Scope N_scope.

Definition memory := N -> option N.

(** The size and the alignment of a type. *)
Record shape := mkShape { bytes : N; align : N }.

(** A structure: its own shape, and where each of its members is. *)
Record structure := mkStructure { whole : shape; members : list (N * shape) }.

(** The addresses of an object of shape [s] at address [a]. *)
Definition covers (a : N) (s : shape) (x : N) : Prop := a <= x < a + bytes s.

(** Every layout a compiler may choose: members lie within the structure, at
    multiples of their own alignment, which divides that of the structure, and
    no byte belongs to two of them.  The order of the members, the gaps between
    them and where members without bytes are is free. *)
Record laid_out (c : structure) : Prop := mkLaid {
  inside : forall o s, In (o, s) (members c) -> o + bytes s <= bytes (whole c);
  aligned : forall o s, In (o, s) (members c) ->
    1 <= align s /\ (align s | align (whole c)) /\ (align s | o);
  apart : forall i j o s o' s' x, i <> j ->
    nth_error (members c) i = Some (o, s) -> nth_error (members c) j = Some (o', s') ->
    ~ (covers o s x /\ covers o' s' x) }.

(** An object can live at an address: the address is not null and aligned, the
    address of the end of the object exists, and the object is smaller than half
    of the address space.  These are the rules of the Rust reference for
    allocated objects. *)
Definition lives (w a : N) (s : shape) : Prop :=
  1 <= w /\ 0 < a /\ (align s | a) /\ a + bytes s < 2 ^ w /\ bytes s < 2 ^ (w - 1).

(** The bytes of an object. *)
Definition content (m : memory) (a : N) (s : shape) : list (option N) :=
  map (fun i => m (a + N.of_nat i)) (seq 0 (N.to_nat (bytes s))).
