(** What the byte order of a message changes. *)
From Verif Require Import Base DbusSpec.
Local Open Scope N_scope.

(** [turned pos b c]: the bytes [b] and [c], at offset [pos] of their messages, are
    the same, but integers of 2, 4 or 8 bytes, at offsets that are multiples of their
    size, have their bytes the other way round. *)
Inductive turned : N -> list N -> list N -> Prop :=
| turned_nil pos : turned pos [] []
| turned_byte pos x b c : turned (pos + 1) b c -> turned pos (x :: b) (x :: c)
| turned_int pos n i b c : n = 2 \/ n = 4 \/ n = 8 -> size i = n -> pos mod n = 0 ->
    turned (pos + n) b c -> turned pos (i ++ b) (rev i ++ c).
