(** Specification for string utilities: orders, numbers, symbols.  Characters
    are code points; [numeric] and [alphabetic] are the Unicode classes. *)
From Verif Require Import Base.

(** [cmp] is a total order on the values that satisfy [P]. *)
Definition total_order {A} (P : A -> Prop) (cmp : A -> A -> comparison) : Prop :=
  (forall a b, P a -> P b -> (cmp a b = Eq <-> a = b)) /\
  (forall a b, P a -> P b -> cmp b a = CompOpp (cmp a b)) /\
  (forall a b c, P a -> P b -> P c -> cmp a b = Lt -> cmp b c = Lt -> cmp a c = Lt).

(** What any Unicode class of numeric characters satisfies. *)
Definition ascii_digit (c : N) : Prop := (0x30 <= c <= 0x39)%N.
Definition numeric_class (numeric : N -> bool) : Prop :=
  forall c, (c < 0x80)%N -> (numeric c = true <-> ascii_digit c).
Definition alphabetic_class (alphabetic : N -> bool) : Prop :=
  forall c, (c < 0x80)%N -> (alphabetic c = true <-> (0x41 <= c <= 0x5a \/ 0x61 <= c <= 0x7a)%N).

(** The value of a string of decimal digits. *)
Definition value (ds : list N) : N := fold_left (fun v d => v * 10 + (d - 0x30))%N ds 0%N.
(** A number: at least one digit. *)
Definition number (ds : list N) : Prop := ds <> [] /\ Forall ascii_digit ds.

(** Runs of numeric characters, as long as possible. *)
Definition is_run (numeric : N -> bool) (s before run after : list N) : Prop :=
  s = before ++ run ++ after /\ run <> [] /\ Forall (fun c => numeric c = true) run /\
  (forall p c, before = p ++ [c] -> numeric c = false) /\ (forall c p, after = c :: p -> numeric c = false).
(** Each of them is a number below 2^64, or begins with a numeric character
    that is not an ASCII digit. *)
Definition small_numbers (numeric : N -> bool) (s : list N) : Prop :=
  forall before run after, is_run numeric s before run after ->
    (number run /\ (value run < 2 ^ 64)%N) \/ exists c r, run = c :: r /\ (0x39 < c)%N.

(** A symbol: letters, digits and underscores, not empty, not beginning with a digit. *)
Definition symbol (numeric alphabetic : N -> bool) (s : list N) : Prop :=
  Forall (fun c => alphabetic c = true \/ numeric c = true \/ c = 0x5f%N) s /\
  exists c s', s = c :: s' /\ numeric c = false.
