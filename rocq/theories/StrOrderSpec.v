(** Specification of natural string order by the first difference: for two
    strings, look at the place where they first differ.  Characters are code
    points; [numeric] is the Unicode class. *)
From Verif Require Import Base StrSpec.

(** The order of a dictionary: a string comes before any longer one that begins
    with it, and otherwise the first different character decides. *)
Inductive dictionary : list N -> list N -> Prop :=
| dictionary_prefix p c r : dictionary p (p ++ c :: r)
| dictionary_char p c r d s : (c < d)%N -> dictionary (p ++ c :: r) (p ++ d :: s).

(** A number that fits 64 bits. *)
Definition fits (x : list N) : Prop := number x /\ (value x < 2 ^ 64)%N.
(** Of two runs of numeric characters, the first is less: by value if both fit
    and have different values, and otherwise as in a dictionary. *)
Inductive run_less : list N -> list N -> Prop :=
| run_value x y : fits x -> fits y -> (value x < value y)%N -> run_less x y
| run_same x y : fits x -> fits y -> value x = value y -> dictionary x y -> run_less x y
| run_other x y : ~ (fits x /\ fits y) -> dictionary x y -> run_less x y.

Definition ends_numeric (numeric : N -> bool) (p : list N) : Prop := exists q c, p = q ++ [c] /\ numeric c = true.

(** Natural order. *)
Inductive natural_less (numeric : N -> bool) : list N -> list N -> Prop :=
(** A string comes before any longer one that begins with it. *)
| natural_prefix p c r : natural_less numeric p (p ++ c :: r)
(** The first difference is between two characters that are not numeric. *)
| natural_char p c r d s : numeric c = false -> numeric d = false -> (c < d)%N ->
    natural_less numeric (p ++ c :: r) (p ++ d :: s)
(** Where one string begins a number and the other does not, the number comes first. *)
| natural_begin p c r d s : ~ ends_numeric numeric p -> numeric c = true -> numeric d = false ->
    natural_less numeric (p ++ c :: r) (p ++ d :: s)
(** The first difference is within two numbers that begin at the same place. *)
| natural_number p x y r s : is_run numeric (p ++ x ++ r) p x r -> is_run numeric (p ++ y ++ s) p y s ->
    run_less x y -> natural_less numeric (p ++ x ++ r) (p ++ y ++ s).
