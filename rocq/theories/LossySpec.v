(** Specification of lossy conversion to text: substitution of maximal
    subparts, as the Unicode Standard recommends it (section 3.9, U+FFFD
    Substitution of Maximal Subparts). *)
From Verif Require Import Base DvarDecSpec.
Local Open Scope N_scope.

(** No character starts the bytes [l]. *)
Definition unconvertible (l : list N) : Prop := forall c s, scalar c -> l <> utf8 c ++ s.

(** [p] is the start of the encoding of a character. *)
Definition starts_char (p : list N) : Prop := exists c q, scalar c /\ utf8 c = p ++ q.

(** [p] is a maximal subpart of [p ++ s]: the longest start of a character
    there, or else a single byte. *)
Definition maximal_subpart (p s : list N) : Prop :=
  (length p = 1%nat \/ (p <> [] /\ starts_char p)) /\
  forall p' s', p ++ s = p' ++ s' -> (length p < length p')%nat -> ~ starts_char p'.

(** [converts s t]: [t] is [s] with every maximal subpart that is no character
    replaced by U+FFFD. *)
Inductive converts : list N -> list N -> Prop :=
| conv_end : converts [] []
| conv_char c s t : scalar c -> converts s t -> converts (utf8 c ++ s) (utf8 c ++ t)
| conv_bad p s t :
    unconvertible (p ++ s) -> maximal_subpart p s -> converts s t ->
    converts (p ++ s) (utf8 0xfffd ++ t).
