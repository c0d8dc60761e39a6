(** Vocabulary for conditional compilation. *)
From Verif Require Import Base.

(** Conditions as in [#[cfg(..)]]; options are numbered. *)
Inductive meta := Option (n : nat) | All (l : list meta) | Any (l : list meta) | Not (c : meta).

(** Whether a condition holds when exactly the options [on] are set. *)
Fixpoint true_in (on : nat -> bool) (c : meta) : bool :=
  match c with
  | Option n => on n
  | All l => forallb (true_in on) l
  | Any l => existsb (true_in on) l
  | Not c => negb (true_in on c)
  end.

(** [if c { a } else if d { b } .. else { e }]: the block that is taken. *)
Fixpoint taken {A} (on : nat -> bool) (l : list (meta * A)) (otherwise : option A) : option A :=
  match l with
  | [] => otherwise
  | (c, a) :: l => if true_in on c then Some a else taken on l otherwise
  end.
