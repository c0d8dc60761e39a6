(** Model of the derived comparisons of the generators in lib/osi/src/rng.rs. *)
From Verif Require Import Base RngModel.
Local Open Scope N_scope.

(** lib/osi/src/rng.rs:29-32, [PartialEq] of [Mix64]. *)
Definition mix_eq (a b : Mix64) : bool := a =? b.
(** lib/osi/src/rng.rs:38-42, [PartialEq] of [SplitMix64]. *)
Definition sm_eq (a b : SplitMix64) : bool := mix_eq (mix a) (mix b) && (gamma a =? gamma b).
(** lib/osi/src/rng.rs:54-57, [PartialEq] of [Xoshiro256pp]: that of arrays,
    element by element. *)
Definition x_eq (a b : Xoshiro) : bool :=
  (x0 a =? x0 b) && ((x1 a =? x1 b) && ((x2 a =? x2 b) && (x3 a =? x3 b))).
