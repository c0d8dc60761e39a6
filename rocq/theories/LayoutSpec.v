(** What a layout of program arguments promises to those who inspect it, after the
    documentation of [osi::args::layout]. *)
From Verif Require Import Base ArgsSpec.

(** An iterator yields these items and then ends. *)
Inductive yields {I A} (next : I -> option (A * I)) : I -> list A -> Prop :=
| yields_end it : next it = None -> yields next it []
| yields_item it a it' l : next it = Some (a, it') -> yields next it' l -> yields next it (a :: l).

(** Position [j] is the command on the next layer up of the command at [i]: the
    closest one before it whose path its path starts with. *)
Definition next_up (paths : list path) (i j : nat) : Prop :=
  j < i /\ (exists p q, nth_error paths i = Some p /\ nth_error paths j = Some q /\ prefix q p)
  /\ forall k p q, k < i -> nth_error paths i = Some p -> nth_error paths k = Some q -> prefix q p -> k <= j.

(** Following links, [up i], from a position yields these positions and ends. *)
Inductive climbs (up : nat -> res (option nat)) : nat -> list nat -> Prop :=
| climbs_end i : up i = Ok None -> climbs up i []
| climbs_up i j l : up i = Ok (Some j) -> climbs up j l -> climbs up i (j :: l).

(** Depth-first pre-order: a command is directly followed by all below it, so
    whatever stands between it and one below it is below it, too; and
    those on the same level are in lexicographic order. *)
Definition preorder (paths : list path) : Prop :=
  (forall i j k p q r, i <= j <= k -> nth_error paths i = Some p -> nth_error paths j = Some q ->
     nth_error paths k = Some r -> prefix p r -> prefix p q)
  /\ (forall i j p q, i < j -> nth_error paths i = Some p -> nth_error paths j = Some q -> ~ (prefix q p /\ q <> p))
  /\ (forall i j a x y p q, i < j -> nth_error paths i = Some (a ++ x :: p) -> nth_error paths j = Some (a ++ y :: q) ->
     str_cmp x y <> Gt).

(** Searching in a sorted slice: a match, or that there is none and where it
    would be inserted. *)
Definition locates (bs : list comparison -> nat + nat) : Prop :=
  forall l, ordered l ->
    match bs l with
    | inl i => nth_error l i = Some Eq
    | inr i => ~ In Eq l /\ (forall k, k < i -> nth_error l k = Some Lt) /\ (forall k c, i <= k -> nth_error l k = Some c -> c = Gt)
               /\ i <= length l
    end.
