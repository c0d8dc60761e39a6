(** Specification of an array of packed objects: a list of values. *)
From Coq Require Import String.
From Verif Require Import Base.

(** What a program does with the objects of an array, by index. *)
Inductive call (V : Type) :=
| CGet (i : nat) | CInner (i : nat)
| CSet (i : nat) (v : V) | CReplace (i : nat) (v : V) | CTake (i : nat)
| CFrom (i : nat) (v : V)     (* a[i] = Packed::from(v) *)
| CClone (i j : nat)          (* a[i] = a[j].clone() *)
| CEq (i j : nat) | CCmp (i j : nat) | CPartialCmp (i j : nat) | CHash (i : nat)
| CDebug (i : nat) | CDisplay (i : nat).
Arguments CGet {V}. Arguments CInner {V}. Arguments CSet {V}. Arguments CReplace {V}.
Arguments CTake {V}. Arguments CFrom {V}. Arguments CClone {V}. Arguments CEq {V}.
Arguments CCmp {V}. Arguments CPartialCmp {V}. Arguments CHash {V}. Arguments CDebug {V}.
Arguments CDisplay {V}.

(** What a call gives back. *)
Inductive result (V H : Type) :=
| RUnit | RValue (v : V) | RBool (b : bool) | ROrder (o : comparison)
| RPartial (o : option comparison) | RHash (h : H) | RText (s : string).
Arguments RUnit {V H}. Arguments RValue {V H}. Arguments RBool {V H}. Arguments ROrder {V H}.
Arguments RPartial {V H}. Arguments RHash {V H}. Arguments RText {V H}.

(** What the type of the values provides. *)
Record ops (V H : Type) := mkOps {
  default : V;
  eq : V -> V -> bool;
  cmp : V -> V -> comparison;
  partial_cmp : V -> V -> option comparison;
  hash : V -> H -> H;
  debug : V -> string;
  display : V -> string }.
Arguments mkOps {V H}. Arguments default {V H}. Arguments eq {V H}. Arguments cmp {V H}.
Arguments partial_cmp {V H}. Arguments hash {V H}. Arguments debug {V H}. Arguments display {V H}.

Section Spec.
Context {V H : Type} (o : ops V H) (h0 : H).

Fixpoint put (vs : list V) (i : nat) (v : V) : list V :=
  match vs, i with
  | [], _ => []
  | _ :: vs, 0 => v :: vs
  | x :: vs, S i => x :: put vs i v
  end.

(** The values after a call, and what it gives back. *)
Definition call_spec (vs : list V) (c : call V) : list V * result V H :=
  let at_ i := nth i vs (default o) in
  match c with
  | CGet i | CInner i => (vs, RValue (at_ i))
  | CSet i v | CFrom i v => (put vs i v, RUnit)
  | CReplace i v => (put vs i v, RValue (at_ i))
  | CTake i => (put vs i (default o), RValue (at_ i))
  | CClone i j => (put vs i (at_ j), RUnit)
  | CEq i j => (vs, RBool (eq o (at_ i) (at_ j)))
  | CCmp i j => (vs, ROrder (cmp o (at_ i) (at_ j)))
  | CPartialCmp i j => (vs, RPartial (partial_cmp o (at_ i) (at_ j)))
  | CHash i => (vs, RHash (hash o (at_ i) h0))
  | CDebug i => (vs, RText ("Packed(" ++ debug o (at_ i) ++ ")"))
  | CDisplay i => (vs, RText (display o (at_ i)))
  end.

Fixpoint calls_spec (vs : list V) (cs : list (call V)) : list V * list (result V H) :=
  match cs with
  | [] => (vs, [])
  | c :: cs =>
    let (vs, r) := call_spec vs c in
    let (vs, rs) := calls_spec vs cs in (vs, r :: rs)
  end.
End Spec.

(** The indices a call uses are below [n]. *)
Definition within {V} (n : nat) (c : call V) : Prop :=
  match c with
  | CGet i | CInner i | CSet i _ | CReplace i _ | CTake i | CFrom i _ | CHash i | CDebug i | CDisplay i => i < n
  | CClone i j | CEq i j | CCmp i j | CPartialCmp i j => i < n /\ j < n
  end.

(** The memory from [base] on holds the values one after the other, each of
    [size] bytes, with nothing between them. *)
Definition packed_at {V} (size : nat) (encode : V -> list N) (m : N -> N) (base : N) (vs : list V) : Prop :=
  forall i v, nth_error vs i = Some v ->
  forall k b, nth_error (encode v) k = Some b -> m (base + N.of_nat (i * size + k))%N = b.
