(** Vocabulary for the statements about the random number generators: output
    sequences, reachable generators, well-formed states. *)
From Verif Require Import Base RngModel.
From Verif Require RngRef.
Local Open Scope N_scope.

(** ** SplitMix64 *)
(** The generator after one more call of next64. *)
Definition sm_skip (s : SplitMix64) : SplitMix64 := snd (sm_next64 s).
(** The [i]th output, counting from 0. *)
Definition sm_out64 (s : SplitMix64) (i : N) : N := fst (sm_next64 (N.iter i sm_skip s)).
Definition sm_out32 (s : SplitMix64) (i : N) : N :=
  fst (sm_next32 (N.iter i (fun t => snd (sm_next32 t)) s)).

(** Generators reachable through the public interface. *)
Inductive sm_reachable : SplitMix64 -> Prop :=
| R_seed seed : seed < 2 ^ 64 -> sm_reachable (sm_with_seed seed)
| R_from m : m < 2 ^ 64 -> sm_reachable (sm_from_mix64 m)
| R_next32 s : sm_reachable s -> sm_reachable (snd (sm_next32 s))
| R_next64 s : sm_reachable s -> sm_reachable (snd (sm_next64 s))
| R_child s : sm_reachable s -> sm_reachable (fst (sm_split s))
| R_parent s : sm_reachable s -> sm_reachable (snd (sm_split s))
| R_mix_child m : m < 2 ^ 64 -> sm_reachable (fst (mix_split m)).

(** Positions below 64 at which the bits of [g] (followed by a zero) change. *)
Definition bit_transitions (g : N) : nat :=
  length (filter (fun k => negb (Bool.eqb (N.testbit g (N.of_nat k)) (N.testbit g (N.of_nat k + 1))))
            (seq 0 64)).

(** What a sequence of calls returns. *)
Fixpoint sm_calls (s : SplitMix64) (calls : list RngRef.call) : list RngRef.answer :=
  match calls with
  | [] => []
  | RngRef.Next32 :: calls => let '(v, s) := sm_next32 s in RngRef.Word v :: sm_calls s calls
  | RngRef.Next64 :: calls => let '(v, s) := sm_next64 s in RngRef.Word v :: sm_calls s calls
  | RngRef.Split :: calls =>
      let '(c, s) := sm_split s in RngRef.Child (mix c) (gamma c) :: sm_calls s calls
  end.

(** ** Xoshiro256++ *)
Definition zero : Xoshiro := X 0 0 0 0.
(** Four 64-bit words. *)
Definition x_wf (s : Xoshiro) : Prop :=
  x0 s < 2 ^ 64 /\ x1 s < 2 ^ 64 /\ x2 s < 2 ^ 64 /\ x3 s < 2 ^ 64.
(** The generator after one more call of next64. *)
Definition x_skip (s : Xoshiro) : Xoshiro := snd (x_next64 s).

(** Generators reachable through the public interface. *)
Inductive x_reachable : Xoshiro -> Prop :=
| XR_seed s : x_wf s -> x_reachable (x_with_seed s)
| XR_split m : sm_reachable m -> x_reachable (fst (x_from_splitmix64 m))
| XR_next s : x_reachable s -> x_reachable (snd (x_next64 s))
| XR_jump128 s : x_reachable s -> x_reachable (x_jump128 s)
| XR_jump192 s : x_reachable s -> x_reachable (x_jump192 s).

(** The four words. *)
Definition x_words (s : Xoshiro) : N * N * N * N := (x0 s, x1 s, x2 s, x3 s).
(** What [n] calls of next64 return, and the [i]th of them, counting from 0. *)
Fixpoint x_take (n : nat) (s : Xoshiro) : list N :=
  match n with O => [] | S n => let '(v, s) := x_next64 s in v :: x_take n s end.
Definition x_out (s : Xoshiro) (i : N) : N := fst (x_next64 (N.iter i x_skip s)).
