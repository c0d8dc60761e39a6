(** Specification vocabulary for the memory of a signature. *)
From Verif Require Import Base DbusElement DbusSigModel DbusSpec DbusFlagBits DbusWordModel.
Local Open Scope N_scope.
Local Open Scope res_scope.

(** The values that the fields of a node can take. *)
Definition node_fits (k : kind) (n : Node) : Prop :=
  f_node (n_flags n) = node_id k /\ f_dvar_alignment_exp (n_flags n) < 4 /\ f_gvar_alignment_exp (n_flags n) < 4 /\
  n_offset n <= field_max k /\ n_position n <= field_max k /\ n_length n <= field_max k /\
  n_dvar_size n <= int_max k /\ n_gvar_size n <= int_max k.
(** The struct for a node: a Node8 with offset, position and length packed, or
    a Node64. *)
Definition to_ref (k : kind) (n : Node) : NodeRef :=
  if node_id k =? 0 then
    Node8 (pack (n_flags n)) (match opl (n_offset n) (n_position n) (n_length n) with Ok w => w | _ => 0 end)
          (n_dvar_size n) (n_gvar_size n)
  else Node64 (pack (n_flags n)) 0 (n_offset n) (n_position n) (n_length n) (n_dvar_size n) (n_gvar_size n).

(** The words of a buffer in which some nodes are not initialised yet. *)
Definition buffer_words (big : bool) (k : kind) (b : buffer) : list (option N) :=
  flat_map (fun o => match o with
                     | Some n => map Some (node_words big (to_ref k n))
                     | None => repeat None (N.to_nat (size_coeff k))
                     end) b.
(** The words of a signature: those of its nodes one after the other. *)
Definition sig_words (big : bool) (s : Sig) : list N :=
  flat_map (fun o => match o with Some n => node_words big (to_ref (s_kind s) n) | None => [] end) (s_nodes s).

(** The signatures that can be obtained: by parsing, or as a part of one. *)
Inductive reachable : Sig -> Prop :=
| reach_new fuel text s : sig_new fuel text = Ok (inr s) -> reachable s
| reach_at s i s' : reachable s -> sig_at s i = Ok (Some s') -> reachable s'.

(** Applying a function to the result. *)
Definition res_map {A B} (f : A -> B) (r : res A) : res B := do x <- r; Ok (f x).
