(** What can be observed of signatures: vocabulary of the theorem statements. *)
From Coq Require Import Ascii String.
From Verif Require Import Base DbusSigModel.
Local Open Scope N_scope.

(** The flags of the element at an index. *)
Definition node_flags (sg : Sig) (i : N) : res (option FlagSet) := flags_at (mkCursor sg i) i.

(** Two signatures that answer every query at every index alike. *)
Definition same_queries (s1 s2 : Sig) : Prop :=
  forall i, let c1 := mkCursor s1 i in let c2 := mkCursor s2 i in
  c_element c1 = c_element c2 /\ c_length c1 = c_length c2 /\ c_position c1 = c_position c2 /\
  idx_up c1 = idx_up c2 /\ idx_down c1 = idx_down c2 /\ idx_step c1 = idx_step c2 /\
  c_up c1 = c_up c2 /\ c_down c1 = c_down c2 /\
  c_dvar_alignment_exp c1 = c_dvar_alignment_exp c2 /\
  c_gvar_alignment_exp c1 = c_gvar_alignment_exp c2.
(** The bytes of an ASCII literal. *)
Definition bytes (s : string) : list N := map N_of_ascii (list_ascii_of_string s).
