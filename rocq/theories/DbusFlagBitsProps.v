(** The packed flags of elements and nodes (part of C19): every operation on
    the 32-bit word is the operation on the fields, for every word. *)
From Verif Require Import Base DbusElement DbusFlagBits.
From Verif Require DbusFlagBitsProofs.
Local Open Scope N_scope.

(** Alignment exponents and node ids take two bits each. *)
Definition fields_fit (f : FlagSet) : Prop :=
  f_node f < 4 /\ f_dvar_alignment_exp f < 4 /\ f_gvar_alignment_exp f < 4.

Theorem flags_word_reads : forall f, fields_fit f ->
  fs_element (pack f) = e_id (f_element f) /\
  fs_node (pack f) = f_node f /\
  fs_dvar_alignment_exp (pack f) = f_dvar_alignment_exp f /\
  fs_gvar_alignment_exp (pack f) = f_gvar_alignment_exp f /\
  fs_all (pack f) FLAG_PREFIX = f_prefix f /\
  fs_all (pack f) FLAG_OPEN = f_open f /\
  fs_all (pack f) FLAG_CLOSE = f_close f /\
  fs_all (pack f) FLAG_BASIC = f_basic f /\
  fs_all (pack f) FLAG_DYNAMIC = f_dynamic f /\
  fs_all (pack f) FLAG_VARIANT = f_variant f /\
  fs_all (pack f) FLAG_HANDLE = f_handle f /\
  fs_all (pack f) FLAG_DICT = f_dict f /\
  fs_all (pack f) FLAG_DVAR_UNSUPPORTED = f_dvar_unsupported f /\
  fs_all (pack f) FLAG_DVAR_MISALIGNED = f_dvar_misaligned f.
Proof. exact DbusFlagBitsProofs.word_reads. Qed.
Print Assumptions flags_word_reads.

Theorem flags_word_writes : forall f v, fields_fit f -> v < 4 ->
  fs_set_node (pack f) v = Ok (pack (set_node f v)) /\
  fs_set_gvar_alignment_exp (pack f) v = Ok (pack (set_gvar_alignment_exp f v)) /\
  fs_clear (pack f) FLAG_DICT = pack (put_dict f false) /\
  fs_set (pack f) FLAG_DVAR_UNSUPPORTED = pack (put_unsupported f true) /\
  fs_set (pack f) FLAG_DVAR_MISALIGNED = pack (put_misaligned f true) /\
  fs_clear (pack f) FLAG_DVAR_MISALIGNED = pack (put_misaligned f false).
Proof. exact DbusFlagBitsProofs.word_writes. Qed.
Print Assumptions flags_word_writes.

Theorem flags_word_propagates : forall up this, fields_fit up -> fields_fit this ->
  fs_set (pack up) (N.land (pack this)
    (N.lor (N.lor (N.lor FLAG_DYNAMIC FLAG_HANDLE) FLAG_DVAR_UNSUPPORTED) FLAG_DVAR_MISALIGNED))
  = pack (propagate_flags up this).
Proof. exact DbusFlagBitsProofs.propagate_ok. Qed.
Print Assumptions flags_word_propagates.

Theorem flags_word_unique : forall f g, fields_fit f -> fields_fit g -> pack f = pack g -> f = g.
Proof. exact DbusFlagBitsProofs.pack_inj. Qed.
Print Assumptions flags_word_unique.

(** The table of elements: its assertions hold and no word is zero. *)
Theorem flags_table : forall e, exists flags,
  fs_with e (f_dvar_alignment_exp (e_flags e)) (f_gvar_alignment_exp (e_flags e)) flags = Ok (pack (e_flags e)) /\
  fields_fit (e_flags e) /\ pack (e_flags e) <> 0 /\ f_element (e_flags e) = e.
Proof. exact DbusFlagBitsProofs.table. Qed.
Print Assumptions flags_table.
Example flags_word_ex : fields_fit (set_node (e_flags EArray) 3) /\ pack (set_node (e_flags EArray) 3) = 157071.
Proof. split; [repeat split|]; reflexivity. Qed.

(** The 16-bit word of the small node. *)
Theorem node8_word : forall o p l, o < 32 -> p < 32 -> l < 32 ->
  exists w, opl o p l = Ok w /\ w < 2 ^ 16 /\
    opl_offset w = o /\ opl_position w = p /\ opl_length w = l.
Proof. exact DbusFlagBitsProofs.opl_ok. Qed.
Print Assumptions node8_word.
