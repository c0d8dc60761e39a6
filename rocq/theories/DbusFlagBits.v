(** Model of the packed representation of flags and of the small node
    (lib/tmp/src/fmt/dbus/element.rs, signature.rs).  The record operations of
    DbusElement.v and DbusSigModel.v are proved to be what these compute, in
    DbusFlagBitsProofs.v. *)
From Verif Require Import Base DbusElement.
Local Open Scope N_scope.
Local Open Scope res_scope.

(** element.rs:49. *)
Definition FLAG_ELEMENT_SHIFT := 0.
(** element.rs:48. *)
Definition FLAG_ELEMENT_MASK := N.shiftl 127 FLAG_ELEMENT_SHIFT.
(** element.rs:54. *)
Definition FLAG_NODE_SHIFT := 7.
(** element.rs:53. *)
Definition FLAG_NODE_MASK := N.shiftl 3 FLAG_NODE_SHIFT.
(** element.rs:58. *)
Definition FLAG_DVAR_ALIGNMENT_SHIFT := 9.
(** element.rs:57. *)
Definition FLAG_DVAR_ALIGNMENT_MASK := N.shiftl 3 FLAG_DVAR_ALIGNMENT_SHIFT.
(** element.rs:62. *)
Definition FLAG_GVAR_ALIGNMENT_SHIFT := 11.
(** element.rs:61. *)
Definition FLAG_GVAR_ALIGNMENT_MASK := N.shiftl 3 FLAG_GVAR_ALIGNMENT_SHIFT.
(** element.rs:64. *)
Definition FLAG_PREFIX := N.shiftl 1 13.
(** element.rs:66. *)
Definition FLAG_OPEN := N.shiftl 1 14.
(** element.rs:68. *)
Definition FLAG_CLOSE := N.shiftl 1 15.
(** element.rs:71. *)
Definition FLAG_BASIC := N.shiftl 1 16.
(** element.rs:74. *)
Definition FLAG_DYNAMIC := N.shiftl 1 17.
(** element.rs:77. *)
Definition FLAG_VARIANT := N.shiftl 1 18.
(** element.rs:80. *)
Definition FLAG_HANDLE := N.shiftl 1 19.
(** element.rs:82. *)
Definition FLAG_DICT := N.shiftl 1 20.
(** element.rs:84. *)
Definition FLAG_DVAR_UNSUPPORTED := N.shiftl 1 21.
(** element.rs:88. *)
Definition FLAG_DVAR_MISALIGNED := N.shiftl 1 22.

(** [a & !b] on u32. As used at element.rs:260-262, 319, 332, 355, 360, 380,
    385 (u32) and signature.rs:206-208 (u16). *)
Definition and_not (a b : N) : N := N.ldiff a b.
(** [v as u8]. As used at element.rs:257-259, 342, 347, 354, 367, 372, 379 and
    signature.rs:233-241. *)
Definition as_u8 (v : N) : N := v mod 256.

(** element.rs:244-271 with. *)
Definition fs_with (e : Element) (dva gva flags : N) : res N :=
  let el_mask := N.shiftl (e_id e) FLAG_ELEMENT_SHIFT in
  let dv_mask := N.shiftl dva FLAG_DVAR_ALIGNMENT_SHIFT in
  let gv_mask := N.shiftl gva FLAG_GVAR_ALIGNMENT_SHIFT in
  assert! N.land flags FLAG_ELEMENT_MASK =? 0;
  assert! N.land flags FLAG_DVAR_ALIGNMENT_MASK =? 0;
  assert! N.land flags FLAG_GVAR_ALIGNMENT_MASK =? 0;
  assert! as_u8 (N.shiftr el_mask FLAG_ELEMENT_SHIFT) =? e_id e;
  assert! as_u8 (N.shiftr dv_mask FLAG_DVAR_ALIGNMENT_SHIFT) =? dva;
  assert! as_u8 (N.shiftr gv_mask FLAG_GVAR_ALIGNMENT_SHIFT) =? gva;
  assert! and_not el_mask FLAG_ELEMENT_MASK =? 0;
  assert! and_not dv_mask FLAG_DVAR_ALIGNMENT_MASK =? 0;
  assert! and_not gv_mask FLAG_GVAR_ALIGNMENT_MASK =? 0;
  Ok (N.lor (N.lor (N.lor flags el_mask) dv_mask) gv_mask).
(** element.rs:289-291 all. *)
Definition fs_all (w flags : N) : bool := N.land w flags =? flags.
(** element.rs:299-301 any. *)
Definition fs_any (w flags : N) : bool := negb (N.land w flags =? 0).
(** element.rs:315-322 set. *)
Definition fs_set (w flags : N) : N := N.lor w (and_not flags FLAG_ELEMENT_MASK).
(** element.rs:328-335 clear. *)
Definition fs_clear (w flags : N) : N := and_not w (and_not flags FLAG_ELEMENT_MASK).
(** element.rs:338-344 element: the id that is transmuted. *)
Definition fs_element (w : N) : N := as_u8 (N.shiftr (N.land w FLAG_ELEMENT_MASK) FLAG_ELEMENT_SHIFT).
(** element.rs:346-348 node. *)
Definition fs_node (w : N) : N := as_u8 (N.shiftr (N.land w FLAG_NODE_MASK) FLAG_NODE_SHIFT).
(** element.rs:351-363 set_node. *)
Definition fs_set_node (w v : N) : res N :=
  let mask := N.shiftl v FLAG_NODE_SHIFT in
  assert! as_u8 (N.shiftr mask FLAG_NODE_SHIFT) =? v;
  assert! and_not mask FLAG_NODE_MASK =? 0;
  Ok (N.lor (and_not w FLAG_NODE_MASK) mask).
(** element.rs:366-368 dvar_alignment_exp. *)
Definition fs_dvar_alignment_exp (w : N) : N :=
  as_u8 (N.shiftr (N.land w FLAG_DVAR_ALIGNMENT_MASK) FLAG_DVAR_ALIGNMENT_SHIFT).
(** element.rs:371-373 gvar_alignment_exp. *)
Definition fs_gvar_alignment_exp (w : N) : N :=
  as_u8 (N.shiftr (N.land w FLAG_GVAR_ALIGNMENT_MASK) FLAG_GVAR_ALIGNMENT_SHIFT).
(** element.rs:376-388 set_gvar_alignment_exp. *)
Definition fs_set_gvar_alignment_exp (w v : N) : res N :=
  let mask := N.shiftl v FLAG_GVAR_ALIGNMENT_SHIFT in
  assert! as_u8 (N.shiftr mask FLAG_GVAR_ALIGNMENT_SHIFT) =? v;
  assert! and_not mask FLAG_GVAR_ALIGNMENT_MASK =? 0;
  Ok (N.lor (and_not w FLAG_GVAR_ALIGNMENT_MASK) mask).

(** signature.rs:199-211 Node8::opl, on u16. *)
Definition opl (offset position length : N) : res N :=
  let o_mask := N.shiftl offset 0 mod 2 ^ 16 in
  let p_mask := N.shiftl position 5 mod 2 ^ 16 in
  let l_mask := N.shiftl length 10 mod 2 ^ 16 in
  assert! and_not o_mask (N.shiftl 31 0) =? 0;
  assert! and_not p_mask (N.shiftl 31 5) =? 0;
  assert! and_not l_mask (N.shiftl 31 10) =? 0;
  Ok (N.lor (N.lor o_mask p_mask) l_mask).
(** signature.rs:232-234 offset. *)
Definition opl_offset (w : N) : N := as_u8 (N.land (N.shiftr w 0) 31).
(** signature.rs:236-238 position. *)
Definition opl_position (w : N) : N := as_u8 (N.land (N.shiftr w 5) 31).
(** signature.rs:240-242 length. *)
Definition opl_length (w : N) : N := as_u8 (N.land (N.shiftr w 10) 31).

(** The word that represents a record of flags. Not in the code: the value of
    consecutive bits of the layout at element.rs:64-88, lowest first. *)
Definition pack_bools (l : list bool) : N := fold_right (fun b w => N.b2n b + 2 * w) 0 l.
(** Not in the code: the u32 laid out as at element.rs:48-88, relating the
    record [FlagSet] of DbusElement.v to the word. *)
Definition pack (f : FlagSet) : N :=
  e_id (f_element f) + 2 ^ 7 * (f_node f + 4 * (f_dvar_alignment_exp f + 4 * (f_gvar_alignment_exp f + 4 *
  pack_bools [f_prefix f; f_open f; f_close f; f_basic f; f_dynamic f; f_variant f; f_handle f; f_dict f;
              f_dvar_unsupported f; f_dvar_misaligned f]))).
