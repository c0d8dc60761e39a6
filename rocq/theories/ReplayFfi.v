(** The tests of lib/tmp/src/fmt/dbus/element.rs, lib/osi/src/mem.rs,
    lib/osi/src/ffi/endian.rs, lib/osi/src/ffi/integer.rs,
    lib/osi/src/ffi/pointer.rs, and [basic_nonnull4] of
    lib/osi/src/ptr.rs, run on the model. *)
From Verif Require Import Base DbusElement DbusFlagBits ElemModel.
From Verif Require FfiSpec LayModel FfiModel WrapModel MemSpec MemModel PtrModel.
Local Open Scope N_scope.
Local Open Scope res_scope.

(** The elements in the order of lib/tmp/src/fmt/dbus/element.rs:121-145. *)
Definition all : list Element :=
  [EU8; EU16; EI16; EU32; EI32; EU64; EI64; EF64; EBool; EString; EObject; ESignature; EHandle;
   EVariant; EArray; EMaybe; EStructOpen; EStructClose; EDictOpen; EDictClose].

(** lib/tmp/src/fmt/dbus/element.rs:551-600, [flags]. *)
Example replay_flags :
  (do v <- fs_with EString 1 2 (N.lor FLAG_BASIC FLAG_DYNAMIC);
   let v1 := fs_set v FLAG_VARIANT in
   let v2 := fs_set v (N.lor FLAG_VARIANT FLAG_HANDLE) in
   do v3 <- fs_set_node v 3;
   do v4 <- fs_set_node v3 0;
   do v5 <- fs_set_gvar_alignment_exp v 3;
   do v6 <- fs_set_gvar_alignment_exp v5 2;
   Ok (fs_element v, fs_dvar_alignment_exp v, fs_gvar_alignment_exp v, fs_node v,
       map (fs_all v) [FLAG_BASIC; FLAG_DYNAMIC; N.lor FLAG_BASIC FLAG_DYNAMIC; FLAG_HANDLE; FLAG_VARIANT;
                       N.lor FLAG_BASIC FLAG_HANDLE],
       (fs_all v1 FLAG_VARIANT, v1 =? N.lor v FLAG_VARIANT, fs_clear v1 FLAG_VARIANT =? v),
       (fs_all v2 (N.lor FLAG_VARIANT FLAG_HANDLE), v2 =? N.lor (N.lor v FLAG_VARIANT) FLAG_HANDLE,
        fs_clear v2 (N.lor FLAG_VARIANT FLAG_HANDLE) =? v),
       (fs_node v3, v4 =? v), (fs_gvar_alignment_exp v5, v6 =? v)))
  = Ok (e_id EString, 1, 2, 0, [true; true; true; false; false; false],
        (true, true, true), (true, true, true), (3, true), (3, true)).
Proof. reflexivity. Qed.

(** lib/tmp/src/fmt/dbus/element.rs:602-638, [flags_overlap]. *)
Example replay_flags_overlap :
  let flags := [FLAG_PREFIX; FLAG_OPEN; FLAG_CLOSE; FLAG_BASIC; FLAG_DYNAMIC; FLAG_VARIANT; FLAG_HANDLE;
                FLAG_DICT; FLAG_DVAR_UNSUPPORTED; FLAG_DVAR_MISALIGNED] in
  let masks := [FLAG_ELEMENT_MASK; FLAG_NODE_MASK; FLAG_DVAR_ALIGNMENT_MASK; FLAG_GVAR_ALIGNMENT_MASK] in
  fold_left N.lor flags 0 = fold_left N.add flags 0
  /\ forallb (fun i => forallb (fun j => (i =? j) || (N.land i j =? 0)) masks) masks = true
  /\ fold_left N.lor masks 0 = FLAG_PREFIX - 1.
Proof. repeat split. Qed.

(** lib/tmp/src/fmt/dbus/element.rs:642-683, [flags_mask_limit] and the tests
    that have to panic. *)
Example replay_flags_mask_limit :
  match fs_with EU64 0 0 0 with
  | Ok v => map (fun n => match fs_set_node v n with Ok _ => true | _ => false end) [0; 1; 2; 3; 4; 128]
            = [true; true; true; true; false; false]
  | _ => False
  end
  /\ map (fun a => match fs_with EU64 (fst a) (snd a) 0 with Panic => true | _ => false end)
       [(0, 0); (3, 0); (0, 3); (4, 0); (128, 0); (0, 4); (0, 128)]
     = [false; false; false; true; true; true; true].
Proof. split; reflexivity. Qed.

(** lib/tmp/src/fmt/dbus/element.rs:688-706, [elements_reserved]: NUL, [r], [e],
    [*], [?], [@], [&] and [^]. *)
Example replay_elements_reserved :
  map from_code [0; 114; 101; 42; 63; 64; 38; 94] = repeat None 8.
Proof. reflexivity. Qed.

(** lib/tmp/src/fmt/dbus/element.rs:710-806, [elements_consistency]. *)
Definition consistent (i : nat) (e : Element) : bool :=
  let is x y := e_id x =? e_id y in
  let among l := existsb (is e) l in
  negb (e_id e =? 0)
  && match e_from_id (e_id e) with Some f => is f e | None => false end
  && match from_code (e_code e) with Some f => is f e | None => false end
  && (e_char e =? e_code e)
  && match e_str e with [c] => c =? e_code e | _ => false end
  && (fs_element (e_word e) =? e_id e)
  && (e_id e =? N.of_nat i + 1)
  && match e_pair e with
     | Some p => negb (is p e) && match e_pair p with Some q => is q e | None => false end
                 && e_any e (N.lor FLAG_OPEN FLAG_CLOSE)
     | None => negb (e_all e FLAG_CLOSE)
     end
  && Bool.eqb (e_all e FLAG_PREFIX) (negb (e_all e FLAG_CLOSE))
  && implb (e_all e FLAG_OPEN) (among [EArray; EMaybe; EStructOpen; EDictOpen])
  && implb (e_all e FLAG_CLOSE) (among [EStructClose; EDictClose])
  && negb (e_all e (N.lor FLAG_OPEN FLAG_CLOSE)).
Example replay_elements_consistency :
  length all = 20%nat /\ map (fun p => consistent (fst p) (snd p)) (List.combine (seq 0 20) all) = repeat true 20.
Proof. split; reflexivity. Qed.

(** ** lib/osi/src/mem.rs *)
Module Mem.
Import FfiSpec FfiModel.

(** The bytes of an unsigned number of [n] bytes on a little-endian host. *)
Definition uint (n : nat) : raw := {| int := {| signed := false; width := n |}; nonzero := false |}.
Definition obj (n : nat) (v : N) : LayModel.mem := store LittleFirst (uint n) (Z.of_N v).

(** lib/osi/src/mem.rs:304-342, [transmute_copy_uninit_const] and
    [transmute_copy_uninit_mismatch]: into a larger type and back. *)
Example replay_transmute :
  load LittleFirst (uint 4) (transmute_copy_uninit 4 (obj 4 71)) = Some 71%Z
  /\ load LittleFirst (uint 2) (transmute_copy_uninit 2 (transmute_copy_uninit 4 (obj 2 71))) = Some 71%Z
  /\ load LittleFirst (uint 4) (transmute_copy_uninit 4 (obj 2 71)) = None
  /\ load LittleFirst (uint 2) (transmute_copy_uninit 2 (transmute_copy_uninit 2 (obj 2 71))) = Some 71%Z.
Proof. repeat split. Qed.

(** lib/osi/src/mem.rs:346-355, [bswap_basic]. *)
Example replay_bswap :
  bswap_copy LittleFirst (obj 1 0x12) = Some (obj 1 0x12)
  /\ bswap_copy LittleFirst (obj 2 0x1234) = Some (obj 2 0x3412)
  /\ bswap_copy LittleFirst (obj 4 0x12345678) = Some (obj 4 0x78563412)
  /\ bswap_copy LittleFirst (obj 8 0x0011223344556677) = Some (obj 8 0x7766554433221100)
  /\ bswap_copy LittleFirst (obj 16 0x00112233445566778899101112131415)
     = Some (obj 16 0x15141312111099887766554433221100)
  /\ bswap_copy LittleFirst [Some 0x00; Some 0x11; Some 0x22] = Some [Some 0x22; Some 0x11; Some 0x00].
Proof. repeat split. Qed.

(** lib/osi/src/mem.rs:378-393, [byte_alias]: an unsigned number of two bytes
    at address 4. *)
Example replay_byte_alias :
  let t := {| MemSpec.size := 2; MemSpec.align := 2 |} in
  let w0 : MemSpec.memory := fun a => if (4 <=? a)%nat && (a <? 6)%nat then Some (MemSpec.Byte 0xf0) else None in
  match MemModel.as_bytes w0 t 4, MemModel.as_bytes_mut w0 t 4 with
  | Some s, Some m =>
    map (MemModel.index w0 s) [0; 1; 2]%nat = [Some 0xf0; Some 0xf0; None]
    /\ match MemModel.assign w0 m 0 0x0f with
       | Some w1 =>
         match MemModel.assign w1 m 1 0x0f with
         | Some w2 => MemModel.contents w2 s = Some [0x0f; 0x0f]
         | None => False
         end
       | None => False
       end
  | _, _ => False
  end.
Proof. split; reflexivity. Qed.

(** lib/osi/src/mem.rs:397-408, [byte_eq], with the objects side by side. *)
Example replay_byte_eq :
  let w : MemSpec.memory := fun a =>
    option_map MemSpec.Byte (nth_error [0xf0; 0xf0; 0xf0; 0xf0; 0xf0; 0x00; 0xf0; 0x00; 0xf0; 0xf0; 0x00; 0x00]%N a) in
  let t n := {| MemSpec.size := n; MemSpec.align := n |} in
  map (fun o => MemModel.mem_eq w (t 2%nat) (t (fst o)) 0%nat (snd o)) [(2, 0); (2, 2); (2, 4); (4, 8); (4, 4)]%nat
  = [Some true; Some true; Some false; Some false; Some false].
Proof. reflexivity. Qed.

(** lib/osi/src/ffi/endian.rs:569-595, [basic], on hosts of both orders. *)
Definition r : Z := 1020304050.
Example replay_endian : forall h, 
  match make h BigEndian (uint 4) 4 r, make h LittleEndian (uint 4) 4 r with
  | Some b, Some l =>
    value h BigEndian (uint 4) b = Some r /\ value h LittleEndian (uint 4) l = Some r /\ b <> l
    /\ end_eq h BigEndian (uint 4) b b = Some true
    /\ match make h BigEndian (uint 4) 4 (r + 1), make h LittleEndian (uint 4) 4 (r + 1) with
       | Some b', Some l' => end_cmp h BigEndian (uint 4) b b' = Some Lt /\ end_cmp h LittleEndian (uint 4) l l' = Some Lt
       | _, _ => False
       end
  | _, _ => False
  end
  /\ load h (uint 4) (to_raw 4 (from_raw 4 (store h (uint 4) r))) = Some r
  /\ value h BigEndian (uint 4) (from_raw 4 (store h (uint 4) r))
     <> value h LittleEndian (uint 4) (from_raw 4 (store h (uint 4) r)).
Proof. intros []; vm_compute; repeat split; discriminate. Qed.

(** lib/osi/src/ffi/endian.rs:599-637, [unaligned]: the same in integers of
    alignment 1 and 8. *)
Example replay_unaligned : forall h, 
  forallb (fun a => forallb (fun w =>
    let s := WrapModel.IntegerOf (WrapModel.Value w) a in
    match WrapModel.wrap h (uint 4) 4 s r with
    | Some m => match WrapModel.nest_value h (uint 4) s m with Some z => (z =? r)%Z | None => false end
                && match load h (uint 4) (to_raw 4 (from_raw (length m) (store h (uint 4) r))) with
                   | Some z => (z =? r)%Z | None => false end
    | None => false
    end) [BigEndian; LittleEndian]) [1; 8]%nat = true.
Proof. intros []; reflexivity. Qed.

(** lib/osi/src/ffi/integer.rs:326-386, [typeinfo_basic] and
    [typeinfo_complex]: size and alignment of integers of each width. *)
Example replay_integer_layout :
  map (fun p => let t := integer_ty (LayModel.Prim (fst p) (fst p)) (snd p) in (LayModel.size_of t, LayModel.align_of t))
    [(1, 1); (2, 2); (4, 4); (8, 8); (16, 16); (1, 16); (16, 1)]%nat
  = [(1, 1); (2, 2); (4, 4); (8, 8); (16, 16); (16, 16); (16, 1)]%nat.
Proof. reflexivity. Qed.

(** lib/osi/src/ffi/integer.rs:390-415 and lib/osi/src/ffi/pointer.rs:667-680,
    [basic_copy], with a [u16] and a [u64]. *)
Example replay_cells :
  let t := LayModel.Prim 2 2 in
  let v := integer_new t 2 (obj 2 71) in
  integer_get t 2 v = obj 2 71
  /\ integer_get t 2 (integer_set t 2 v (obj 2 73)) = obj 2 73
  /\ let (w, old) := integer_replace t 2 (integer_set t 2 v (obj 2 73)) (obj 2 71) in
     old = obj 2 73 /\ integer_get t 2 w = obj 2 71.
Proof. repeat split. Qed.
End Mem.

(** ** lib/osi/src/ptr.rs *)
Module Ptr.
Import PtrModel.
(** What is looked at between the calls. *)
Definition seen (s : N) : res (N * N * bool * bool) :=
  do a <- get0 64 s; do b <- get1 64 s; Ok (ptr 64 s, meta s, a, b).
(** lib/osi/src/ptr.rs:638-717, [basic_nonnull4], with the two values at any two
    addresses that are multiples of four: here 0x1000 and 0x2004. *)
Example replay_nonnull4 :
  map (fun a => match new a with Some s => s =? a | None => false end)
    [0x1000; 0x2004; 0x1001; 0x1002; 0x1003; 0x1004] = [true; true; false; false; false; true]
  /\ (do s0 <- seen 0x1000;
      do n1 <- set0 64 0x1000 true; do s1 <- seen n1;
      do n2 <- set1 64 n1 true; do s2 <- seen n2;
      do n3 <- set0 64 n2 false; do s3 <- seen n3;
      do n4 <- set1 64 n3 false; do s4 <- seen n4;
      let n5 := set_ptr_unchecked 64 n4 0x2004 in do s5 <- seen n5;
      let n6 := set_meta 64 n5 3 in do s6 <- seen n6;
      let n7 := set_ptr_unchecked 64 n6 0x1000 in do s7 <- seen n7;
      let n8 := set_meta 64 n7 2 in do s8 <- seen n8;
      let n9 := set_ptr_unchecked 64 n8 0x2004 in do s9 <- seen n9;
      Ok [s0; s1; s2; s3; s4; s5; s6; s7; s8; s9])
     = Ok [(0x1000, 0, false, false); (0x1000, 1, true, false); (0x1000, 3, true, true);
           (0x1000, 2, false, true); (0x1000, 0, false, false); (0x2004, 0, false, false);
           (0x2004, 3, true, true); (0x1000, 3, true, true); (0x1000, 2, false, true);
           (0x2004, 2, false, true)].
Proof. split; reflexivity. Qed.
End Ptr.
