(** Model of the memory of a signature: the u64 words of lib/tmp/src/fmt/dbus/
    signature.rs:182-184, which the code reinterprets as nodes.  [big] is the
    byte order of the machine, everywhere below. *)
From Verif Require Import Base DbusElement DbusFlagBits.
Local Open Scope N_scope.
Local Open Scope res_scope.

(** Rust semantics: an integer of n bytes in memory, as in the structs at
    signature.rs:132-149. *)
Fixpoint store_le (n : nat) (v : N) : list N :=
  match n with O => [] | S n => v mod 256 :: store_le n (v / 256) end.
(** Rust semantics, for signature.rs:132-149: as above, in the byte order of
    the machine. *)
Definition store_int (big : bool) (n : nat) (v : N) : list N :=
  if big then rev (store_le n v) else store_le n v.
(** Rust semantics: reading an integer, as at signature.rs:816. *)
Fixpoint load_le (l : list N) : N :=
  match l with [] => 0 | b :: l => b + 256 * load_le l end.
(** Rust semantics, for signature.rs:816: as above, in the byte order of the
    machine. *)
Definition load_int (big : bool) (l : list N) : N := load_le (if big then rev l else l).

(** signature.rs:151-155 NodeRef: the fields of Node8 (132-139) or of Node64
    (141-149), with the flags as the u32 of element.rs:99. *)
Inductive NodeRef :=
| Node8 (flags offset_position_length dvar_size gvar_size : N)
| Node64 (flags pad0 offset position length dvar_size gvar_size : N).

(** The bytes of a slice of words. Rust semantics, for the casts at
    signature.rs:387 and 411. *)
Definition memory (big : bool) (ws : list N) : list N := flat_map (store_int big 8) ws.
(** [n] bytes at offset [at_], for the casts at signature.rs:387 and 411. *)
Definition span (m : list N) (at_ n : nat) : list N := firstn n (skipn at_ m).
(** The struct at signature.rs:130-139, #[repr(C)]: its fields in order, which
    leaves no padding. *)
Definition load_node8 (big : bool) (m : list N) (at_ : nat) : NodeRef :=
  Node8 (load_int big (span m at_ 4)) (load_int big (span m (at_ + 4) 2))
        (load_int big (span m (at_ + 6) 1)) (load_int big (span m (at_ + 7) 1)).
(** The struct at signature.rs:141-149, #[repr(C)]. *)
Definition load_node64 (big : bool) (m : list N) (at_ : nat) : NodeRef :=
  Node64 (load_int big (span m at_ 4)) (load_int big (span m (at_ + 4) 4))
         (load_int big (span m (at_ + 8) 8)) (load_int big (span m (at_ + 16) 8))
         (load_int big (span m (at_ + 24) 8)) (load_int big (span m (at_ + 32) 8))
         (load_int big (span m (at_ + 40) 8)).
(** The words that a node fills when it is written (signature.rs:491), as the
    structs are laid out: Node8 has the size of one, Node64 that of six. *)
Definition node_words (big : bool) (n : NodeRef) : list N :=
  match n with
  | Node8 f opl d g =>
    [load_int big (store_int big 4 f ++ store_int big 2 opl ++ store_int big 1 d ++ store_int big 1 g)]
  | Node64 f pad o p l d g => [load_int big (store_int big 4 f ++ store_int big 4 pad); o; p; l; d; g]
  end.

(** signature.rs:340 SIZE_COEFF of the node with the given id
    (signature.rs:693-694). *)
Definition coeff_of (id : N) : N := if id =? 0 then 1 else 6.
(** signature.rs:407-419 derive: node [i], of the node type with id [id]. *)
Definition derive_nth (big : bool) (id : N) (ws : list N) (i : N) : NodeRef :=
  if id =? 0 then load_node8 big (memory big ws) (8 * N.to_nat i)
  else load_node64 big (memory big ws) (48 * N.to_nat i).
(** signature.rs:408, the number of nodes. *)
Definition derive_len (id : N) (ws : list N) : N := N.of_nat (length ws) / coeff_of id.

(** signature.rs:383-398 derive_uninit and 491: writing node [i] of words that
    may be uninitialised; a panic beyond the last one. *)
Definition word_wr (big : bool) (id : N) (ws : list (option N)) (i : N) (n : NodeRef) : res (list (option N)) :=
  let c := N.to_nat (coeff_of id) in
  assert! i <? N.of_nat (length ws) / coeff_of id;
  Ok (firstn (c * N.to_nat i) ws ++ map Some (node_words big n) ++ skipn (c * N.to_nat i + c) ws).
(** All of the given words, if they are initialised. Rust semantics, the safety
    condition at signature.rs:402-406. *)
Fixpoint init (ws : list (option N)) : res (list N) :=
  match ws with
  | [] => Ok []
  | None :: _ => Panic
  | Some w :: ws => do l <- init ws; Ok (w :: l)
  end.
(** signature.rs:428, 443: reading node [i]; to read uninitialised memory is
    counted as a panic. *)
Definition word_rd (big : bool) (id : N) (ws : list (option N)) (i : N) : res NodeRef :=
  let c := N.to_nat (coeff_of id) in
  assert! i <? N.of_nat (length ws) / coeff_of id;
  do l <- init (firstn c (skipn (c * N.to_nat i) ws));
  Ok (derive_nth big id l 0).

(** signature.rs:296-303 NodeRef::flags. *)
Definition ref_flags (n : NodeRef) : N :=
  match n with Node8 f _ _ _ => f | Node64 f _ _ _ _ _ _ => f end.
(** signature.rs:305-310 NodeRef::offset, by 232-234 and 276-278. *)
Definition ref_offset (n : NodeRef) : N :=
  match n with Node8 _ w _ _ => opl_offset w | Node64 _ _ o _ _ _ _ => o end.
(** signature.rs:312-317 NodeRef::position, by 236-238 and 280-282. *)
Definition ref_position (n : NodeRef) : N :=
  match n with Node8 _ w _ _ => opl_position w | Node64 _ _ _ p _ _ _ => p end.
(** signature.rs:319-324 NodeRef::length, by 240-242 and 284-286. *)
Definition ref_length (n : NodeRef) : N :=
  match n with Node8 _ w _ _ => opl_length w | Node64 _ _ _ _ l _ _ => l end.
(** The field `dvar_size` of signature.rs:137 and 147. *)
Definition ref_dvar_size (n : NodeRef) : N :=
  match n with Node8 _ _ d _ => d | Node64 _ _ _ _ _ d _ => d end.
(** The field `gvar_size` of signature.rs:138 and 148. *)
Definition ref_gvar_size (n : NodeRef) : N :=
  match n with Node8 _ _ _ g => g | Node64 _ _ _ _ _ _ g => g end.
(** signature.rs:326-331 NodeRef::coeff, by 244-246 and 288-290. *)
Definition ref_coeff (n : NodeRef) : N :=
  match n with Node8 _ _ _ _ => coeff_of 0 | Node64 _ _ _ _ _ _ _ => coeff_of 3 end.

(** signature.rs:809-818 flags: the first u32 in the memory of the first
    word. *)
Definition word_flags (big : bool) (ws : list N) : res N :=
  match ws with
  | [] => Panic
  | w :: _ => Ok (load_int big (span (store_int big 8 w) 0 4))
  end.
(** signature.rs:824-830 len. *)
Definition word_len (big : bool) (ws : list N) : res N :=
  do f <- word_flags big ws;
  if fs_node f =? 0 then Ok (N.of_nat (length ws) / coeff_of 0)
  else if fs_node f =? 3 then Ok (N.of_nat (length ws) / coeff_of 0)
  else Panic.
(** signature.rs:832-844 node_at. *)
Definition word_node_at (big : bool) (ws : list N) (idx : N) : res (option NodeRef) :=
  do f <- word_flags big ws;
  if fs_node f =? 0 then
    Ok (if idx <? derive_len 0 ws then Some (derive_nth big 0 ws idx) else None)
  else if fs_node f =? 3 then
    Ok (if idx <? derive_len 3 ws then Some (derive_nth big 3 ws idx) else None)
  else Panic.
(** usize strict_mul, the standard library's, called at signature.rs:864-865. *)
Definition strict_mul (a b : N) : res N := assert! a * b <? 2 ^ 64; Ok (a * b).
(** slice::split_at, the standard library's, called at signature.rs:864-865; it
    panics beyond the end. *)
Definition split_at (ws : list N) (mid : N) : res (list N * list N) :=
  assert! mid <=? N.of_nat (length ws);
  Ok (firstn (N.to_nat mid) ws, skipn (N.to_nat mid) ws).
(** signature.rs:846-868 at. *)
Definition word_at (big : bool) (ws : list N) (idx : N) : res (option (list N)) :=
  do o <- word_node_at big ws idx;
  match o with
  | None => Ok None
  | Some node =>
    if negb (fs_all (ref_flags node) FLAG_PREFIX) then Ok None
    else
      do start <- strict_mul idx (ref_coeff node);
      do rest <- split_at ws start;
      do n <- strict_mul (ref_length node) (ref_coeff node);
      do sub <- split_at (snd rest) n;
      Ok (Some (fst sub))
  end.
(** element.rs:397-404 from_id: the element with the given id; transmuting any
    other id is undefined behaviour, counted as a panic. *)
Definition from_id (id : N) : res Element :=
  match find (fun e => e_id e =? id)
    [EU8; EU16; EI16; EU32; EI32; EU64; EI64; EF64; EBool; EString; EObject; ESignature; EHandle;
     EVariant; EArray; EMaybe; EStructOpen; EStructClose; EDictOpen; EDictClose] with
  | Some e => Ok e
  | None => Panic
  end.
(** signature.rs:1023-1025 element_at, on the words: `code` of the element. *)
Definition word_code_at (big : bool) (ws : list N) (idx : N) : res (option N) :=
  do o <- word_node_at big ws idx;
  match o with
  | None => Ok None
  | Some node => do e <- from_id (fs_element (ref_flags node)); Ok (Some (e_code e))
  end.
