(** Model of the signature parser and of signatures in
    lib/tmp/src/fmt/dbus/signature.rs. *)
From Verif Require Import Base.
From Verif Require Export DbusElement.
Local Open Scope N_scope.
Local Open Scope res_scope.

(** signature.rs:85-128 Error. *)
Inductive Error :=
| DataExceeded
| SignatureEmpty
| SignatureSequence (break_idx : N)
| SignatureIncomplete (container_idx : N)
| ElementInvalid (idx code : N)
| ElementUnknown (position code : N)
| ElementUnpaired (idx : N)
| ElementMispaired (idx pair_idx : N) (expected : option Element)
| DictInvalid (position : N).

(** signature.rs:132-149 Node8 and Node64.  One record for both: Node8 packs
    offset, position and length into 5 bits each (see [opl] below and
    DbusFlagBits.v), Node64 has a field for each. *)
Record Node := mkNode {
  n_flags : FlagSet;
  n_offset : N;
  n_position : N;
  n_length : N;
  n_dvar_size : N;
  n_gvar_size : N;
}.

(** What distinguishes the two instantiations of impl_node! (signature.rs:
    334-692): the range of the integer type, the largest value of the fields
    offset, position and length (signature.rs:201-211 [opl] asserts five bits
    each), the node id, and the number of u64 a node occupies (signature.rs:340;
    8 and 48 bytes). *)
Record kind := Kind { int_max : N; field_max : N; node_id : N; size_coeff : N }.
(** signature.rs:693 impl_node!(Node8, u8, 0); 31 is the mask at
    signature.rs:206-208. *)
Definition node8 : kind := Kind 255 31 0 1.
(** signature.rs:694 impl_node!(Node64, u64, 3); the fields are plain u64
    (signature.rs:141-149). *)
Definition node64 : kind := Kind (2 ^ 64 - 1) (2 ^ 64 - 1) 3 6.
(** signature.rs:341-348 LENGTH_MAX (usize is 64 bit wide). *)
Definition length_max (k : kind) : N := int_max k / 8.

(** u8/u64 strict_sub, strict_add. Library functions used at signature.rs:433,
    498, 545, 569, 583, 1059, 1074, 1103; outside the range they panic. *)
Definition strict_sub (a b : N) : res N := assert! b <=? a; Ok (a - b).
(** Library function used at signature.rs:575, 594, 658, 663; also the checked
    `+ 1` at signature.rs:515, 588, 652. *)
Definition strict_add (k : kind) (a b : N) : res N := assert! a + b <=? int_max k; Ok (a + b).
(** next_multiple_of; overflow is a panic (debug builds). Library function
    used at signature.rs:655, 660. *)
Definition next_multiple_of (k : kind) (a m : N) : res N :=
  let r := if a mod m =? 0 then a else a + (m - a mod m) in
  assert! r <=? int_max k; Ok r.

(** signature.rs:213-226, 254-270 with. *)
Definition node_with (k : kind) (e : Element) (offset position : N) : res Node :=
  assert! offset <=? field_max k;
  assert! position <=? field_max k;
  Ok (mkNode (set_node (e_flags e) (node_id k)) offset position 1 (e_dvar_size e) (e_gvar_size e)).
(** signature.rs:248-250, 292-294 set_length. *)
Definition set_length (k : kind) (n : Node) (v : N) : res Node :=
  assert! v <=? field_max k;
  Ok (mkNode (n_flags n) (n_offset n) (n_position n) v (n_dvar_size n) (n_gvar_size n)).
(** The assignments through `this.flags` and `up.flags` at
    signature.rs:554-637. *)
Definition set_flags (n : Node) (f : FlagSet) : Node :=
  mkNode f (n_offset n) (n_position n) (n_length n) (n_dvar_size n) (n_gvar_size n).
(** The assignments to `dvar_size` and `gvar_size` at signature.rs:655-663. *)
Definition set_sizes (n : Node) (d g : N) : Node :=
  mkNode (n_flags n) (n_offset n) (n_position n) (n_length n) d g.
(** signature.rs:365-367 element. *)
Definition n_element (n : Node) : Element := f_element (n_flags n).

(** The buffer `&mut [MaybeUninit<Self>]`: [None] is an uninitialized entry.
    An index out of range panics; reading an uninitialized entry, undefined in
    Rust, is counted as a panic too and proved not to happen.
    signature.rs:447-448, the parameter `nodes` of parse. *)
Definition buffer := list (option Node).
(** signature.rs:429, 442: `&mut *nodes[idx].as_mut_ptr()`. *)
Definition rd (nodes : buffer) (i : N) : res Node :=
  match nth_error nodes (N.to_nat i) with Some (Some n) => Ok n | _ => Panic end.
(** signature.rs:491: `nodes[this_idx].write(..)`, and every later assignment
    through a reference obtained at signature.rs:514, 581, 648. *)
Definition wr (nodes : buffer) (i : N) (n : Node) : res buffer :=
  assert! i <? N.of_nat (length nodes); Ok (upd nodes (N.to_nat i) (Some n)).

Section Parse.
Context (k : kind).

(** signature.rs:424-445 parse_goto: references are indices; returns
    [this_idx, o_up_idx] ([o_up] is the reference to [o_up_idx]). *)
Definition parse_goto (idx : N) (nodes : buffer) : res (N * option N) :=
  do this <- rd nodes idx;
  if n_offset this =? 0 then Ok (idx, None)
  else do up_idx <- strict_sub idx (n_offset this);
       do _ <- rd nodes up_idx;
       Ok (idx, Some up_idx).

(** signature.rs:594-637: what a completed type [this] does to its container
    [up], except for the sizes; returns both. *)
Definition merge (this up : Node) : res (Node * Node) :=
  do l <- strict_add k (n_length up) (n_length this);
  do up <- set_length k up l;
  let this := if 3 <=? f_dvar_alignment_exp (n_flags this)
              then set_flags this (put_misaligned (n_flags this) false) else this in
  let up := if f_dvar_alignment_exp (n_flags up) <? f_dvar_alignment_exp (n_flags this)
            then set_flags up (put_misaligned (n_flags up) true) else up in
  let v := f_gvar_alignment_exp (n_flags this) in
  let up := if f_gvar_alignment_exp (n_flags up) <? v
            then set_flags up (set_gvar_alignment_exp (n_flags up) v) else up in
  let up := set_flags up (propagate_flags (n_flags up) (n_flags this)) in
  let up := if f_dict (n_flags up) && (n_position this =? 0) && negb (f_basic (n_flags this))
            then set_flags up (put_dict (n_flags up) false) else up in
  Ok (this, up).

(** signature.rs:654-663: accumulating the sizes of the members of an unbound
    container. *)
Definition merge_size (this up : Node) : res Node :=
  do d <- next_multiple_of k (n_dvar_size up) (2 ^ f_dvar_alignment_exp (n_flags this));
  do d <- strict_add k d (n_dvar_size this);
  do g <- next_multiple_of k (n_gvar_size up) (2 ^ f_gvar_alignment_exp (n_flags this));
  do g <- strict_add k g (n_gvar_size this);
  Ok (set_sizes up d g).

(** Option::is_some/is_none as used at signature.rs:644, 654, 1079. *)
Definition is_some {A} (o : option A) : bool := match o with Some _ => true | None => false end.

(** signature.rs:591-668: the loop `while let Some(up) = o_up`.  Every
    iteration moves to a smaller index, so [this_idx] iterations suffice. *)
Fixpoint propagate (fuel : nat) (this_idx : N) (o_up_idx o_up : option N) (position : N)
    (nodes : buffer) : res (option N * N * buffer) :=
  match o_up with
  | None => Ok (o_up_idx, position, nodes)
  | Some up_idx =>
    match fuel with
    | O => NoFuel
    | S fuel =>
      do this <- rd nodes this_idx;
      do up <- rd nodes up_idx;
      do '(this, up) <- merge this up;
      do nodes <- wr nodes this_idx this;
      do nodes <- wr nodes up_idx up;
      if f_open (n_flags up) && negb (is_some (e_pair (n_element up))) then
        match o_up_idx with
        | None => Panic
        | Some i =>
          do '(this_idx, o_up_idx) <- parse_goto i nodes;
          do this <- rd nodes this_idx;
          do position <- strict_add k (n_position this) 1;
          propagate fuel this_idx o_up_idx o_up_idx position nodes
        end
      else
        do up <- (if f_open (n_flags up) && is_some (e_pair (n_element up))
                  then merge_size this up else Ok up);
        do nodes <- wr nodes up_idx up;
        Ok (o_up_idx, position, nodes)
    end
  end.

(** The variables carried by the main loop. signature.rs:451-453: `position`,
    `o_up_idx` and the buffer. *)
Record state := St { st_position : N; st_up : option N; st_nodes : buffer }.

(** What one iteration of the main loop does: return, or go on.
    signature.rs:463-684: `continue` or falling through (527, 684), `return
    Ok` (682), `return Err` (477-678). *)
Inductive outcome :=
| Go (s : state)
| Done (nodes : buffer)
| Fail (e : Error).

(** signature.rs:591-684: after a complete type at [this_idx]. *)
Definition completed (len signature_idx this_idx : N) (o_up_idx o_up : option N)
    (position : N) (nodes : buffer) : res outcome :=
  do '(o_up_idx, position, nodes) <-
     propagate (S (N.to_nat this_idx)) this_idx o_up_idx o_up position nodes;
  match o_up_idx with
  | None =>
    if negb (signature_idx =? len) then Ok (Fail (SignatureSequence signature_idx))
    else Ok (Done nodes)
  | Some _ => Ok (Go (St position o_up_idx nodes))
  end.

(** signature.rs:537-589: the closing of an unbound container.  On success,
    the container's index and its own container. *)
Definition close (this_idx : N) (o_up : option N) (position : N) (nodes : buffer)
    : res (Error + (N * option N * N * buffer)) :=
  match o_up with
  | None => Ok (inl (ElementUnpaired this_idx))
  | Some up_idx =>
    do this <- rd nodes this_idx;
    do up <- rd nodes up_idx;
    match e_pair (n_element this) with
    | None => Panic
    | Some expected =>
      if negb (e_id expected =? e_id (n_element up)) then
        do i <- strict_sub this_idx (n_offset up);
        Ok (inl (ElementMispaired i this_idx (Some expected)))
      else
        let this := match n_element this with
                    | EStructClose =>
                      if position =? 1 then set_flags this (put_unsupported (n_flags this) true)
                      else this
                    | _ => this
                    end in
        let up := if f_dict (n_flags up) && negb (position =? 3)
                  then set_flags up (put_dict (n_flags up) false) else up in
        do bad <- match n_element this with
                  | EDictClose =>
                    if negb (f_dict (n_flags up)) then
                      do p <- strict_sub this_idx (n_offset this); Ok (Some p)
                    else Ok None
                  | _ => Ok None
                  end;
        match bad with
        | Some p => Ok (inl (DictInvalid p))
        | None =>
          do l <- strict_add k (n_length up) (n_length this);
          do up <- set_length k up l;
          do nodes <- wr nodes this_idx this;
          do nodes <- wr nodes up_idx up;
          do i <- strict_sub this_idx (n_offset this);
          do '(this_idx, o_up_idx) <- parse_goto i nodes;
          do this <- rd nodes this_idx;
          do position <- strict_add k (n_position this) 1;
          Ok (inr (this_idx, o_up_idx, position, nodes))
        end
    end
  end.

(** signature.rs:463-684: one iteration for the character [c] at
    [signature_idx] of a signature of length [len]. *)
Definition iteration (len signature_idx : N) (c : N) (s : state) : res outcome :=
  if negb (c <? 128) then Ok (Fail (ElementInvalid signature_idx c)) else
  match from_code c with
  | None => Ok (Fail (ElementUnknown signature_idx c))
  | Some element =>
    let this_idx := signature_idx in
    do offset <- match st_up s with
                 | Some v => strict_sub this_idx v
                 | None => Ok this_idx
                 end;
    do n <- node_with k element offset (st_position s);
    do nodes <- wr (st_nodes s) this_idx n;
    do '(_, o_up) <- parse_goto this_idx nodes;
    do position <- strict_add k (st_position s) 1;
    let signature_idx := signature_idx + 1 in
    do this <- rd nodes this_idx;
    if f_open (n_flags this) then Ok (Go (St 0 (Some this_idx) nodes))
    else if f_close (n_flags this) then
      do r <- close this_idx o_up position nodes;
      match r with
      | inl e => Ok (Fail e)
      | inr (this_idx, o_up_idx, position, nodes) =>
        completed len signature_idx this_idx o_up_idx o_up_idx position nodes
      end
    else completed len signature_idx this_idx (st_up s) o_up position nodes
  end.

(** signature.rs:462-689: the loop over the signature and the final error. *)
Fixpoint parse_loop (len signature_idx : N) (rest : list N) (s : state)
    : res (Error + buffer) :=
  match rest with
  | [] => match st_up s with
          | None => Panic
          | Some i => Ok (inl (SignatureIncomplete i))
          end
  | c :: rest =>
    do o <- iteration len signature_idx c s;
    match o with
    | Go s => parse_loop len (signature_idx + 1) rest s
    | Done nodes => Ok (inr nodes)
    | Fail e => Ok (inl e)
    end
  end.

(** signature.rs:447-689 parse. *)
Definition node_parse (nodes : buffer) (signature : list N) : res (Error + buffer) :=
  let len := N.of_nat (length signature) in
  if length_max k <? len then Ok (inl DataExceeded)
  else if len <? 1 then Ok (inl SignatureEmpty)
  else parse_loop len 0 signature (St 0 None nodes).
End Parse.

(** signature.rs:709-721 size_for_length, in u64 units; strict_mul and the
    assertion panic. *)
Definition size_for_length (length : N) : res N :=
  if length <=? length_max node8 then Ok (length * size_coeff node8)
  else assert! length <=? length_max node64;
       assert! length * size_coeff node64 <? 2 ^ 64;
       Ok (length * size_coeff node64).

(** signature.rs:745-750: the loop that zeroes the padding.  Its index is
    never advanced, so each iteration sees the same state. *)
Fixpoint pad_loop (fuel : nat) (i pad : N) : res unit :=
  if i <? pad then match fuel with O => NoFuel | S fuel => pad_loop fuel i pad end
  else Ok tt.

(** signature.rs:182-184 Sig: an array of nodes of one kind.  The [u64] words
    of `Sig::nodes` are [length s_nodes * size_coeff s_kind] many (a padding
    never survives, see [pad_loop]). *)
Record Sig := mkSig { s_kind : kind; s_nodes : buffer }.

(** signature.rs:733-753 Sig::parse on a buffer of [data] u64 words.  [fuel]
    bounds the padding loop. *)
Definition sig_parse (fuel : nat) (data : N) (signature : list N) : res (Error + Sig) :=
  let k := if N.of_nat (length signature) <=? length_max node8 then node8 else node64 in
  (* signature.rs:382-397 derive_uninit *)
  let pad := data mod size_coeff k in
  let nodes := repeat None (N.to_nat (data / size_coeff k)) in
  do r <- node_parse k nodes signature;
  match r with
  | inl e => Ok (inl e)
  | inr nodes => do _ <- pad_loop fuel 0 pad; Ok (inr (mkSig k nodes))
  end.

(** signature.rs:762-778 Sig::new (and arc, 787-803, and try_make, 906-928,
    with the array size of the macros at 1225-1255). *)
Definition sig_new (fuel : nat) (signature : list N) : res (Error + Sig) :=
  do size <- size_for_length (N.of_nat (length signature));
  sig_parse fuel size signature.

(** signature.rs:809-818 flags and element.rs node: dispatching on the node id
    of the first node.  Interpreting the nodes of one kind as those of the
    other would be memory-unsafe and is counted as a panic. *)
Definition sig_flags (s : Sig) : res FlagSet := do n <- rd (s_nodes s) 0; Ok (n_flags n).
(** signature.rs:825-828, 833-842: `match self.flags().node()`. *)
Definition sig_kind (s : Sig) : res kind :=
  do f <- sig_flags s;
  do k <- (if f_node f =? node_id node8 then Ok node8
           else if f_node f =? node_id node64 then Ok node64 else Panic);
  assert! node_id k =? node_id (s_kind s); Ok k.
(** `self.nodes.len()`. signature.rs:826-827. *)
Definition words (s : Sig) : N := N.of_nat (length (s_nodes s)) * size_coeff (s_kind s).

(** signature.rs:824-830 len: both branches divide by the size of a Node8. *)
Definition sig_len (s : Sig) : res N :=
  do k <- sig_kind s;
  if node_id k =? node_id node8 then Ok (words s / size_coeff node8)
  else Ok (words s / size_coeff node8).

(** signature.rs:832-844 node_at. *)
Definition node_at (s : Sig) (idx : N) : res (option Node) :=
  do k <- sig_kind s;
  if idx <? words s / size_coeff k then do n <- rd (s_nodes s) idx; Ok (Some n)
  else Ok None.

(** signature.rs:846-868 at.  split_at panics beyond the end. *)
Definition sig_at (s : Sig) (idx : N) : res (option Sig) :=
  do o <- node_at s idx;
  match o with
  | None => Ok None
  | Some node =>
    if negb (f_prefix (n_flags node)) then Ok None
    else
      let len := n_length node in
      let all := N.of_nat (length (s_nodes s)) in
      assert! idx <=? all;
      assert! len <=? all - idx;
      Ok (Some (mkSig (s_kind s)
                  (firstn (N.to_nat len) (skipn (N.to_nat idx) (s_nodes s)))))
  end.

(** signature.rs:194-197, 956-1192 Cursor; whether it owns its signature has no
    effect on any method. *)
Record Cursor := mkCursor { c_sig : Sig; c_idx : N }.

(** signature.rs:965-977 with, 981 new. *)
Definition cursor_with (s : Sig) (idx : N) : res Cursor :=
  do len <- sig_len s; Ok (mkCursor s (if idx <? len then idx else len)).
(** signature.rs:870-872 cursor, 981-995 new, new_borrowed, new_owned. *)
Definition cursor (s : Sig) : res Cursor := cursor_with s 0.

(** Option::map as used at signature.rs:1020, 1024, 1032, 1041, 1046. *)
Definition mapr {A B} (f : A -> B) (r : res (option A)) : res (option B) :=
  do o <- r; Ok (option_map f o).
(** Option::unwrap as used at signature.rs:1072-1074. *)
Definition unwrap {A} (r : res (option A)) : res A :=
  do o <- r; match o with Some a => Ok a | None => Panic end.

(** signature.rs:1019-1021 flags_at. *)
Definition flags_at (c : Cursor) (idx : N) : res (option FlagSet) :=
  mapr n_flags (node_at (c_sig c) idx).
(** signature.rs:1023-1025 element_at. *)
Definition element_at (c : Cursor) (idx : N) : res (option Element) :=
  mapr n_element (node_at (c_sig c) idx).
(** signature.rs:1027-1034 offset_at. *)
Definition offset_at (c : Cursor) (idx : N) : res (option N) :=
  if idx =? 0 then Ok (Some 0) else mapr n_offset (node_at (c_sig c) idx).
(** signature.rs:1036-1043 position_at. *)
Definition position_at (c : Cursor) (idx : N) : res (option N) :=
  if idx =? 0 then Ok (Some 0) else mapr n_position (node_at (c_sig c) idx).
(** signature.rs:1045-1047 length_at. *)
Definition length_at (c : Cursor) (idx : N) : res (option N) :=
  mapr n_length (node_at (c_sig c) idx).

(** signature.rs:1049-1055 idx_next. An index past 2^64 is not reachable and
    not checked. *)
Definition idx_next (c : Cursor) : res (option N) :=
  do len <- sig_len (c_sig c);
  Ok (if c_idx c <? len then Some (c_idx c + 1) else None).
(** signature.rs:1057-1063 idx_prev. *)
Definition idx_prev (c : Cursor) : option N :=
  if 0 <? c_idx c then Some (c_idx c - 1) else None.
(** signature.rs:1065-1092 idx_step. *)
Definition idx_step (c : Cursor) : res (option N) :=
  do o <- offset_at c (c_idx c);
  match o with
  | None => Ok None
  | Some v =>
    do flags <- unwrap (flags_at c (c_idx c));
    do len <- unwrap (length_at c (c_idx c));
    do i <- strict_sub (c_idx c) v;
    do up <- unwrap (element_at c i);
    if v =? 0 then Ok (Some (c_idx c + len))
    else if negb (is_some (e_pair up)) then Ok None
    else if f_close flags then Ok None
    else Ok (Some (c_idx c + len))
  end.
(** signature.rs:1094-1099 idx_down. *)
Definition idx_down (c : Cursor) : res (option N) :=
  do o <- flags_at c (c_idx c);
  Ok (match o with Some f => if f_open f then Some (c_idx c + 1) else None | None => None end).
(** signature.rs:1101-1105 idx_up. *)
Definition idx_up (c : Cursor) : res (option N) :=
  do o <- offset_at c (c_idx c);
  match o with
  | Some v => if 0 <? v then do i <- strict_sub (c_idx c) v; Ok (Some i) else Ok None
  | None => Ok None
  end.

(** signature.rs:1107-1110 move_to. *)
Definition move_to (c : Cursor) (idx : N) : Cursor := mkCursor (c_sig c) idx.
(** signature.rs:1112-1114 maybe_move. *)
Definition maybe_move (c : Cursor) (o : option N) : Cursor :=
  match o with Some v => move_to c v | None => c end.
(** The five methods at signature.rs:1116-1134, as data, so that a sequence of
    calls is a list. *)
Inductive move := Next | Prev | Step | Down | Up.
(** signature.rs:1116-1134: the argument each move_* method gives to
    maybe_move. *)
Definition idx_of (c : Cursor) (m : move) : res (option N) :=
  match m with
  | Next => idx_next c | Prev => Ok (idx_prev c) | Step => idx_step c
  | Down => idx_down c | Up => idx_up c
  end.
(** signature.rs:1116-1134 move_next, move_prev, move_step, move_down,
    move_up. *)
Definition do_move (c : Cursor) (m : move) : res Cursor :=
  do o <- idx_of c m; Ok (maybe_move c o).
(** A sequence of calls of the methods at signature.rs:1116-1134. *)
Fixpoint do_moves (c : Cursor) (ms : list move) : res Cursor :=
  match ms with [] => Ok c | m :: ms => do c <- do_move c m; do_moves c ms end.

(** signature.rs:1141-1143 sig. *)
Definition c_sub (c : Cursor) : res (option Sig) := sig_at (c_sig c) (c_idx c).
(** signature.rs:1149-1151 element. *)
Definition c_element (c : Cursor) : res (option Element) := element_at c (c_idx c).
(** signature.rs:1178-1180 position. *)
Definition c_position (c : Cursor) : res (option N) := position_at c (c_idx c).
(** signature.rs:1190-1192 length. *)
Definition c_length (c : Cursor) : res (option N) := length_at c (c_idx c).
(** signature.rs:1157-1159 down. *)
Definition c_down (c : Cursor) : res (option Element) :=
  do o <- idx_down c; match o with Some i => element_at c i | None => Ok None end.
(** signature.rs:1165-1167 up. *)
Definition c_up (c : Cursor) : res (option Element) :=
  do o <- idx_up c; match o with Some i => element_at c i | None => Ok None end.
(** signature.rs:1201-1204 dvar_alignment_exp. *)
Definition c_dvar_alignment_exp (c : Cursor) : res (option N) :=
  mapr f_dvar_alignment_exp (flags_at c (c_idx c)).
(** signature.rs:1213-1216 gvar_alignment_exp. *)
Definition c_gvar_alignment_exp (c : Cursor) : res (option N) :=
  mapr f_gvar_alignment_exp (flags_at c (c_idx c)).

(** signature.rs:1342-1346 Iterator::next for Cursor. *)
Definition iter_next (c : Cursor) : res (option Element * Cursor) :=
  do v <- c_element c; do c <- do_move c Next; Ok (v, c).
(** signature.rs:1348-1351 size_hint (the subtraction panics below zero in
    debug builds). *)
Definition size_hint (c : Cursor) : res N :=
  do len <- sig_len (c_sig c); strict_sub len (c_idx c).
(** Exhausting the iterator. What every consumer at signature.rs:889, 1267,
    1276, 1292, 1299, 1309 does with the iterator. *)
Fixpoint collect (fuel : nat) (c : Cursor) : res (list Element) :=
  match fuel with
  | O => NoFuel
  | S fuel =>
    do '(v, c) <- iter_next c;
    match v with
    | None => Ok []
    | Some e => do l <- collect fuel c; Ok (e :: l)
    end
  end.
(** signature.rs:1319-1326 into_iter, exhausted. *)
Definition sig_elements (s : Sig) : res (list Element) :=
  do c <- cursor s; collect (S (length (s_nodes s))) c.

(** signature.rs:888-890 to_string, 1274-1280 Display: one char per element,
    here its code. *)
Definition sig_to_string (s : Sig) : res (list N) :=
  do l <- sig_elements s; Ok (map e_code l).
(** Iterator::eq as used at signature.rs:1309; two elements are equal iff
    their ids are (derived PartialEq, element.rs). *)
Fixpoint list_eqb (a b : list N) : bool :=
  match a, b with
  | [], [] => true
  | x :: a, y :: b => (x =? y) && list_eqb a b
  | _, _ => false
  end.
(** Iterator::cmp as used at signature.rs:1299-1303. *)
Fixpoint list_cmp (a b : list N) : comparison :=
  match a, b with
  | [], [] => Eq
  | [], _ :: _ => Lt
  | _ :: _, [] => Gt
  | x :: a, y :: b => match x ?= y with Eq => list_cmp a b | c => c end
  end.
(** signature.rs:1307-1311 PartialEq. *)
Definition sig_eq (a b : Sig) : res bool :=
  do a <- sig_elements a; do b <- sig_elements b; Ok (list_eqb (map e_id a) (map e_id b)).
(** signature.rs:1296-1305 Ord and 1313-1317 PartialOrd. *)
Definition sig_cmp (a b : Sig) : res comparison :=
  do a <- sig_elements a; do b <- sig_elements b; Ok (list_cmp (map e_code a) (map e_code b)).
(** signature.rs:1285-1294 Hash: what is fed to the hasher (the derived Hash
    of an element is determined by its discriminant). *)
Definition sig_hash (s : Sig) : res (list N) :=
  do l <- sig_elements s; Ok (map e_id l).
