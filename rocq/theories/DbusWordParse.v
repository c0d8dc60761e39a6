(** Model of the signature parser on the words that it fills: as
    DbusSigModel.v, but with every node in its packed form and in memory. *)
From Verif Require Import Base DbusElement DbusSigModel DbusFlagBits DbusWordModel.
Local Open Scope N_scope.
Local Open Scope res_scope.

(** signature.rs:213-226, 254-270 with, for the node type with id [id]. *)
Definition ref_with (id : N) (e : Element) (offset position : N) : res NodeRef :=
  if id =? 0 then
    do w <- opl offset position 1;
    do f <- fs_set_node (pack (e_flags e)) id;
    Ok (Node8 f w (e_dvar_size e) (e_gvar_size e))
  else
    do f <- fs_set_node (pack (e_flags e)) id;
    Ok (Node64 f 0 offset position 1 (e_dvar_size e) (e_gvar_size e)).
(** signature.rs:248-250, 292-294 set_length. *)
Definition ref_set_length (n : NodeRef) (v : N) : res NodeRef :=
  match n with
  | Node8 f w d g => do w <- opl (opl_offset w) (opl_position w) v; Ok (Node8 f w d g)
  | Node64 f pad o p _ d g => Ok (Node64 f pad o p v d g)
  end.
(** The assignments through `this.flags` and `up.flags` at
    signature.rs:554-637. *)
Definition ref_set_flags (n : NodeRef) (f : N) : NodeRef :=
  match n with
  | Node8 _ w d g => Node8 f w d g
  | Node64 _ pad o p l d g => Node64 f pad o p l d g
  end.
(** The assignments to `dvar_size` and `gvar_size` at signature.rs:655-663. *)
Definition ref_set_sizes (n : NodeRef) (d g : N) : NodeRef :=
  match n with
  | Node8 f w _ _ => Node8 f w d g
  | Node64 f pad o p l _ _ => Node64 f pad o p l d g
  end.
(** signature.rs:365-367 element. *)
Definition ref_element (n : NodeRef) : res Element := from_id (fs_element (ref_flags n)).

Section Parse.
Context (big : bool) (k : kind).
(** The words being filled. signature.rs:447-448, the parameter `nodes`. *)
Definition wbuffer := list (option N).
(** signature.rs:429, 442. *)
Definition wrd (ws : wbuffer) (i : N) : res NodeRef := word_rd big (node_id k) ws i.
(** signature.rs:491, and assignments through references. *)
Definition wwr (ws : wbuffer) (i : N) (n : NodeRef) : res wbuffer := word_wr big (node_id k) ws i n.

(** signature.rs:424-445 parse_goto. *)
Definition w_parse_goto (idx : N) (ws : wbuffer) : res (N * option N) :=
  do this <- wrd ws idx;
  if ref_offset this =? 0 then Ok (idx, None)
  else do up_idx <- strict_sub idx (ref_offset this);
       do _ <- wrd ws up_idx;
       Ok (idx, Some up_idx).

(** signature.rs:594-637. *)
Definition w_merge (this up : NodeRef) : res (NodeRef * NodeRef) :=
  do l <- strict_add k (ref_length up) (ref_length this);
  do up <- ref_set_length up l;
  let this := if 3 <=? fs_dvar_alignment_exp (ref_flags this)
              then ref_set_flags this (fs_clear (ref_flags this) FLAG_DVAR_MISALIGNED) else this in
  let up := if fs_dvar_alignment_exp (ref_flags up) <? fs_dvar_alignment_exp (ref_flags this)
            then ref_set_flags up (fs_set (ref_flags up) FLAG_DVAR_MISALIGNED) else up in
  let v := fs_gvar_alignment_exp (ref_flags this) in
  do up <- (if fs_gvar_alignment_exp (ref_flags up) <? v
            then do f <- fs_set_gvar_alignment_exp (ref_flags up) v; Ok (ref_set_flags up f) else Ok up);
  let up := ref_set_flags up (fs_set (ref_flags up) (N.land (ref_flags this)
              (N.lor (N.lor (N.lor FLAG_DYNAMIC FLAG_HANDLE) FLAG_DVAR_UNSUPPORTED) FLAG_DVAR_MISALIGNED))) in
  let up := if fs_all (ref_flags up) FLAG_DICT && (ref_position this =? 0) && negb (fs_all (ref_flags this) FLAG_BASIC)
            then ref_set_flags up (fs_clear (ref_flags up) FLAG_DICT) else up in
  Ok (this, up).

(** signature.rs:654-663. *)
Definition w_merge_size (this up : NodeRef) : res NodeRef :=
  do d <- next_multiple_of k (ref_dvar_size up) (2 ^ fs_dvar_alignment_exp (ref_flags this));
  do d <- strict_add k d (ref_dvar_size this);
  do g <- next_multiple_of k (ref_gvar_size up) (2 ^ fs_gvar_alignment_exp (ref_flags this));
  do g <- strict_add k g (ref_gvar_size this);
  Ok (ref_set_sizes up d g).

(** signature.rs:591-668; fuel as in DbusSigModel.v. *)
Fixpoint w_propagate (fuel : nat) (this_idx : N) (o_up_idx o_up : option N) (position : N)
    (ws : wbuffer) : res (option N * N * wbuffer) :=
  match o_up with
  | None => Ok (o_up_idx, position, ws)
  | Some up_idx =>
    match fuel with
    | O => NoFuel
    | S fuel =>
      do this <- wrd ws this_idx;
      do up <- wrd ws up_idx;
      do '(this, up) <- w_merge this up;
      do ws <- wwr ws this_idx this;
      do ws <- wwr ws up_idx up;
      do e <- ref_element up;
      if fs_all (ref_flags up) FLAG_OPEN && negb (is_some (e_pair e)) then
        match o_up_idx with
        | None => Panic
        | Some i =>
          do '(this_idx, o_up_idx) <- w_parse_goto i ws;
          do this <- wrd ws this_idx;
          do position <- strict_add k (ref_position this) 1;
          w_propagate fuel this_idx o_up_idx o_up_idx position ws
        end
      else
        do up <- (if fs_all (ref_flags up) FLAG_OPEN && is_some (e_pair e)
                  then w_merge_size this up else Ok up);
        do ws <- wwr ws up_idx up;
        Ok (o_up_idx, position, ws)
    end
  end.

(** signature.rs:451-453, the variables carried by the main loop. *)
Record wstate := WSt { wst_position : N; wst_up : option N; wst_words : wbuffer }.
(** signature.rs:463-684, what one iteration does. *)
Inductive woutcome :=
| WGo (s : wstate)
| WDone (ws : wbuffer)
| WFail (e : Error).

(** signature.rs:591-684. *)
Definition w_completed (len signature_idx this_idx : N) (o_up_idx o_up : option N)
    (position : N) (ws : wbuffer) : res woutcome :=
  do '(o_up_idx, position, ws) <-
     w_propagate (S (N.to_nat this_idx)) this_idx o_up_idx o_up position ws;
  match o_up_idx with
  | None =>
    if negb (signature_idx =? len) then Ok (WFail (SignatureSequence signature_idx))
    else Ok (WDone ws)
  | Some _ => Ok (WGo (WSt position o_up_idx ws))
  end.

(** signature.rs:537-589. *)
Definition w_close (this_idx : N) (o_up : option N) (position : N) (ws : wbuffer)
    : res (Error + (N * option N * N * wbuffer)) :=
  match o_up with
  | None => Ok (inl (ElementUnpaired this_idx))
  | Some up_idx =>
    do this <- wrd ws this_idx;
    do up <- wrd ws up_idx;
    do this_e <- ref_element this;
    do up_e <- ref_element up;
    match e_pair this_e with
    | None => Panic
    | Some expected =>
      if negb (e_id expected =? e_id up_e) then
        do i <- strict_sub this_idx (ref_offset up);
        Ok (inl (ElementMispaired i this_idx (Some expected)))
      else
        let this := match this_e with
                    | EStructClose =>
                      if position =? 1 then ref_set_flags this (fs_set (ref_flags this) FLAG_DVAR_UNSUPPORTED)
                      else this
                    | _ => this
                    end in
        let up := if fs_all (ref_flags up) FLAG_DICT && negb (position =? 3)
                  then ref_set_flags up (fs_clear (ref_flags up) FLAG_DICT) else up in
        do bad <- match this_e with
                  | EDictClose =>
                    if negb (fs_all (ref_flags up) FLAG_DICT) then
                      do p <- strict_sub this_idx (ref_offset this); Ok (Some p)
                    else Ok None
                  | _ => Ok None
                  end;
        match bad with
        | Some p => Ok (inl (DictInvalid p))
        | None =>
          do l <- strict_add k (ref_length up) (ref_length this);
          do up <- ref_set_length up l;
          do ws <- wwr ws this_idx this;
          do ws <- wwr ws up_idx up;
          do i <- strict_sub this_idx (ref_offset this);
          do '(this_idx, o_up_idx) <- w_parse_goto i ws;
          do this <- wrd ws this_idx;
          do position <- strict_add k (ref_position this) 1;
          Ok (inr (this_idx, o_up_idx, position, ws))
        end
    end
  end.

(** signature.rs:463-684: one iteration. *)
Definition w_iteration (len signature_idx : N) (c : N) (s : wstate) : res woutcome :=
  if negb (c <? 128) then Ok (WFail (ElementInvalid signature_idx c)) else
  match from_code c with
  | None => Ok (WFail (ElementUnknown signature_idx c))
  | Some element =>
    let this_idx := signature_idx in
    do offset <- match wst_up s with
                 | Some v => strict_sub this_idx v
                 | None => Ok this_idx
                 end;
    do n <- ref_with (node_id k) element offset (wst_position s);
    do ws <- wwr (wst_words s) this_idx n;
    do '(_, o_up) <- w_parse_goto this_idx ws;
    do position <- strict_add k (wst_position s) 1;
    let signature_idx := signature_idx + 1 in
    do this <- wrd ws this_idx;
    if fs_all (ref_flags this) FLAG_OPEN then Ok (WGo (WSt 0 (Some this_idx) ws))
    else if fs_all (ref_flags this) FLAG_CLOSE then
      do r <- w_close this_idx o_up position ws;
      match r with
      | inl e => Ok (WFail e)
      | inr (this_idx, o_up_idx, position, ws) =>
        w_completed len signature_idx this_idx o_up_idx o_up_idx position ws
      end
    else w_completed len signature_idx this_idx (wst_up s) o_up position ws
  end.

(** signature.rs:462-689. *)
Fixpoint w_parse_loop (len signature_idx : N) (rest : list N) (s : wstate)
    : res (Error + wbuffer) :=
  match rest with
  | [] => match wst_up s with
          | None => Panic
          | Some i => Ok (inl (SignatureIncomplete i))
          end
  | c :: rest =>
    do o <- w_iteration len signature_idx c s;
    match o with
    | WGo s => w_parse_loop len (signature_idx + 1) rest s
    | WDone ws => Ok (inr ws)
    | WFail e => Ok (inl e)
    end
  end.

(** signature.rs:447-689 parse. *)
Definition w_node_parse (ws : wbuffer) (signature : list N) : res (Error + wbuffer) :=
  let len := N.of_nat (length signature) in
  if length_max k <? len then Ok (inl DataExceeded)
  else if len <? 1 then Ok (inl SignatureEmpty)
  else w_parse_loop len 0 signature (WSt 0 None ws).
End Parse.

(** signature.rs:733-753 Sig::parse on the given words: the error, or all of
    the words, including those after the last node (382-385), which remain as
    they were (see [pad_loop]). *)
Definition word_parse (big : bool) (fuel : nat) (data : list (option N)) (signature : list N)
    : res (Error + list (option N)) :=
  let k := if N.of_nat (length signature) <=? length_max node8 then node8 else node64 in
  let rem := N.of_nat (length data) mod size_coeff k in
  let start := firstn (length data - N.to_nat rem) data in
  let pad := skipn (length data - N.to_nat rem) data in
  do r <- w_node_parse big k start signature;
  match r with
  | inl e => Ok (inl e)
  | inr ws => do _ <- pad_loop fuel 0 (N.of_nat (length pad)); Ok (inr (ws ++ pad))
  end.
(** signature.rs:762-778 Sig::new (and arc, 787-803): to take uninitialised
    words is counted as a panic. *)
Definition word_new (big : bool) (fuel : nat) (signature : list N) : res (Error + list N) :=
  do size <- size_for_length (N.of_nat (length signature));
  do r <- word_parse big fuel (repeat None (N.to_nat size)) signature;
  match r with
  | inl e => Ok (inl e)
  | inr ws => do l <- init ws; Ok (inr l)
  end.
