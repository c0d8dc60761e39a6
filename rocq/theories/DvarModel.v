(** Model of lib/tmp/src/fmt/dbus/dvar.rs: encoder and decoder of the classic
    D-Bus wire format, on top of mapped I/O. *)
From Verif Require Import Base DbusSpec.
From Verif Require Export DbusElement IoMapModel.
From Verif Require Export DbusSigModel.
Local Open Scope N_scope.
Local Open Scope res_scope.

(** lib/tmp/src/fmt/dbus/mod.rs:15-26 Error. *)
Inductive derror := Io (e : io_error) | Mismatch | Pending | DataOverflow | DataNonUtf8.
(** The result types at dvar.rs:199 and 231: [Flow<Option<dbus::Error>, _>].
    *)
Definition dflow := flow (option derror) unit.
(** What a method such as dvar.rs:227-243 does: it breaks or continues, with a
    new state. *)
Definition step (S : Type) := res (dflow * S).
(** Leaving with an error, as at dvar.rs:233. *)
Definition fail {S} (e : derror) (s : S) : step S := Ok (Break (Some e), s).
(** [map_break(|v| v.map(|v| v.into()))] at dvar.rs:200, 208, 216, 224, 543
    and 551, with dvar.rs:65-69 From<io::map::Error>. *)
Definition from_io (r : flow_io) : dflow :=
  match r with Continue u => Continue u | Break e => Break (option_map Io e) end.

(** dvar.rs:31-34 Format. *)
Inductive Format := DVarBe | DVarLe.
(** dvar.rs:72-77 is_be. *)
Definition is_be (f : Format) : bool := match f with DVarBe => true | DVarLe => false end.
(** Rust semantics: [to_le_bytes] of an integer of n bytes, as at dvar.rs:84.
    *)
Fixpoint to_le_bytes (n : nat) (v : N) : list N :=
  match n with O => [] | S n => v mod 256 :: to_le_bytes n (v / 256) end.
(** Rust semantics: [to_be_bytes] of an integer of n bytes, as at dvar.rs:84.
    *)
Definition to_be_bytes (n : nat) (v : N) : list N := rev (to_le_bytes n v).
(** Rust semantics: [from_le_bytes], as at dvar.rs:96. *)
Fixpoint from_le_bytes (l : list N) : N :=
  match l with [] => 0 | b :: l => b + 256 * from_le_bytes l end.
(** Rust semantics: [from_be_bytes], as at dvar.rs:96. *)
Definition from_be_bytes (l : list N) : N := from_le_bytes (rev l).
(** dvar.rs:79-81 en_u8. *)
Definition en_u8 (f : Format) (v : N) : list N := [v].
(** dvar.rs:83-85 en_u16. *)
Definition en_u16 (f : Format) (v : N) := if is_be f then to_be_bytes 2 v else to_le_bytes 2 v.
(** dvar.rs:87-89 en_u32. *)
Definition en_u32 (f : Format) (v : N) := if is_be f then to_be_bytes 4 v else to_le_bytes 4 v.
(** dvar.rs:91-93 en_u64. *)
Definition en_u64 (f : Format) (v : N) := if is_be f then to_be_bytes 8 v else to_le_bytes 8 v.
(** dvar.rs:95-97 de_u8. *)
Definition de_u8 (f : Format) (l : list N) := if is_be f then from_be_bytes l else from_le_bytes l.
(** dvar.rs:99-101 de_u16. *)
Definition de_u16 (f : Format) (l : list N) := if is_be f then from_be_bytes l else from_le_bytes l.
(** dvar.rs:103-105 de_u32. *)
Definition de_u32 (f : Format) (l : list N) := if is_be f then from_be_bytes l else from_le_bytes l.

(** element.rs:490-492 dvar_alignment_exp. *)
Definition e_dvar_alignment_exp (e : Element) : N := f_dvar_alignment_exp (e_flags e).

(** dvar.rs:37-41 Level. *)
Record Level := mkLevel { l_idx : N; l_from : N; l_meta : N }.
(** An assignment to [level.idx], as at dvar.rs:239. *)
Definition set_idx (l : Level) (i : N) : Level := mkLevel i (l_from l) (l_meta l).

(** dvar.rs:46-63 Enc and Dec without the writer or reader. `enc` (`dec`)
    holds references into the encoder a sub-encoder was made from and the
    index its cursor moves to on commit; here only the latter is in the frame,
    the outer encoders are a list. A decoder has no `done`. *)
Record Frame := mkFrame {
  f_done : bool;
  f_cursor : Cursor;
  f_lvl : Level;
  f_stk : list (Element * Level * option Cursor);
  f_link : option (option N);
}.
(** dvar.rs:46-54 Enc: an encoder, with the encoders it borrows from
    (innermost first). *)
Record Enc (W : Type) := mkEnc {
  e_format : Format;
  e_top : Frame;
  e_up : list Frame;
  e_out : out W;
}.
Arguments mkEnc {W} _ _ _ _.
Arguments e_format {W} _.
Arguments e_top {W} _.
Arguments e_up {W} _.
Arguments e_out {W} _.

(** An assignment to [cursor], as at dvar.rs:335. *)
Definition with_cursor (f : Frame) (c : Cursor) : Frame :=
  mkFrame (f_done f) c (f_lvl f) (f_stk f) (f_link f).
(** An assignment to [level], as at dvar.rs:336. *)
Definition with_level (f : Frame) (l : Level) : Frame :=
  mkFrame (f_done f) (f_cursor f) l (f_stk f) (f_link f).
(** A frame for a signature, starting at an index: dvar.rs:114-127
    with, 148-161 enc, 459-471, 496-508 of the decoder (which has no `done`). *)
Definition frame_for (s : Sig) (idx : N) (link : option (option N)) : res Frame :=
  do c <- cursor s; Ok (mkFrame false c (mkLevel idx idx idx) [] link).

Section Enc.
Context {W : Type} (I : Write W).
Implicit Type e : Enc W.

(** An encoder (dvar.rs:46-54) with its fields replaced. *)
Definition put_top e (f : Frame) : Enc W := mkEnc (e_format e) f (e_up e) (e_out e).
(** An encoder (dvar.rs:46-54) with its writer replaced. *)
Definition put_out e (o : out W) : Enc W := mkEnc (e_format e) (e_top e) (e_up e) o.

(** dvar.rs:109-141 with, new_be, new_le. *)
Definition enc_new (s : Sig) (format : Format) (o : out W) : res (Enc W) :=
  do f <- frame_for s 0 None; Ok (mkEnc format f [] o).

(** The [?] after an operation on the writer and a local index, as at
    dvar.rs:237-238. *)
Definition seq_io (x : res (flow_io * out W * N)) (e : Enc W)
    (k : out W -> N -> step (Enc W)) : step (Enc W) :=
  do '(r, o, idx) <- x;
  match r with
  | Continue _ => k o idx
  | Break _ => Ok (from_io r, put_out e o)
  end.
(** [cursor.move_step()], as at dvar.rs:240. *)
Definition move_step (c : Cursor) : res Cursor := do_move c Step.

(** [self.cursor.element() == Some(element)], as at dvar.rs:232. *)
Definition expects (c : Cursor) (el : Element) : res bool :=
  do o <- c_element c;
  Ok (match o with Some x => e_id x =? e_id el | None => false end).

(** dvar.rs:227-243 fixed. *)
Definition enc_fixed e (el : Element) (data : list N) : step (Enc W) :=
  let f := e_top e in
  do ok <- expects (f_cursor f) el;
  if negb ok then fail Mismatch e else
  seq_io (align_exp2 I (e_out e) (l_idx (f_lvl f)) (e_dvar_alignment_exp el)) e (fun o idx =>
  seq_io (write I o idx data) e (fun o idx =>
  do c <- move_step (f_cursor f);
  Ok (Continue tt, put_out (put_top e (with_cursor (with_level f (set_idx (f_lvl f) idx)) c)) o))).
(** dvar.rs:245-266 str8, 268-289 str32. *)
Definition enc_str e (el len_el : Element) (limit : N) (en : Format -> N -> list N) (data : list N) : step (Enc W) :=
  let f := e_top e in
  do ok <- expects (f_cursor f) el;
  if negb ok then fail Mismatch e else
  if negb (size data <? limit) then fail DataOverflow e else
  seq_io (align_exp2 I (e_out e) (l_idx (f_lvl f)) (e_dvar_alignment_exp len_el)) e (fun o idx =>
  seq_io (write I o idx (en (e_format e) (size data))) e (fun o idx =>
  seq_io (write I o idx data) e (fun o idx =>
  seq_io (zero I o idx 1) e (fun o idx =>
  do c <- move_step (f_cursor f);
  Ok (Continue tt, put_out (put_top e (with_cursor (with_level f (set_idx (f_lvl f) idx)) c)) o))))).
(** dvar.rs:291-293 u16. *)
Definition enc_u16 e v := enc_fixed e EU16 (en_u16 (e_format e) v).
(** dvar.rs:295-297 u32. *)
Definition enc_u32 e v := enc_fixed e EU32 (en_u32 (e_format e) v).
(** dvar.rs:299-301 u64. *)
Definition enc_u64 e v := enc_fixed e EU64 (en_u64 (e_format e) v).
(** dvar.rs:303-305 string. *)
Definition enc_string e s := enc_str e EString EU32 (2 ^ 32) en_u32 s.
(** dvar.rs:307-309 object. *)
Definition enc_object e s := enc_str e EObject EU32 (2 ^ 32) en_u32 s.
(** dvar.rs:311-313 signature. *)
Definition enc_signature e s := enc_str e ESignature EU8 (2 ^ 8) en_u8 s.

(** dvar.rs:315-344 variant_with, variant.  The iterator over the codes of the
    signature is the cursor's (its claimed length is size_hint). *)
Definition enc_variant e (sig : Sig) : step (Enc W) :=
  let f := e_top e in
  do ok <- expects (f_cursor f) EVariant;
  if negb ok then fail Mismatch e else
  do n <- sig_len sig;
  if negb (n <? 2 ^ 8) then fail DataOverflow e else
  seq_io (align_exp2 I (e_out e) (l_idx (f_lvl f)) (e_dvar_alignment_exp EU8)) e (fun o idx =>
  seq_io (write I o idx (en_u8 (e_format e) n)) e (fun o idx =>
  do c0 <- cursor sig;
  do hint <- size_hint c0;
  do text <- sig_elements sig;
  seq_io (write_iter I o idx (mkIter hint (map e_code text))) e (fun o idx =>
  seq_io (zero I o idx 1) e (fun o idx =>
  do c <- cursor sig;
  Ok (Continue tt, put_out (put_top e
    (mkFrame (f_done f) c (mkLevel idx idx idx) ((EVariant, f_lvl f, Some (f_cursor f)) :: f_stk f) (f_link f))) o))))).

(** dvar.rs:346-364 array. *)
Definition enc_array e : step (Enc W) :=
  let f := e_top e in
  do ok <- expects (f_cursor f) EArray;
  if negb ok then fail Mismatch e else
  do down <- unwrap (c_down (f_cursor f));
  seq_io (align_exp2 I (e_out e) (l_idx (f_lvl f)) (e_dvar_alignment_exp EU32)) e (fun o meta =>
  seq_io (write I o meta (en_u32 (e_format e) 0)) e (fun o idx =>
  seq_io (align_exp2 I o idx (e_dvar_alignment_exp down)) e (fun o idx =>
  do c <- do_move (f_cursor f) Down;
  Ok (Continue tt, put_out (put_top e
    (mkFrame (f_done f) c (mkLevel idx idx meta) ((EArray, f_lvl f, None) :: f_stk f) (f_link f))) o)))).

(** dvar.rs:368-384 structure, 386-402 dict. *)
Definition enc_open e (el : Element) : step (Enc W) :=
  let f := e_top e in
  do ok <- expects (f_cursor f) el;
  if negb ok then fail Mismatch e else
  do align <- unwrap (c_dvar_alignment_exp (f_cursor f));
  seq_io (align_exp2 I (e_out e) (l_idx (f_lvl f)) align) e (fun o idx =>
  do c <- do_move (f_cursor f) Down;
  Ok (Continue tt, put_out (put_top e
    (mkFrame (f_done f) c (mkLevel idx idx idx) ((el, f_lvl f, None) :: f_stk f) (f_link f))) o)).
(** dvar.rs:368-384 structure. *)
Definition enc_structure e := enc_open e EStructOpen.
(** dvar.rs:386-402 dict. *)
Definition enc_dict e := enc_open e EDictOpen.

(** The end of close, dvar.rs:437-449 (and 726-738 for decoders). *)
Definition close_frame (f : Frame) : res Frame :=
  match f_stk f with
  | [] => Panic
  | (_, up_level, up_cursor) :: stk =>
    do c <- match up_cursor with
            | Some v => Ok v
            | None => do_move (f_cursor f) Up
            end;
    do c <- move_step c;
    Ok (mkFrame (f_done f) c (set_idx up_level (l_idx (f_lvl f))) stk (f_link f))
  end.
(** dvar.rs:404-450 close. *)
Definition enc_close e : step (Enc W) :=
  let f := e_top e in
  do st <- idx_step (f_cursor f);
  match st with
  | Some _ => fail Mismatch e
  | None =>
    match f_stk f with
    | [] => fail Mismatch e
    | (up_element, _, _) :: _ =>
      let finish o := do f' <- close_frame f; Ok (Continue tt, put_out (put_top e f') o) in
      match up_element with
      | EVariant | EStructOpen | EDictOpen => finish (e_out e)
      | EArray =>
        do n <- sub_usize (l_idx (f_lvl f)) (l_from (f_lvl f));
        if 0 <? n then
          if negb (n <? 2 ^ 32) then fail DataOverflow e else
          seq_io (write I (e_out e) (l_meta (f_lvl f)) (en_u32 (e_format e) n)) e (fun o _ => finish o)
        else finish (e_out e)
      | _ => Panic
      end
    end
  end.

(** dvar.rs:143-164 enc: a sub-encoder for the type at the cursor. *)
Definition enc_enc e : step (Enc W) :=
  let f := e_top e in
  do up_step <- idx_step (f_cursor f);
  do sub <- c_sub (f_cursor f);
  match sub with
  | Some v =>
    do f' <- frame_for v (l_idx (f_lvl f)) (Some up_step);
    Ok (Continue tt, mkEnc (e_format e) f' (f :: e_up e) (e_out e))
  | None => fail Mismatch e
  end.
(** dvar.rs:166-174 enc_with. *)
Definition enc_enc_with e (sig : Sig) : step (Enc W) :=
  do sub <- c_sub (f_cursor (e_top e));
  do same <- match sub with Some v => sig_eq sig v | None => Ok false end;
  if same then enc_enc e else fail Mismatch e.
(** Moving the outer encoder when a sub-encoder commits: dvar.rs:182-185. *)
Definition commit_up (inner_idx : N) (up_step : option N) (f : Frame) : Frame :=
  let f := with_level f (set_idx (f_lvl f) inner_idx) in
  match up_step with Some v => with_cursor f (move_to (f_cursor f) v) | None => f end.
(** dvar.rs:176-193 commit. *)
Definition enc_commit e : step (Enc W) :=
  let f := e_top e in
  do st <- idx_step (f_cursor f);
  match st, f_stk f with
  | None, [] =>
    match f_link f with
    | Some up_step =>
      let f' := mkFrame true (f_cursor f) (f_lvl f) (f_stk f) None in
      match e_up e with
      | u :: up => Ok (Continue tt, mkEnc (e_format e) f' (commit_up (l_idx (f_lvl f)) up_step u :: up) (e_out e))
      | [] => Panic
      end
    | None =>
      if negb (f_done f) then
        do w <- w_commit I (o_w (e_out e)) (l_idx (f_lvl f));
        Ok (Continue tt, mkEnc (e_format e) (mkFrame true (f_cursor f) (f_lvl f) (f_stk f) None) (e_up e)
                          (mkOut w (o_mem (e_out e))))
      else Ok (Continue tt, e)
    end
  | _, _ => fail Pending e
  end.
(** Dropping a sub-encoder made at dvar.rs:143-164: its encoder can be used
    again. (Not a method; the outermost encoder stays.) *)
Definition enc_drop e : step (Enc W) :=
  match e_up e with
  | u :: up => Ok (Continue tt, mkEnc (e_format e) u up (e_out e))
  | [] => Ok (Continue tt, e)
  end.
End Enc.

(** The calls of the API, dvar.rs:143-450. Signatures are given by their text.
    *)
Inductive call :=
| CU16 (v : N) | CU32 (v : N) | CU64 (v : N)
| CString (s : list N) | CObject (s : list N) | CSignature (s : list N)
| CVariant (sig : list N) | CArray | CStructure | CDict | CClose
| CEnc | CEncWith (sig : list N) | CCommit | CDrop.
(** The caller's Sig::new, lib/tmp/src/fmt/dbus/signature.rs:762-779; callers
    without a signature have nothing to pass. *)
Definition make_sig (text : list N) : res Sig :=
  do r <- sig_new 0 text; match r with inr s => Ok s | inl _ => Panic end.
(** One call of a method in dvar.rs:143-450. *)
Definition enc_call {W} (I : Write W) (e : Enc W) (c : call) : step (Enc W) :=
  match c with
  | CU16 v => enc_u16 I e v | CU32 v => enc_u32 I e v | CU64 v => enc_u64 I e v
  | CString s => enc_string I e s | CObject s => enc_object I e s | CSignature s => enc_signature I e s
  | CVariant t => do s <- make_sig t; enc_variant I e s
  | CArray => enc_array I e | CStructure => enc_structure I e | CDict => enc_dict I e
  | CClose => enc_close I e | CEnc => enc_enc e
  | CEncWith t => do s <- make_sig t; enc_enc_with e s
  | CCommit => enc_commit I e | CDrop => enc_drop e
  end.
(** Calls of the methods in dvar.rs:143-450 chained with `?`: stops at the
    first that breaks. *)
Fixpoint enc_calls {W} (I : Write W) (e : Enc W) (cs : list call) : step (Enc W) :=
  match cs with
  | [] => Ok (Continue tt, e)
  | c :: cs =>
    do '(r, e) <- enc_call I e c;
    match r with Continue _ => enc_calls I e cs | Break _ => Ok (r, e) end
  end.

(** Rust semantics: a range of bytes in the check of String::from_utf8, called
    at dvar.rs:611 and 650. *)
Definition in_range (lo hi b : N) : bool := (lo <=? b) && (b <=? hi).
(** Rust semantics: a continuation byte in String::from_utf8, called at
    dvar.rs:611 and 650. *)
Definition cont (b : N) : bool := in_range 128 191 b.
(** Rust semantics: String::from_utf8, called at dvar.rs:611 and 650. These
    are the well-formed byte sequences (Unicode Standard, table 3-7), as the
    standard library checks them. *)
Fixpoint utf8_valid (l : list N) : bool :=
  match l with
  | [] => true
  | a :: l =>
    if a <? 128 then utf8_valid l
    else match l with
    | b :: l =>
      if in_range 194 223 a then cont b && utf8_valid l
      else match l with
      | c :: l =>
        if in_range 224 239 a then
          (if a =? 224 then in_range 160 191 b
           else if a =? 237 then in_range 128 159 b
           else cont b) && cont c && utf8_valid l
        else match l with
        | d :: l =>
          if in_range 240 244 a then
            (if a =? 240 then in_range 144 191 b
             else if a =? 244 then in_range 128 143 b
             else cont b) && cont c && cont d && utf8_valid l
          else false
        | [] => false
        end
      | [] => false
      end
    | [] => false
    end
  end.

(** dvar.rs:56-63 Dec: a decoder, with the decoders it borrows from. *)
Record Dec (R : Type) := mkDec {
  d_format : Format;
  d_top : Frame;
  d_up : list Frame;
  d_read : R;
}.
Arguments mkDec {R} _ _ _ _.
Arguments d_format {R} _.
Arguments d_top {R} _.
Arguments d_up {R} _.
Arguments d_read {R} _.

(** What a call yields through its argument, as at dvar.rs:664, 671 and 675;
    [DMore] is the result of dvar.rs:487 more. *)
Inductive datum := DUnit | DNum (v : N) | DText (s : list N) | DMore (b : bool).
(** What a method such as dvar.rs:568-584 does. *)
Definition dstep (R : Type) := res (dflow * datum * Dec R).
(** Leaving with an error, as at dvar.rs:574. *)
Definition dfail {R} (e : derror) (d : Dec R) : dstep R := Ok (Break (Some e), DUnit, d).

Section Dec.
Context {R : Type} (I : Read R).
Implicit Type d : Dec R.

(** A decoder (dvar.rs:56-63) with its fields replaced. *)
Definition dput d (f : Frame) : Dec R := mkDec (d_format d) f (d_up d) (d_read d).
(** A decoder (dvar.rs:56-63) with its reader replaced. *)
Definition dput_read d (r : R) : Dec R := mkDec (d_format d) (d_top d) (d_up d) r.

(** dvar.rs:454-485 with, new_be, new_le. *)
Definition dec_new (s : Sig) (format : Format) (r : R) : res (Dec R) :=
  do f <- frame_for s 0 None; Ok (mkDec format f [] r).
(** dvar.rs:487-489 more. *)
Definition dec_more d : bool := l_idx (f_lvl (d_top d)) <? l_meta (f_lvl (d_top d)).

(** The [?] after an operation on the reader and a local index, as at
    dvar.rs:579. *)
Definition seq_read (x : res (flow_io * R * N * list N)) d (k : R -> N -> list N -> dstep R) : dstep R :=
  do '(f, r, idx, got) <- x;
  match f with
  | Continue _ => k r idx got
  | Break _ => Ok (from_io f, DUnit, dput_read d r)
  end.
(** dvar.rs:554-566 align. *)
Definition dec_align (idx exp : N) d (k : N -> dstep R) : dstep R :=
  do m <- shl_usize exp;
  match checked_next_multiple_of idx m with
  | None => dfail (Io Overflow) d
  | Some v => k v
  end.

(** dvar.rs:568-584 fixed. *)
Definition dec_fixed d (el : Element) (n : N) (k : list N -> datum) : dstep R :=
  let f := d_top d in
  do ok <- expects (f_cursor f) el;
  if negb ok then dfail Mismatch d else
  dec_align (l_idx (f_lvl f)) (e_dvar_alignment_exp el) d (fun idx =>
  seq_read (read I (d_read d) idx n) d (fun r idx got =>
  do c <- move_step (f_cursor f);
  Ok (Continue tt, k got, dput_read (dput d (with_cursor (with_level f (set_idx (f_lvl f) idx)) c)) r))).
(** dvar.rs:586-623 str8, 625-662 str32.  Whether the allocation of the buffer
    succeeds is not modelled. *)
Definition dec_str d (el len_el : Element) (n : N) (de : Format -> list N -> N) : dstep R :=
  let f := d_top d in
  do ok <- expects (f_cursor f) el;
  if negb ok then dfail Mismatch d else
  dec_align (l_idx (f_lvl f)) (e_dvar_alignment_exp len_el) d (fun idx =>
  seq_read (read I (d_read d) idx n) d (fun r idx len_u =>
  let len := de (d_format d) len_u in
  seq_read (read I r idx len) d (fun r idx buffer =>
  if negb (utf8_valid buffer) then dfail DataNonUtf8 (dput_read d r) else
  do idx <- add_usize idx 1;
  do c <- move_step (f_cursor f);
  Ok (Continue tt, DText buffer,
      dput_read (dput d (with_cursor (with_level f (set_idx (f_lvl f) idx)) c)) r)))).
(** dvar.rs:664-669 u16. *)
Definition dec_u16 d := dec_fixed d EU16 2 (fun v => DNum (de_u16 (d_format d) v)).
(** dvar.rs:671-673 string. *)
Definition dec_string d := dec_str d EString EU32 4 de_u32.
(** dvar.rs:675-677 signature. *)
Definition dec_signature d := dec_str d ESignature EU8 1 de_u8.

(** dvar.rs:679-698 array. *)
Definition dec_array d : dstep R :=
  let f := d_top d in
  do ok <- expects (f_cursor f) EArray;
  if negb ok then dfail Mismatch d else
  do down <- unwrap (c_down (f_cursor f));
  dec_align (l_idx (f_lvl f)) (e_dvar_alignment_exp EU32) d (fun idx =>
  seq_read (read I (d_read d) idx 4) d (fun r idx len_u =>
  let meta := de_u32 (d_format d) len_u in
  dec_align idx (e_dvar_alignment_exp down) (dput_read d r) (fun idx =>
  do c <- do_move (f_cursor f) Down;
  Ok (Continue tt, DUnit, dput_read (dput d
    (mkFrame (f_done f) c (mkLevel idx (l_from (f_lvl f)) meta) ((EArray, f_lvl f, None) :: f_stk f) (f_link f))) r)))).
(** dvar.rs:700-739 close. *)
Definition dec_close d : dstep R :=
  let f := d_top d in
  do st <- idx_step (f_cursor f);
  match st with
  | Some _ => dfail Mismatch d
  | None =>
    match f_stk f with
    | [] => dfail Mismatch d
    | (up_element, _, _) :: _ =>
      match up_element with
      | EVariant | EArray | EStructOpen | EDictOpen =>
        do f' <- close_frame f; Ok (Continue tt, DUnit, dput d f')
      | _ => Panic
      end
    end
  end.
(** dvar.rs:491-511 dec. *)
Definition dec_dec d : dstep R :=
  let f := d_top d in
  do up_step <- idx_step (f_cursor f);
  do sub <- c_sub (f_cursor f);
  match sub with
  | Some v =>
    do f' <- frame_for v (l_idx (f_lvl f)) (Some up_step);
    Ok (Continue tt, DUnit, mkDec (d_format d) f' (f :: d_up d) (d_read d))
  | None => dfail Mismatch d
  end.
(** dvar.rs:513-521 dec_with. *)
Definition dec_dec_with d (sig : Sig) : dstep R :=
  do sub <- c_sub (f_cursor (d_top d));
  do same <- match sub with Some v => sig_eq sig v | None => Ok false end;
  if same then dec_dec d else dfail Mismatch d.
(** dvar.rs:523-536 commit. *)
Definition dec_commit d : dstep R :=
  let f := d_top d in
  do st <- idx_step (f_cursor f);
  match st, f_stk f with
  | None, [] =>
    match f_link f with
    | Some up_step =>
      let f' := mkFrame (f_done f) (f_cursor f) (f_lvl f) (f_stk f) None in
      match d_up d with
      | u :: up => Ok (Continue tt, DUnit, mkDec (d_format d) f' (commit_up (l_idx (f_lvl f)) up_step u :: up) (d_read d))
      | [] => Panic
      end
    | None => Ok (Continue tt, DUnit, d)
    end
  | _, _ => dfail Pending d
  end.
(** Dropping a decoder made at dvar.rs:491-511, as for encoders. *)
Definition dec_drop d : dstep R :=
  match d_up d with
  | u :: up => Ok (Continue tt, DUnit, mkDec (d_format d) u up (d_read d))
  | [] => Ok (Continue tt, DUnit, d)
  end.
End Dec.

(** The calls of the API, dvar.rs:487-739. *)
Inductive dcall :=
| DCU16 | DCString | DCSignature | DCArray | DCClose | DCMore
| DCDec | DCDecWith (sig : list N) | DCCommit | DCDrop.
(** One call of a method in dvar.rs:487-739. *)
Definition dec_call {R} (I : Read R) (d : Dec R) (c : dcall) : dstep R :=
  match c with
  | DCU16 => dec_u16 I d | DCString => dec_string I d | DCSignature => dec_signature I d
  | DCArray => dec_array I d | DCClose => dec_close d
  | DCMore => Ok (Continue tt, DMore (dec_more d), d)
  | DCDec => dec_dec d
  | DCDecWith t => do s <- make_sig t; dec_dec_with d s
  | DCCommit => dec_commit d | DCDrop => dec_drop d
  end.
(** Calls of the methods in dvar.rs:487-739 chained with `?`, and what they
    yielded. *)
Fixpoint dec_calls {R} (I : Read R) (d : Dec R) (cs : list dcall) : res (dflow * list datum * Dec R) :=
  match cs with
  | [] => Ok (Continue tt, [], d)
  | c :: cs =>
    do '(r, x, d) <- dec_call I d c;
    match r with
    | Continue _ => do '(r, xs, d) <- dec_calls I d cs; Ok (r, x :: xs, d)
    | Break _ => Ok (r, [], d)
    end
  end.
