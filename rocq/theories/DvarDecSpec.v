(** Specification of decoding: the calls for a value of the types the decoder has
    methods for, and what they must yield; UTF-8. *)
From Verif Require Import Base DbusSpec DvarModel DvarSpec DvarTyping.
Local Open Scope N_scope.

(** Unicode scalar values and their UTF-8 encoding. *)
Definition scalar (c : N) : Prop := c < 55296 \/ 57344 <= c < 1114112.
Definition utf8 (c : N) : list N :=
  if c <? 128 then [c]
  else if c <? 2048 then [192 + c / 64; 128 + c mod 64]
  else if c <? 65536 then [224 + c / 4096; 128 + c / 64 mod 64; 128 + c mod 64]
  else [240 + c / 262144; 128 + c / 4096 mod 64; 128 + c / 64 mod 64; 128 + c mod 64].
(** The bytes of a str. *)
Definition text (s : list N) : Prop := exists cs, Forall scalar cs /\ s = flat_map utf8 cs.

(** [decodes t v cs ds]: the calls [cs] read a value of type [t] and, if it is
    [v], yield the data [ds]. *)
Inductive decodes : ty -> value -> list dcall -> list datum -> Prop :=
| dec_as_u16 n : decodes (TBasic BUint16) (VU16 n) [DCU16] [DNum n]
| dec_as_string s : text s -> decodes (TBasic BString) (VString s) [DCString] [DText s]
| dec_as_signature s : text s -> decodes (TBasic BSignature) (VSignature s) [DCSignature] [DText s]
| dec_as_array t vs cs ds :
    decodes_all t vs cs ds -> decodes (TArray t) (VArray vs) (DCArray :: cs ++ [DCClose]) (DUnit :: ds ++ [DUnit])
| dec_as_sub t v cs ds : decodes t v cs ds -> decodes t v (DCDec :: cs ++ [DCCommit; DCDrop]) (DUnit :: ds ++ [DUnit; DUnit])
| dec_as_sub_with t v cs ds : decodes t v cs ds ->
    decodes t v (DCDecWith (print t) :: cs ++ [DCCommit; DCDrop]) (DUnit :: ds ++ [DUnit; DUnit])
with decodes_all : ty -> list value -> list dcall -> list datum -> Prop :=
| dec_as_nil t : decodes_all t [] [] []
| dec_as_cons t v vs cs ds cs' ds' :
    decodes t v cs ds -> decodes_all t vs cs' ds' -> decodes_all t (v :: vs) (cs ++ cs') (ds ++ ds').

(** The bytes [b] are in the message [msg] from [pos] on. *)
Definition holds (msg : list N) (pos : N) (b : list N) : Prop :=
  slice msg (N.to_nat pos) (N.to_nat (pos + size b)) = b.

(** * Arrays while decoding *)
(** The position of a decoder in the message. *)
Definition position {R} (d : Dec R) : N := l_idx (f_lvl (d_top d)).
(** Readers that remain readers of the same message, also after errors. *)
Definition keeping {R} (I : IoMapModel.Read R) (P : R -> Prop) : Prop :=
  forall r idx len f r', P r -> IoMapModel.r_map I r idx len = Ok (f, r') -> P r'.
(** Making calls on a decoder for the message [msg], some of which may fail.
    The arrays that are open are listed innermost first, for every decoder that
    is in use: where its contents start and how long its prefix says they are. *)
Inductive visit {R} (I : IoMapModel.Read R) (msg : list N) (d0 : Dec R) : Dec R -> list (list (N * N)) -> Prop :=
| vis_new : visit I msg d0 d0 [[]]
| vis_failed d s c e x d' : visit I msg d0 d s -> dec_call I d c = Ok (IoMapModel.Break e, x, d') -> visit I msg d0 d' s
| vis_array d l s x d' n : visit I msg d0 d (l :: s) -> dec_call I d DCArray = Ok (IoMapModel.Continue tt, x, d') ->
    n < 2 ^ 32 -> holds msg (position d + size (padding (position d) 2)) (int (big_endian (d_format d)) 4 n) ->
    visit I msg d0 d' (((position d', n) :: l) :: s)
| vis_close d a l s x d' : visit I msg d0 d ((a :: l) :: s) -> dec_call I d DCClose = Ok (IoMapModel.Continue tt, x, d') ->
    visit I msg d0 d' (l :: s)
| vis_sub d s c x d' : visit I msg d0 d s -> (c = DCDec \/ exists t, c = DCDecWith t) ->
    dec_call I d c = Ok (IoMapModel.Continue tt, x, d') -> visit I msg d0 d' ([] :: s)
| vis_drop d l l' s x d' : visit I msg d0 d (l :: l' :: s) -> dec_call I d DCDrop = Ok (IoMapModel.Continue tt, x, d') ->
    visit I msg d0 d' (l' :: s)
| vis_other d s c x d' : visit I msg d0 d s -> In c [DCU16; DCString; DCSignature; DCMore; DCCommit] ->
    dec_call I d c = Ok (IoMapModel.Continue tt, x, d') -> visit I msg d0 d' s.

(** * What a decoder accepts *)
(** Decoders follow the same machine of types as encoders (DvarTyping.v). *)
Definition as_call (c : dcall) : call :=
  match c with
  | DCU16 => CU16 0 | DCString => CString [] | DCSignature => CSignature []
  | DCArray => CArray | DCClose => CClose | DCMore => CClose
  | DCDec => CEnc | DCDecWith t => CEncWith t | DCCommit => CCommit | DCDrop => CDrop
  end.
Definition daccepts (s : state) (c : dcall) (s' : state) : Prop :=
  match c with DCMore => s' = s | _ => accepts s (as_call c) s' end.
Definition valid_dcall (c : dcall) : Prop := valid_call (as_call c).
(** Calls in sequence, continuing after errors, with what they returned. *)
Inductive dhistory {R} (I : IoMapModel.Read R) : Dec R -> list (dcall * dflow) -> Dec R -> Prop :=
| dhis_nil d : dhistory I d [] d
| dhis_cons d c r x d1 l d2 :
    valid_dcall c -> dec_call I d c = Ok (r, x, d1) -> dhistory I d1 l d2 -> dhistory I d ((c, r) :: l) d2.
Inductive dfollows : state -> list (dcall * dflow) -> state -> Prop :=
| dfol_nil s : dfollows s [] s
| dfol_done s c s1 l s2 : daccepts s c s1 -> dfollows s1 l s2 -> dfollows s ((c, IoMapModel.Continue tt) :: l) s2
| dfol_rejected s c l s2 : (forall s1, ~ daccepts s c s1) -> dfollows s l s2 ->
    dfollows s ((c, IoMapModel.Break (Some (mistake (as_call c)))) :: l) s2
| dfol_failed s c s1 x l s2 : daccepts s c s1 -> x <> Some Mismatch -> x <> Some Pending -> dfollows s l s2 ->
    dfollows s ((c, IoMapModel.Break x) :: l) s2.
(** Readers whose method returns, and returns something if it succeeds. *)
Definition answering {R} (I : IoMapModel.Read R) (P : R -> Prop) : Prop :=
  forall r idx len, P r -> 0 < len -> exists f r', IoMapModel.r_map I r idx len = Ok (f, r') /\ f <> IoMapModel.Continue [].

(** * Values in arbitrary messages *)
(** [reads big msg t v p p']: from the offset [p] of the message [msg] up to [p'] a
    value [v] of type [t] is read.  Padding, the byte after a string, and the length
    of an array are not looked at. *)
Inductive reads (big : bool) (msg : list N) : ty -> value -> N -> N -> Prop :=
| rd_u16 n p q : q = p + size (padding p 1) -> n < 2 ^ 16 -> holds msg q (int big 2 n) -> q + 2 <= size msg ->
    reads big msg (TBasic BUint16) (VU16 n) p (q + 2)
| rd_string s p q : q = p + size (padding p 2) -> text s -> size s < 2 ^ 32 -> holds msg q (int big 4 (size s) ++ s) ->
    q + 4 + size s <= size msg -> reads big msg (TBasic BString) (VString s) p (q + 4 + size s + 1)
| rd_signature s p : text s -> size s < 2 ^ 8 -> holds msg p (int big 1 (size s) ++ s) ->
    p + 1 + size s <= size msg -> reads big msg (TBasic BSignature) (VSignature s) p (p + 1 + size s + 1)
| rd_array t vs p q p' : q = p + size (padding p 2) -> q + 4 <= size msg ->
    reads_all big msg t vs (q + 4 + size (padding (q + 4) (dvar_align t))) p' -> reads big msg (TArray t) (VArray vs) p p'
with reads_all (big : bool) (msg : list N) : ty -> list value -> N -> N -> Prop :=
| rd_nil t p : reads_all big msg t [] p p
| rd_cons t v vs p p1 p2 : reads big msg t v p p1 -> reads_all big msg t vs p1 p2 -> reads_all big msg t (v :: vs) p p2.
(** The encoder call that writes what a decoder call has read. *)
Definition rewrite (c : dcall) (x : datum) : list call :=
  match c, x with
  | DCU16, DNum n => [CU16 n]
  | DCString, DText s => [CString s]
  | DCSignature, DText s => [CSignature s]
  | (DCU16 | DCString | DCSignature | DCMore), _ => []
  | _, _ => [as_call c]
  end.
(** Calls in sequence, continuing after errors, and what the successful ones have
    read. *)
Inductive dreads {R} (I : IoMapModel.Read R) : Dec R -> list call -> Dec R -> Prop :=
| drd_nil d : dreads I d [] d
| drd_failed d c e x d1 l d2 : valid_dcall c -> dec_call I d c = Ok (IoMapModel.Break e, x, d1) -> dreads I d1 l d2 -> dreads I d l d2
| drd_done d c x d1 l d2 : valid_dcall c -> dec_call I d c = Ok (IoMapModel.Continue tt, x, d1) -> dreads I d1 l d2 ->
    dreads I d (rewrite c x ++ l) d2.
