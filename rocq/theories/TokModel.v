(** Model of lib/tmp/src/fmt/json/token.rs: the streaming JSON tokenizer
    ([token.rs] below). *)
From Verif Require Import Base StreamSpec StreamModel.
From Verif Require Export TokSyntax.
From Verif Require DvarModel.
Local Open Scope res_scope.

(** ** Slices and characters *)

(** Rust semantics: [map[i]] with its bounds check, as at token.rs:365. *)
Definition at_ (map : list N) (i : nat) : res N :=
  match nth_error map i with Some c => Ok c | None => Panic end.
(** Rust semantics: [map[i..j]] with its bounds checks, as at token.rs:281 and
    425. *)
Definition part (map : list N) (i j : nat) : res (list N) :=
  assert! (i <=? j) && (j <=? length map); Ok (slice map i j).
(** Rust semantics: usize::strict_sub, as at token.rs:599; also the
    subtraction with overflow check at token.rs:324. *)
Definition strict_sub (a b : nat) : res nat := assert! b <=? a; Ok (a - b).
(** Rust semantics: whether [core::str::from_utf8] succeeds, as at
    token.rs:263 and 326. *)
Definition is_utf8 (s : list N) : bool := DvarModel.utf8_valid s.
(** Rust semantics: [core::str::from_utf8] followed by [unwrap], as at
    token.rs:251. *)
Definition from_utf8_unwrap (s : list N) : res (list N) := assert! is_utf8 s; Ok s.
(** Rust semantics: [char::from_u32] followed by [unwrap], as at token.rs:662.
    *)
Definition char_unwrap (c : N) : res N :=
  assert! ((c <? 0xd800) || (0xdfff <? c) && (c <? 0x110000))%N; Ok c.
(** Rust semantics: [char::encode_utf8], called at token.rs:349. *)
Definition encode_utf8 (c : N) : list N :=
  (if c <? 0x80 then [c]
   else if c <? 0x800 then [0xc0 + c / 64; 0x80 + c mod 64]
   else if c <? 0x10000 then [0xe0 + c / 4096; 0x80 + c / 64 mod 64; 0x80 + c mod 64]
   else [0xf0 + c / 262144; 0x80 + c / 4096 mod 64; 0x80 + c / 64 mod 64; 0x80 + c mod 64])%N.
(** Rust semantics: [char::REPLACEMENT_CHARACTER], used at token.rs:632. *)
Definition REPLACEMENT_CHARACTER : N := 0xfffd.
(** Rust semantics: [char::to_digit(16)] followed by [unwrap], as at
    token.rs:223. *)
Definition to_digit16 (c : N) : res N :=
  (if (0x30 <=? c) && (c <=? 0x39) then Ok (c - 0x30)
   else if (0x61 <=? c) && (c <=? 0x66) then Ok (c - 0x61 + 10)
   else if (0x41 <=? c) && (c <=? 0x46) then Ok (c - 0x41 + 10)
   else Panic)%N.
(** token.rs:221-228 [unicode_from_hex].  A byte is always a character. *)
Definition unicode_from_hex (v0 v1 v2 v3 : N) : res N :=
  let code := 0%N in
  do d <- to_digit16 v0; let code := N.lor (N.shiftl code 4) d in
  do d <- to_digit16 v1; let code := N.lor (N.shiftl code 4) d in
  do d <- to_digit16 v2; let code := N.lor (N.shiftl code 4) d in
  do d <- to_digit16 v3; let code := N.lor (N.shiftl code 4) d in
  Ok code.

(** token.rs:366 and 422: the pattern for white space. *)
Definition is_ws (c : N) : bool := ((c =? 0x20) || (c =? 0x0a) || (c =? 0x0d) || (c =? 0x09))%N.
(** token.rs:469: the pattern for digits. *)
Definition is_digit (c : N) : bool := ((0x30 <=? c) && (c <=? 0x39))%N.
(** token.rs:625 and 680: the pattern for hexadecimal digits. *)
Definition is_hex (c : N) : bool :=
  ((0x30 <=? c) && (c <=? 0x39) || (0x61 <=? c) && (c <=? 0x66) || (0x41 <=? c) && (c <=? 0x46))%N.
(** token.rs:434-435: the pattern for what continues an item. *)
Definition is_item (c : N) : bool :=
  ((c =? 0x2b) || (c =? 0x2d) || (c =? 0x2e) || (0x30 <=? c) && (c <=? 0x39)
   || (0x61 <=? c) && (c <=? 0x7a) || (0x41 <=? c) && (c <=? 0x5a))%N.

(** ** The decoder *)

(** Rust semantics: [core::ops::Range<usize>], the type at token.rs:183-186.
    *)
Definition range := (nat * nat)%type.
(** Rust semantics: [==] of ranges, as at token.rs:487. *)
Definition range_eqb (a b : range) : bool := (fst a =? fst b) && (snd a =? snd b).
(** token.rs:182-186 and 189-193: the fields of [State::Number] and
    [State::NumberDone]. *)
Record num := mkNum { n_sign : Sign; n_int : range; n_frac : range; n_esign : Sign; n_exp : range }.
(** token.rs:176-206 [State]. *)
Inductive State :=
| SNone
| SWhitespace
| SItem
| SNumber (n : num)
| SNumberDone (n : num)
| SString (idx_start : nat)
| SEscape
| SUnicode (idx_start : nat)
| STrail (idx_start : nat) (lead : N).
(** token.rs:208-213 [DecInner].  The capacity of [acc_str] is not modelled. *)
Record dec := mkDec { state : State; idx : nat; done : option nat; acc_str : list N }.
(** An assignment to [self.inner.state], as at token.rs:367. *)
Definition set_state (d : dec) (s : State) : dec := mkDec s (idx d) (done d) (acc_str d).
(** An assignment to [self.inner.idx], as at token.rs:368. *)
Definition set_idx (d : dec) (i : nat) : dec := mkDec (state d) i (done d) (acc_str d).
(** An assignment to [self.inner.done], as at token.rs:371. *)
Definition set_done (d : dec) (i : nat) : dec := mkDec (state d) (idx d) (Some i) (acc_str d).
(** Changes of [self.inner.acc_str], as at token.rs:334. *)
Definition set_acc (d : dec) (a : list N) : dec := mkDec (state d) (idx d) (done d) a.
(** token.rs:231-238 [new]. *)
Definition new : dec := mkDec SNone 0 None [].

(** token.rs:248-253 [raise_whitespace]. *)
Definition raise_whitespace (map : list N) : res Token :=
  do s <- from_utf8_unwrap map; Ok (TWhitespace s).
(** Rust semantics: a byte string as a pattern, as at token.rs:257-259. *)
Definition list_eqb (a b : list N) : bool := if list_eq_dec N.eq_dec a b then true else false.
(** token.rs:255-267 [raise_item]. *)
Definition raise_item (map : list N) : Token :=
  if list_eqb map [0x6e; 0x75; 0x6c; 0x6c]%N then TNull
  else if list_eqb map [0x66; 0x61; 0x6c; 0x73; 0x65]%N then TFalse
  else if list_eqb map [0x74; 0x72; 0x75; 0x65]%N then TTrue
  else if is_utf8 map then TError (ItemUnknown map) else TError (ItemNonUtf8 map).
(** token.rs:281, 283 and 288: the text in a range. *)
Definition text_of (map : list N) (r : range) : res (list N) :=
  do s <- part map (fst r) (snd r); from_utf8_unwrap s.
(** token.rs:269-292 [raise_number]. *)
Definition raise_number (map : list N) (n : num) : res Token :=
  do i <- text_of map (n_int n);
  do f <- (if negb (fst (n_frac n) =? 0) then do s <- text_of map (n_frac n); Ok (Some s) else Ok None);
  do e <- (if negb (fst (n_exp n) =? 0) then do s <- text_of map (n_exp n); Ok (Some (n_esign n, s)) else Ok None);
  Ok (TNumber (mkNumber map (n_sign n) i f e)).
(** token.rs:294-316 [number_done]. *)
Definition number_done (d : dec) (raw : list N) : res (dec * Token) :=
  match state d with
  | SNumber n =>
      if (snd (n_int n) <=? fst (n_int n))
         || negb (fst (n_frac n) =? 0) && (snd (n_frac n) <=? fst (n_frac n))
         || negb (fst (n_exp n) =? 0) && (snd (n_exp n) <=? fst (n_exp n))
      then Ok (set_state d (SNumberDone n), TError NumberRangeEmpty)
      else do t <- raise_number raw n; Ok (set_done d (idx d), t)
  | _ => Panic
  end.
(** token.rs:318-330 [raise_string]. *)
Definition raise_string (d : dec) (map : list N) : res Token :=
  let data := if 0 <? length (acc_str d) then acc_str d else map in
  do e <- strict_sub (length data) 1;
  do data <- part data 1 e;
  Ok (if is_utf8 data then TString map data else TError (StringNonUtf8 map data)).
(** token.rs:332-336 [string_raw]. *)
Definition string_raw (d : dec) (raw : list N) : dec :=
  if 0 <? length (acc_str d) then set_acc d (acc_str d ++ raw) else d.
(** token.rs:338-343 [string_byte]. *)
Definition string_byte (d : dec) (raw : list N) (v : N) : dec :=
  let a := if length (acc_str d) =? 0 then acc_str d ++ raw else acc_str d in
  set_acc d (a ++ [v]).
(** token.rs:345-350 [string_char]. *)
Definition string_char (d : dec) (raw : list N) (v : N) : dec :=
  let a := if length (acc_str d) =? 0 then acc_str d ++ raw else acc_str d in
  set_acc d (a ++ encode_utf8 v).

(** The result type at token.rs:794: what a step of the decoder leaves is its
    state, and [More], or maybe a token. *)
Definition step := res (dec * flow (option Token)).
(** What token.rs:364-750 do after a mapping was made. *)
Definition finish := dec -> list N -> res (dec * option Token).
(** The [?] operator after a mapping (as at token.rs:365 and 423), and the
    rest of the function. *)
Definition got (d : dec) (r : flow (list N)) (f : finish) : step :=
  match r with
  | Break m => Ok (d, Break m)
  | Cont map => do '(d, t) <- f d map; Ok (d, Cont t)
  end.
(** [self.read.map(..)?], as at token.rs:365. *)
Definition with_map (v : view) (buf : list N) (d : dec) (min : nat) (max : option nat) (f : finish) : step :=
  got d (read_map v buf min max) f.
(** [self.read.map_while(&mut self.inner.idx, ..)?], as at token.rs:419-423.
    *)
Definition with_map_while (v : view) (buf : list N) (d : dec) (max : option nat) (p : nat -> N -> bool)
  (f : finish) : step :=
  do '(n, r) <- read_map_while v buf (idx d) max p; got (set_idx d n) r f.

(** The two assignments at token.rs:367-368, 378-379, 409-410 and similar. *)
Definition begin (d : dec) (s : State) : dec := set_idx (set_state d s) 1.
(** token.rs:365-413: the match on the first byte. *)
Definition start : finish := fun d map =>
  do c <- at_ map 0;
  (if is_ws c then Ok (begin d SWhitespace, None)
   else if c =? 0x3a then Ok (set_done d 1, Some TColon)
   else if c =? 0x2c then Ok (set_done d 1, Some TComma)
   else if c =? 0x5b then Ok (set_done d 1, Some TArrayOpen)
   else if c =? 0x5d then Ok (set_done d 1, Some TArrayClose)
   else if c =? 0x7b then Ok (set_done d 1, Some TObjectOpen)
   else if c =? 0x7d then Ok (set_done d 1, Some TObjectClose)
   else if c =? 0x22 then Ok (begin d (SString 0), None)
   else if (c =? 0x2b) || (c =? 0x2d) then
     Ok (begin d (SNumber (mkNum (if (c =? 0x2d)%N then Minus else Plus) (1, 1) (0, 0) Plus (0, 0)))%nat,
         if c =? 0x2b then Some (TError NumberLeadingPlus) else None)
   else if (0x30 <=? c) && (c <=? 0x39) then
     Ok (begin d (SNumber (mkNum Plus (0, 1) (0, 0) Plus (0, 0)))%nat, None)
   else Ok (begin d SItem, None))%N.
(** token.rs:364-416 [advance_none]. *)
Definition advance_none (v : view) (buf : list N) (d : dec) : step := with_map v buf d 1 (Some 1) start.

(** token.rs:424-425. *)
Definition whitespace : finish := fun d map =>
  let d := set_done d (idx d) in
  do m <- part map 0 (idx d);
  do t <- raise_whitespace m; Ok (d, Some t).
(** token.rs:418-426 [advance_whitespace]. *)
Definition advance_whitespace (v : view) (buf : list N) (d : dec) : step :=
  with_map_while v buf d None (fun _ c => is_ws c) whitespace.

(** token.rs:438-439. *)
Definition item : finish := fun d map =>
  let d := set_done d (idx d) in
  do m <- part map 0 (idx d); Ok (d, Some (raise_item m)).
(** token.rs:428-440 [advance_item]. *)
Definition advance_item (v : view) (buf : list N) (d : dec) : step :=
  with_map_while v buf d None (fun _ c => is_item c) item.

(** token.rs:451-454, for [NumberDone]. *)
Definition number_again (n : num) : finish := fun d map =>
  let d := set_done d (idx d) in
  do m <- part map 0 (idx d);
  do t <- raise_number m n; Ok (d, Some t).
(** token.rs:472-481: the digits extend the part that was reached last. *)
Definition extend (n : num) (i : nat) : num * range :=
  if negb (fst (n_exp n) =? 0) then
    let r := (fst (n_exp n), i) in (mkNum (n_sign n) (n_int n) (n_frac n) (n_esign n) r, r)
  else if negb (fst (n_frac n) =? 0) then
    let r := (fst (n_frac n), i) in (mkNum (n_sign n) (n_int n) r (n_esign n) (n_exp n), r)
  else
    let r := (fst (n_int n), i) in (mkNum (n_sign n) r (n_frac n) (n_esign n) (n_exp n), r).
(** token.rs:515, 525, 537 and 542. The number is over:
    [number_done(&map[..idx])]. *)
Definition number_ends : finish := fun d map =>
  do m <- part map 0 (idx d); do '(d, t) <- number_done d m; Ok (d, Some t).
(** token.rs:472-547. *)
Definition number (n : num) : finish := fun d map =>
  let '(n, r) := extend n (idx d) in
  let d := set_state d (SNumber n) in
  do c <- at_ map (idx d);
  if ((c =? 0x2b) || (c =? 0x2d))%N then
    let s := if (c =? 0x2b)%N then Plus else Minus in
    if range_eqb r (n_int n) && (snd (n_int n) <=? fst (n_int n)) then
      let i := idx d + 1 in
      let d := set_idx (set_state d (SNumber (mkNum s (i, i) (n_frac n) (n_esign n) (n_exp n)))) i in
      Ok (d, if i <=? 2 then Some (TError NumberMultipleSigns) else None)
    else if range_eqb r (n_exp n) && (snd (n_exp n) <=? fst (n_exp n)) then
      let i := idx d + 1 in
      let d := set_idx (set_state d (SNumber (mkNum (n_sign n) (n_int n) (n_frac n) s (i, i)))) i in
      Ok (d, if negb (i =? snd (n_frac n) + 2) && negb (i =? snd (n_int n) + 2)
             then Some (TError NumberMultipleSigns) else None)
    else number_ends d map
  else if (c =? 0x2e)%N then
    if range_eqb r (n_int n) then
      let i := idx d + 1 in
      Ok (set_idx (set_state d (SNumber (mkNum (n_sign n) (n_int n) (i, i) (n_esign n) (n_exp n)))) i, None)
    else number_ends d map
  else if ((c =? 0x65) || (c =? 0x45))%N then
    if negb (range_eqb r (n_exp n)) then
      let i := idx d + 1 in
      Ok (set_idx (set_state d (SNumber (mkNum (n_sign n) (n_int n) (n_frac n) (n_esign n) (i, i)))) i, None)
    else number_ends d map
  else number_ends d map.
(** token.rs:442-548 [advance_number]. *)
Definition advance_number (v : view) (buf : list N) (d : dec) : step :=
  match state d with
  | SNumberDone n => with_map v buf d (idx d) None (number_again n)
  | SNumber n => with_map_while v buf d None (fun _ c => is_digit c) (number n)
  | _ => Panic
  end.

(** token.rs:556: the bytes at which the scan of a string stops. *)
Definition string_stop (c : N) : bool := ((c =? 0x22) || (c =? 0x5c) || (c <? 0x1f))%N.
(** token.rs:559-580, for [State::String]. *)
Definition string_ (idx_start : nat) : finish := fun d map =>
  do c <- at_ map (idx d);
  if (c =? 0x22)%N then
    let d := set_idx d (idx d + 1) in
    do s <- part map idx_start (idx d);
    let d := string_raw d s in
    let d := set_done d (idx d) in
    do m <- part map 0 (idx d);
    do t <- raise_string d m; Ok (d, Some t)
  else if (c =? 0x5c)%N then
    do s <- part map idx_start (idx d);
    let d := string_raw d s in
    let d := set_idx d (idx d + 1) in
    Ok (set_state d SEscape, None)
  else if (c <? 0x1f)%N then
    let d := set_idx d (idx d + 1) in
    do s <- part map idx_start (idx d);
    let d := string_raw d s in
    Ok (d, Some (TError (StringUnescaped c)))
  else Panic.
(** token.rs:586-616, for [State::StringEscape]. *)
Definition escape : finish := fun d map =>
  do esc <- at_ map (idx d);
  let d := set_idx d (idx d + 1) in
  if ((esc =? 0x22) || (esc =? 0x5c) || (esc =? 0x2f) || (esc =? 0x62) || (esc =? 0x66) || (esc =? 0x6e)
      || (esc =? 0x72) || (esc =? 0x74))%N then
    let c := (if esc =? 0x62 then 0x08 else if esc =? 0x66 then 0x0c else if esc =? 0x6e then 0x0a
              else if esc =? 0x72 then 0x0d else if esc =? 0x74 then 0x09 else esc)%N in
    do j <- strict_sub (idx d) 2; do m <- part map 0 j;
    let d := string_byte d m c in
    Ok (set_state d (SString (idx d)), None)
  else if (esc =? 0x75)%N then
    Ok (set_state d (SUnicode (idx d)), None)
  else
    do j <- strict_sub (idx d) 2; do m <- part map 0 j;
    let d := string_byte d m esc in
    Ok (set_state d (SString (idx d)), Some (TError (StringEscapeUnknown esc))).
(** token.rs:636-641 and 696-701. *)
Definition hex_at (map : list N) (i : nat) : res N :=
  do v0 <- at_ map i; do v1 <- at_ map (i + 1); do v2 <- at_ map (i + 2); do v3 <- at_ map (i + 3);
  unicode_from_hex v0 v1 v2 v3.
(** token.rs:642 and 702. *)
Definition is_lead (c : N) : bool := ((0xd800 <=? c) && (c <=? 0xdbff))%N.
(** token.rs:649 and 717. *)
Definition is_trail (c : N) : bool := ((0xdc00 <=? c) && (c <=? 0xdfff))%N.
(** token.rs:628-667, for [State::StringEscapeUnicode]. *)
Definition unicode (idx_start : nat) : finish := fun d map =>
  if negb (idx d =? idx_start + 4) then
    let d := set_state d (SString (idx d)) in
    do j <- strict_sub idx_start 2; do m <- part map 0 j;
    Ok (string_char d m REPLACEMENT_CHARACTER, Some (TError StringEscapeInvalid))
  else
    do code <- hex_at map idx_start;
    if is_lead code then
      Ok (set_state d (STrail (idx d) code), None)
    else if is_trail code then
      do j <- strict_sub (idx d) 6; do m <- part map 0 j;
      let d := string_char d m REPLACEMENT_CHARACTER in
      Ok (set_state d (SString (idx d)), Some (TError (StringEscapeUnpairedTrailSurrogate code)))
    else
      do j <- strict_sub (idx d) 6; do m <- part map 0 j;
      do c <- char_unwrap code;
      let d := string_char d m c in
      Ok (set_state d (SString (idx d)), None).
(** token.rs:675-682: the predicate. *)
Definition trail_char (idx_start : nat) (i : nat) (c : N) : bool :=
  match i - idx_start with
  | 0 => (c =? 0x5c)%N
  | 1 => (c =? 0x75)%N
  | k => (k <=? 5) && is_hex c
  end.
(** token.rs:685-743, for [State::StringEscapeUnicodeTrail]. *)
Definition trail (idx_start : nat) (lead : N) : finish := fun d map =>
  if negb (idx d =? idx_start + 6) then
    let d := set_state d (SString idx_start) in
    let d := set_idx d idx_start in
    do j <- strict_sub idx_start 6; do m <- part map 0 j;
    Ok (string_char d m REPLACEMENT_CHARACTER, Some (TError (StringEscapeUnpairedLeadSurrogate lead)))
  else
    do code <- hex_at map (idx_start + 2);
    if is_lead code then
      do j <- strict_sub (idx d) 12; do m <- part map 0 j;
      let d := string_char d m REPLACEMENT_CHARACTER in
      Ok (set_state d (STrail (idx d) code), Some (TError (StringEscapeUnpairedLeadSurrogate lead)))
    else if is_trail code then
      assert! (0xd800 <=? lead)%N;
      let full := (0x10000 + N.shiftl (lead - 0xd800) 10 + (code - 0xdc00))%N in
      do j <- strict_sub (idx d) 12; do m <- part map 0 j;
      do c <- char_unwrap full;
      let d := string_char d m c in
      Ok (set_state d (SString (idx d)), None)
    else
      do j <- strict_sub (idx d) 12; do m <- part map 0 j;
      let d := string_char d m REPLACEMENT_CHARACTER in
      do j <- strict_sub (idx d) 6; do m <- part map 0 j;
      do c <- char_unwrap code;
      let d := string_char d m c in
      Ok (set_state d (SString (idx d)), Some (TError (StringEscapeUnpairedLeadSurrogate lead))).
(** token.rs:550-750 [advance_string]. *)
Definition advance_string (v : view) (buf : list N) (d : dec) : step :=
  match state d with
  | SString idx_start => with_map_while v buf d None (fun _ c => negb (string_stop c)) (string_ idx_start)
  | SEscape => with_map v buf d (idx d + 1) None escape
  | SUnicode idx_start => with_map_while v buf d (Some (idx_start + 4)) (fun _ c => is_hex c) (unicode idx_start)
  | STrail idx_start lead =>
      with_map_while v buf d (Some (idx_start + 6)) (trail_char idx_start) (trail idx_start lead)
  | _ => Panic
  end.

(** token.rs:752-759 [clear_done]: also consumes the data of the token. *)
Definition clear_done (buf : list N) (d : dec) : res (list N * dec) :=
  match done d with
  | Some len => do buf <- read_advance buf len; Ok (buf, mkDec SNone (idx d) None [])
  | None => Ok (buf, d)
  end.

(** token.rs:761-792 [complete_inner] and 857-859 [complete]. *)
Definition complete (v : view) (buf : list N) (d : dec) : res (list N * dec * option Token) :=
  do '(buf, d) <- clear_done buf d;
  match state d with
  | SNone =>
      match read_map v buf 1 None with
      | Break _ => Ok (buf, d, None)
      | Cont _ => Ok (buf, d, Some (TError BufferRemaining))
      end
  | s =>
      match read_map v buf (idx d) None with
      | Break _ => Ok (buf, set_done d (idx d), Some (TError BufferChanged))
      | Cont map =>
          match s with
          | SNone => Ok (buf, d, None)
          | SWhitespace => do t <- raise_whitespace map; Ok (buf, d, Some t)
          | SItem => Ok (buf, d, Some (raise_item map))
          | SNumber _ | SNumberDone _ => do '(d, t) <- number_done d map; Ok (buf, d, Some t)
          | _ => Ok (buf, d, Some (TError StringIncomplete))
          end
      end
  end.

(** token.rs:797-807: the match on the state. *)
Definition advance_state (v : view) (buf : list N) (d : dec) : step :=
  match state d with
  | SNone => advance_none v buf d
  | SWhitespace => advance_whitespace v buf d
  | SItem => advance_item v buf d
  | SNumber _ | SNumberDone _ => advance_number v buf d
  | _ => advance_string v buf d
  end.
(** token.rs:794-810 [advance_inner]. *)
Definition advance_inner (v : view) (buf : list N) (d : dec) : res (list N * dec * flow (option Token)) :=
  do '(buf, d) <- clear_done buf d;
  do '(d, r) <- advance_state v buf d;
  Ok (buf, d, r).
(** token.rs:812-835 [advance]. *)
Fixpoint advance (fuel : nat) (v : view) (buf : list N) (d : dec) : res (list N * dec * flow Token) :=
  match fuel with
  | O => NoFuel
  | S fuel =>
      do '(buf, d, r) <- advance_inner v buf d;
      match r with
      | Break m => Ok (buf, d, Break m)
      | Cont (Some t) => Ok (buf, d, Cont t)
      | Cont None => advance fuel v buf d
      end
  end.
(** token.rs:845-847 [pop]. The fuel is enough for every buffer. *)
Definition pop (v : view) (buf : list N) (d : dec) : res (list N * dec * flow Token) :=
  advance (8 * length buf + 5) v buf d.

(** ** Use of the decoder *)

(** Data arrives in the buffer, or a token is asked for (token.rs:845) on a
    reader with view [v]. *)
Inductive event := Feed (data : list N) | Pop (v : view).
(** A program that pops tokens (token.rs:845-847), and what it sees of them.
    *)
Fixpoint session (h : list event) (buf : list N) (d : dec) : res (list (flow Token) * list N * dec) :=
  match h with
  | [] => Ok ([], buf, d)
  | Feed data :: h => session h (buf ++ data) d
  | Pop v :: h =>
      do '(buf, d, r) <- pop v buf d;
      do '(rs, buf, d) <- session h buf d;
      Ok (r :: rs, buf, d)
  end.
(** Calls to [complete] (token.rs:857-859), one after the other; each runs on
    a reader with its own view. *)
Fixpoint completes (vs : list view) (buf : list N) (d : dec) : res (list (option Token)) :=
  match vs with
  | [] => Ok []
  | v :: vs =>
      do '(buf, d, r) <- complete v buf d;
      do rs <- completes vs buf d;
      Ok (r :: rs)
  end.
