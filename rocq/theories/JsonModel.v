(** Model of the JSON tokenizer, lib/osi/src/json/token.rs. *)
From Verif Require Import Base JsonSyntax.
Local Open Scope N_scope.

(** ** Character classes of the Rust standard library *)

(** [char::is_whitespace]: the Unicode property White_Space. The standard
    library's, called at lib/osi/src/json/token.rs:429, 494 and 1074. *)
Definition is_whitespace (c : N) : bool :=
  ((9 <=? c) && (c <=? 13)) || (c =? 32) || (c =? 0x85) || (c =? 0xa0) || (c =? 0x1680) ||
  ((0x2000 <=? c) && (c <=? 0x200a)) || (c =? 0x2028) || (c =? 0x2029) || (c =? 0x202f) ||
  (c =? 0x205f) || (c =? 0x3000).

(** The pattern ['0'..='9']. lib/osi/src/json/token.rs:529 and elsewhere in
    516-712, and 1020. *)
Definition is_digit (c : N) : bool := (c_zero <=? c) && (c <=? c_nine).

(** The pattern [' ' | '\n' | '\r' | '\t']. lib/osi/src/json/token.rs:425, 474
    and 1012. *)
Definition is_blank (c : N) : bool :=
  (c =? c_space) || (c =? c_newline) || (c =? c_return) || (c =? c_tab).

(** [char::to_digit] for radix 10 and 16. The standard library's, called at
    lib/osi/src/json/token.rs:312. *)
Definition to_digit10 (c : N) : option N := if is_digit c then Some (c - 48) else None.
(** The standard library's, called at lib/osi/src/json/token.rs:775 and 850.
    *)
Definition to_digit16 (c : N) : option N :=
  if is_digit c then Some (c - 48)
  else if (97 <=? c) && (c <=? 102) then Some (c - 87)
  else if (65 <=? c) && (c <=? 70) then Some (c - 55)
  else None.

(** The pattern ['0'..='9' | 'a'..='f' | 'A'..='F'].
    lib/osi/src/json/token.rs:774 and 849. *)
Definition is_hex (c : N) : bool :=
  is_digit c || ((97 <=? c) && (c <=? 102)) || ((65 <=? c) && (c <=? 70)).

(** [char::from_u32]. The standard library's, called at
    lib/osi/src/json/token.rs:792, 866 and 873. *)
Definition from_u32 (v : N) : option N :=
  if (v <? 0xd800) || ((0xe000 <=? v) && (v <? 0x110000)) then Some v else None.

(** [a << 4] on u32: the high bits are dropped. Rust semantics, as at
    lib/osi/src/json/token.rs:775 and 850. *)
Definition shl4 (a : N) : N := (a * 16) mod 2 ^ 32.

(** Checked u32 subtraction. Rust semantics, as at
    lib/osi/src/json/token.rs:866. *)
Definition sub32 (a b : N) : option N := if b <=? a then Some (a - b) else None.

(** ** Tokenizer state *)

(** lib/osi/src/json/token.rs 152-173 [State].  The digit counts are usize in the code.  They count
    elements of a vector in memory, so they do not overflow; they are
    unbounded here. *)
Inductive State :=
| SNone
| SSlash
| SKeyword
| SWhitespace
| SIntegerNone (s : Sign)
| SIntegerSome (s : Sign) (n : N)
| SIntegerZero (s : Sign)
| SFractionNone (s : Sign) (n : N)
| SFractionSome (s : Sign) (n f : N)
| SExponentNone (s : Sign) (n f : N)
| SExponentSign (s : Sign) (n f : N) (es : Sign)
| SExponentSome (s : Sign) (n f : N) (es : Sign) (e : N)
| SString
| SEscape
| SUnicode (num value : N)
| SSurrogate (lead : N)
| SSurrogateEscape (lead : N)
| SSurrogateUnicode (lead num trail : N)
| SCommentLine.

(** lib/osi/src/json/token.rs 188-194 [Tokenizer]. *)
Record Tokenizer := mkTk {
  flags : N;
  state : State;
  acc : list N;
  acc_str : list N;
  acc_num : list N
}.

(** lib/osi/src/json/token.rs 268-273, [with_flags]. *)
Definition with_flags (f : N) : Tokenizer := mkTk f SNone [] [] [].
(** lib/osi/src/json/token.rs 260-262, [new]. *)
Definition new : Tokenizer := with_flags 0.

(** lib/osi/src/json/token.rs 277-285 [prepare].  The capacity of the buffers is not modelled. *)
Definition prepare (t : Tokenizer) : Tokenizer := mkTk (flags t) SNone [] [] [].

(** lib/osi/src/json/token.rs 291-293 [reset]. *)
Definition reset (t : Tokenizer) : Tokenizer := prepare t.

(** lib/osi/src/json/token.rs 300-305 [status]. *)
Definition status (t : Tokenizer) : Status := match state t with SNone => SDone | _ => SBusy end.

(** ** Code that reports to a handler

    The handler is given by the caller ([&mut dyn Report<R>]).  It cannot
    reach the tokenizer, which is mutably borrowed, and it influences the
    tokenizer only by returning [Break], on which [?] leaves the function.
    [Emit t e k] reports [e] while the tokenizer is [t], and goes on with [k]
    if the handler returns [Continue]. *)
(** The reports at lib/osi/src/json/token.rs:319-390. *)
Inductive prog (A : Type) :=
| Done (t : Tokenizer) (a : A)
| Emit (t : Tokenizer) (e : event) (k : prog A)
| Fail.
Arguments Done {A} t a.
Arguments Emit {A} t e k.
Arguments Fail {A}.

(** Code that changes the tokenizer and reports: the methods of
    lib/osi/src/json/token.rs:277-1115. *)
Definition M (A : Type) : Type := Tokenizer -> prog A.
(** Rust semantics: one statement after the other, [?] leaves the function
    (e.g. lib/osi/src/json/token.rs:430). *)
Fixpoint pbind {A B} (p : prog A) (f : A -> M B) : prog B :=
  match p with
  | Done t a => f a t
  | Emit t e k => Emit t e (pbind k f)
  | Fail => Fail
  end.
(** Rust semantics: the value of a block, e.g. lib/osi/src/json/token.rs:405.
    *)
Definition ret {A} (a : A) : M A := fun t => Done t a.
(** Rust semantics: one statement after the other, as in all of
    lib/osi/src/json/token.rs:392-1115. *)
Definition mbind {A B} (m : M A) (f : A -> M B) : M B := fun t => pbind (m t) f.
(** [unreachable!] and [assert!], e.g. lib/osi/src/json/token.rs:461. *)
Definition panic {A} : M A := fun _ => Fail.
(** Reading [self], e.g. lib/osi/src/json/token.rs:397. *)
Definition get : M Tokenizer := fun t => Done t t.
Notation "x <- e ;; f" := (mbind e (fun x => f)) (at level 100, e at next level, right associativity).
Notation "e ;; f" := (mbind e (fun _ : unit => f)) (at level 100, right associativity).

(** [self.state = s], e.g. lib/osi/src/json/token.rs:404. *)
Definition set_state (s : State) : M unit := fun t => Done (mkTk (flags t) s (acc t) (acc_str t) (acc_num t)) tt.
(** [self.prepare()], e.g. lib/osi/src/json/token.rs:413. *)
Definition prepare_ : M unit := fun t => Done (prepare t) tt.

(** lib/osi/src/json/token.rs 307-309 [acc_raw]. *)
Definition acc_raw (c : N) : M unit :=
  fun t => Done (mkTk (flags t) (state t) (acc t ++ [c]) (acc_str t) (acc_num t)) tt.
(** lib/osi/src/json/token.rs 311-313 [acc_num], with the [unwrap] of [to_digit]. *)
Definition push_num (c : N) : M unit := fun t =>
  match to_digit10 c with
  | Some d => Done (mkTk (flags t) (state t) (acc t) (acc_str t) (acc_num t ++ [d])) tt
  | None => Fail
  end.
(** lib/osi/src/json/token.rs 315-317 [acc_str]. *)
Definition push_char (c : N) : M unit :=
  fun t => Done (mkTk (flags t) (state t) (acc t) (acc_str t ++ [c]) (acc_num t)) tt.

(** lib/osi/src/json/token.rs 319-326, [report_error]. *)
Definition report_error (e : Error) : M unit := fun t => Emit t (Err e) (Done t tt).
(** lib/osi/src/json/token.rs 328-335, [report_token]. *)
Definition report_token (k : Token) : M unit := fun t => Emit t (Tok k) (Done t tt).

(** Rust semantics: equality of strings in the patterns at
    lib/osi/src/json/token.rs:342-344. *)
Fixpoint eq_chars (a b : list N) : bool :=
  match a, b with
  | [], [] => true
  | x :: a', y :: b' => (x =? y) && eq_chars a' b'
  | _, _ => false
  end.

(** lib/osi/src/json/token.rs 337-347 [report_keyword]. *)
Definition report_keyword : M unit :=
  t <- get ;;
  if eq_chars (acc t) (chars_of "null") then report_token Null
  else if eq_chars (acc t) (chars_of "false") then report_token False_
  else if eq_chars (acc t) (chars_of "true") then report_token True_
  else report_error (KeywordUnknown (acc t)).

(** lib/osi/src/json/token.rs 349-359 [report_whitespace]. *)
Definition report_whitespace : M unit := t <- get ;; report_token (Whitespace (acc t)).

(** lib/osi/src/json/token.rs 361-377 [report_number], with the bounds checks of the slices. *)
Definition report_number (s : Sign) (n f : N) (es : Sign) : M unit :=
  t <- get ;;
  let d := acc_num t in
  if n + f <=? N.of_nat (length d) then
    report_token (Number (acc t) (firstn (N.to_nat n) d)
      (firstn (N.to_nat f) (skipn (N.to_nat n) d)) (skipn (N.to_nat (n + f)) d) s es)
  else panic.

(** lib/osi/src/json/token.rs 379-390 [report_string]. *)
Definition report_string : M unit := t <- get ;; report_token (Text (acc t) (acc_str t)).

(** ** Handlers of the token kinds

    Each returns the character if it did not consume it. *)

(** lib/osi/src/json/token.rs 472-476: the first pattern for the end of a
    keyword. *)
Definition starts_valid (c : N) : bool :=
  (c =? c_colon) || (c =? c_comma) || (c =? c_open) || (c =? c_close) || (c =? c_lbrace) || (c =? c_rbrace)
  || is_blank c || (c =? c_minus) || (c =? c_quote).
(** lib/osi/src/json/token.rs 483-487: the second pattern for the end of a
    keyword. *)
Definition starts_invalid (c : N) : bool :=
  (c =? c_hash) || (c =? c_slash) || (c =? c_plus) || (c =? c_equal).

(** lib/osi/src/json/token.rs 397-462: the first half of [advance_misc]. *)
Definition advance_misc_first (ch : option N) : M (option N) :=
  t <- get ;;
  match state t with
  | SSlash =>
      match ch with
      | Some v =>
          if v =? c_slash then acc_raw v ;; set_state SCommentLine ;; ret None
          else set_state SKeyword ;; ret (Some v)
      | None => report_keyword ;; prepare_ ;; ret None
      end
  | SKeyword => ret ch
  | SWhitespace =>
      match ch with
      | Some v =>
          if is_blank v then acc_raw v ;; ret None
          else if is_whitespace v then report_error (CharacterStray v) ;; ret None
          else report_whitespace ;; prepare_ ;; ret ch
      | None => report_whitespace ;; prepare_ ;; ret ch
      end
  | SCommentLine =>
      match ch with
      | Some v =>
          if v =? c_newline then
            report_error (Comment (acc t)) ;; prepare_ ;; ret (Some v)
          else acc_raw v ;; ret None
      | None => report_error (Comment (acc t)) ;; prepare_ ;; ret None
      end
  | _ => panic
  end.

(** lib/osi/src/json/token.rs 392-514, [advance_misc]. *)
Definition advance_misc (ch : option N) : M (option N) :=
  rem <- advance_misc_first ch ;;
  t <- get ;;
  match state t with
  | SKeyword =>
      match rem with
      | Some v =>
          if starts_valid v then report_keyword ;; prepare_ ;; ret rem
          else if starts_invalid v then report_keyword ;; prepare_ ;; ret rem
          else if is_whitespace v then report_keyword ;; prepare_ ;; ret rem
          else acc_raw v ;; ret None
      | None => report_keyword ;; prepare_ ;; ret None
      end
  | _ => ret rem
  end.

(** The tests [Some(v @ '0'..='9')] and so on. lib/osi/src/json/token.rs:529
    and elsewhere in 516-712. *)
Definition digit_of (ch : option N) : option N :=
  match ch with Some v => if is_digit v then Some v else None | None => None end.
(** A pattern with one character, e.g. lib/osi/src/json/token.rs:557. *)
Definition is_char (ch : option N) (c : N) : bool :=
  match ch with Some v => v =? c | None => false end.
(** ['e' | 'E'] The pattern at lib/osi/src/json/token.rs:562 and elsewhere in
    516-712. *)
Definition is_exp (ch : option N) : bool := is_char ch 101 || is_char ch 69.
(** The character that matched such a pattern, e.g.
    lib/osi/src/json/token.rs:557. *)
Definition char_of (ch : option N) : N := match ch with Some v => v | None => 0 end.

(** lib/osi/src/json/token.rs 516-712 [advance_number]. *)
Definition advance_number (ch : option N) : M (option N) :=
  t <- get ;;
  match state t with
  | SIntegerNone s =>
      match digit_of ch with
      | Some v =>
          acc_raw v ;; push_num v ;;
          (if v =? c_zero then set_state (SIntegerZero s) else set_state (SIntegerSome s 1)) ;;
          ret None
      | None =>
          report_error NumberIncomplete ;; report_number s 0 0 Plus ;; prepare_ ;; ret ch
      end
  | SIntegerSome s n =>
      match digit_of ch with
      | Some v => acc_raw v ;; push_num v ;; set_state (SIntegerSome s (n + 1)) ;; ret None
      | None =>
          if is_char ch c_dot then
            acc_raw (char_of ch) ;; set_state (SFractionNone s n) ;; ret None
          else if is_exp ch then
            acc_raw (char_of ch) ;; set_state (SExponentNone s n 0) ;; ret None
          else report_number s n 0 Plus ;; prepare_ ;; ret ch
      end
  | SIntegerZero s =>
      if is_char ch c_dot then
        acc_raw (char_of ch) ;; set_state (SFractionNone s 1) ;; ret None
      else if is_exp ch then
        acc_raw (char_of ch) ;; set_state (SExponentNone s 1 0) ;; ret None
      else match digit_of ch with
      | Some v =>
          (if negb (N.land (flags t) ALLOW_LEADING_ZERO =? ALLOW_LEADING_ZERO)
           then report_error (CharacterStray v) else ret tt) ;;
          acc_raw v ;; push_num v ;; set_state (SIntegerSome s 2) ;; ret None
      | None => report_number s 1 0 Plus ;; prepare_ ;; ret ch
      end
  | SFractionNone s n =>
      match digit_of ch with
      | Some v => acc_raw v ;; push_num v ;; set_state (SFractionSome s n 1) ;; ret None
      | None =>
          report_error NumberIncomplete ;; report_number s n 0 Plus ;; prepare_ ;; ret ch
      end
  | SFractionSome s n f =>
      if is_exp ch then
        acc_raw (char_of ch) ;; set_state (SExponentNone s n f) ;; ret None
      else match digit_of ch with
      | Some v => acc_raw v ;; push_num v ;; set_state (SFractionSome s n (f + 1)) ;; ret None
      | None => report_number s n f Plus ;; prepare_ ;; ret ch
      end
  | SExponentNone s n f =>
      if is_char ch c_plus then
        acc_raw (char_of ch) ;; set_state (SExponentSign s n f Plus) ;; ret None
      else if is_char ch c_minus then
        acc_raw (char_of ch) ;; set_state (SExponentSign s n f Minus) ;; ret None
      else match digit_of ch with
      | Some v => acc_raw v ;; push_num v ;; set_state (SExponentSome s n f Plus 1) ;; ret None
      | None =>
          report_error NumberIncomplete ;; report_number s n f Plus ;; prepare_ ;; ret ch
      end
  | SExponentSign s n f es =>
      match digit_of ch with
      | Some v => acc_raw v ;; push_num v ;; set_state (SExponentSome s n f es 1) ;; ret None
      | None =>
          report_error NumberIncomplete ;; report_number s n f es ;; prepare_ ;; ret ch
      end
  | SExponentSome s n f es e =>
      match digit_of ch with
      | Some v => acc_raw v ;; push_num v ;; set_state (SExponentSome s n f es (e + 1)) ;; ret None
      | None => report_number s n f es ;; prepare_ ;; ret ch
      end
  | _ => panic
  end.

(** The pattern of quote, backslash, slash, and the letters b, f, n, r, t, and
    the character each stands for. lib/osi/src/json/token.rs:735 and 824. *)
Definition is_simple_escape (v : N) : bool :=
  (v =? c_quote) || (v =? c_backslash) || (v =? c_slash) || (v =? 98) || (v =? 102) ||
  (v =? 110) || (v =? 114) || (v =? 116).
(** lib/osi/src/json/token.rs 737-744: the characters they stand for. *)
Definition unescape (v : N) : N :=
  if v =? 98 then 8 else if v =? 102 then 12 else if v =? 110 then 10
  else if v =? 114 then 13 else if v =? 116 then 9 else v.

(** lib/osi/src/json/token.rs 733-893: the escape sequences. *)
Definition advance_escape (v : N) : M (option N) :=
  t <- get ;;
  match state t with
  | SEscape =>
      if is_simple_escape v then
        acc_raw v ;; push_char (unescape v) ;; set_state SString ;; ret None
      else if v =? 117 then acc_raw v ;; set_state (SUnicode 0 0) ;; ret None
      else
        report_error (StringEscapeInvalid v) ;; acc_raw v ;; push_char v ;;
        set_state SString ;; ret None
  | SUnicode num value =>
      if is_hex v then
        match to_digit16 v with
        | None => panic
        | Some d =>
            let value := N.lor (shl4 value) d in
            acc_raw v ;;
            (if num <? 3 then set_state (SUnicode (num + 1) value)
             else if (0xd800 <=? value) && (value <=? 0xdbff) then set_state (SSurrogate value)
             else if (0xdc00 <=? value) && (value <=? 0xdfff) then
               report_error StringSurrogateUnpaired ;; set_state SString
             else match from_u32 value with
                  | None => panic
                  | Some c => push_char c ;; set_state SString
                  end) ;;
            ret None
        end
      else
        report_error StringEscapeIncomplete ;; set_state SString ;; ret (Some v)
  | SSurrogate lead =>
      if v =? c_backslash then
        acc_raw v ;; set_state (SSurrogateEscape lead) ;; ret None
      else
        report_error StringSurrogateUnpaired ;; set_state SString ;; ret (Some v)
  | SSurrogateEscape lead =>
      if v =? 117 then acc_raw v ;; set_state (SSurrogateUnicode lead 0 0) ;; ret None
      else if is_simple_escape v then
        report_error StringSurrogateUnpaired ;;
        acc_raw v ;; push_char (unescape v) ;; set_state SString ;; ret None
      else
        report_error StringSurrogateUnpaired ;; report_error (StringEscapeInvalid v) ;;
        acc_raw v ;; push_char v ;; set_state SString ;; ret None
  | SSurrogateUnicode lead num trail =>
      if is_hex v then
        match to_digit16 v with
        | None => panic
        | Some d =>
            let trail := N.lor (shl4 trail) d in
            acc_raw v ;;
            (if num <? 3 then set_state (SSurrogateUnicode lead (num + 1) trail)
             else if (0xd800 <=? trail) && (trail <=? 0xdbff) then
               report_error StringSurrogateUnpaired ;; set_state SString
             else if (0xdc00 <=? trail) && (trail <=? 0xdfff) then
               match sub32 lead 0xd800, sub32 trail 0xdc00 with
               | Some l, Some r =>
                   match from_u32 (0x10000 + l * 1024 + r) with
                   | None => panic
                   | Some c => push_char c ;; set_state SString
                   end
               | _, _ => panic
               end
             else match from_u32 trail with
                  | None => panic
                  | Some _ => report_error StringSurrogateUnpaired ;; set_state SString
                  end) ;;
            ret None
        end
      else
        report_error StringEscapeIncomplete ;; set_state SString ;; ret (Some v)
  | _ => ret (Some v)
  end.

(** lib/osi/src/json/token.rs 895-924: a character of the string outside of escape sequences. *)
Definition advance_plain (v : N) : M (option N) :=
  t <- get ;;
  match state t with
  | SString =>
      if v =? c_quote then report_string ;; prepare_ ;; ret None
      else if v =? c_backslash then acc_raw v ;; set_state SEscape ;; ret None
      else if v <=? 0x1f then
        report_error (StringCharacterInvalid v) ;; acc_raw v ;; push_char v ;; ret None
      else if (v <=? 0xd7ff) || ((0xe000 <=? v) && (v <=? 0x10ffff)) then
        acc_raw v ;; push_char v ;; ret None
      else panic (* not a [char] *)
  | _ => panic (* the assertion *)
  end.

(** lib/osi/src/json/token.rs 714-925 [advance_string]. *)
Definition advance_string (ch : option N) : M (option N) :=
  match ch with
  | None => report_error StringIncomplete ;; prepare_ ;; ret ch
  | Some v =>
      rem <- advance_escape v ;;
      match rem with
      | None => ret None
      | Some v => advance_plain v
      end
  end.

(** lib/osi/src/json/token.rs 936-967: the part of [advance] that goes on with
    the current token. *)
Definition advance_rest (ch : option N) : M (option N) :=
  t <- get ;;
  match state t with
  | SNone => ret ch
  | SSlash | SKeyword | SWhitespace | SCommentLine => advance_misc ch
  | SIntegerNone _ | SIntegerSome _ _ | SIntegerZero _ | SFractionNone _ _ | SFractionSome _ _ _
  | SExponentNone _ _ _ | SExponentSign _ _ _ _ | SExponentSome _ _ _ _ _ => advance_number ch
  | SString | SEscape | SUnicode _ _ | SSurrogate _ | SSurrogateEscape _ | SSurrogateUnicode _ _ _ =>
      advance_string ch
  end.

(** lib/osi/src/json/token.rs 989-1112: the character starts a new token.  The last five arms of the
    code (punctuation, control and other characters) do the same and are one
    arm here; ['a'..='z' | 'A'..='Z'] does the same too, but precedes the others. *)
Definition advance_start (v : N) : M unit :=
  if v =? c_colon then report_token Colon
  else if v =? c_comma then report_token Comma
  else if v =? c_open then report_token ArrayOpen
  else if v =? c_close then report_token ArrayClose
  else if v =? c_lbrace then report_token ObjectOpen
  else if v =? c_rbrace then report_token ObjectClose
  else if ((97 <=? v) && (v <=? 122)) || ((65 <=? v) && (v <=? 90)) then
    acc_raw v ;; set_state SKeyword
  else if is_blank v then acc_raw v ;; set_state SWhitespace
  else if v =? c_minus then acc_raw v ;; set_state (SIntegerNone Minus)
  else if is_digit v then
    acc_raw v ;; push_num v ;;
    (if v =? c_zero then set_state (SIntegerZero Plus) else set_state (SIntegerSome Plus 1))
  else if v =? c_quote then set_state SString
  else if v =? c_hash then set_state SCommentLine
  else if v =? c_plus then
    t <- get ;;
    if N.land (flags t) ALLOW_PLUS_SIGN =? ALLOW_PLUS_SIGN then
      acc_raw v ;; set_state (SIntegerNone Plus)
    else report_error (CharacterStray v)
  else if v =? c_slash then acc_raw v ;; set_state SSlash
  else if v =? c_equal then report_error (CharacterStray v) ;; report_token Colon
  else if is_whitespace v then report_error (CharacterStray v) ;; set_state SWhitespace
  else acc_raw v ;; set_state SKeyword.

(** lib/osi/src/json/token.rs 927-1115, [advance]. *)
Definition advance (ch : option N) : M unit :=
  rem <- advance_rest ch ;;
  match rem with
  | None => ret tt
  | Some v => advance_start v
  end.

(** ** Running against a handler *)

(** lib/osi/src/json/token.rs 134-146 [Report<R>]: an object with a state that is told events and
    answers with [Continue] or with [Break] and a value. *)
Definition handler (H R : Type) : Type := H -> event -> H * option R.

(** [ControlFlow], the result at lib/osi/src/json/token.rs:1143. *)
Inductive outcome (R A : Type) :=
| Continued (a : A)
| Broke (r : R).
Arguments Continued {R A} a.
Arguments Broke {R A} r.

(** What a call of the handler does, at lib/osi/src/json/token.rs:324 and 333
    and the similar places up to 388: [?] leaves the function on [Break]. *)
Fixpoint run_prog {H R A} (h : handler H R) (s : H) (p : prog A) : res (Tokenizer * H * outcome R A) :=
  match p with
  | Done t a => Ok (t, s, Continued a)
  | Emit t e k =>
      match h s e with
      | (s', Some r) => Ok (t, s', Broke r)
      | (s', None) => run_prog h s' k
      end
  | Fail => Panic
  end.

(** lib/osi/src/json/token.rs 1139-1153 [push]. *)
Definition push {H R} (h : handler H R) (t : Tokenizer) (s : H) (ch : option N)
  : res (Tokenizer * H * outcome R Status) :=
  match run_prog h s (advance ch t) with
  | Ok (t', s', Broke r) => Ok (prepare t', s', Broke r)
  | Ok (t', s', Continued _) => Ok (t', s', Continued (status t'))
  | Panic => Panic
  | NoFuel => NoFuel
  end.

(** lib/osi/src/json/token.rs 1162-1171 [push_str]. *)
Fixpoint push_str {H R} (h : handler H R) (t : Tokenizer) (s : H) (data : list N)
  : res (Tokenizer * H * outcome R Status) :=
  match data with
  | [] => Ok (t, s, Continued (status t))
  | c :: rest =>
      match push h t s (Some c) with
      | Ok (t', s', Continued _) => push_str h t' s' rest
      | other => other
      end
  end.

(** lib/osi/src/json/token.rs 1183-1193 [parse_str]. *)
Definition parse_str {H R} (h : handler H R) (t : Tokenizer) (s : H) (data : list N)
  : res (Tokenizer * H * outcome R Status) :=
  match push_str h t s data with
  | Ok (t', s', Continued _) =>
      match push h t' s' None with
      | Ok (t'', s'', Continued _) => Ok (t'', s'', Continued SDone)
      | other => other
      end
  | other => other
  end.
