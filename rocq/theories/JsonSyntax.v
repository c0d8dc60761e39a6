(** The vocabulary of the JSON tokenizer interface: characters, tokens and
    errors, as the handler of the caller sees them.  Shared by the model and
    its specification. *)
From Verif Require Export Base.
Local Open Scope N_scope.

(** Characters are numbers. A Rust [char] is a Unicode scalar value. The
    argument of lib/osi/src/json/token.rs:1139-1143. *)
Definition scalar_value (c : N) : Prop := c < 0xd800 \/ 0xe000 <= c < 0x110000.

(** Names of the characters that play a role, by their code point. *)
Notation c_tab := 9 (only parsing).
Notation c_newline := 10 (only parsing).
Notation c_return := 13 (only parsing).
Notation c_space := 32 (only parsing).
Notation c_quote := 34 (only parsing).
Notation c_hash := 35 (only parsing).
Notation c_plus := 43 (only parsing).
Notation c_comma := 44 (only parsing).
Notation c_minus := 45 (only parsing).
Notation c_dot := 46 (only parsing).
Notation c_slash := 47 (only parsing).
Notation c_zero := 48 (only parsing).
Notation c_nine := 57 (only parsing).
Notation c_colon := 58 (only parsing).
Notation c_equal := 61 (only parsing).
Notation c_open := 91 (only parsing).
Notation c_backslash := 92 (only parsing).
Notation c_close := 93 (only parsing).
Notation c_lbrace := 123 (only parsing).
Notation c_rbrace := 125 (only parsing).

(** The characters of an ASCII literal, to write examples and keywords. *)
From Coq Require Import String Ascii.
Export String.StringSyntax.
(** For the keywords at lib/osi/src/json/token.rs:342-344. *)
Definition chars_of (s : string) : list N := List.map N_of_ascii (list_ascii_of_string s).
Arguments chars_of s%string.

(** lib/osi/src/json/token.rs 46-55 *)
Inductive Sign := Plus | Minus.

(** lib/osi/src/json/token.rs 60-80 [Error]. *)
Inductive Error :=
| CharacterStray (c : N)
| KeywordUnknown (text : list N)
| NumberIncomplete
| StringIncomplete
| StringCharacterInvalid (c : N)
| StringEscapeInvalid (c : N)
| StringEscapeIncomplete
| StringSurrogateUnpaired
| Comment (text : list N).

(** lib/osi/src/json/token.rs 89-126 [Token]. *)
Inductive Token :=
| Colon
| Comma
| ArrayOpen
| ArrayClose
| ObjectOpen
| ObjectClose
| Null
| False_
| True_
| Whitespace (raw : list N)
| Number (raw integer fraction exponent : list N) (integer_sign exponent_sign : Sign)
| Text (raw chars : list N).

(** What a handler is told: lib/osi/src/json/token.rs 134-146 [Report]. *)
Inductive event := Err (e : Error) | Tok (t : Token).

(** lib/osi/src/json/token.rs 25 and 31.  The flags of a tokenizer are a set of bits. *)
Definition ALLOW_LEADING_ZERO : N := 1.
(** lib/osi/src/json/token.rs 31, [FLAG_ALLOW_PLUS_SIGN]. *)
Definition ALLOW_PLUS_SIGN : N := 2.

(** lib/osi/src/json/token.rs 36-44 [Status]. *)
Inductive Status := SDone | SBusy.
