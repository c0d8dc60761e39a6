(** Tokens of the streaming JSON tokenizer: lib/tmp/src/fmt/json/token.rs:38-174.
    Where a token carries the same bytes both raw and as a string, they are kept
    once; the details of [Utf8Error] are left out. *)
From Verif Require Import Base.

(** token.rs:109-115 [Sign]. *)
Inductive Sign := Plus | Minus.
(** token.rs:40-105 [Error]. *)
Inductive Error :=
| BufferRemaining
| BufferChanged
| ItemNonUtf8 (raw : list N)
| ItemUnknown (raw : list N)
| NumberIncomplete
| NumberLeadingPlus
| NumberMultipleSigns
| NumberRangeEmpty
| StringIncomplete
| StringNonUtf8 (raw str : list N)
| StringUnescaped (code : N)
| StringEscapeUnknown (code : N)
| StringEscapeInvalid
| StringEscapeUnpairedLeadSurrogate (lead : N)
| StringEscapeUnpairedTrailSurrogate (trail : N).
(** token.rs:119-130 [Number]. *)
Record Number := mkNumber {
  raw : list N; sign : Sign; integer : list N;
  fraction : option (list N); exponent : option (Sign * list N) }.
(** token.rs:135-174 [Token]. *)
Inductive Token :=
| TError (e : Error)
| TWhitespace (raw : list N)
| TColon | TComma | TArrayOpen | TArrayClose | TObjectOpen | TObjectClose
| TNull | TFalse | TTrue
| TNumber (n : Number)
| TString (raw str : list N).
