(** The tests of lib/tmp/src/fmt/json/token.rs, run on the model. *)
From Coq Require Import Ascii String.
From Verif Require Import Base StreamModel TokSyntax TokModel.
Local Open Scope N_scope.
Local Open Scope res_scope.

(** A text as bytes. *)
Definition T (s : string) : list N := map N_of_ascii (list_ascii_of_string s).
(** A new decoder on [text] pops the tokens [ts], and then [complete] gives
    nothing. *)
Definition pops (text : list N) (ts : list Token) : Prop :=
  (do '(rs, buf, d) <- session (Feed text :: map (fun _ => Pop slice_view) ts) [] new;
   do c <- completes [slice_view] buf d; Ok (rs, c)) = Ok (map Cont ts, [None]).

(** lib/tmp/src/fmt/json/token.rs:867-881, [tokens_valid]. *)
Example replay_tokens_valid :
  pops (T " [ ""foobar"", null ]")
    [TWhitespace (T " "); TArrayOpen; TWhitespace (T " "); TString (T """foobar""") (T "foobar"); TComma; TWhitespace (T " "); TNull; TWhitespace (T " "); TArrayClose].
Proof. vm_compute. reflexivity. Qed.

(** lib/tmp/src/fmt/json/token.rs:884-918, [number_valid]. *)
Example replay_number_valid :
  pops (T "0,1,-0.1e+5,")
    [TNumber (mkNumber (T "0") Plus (T "0") None None); TComma; TNumber (mkNumber (T "1") Plus (T "1") None None); TComma; TNumber (mkNumber (T "-0.1e+5") Minus (T "0") (Some (T "1")) (Some (Plus, T "5"))); TComma].
Proof. vm_compute. reflexivity. Qed.

(** lib/tmp/src/fmt/json/token.rs:921-1006, [number_leading_signs]. *)
Example replay_number_leading_signs :
  pops (T "+71,-71,-+71,--71,++71,--++71,")
    [TError NumberLeadingPlus; TNumber (mkNumber (T "+71") Plus (T "71") None None); TComma; TNumber (mkNumber (T "-71") Minus (T "71") None None); TComma; TError NumberMultipleSigns; TNumber (mkNumber (T "-+71") Plus (T "71") None None); TComma; TError NumberMultipleSigns; TNumber (mkNumber (T "--71") Minus (T "71") None None); TComma; TError NumberLeadingPlus; TError NumberMultipleSigns; TNumber (mkNumber (T "++71") Plus (T "71") None None); TComma; TError NumberMultipleSigns; TNumber (mkNumber (T "--++71") Plus (T "71") None None); TComma].
Proof. vm_compute. reflexivity. Qed.

(** lib/tmp/src/fmt/json/token.rs:1009-1091, [number_empty_ranges]. *)
Example replay_number_empty_ranges :
  pops (T "-,-0.,-0.0e,-0.0e+,-.0e+0,-0.0e+0,")
    [TError NumberRangeEmpty; TNumber (mkNumber (T "-") Minus (T "") None None); TComma; TError NumberRangeEmpty; TNumber (mkNumber (T "-0.") Minus (T "0") (Some (T "")) None); TComma; TError NumberRangeEmpty; TNumber (mkNumber (T "-0.0e") Minus (T "0") (Some (T "0")) (Some (Plus, T ""))); TComma; TError NumberRangeEmpty; TNumber (mkNumber (T "-0.0e+") Minus (T "0") (Some (T "0")) (Some (Plus, T ""))); TComma; TError NumberRangeEmpty; TNumber (mkNumber (T "-.0e+0") Minus (T "") (Some (T "0")) (Some (Plus, T "0"))); TComma; TNumber (mkNumber (T "-0.0e+0") Minus (T "0") (Some (T "0")) (Some (Plus, T "0"))); TComma].
Proof. vm_compute. reflexivity. Qed.

(** lib/tmp/src/fmt/json/token.rs:1097-1110, [string_noncopy], as far as values go. *)
Example replay_string_noncopy :
  pops (T """foobar""")
    [TString (T """foobar""") (T "foobar")].
Proof. vm_compute. reflexivity. Qed.

(** lib/tmp/src/fmt/json/token.rs:1115-1256, [string_copy]. *)
Example replay_string_copy :
  pops (T """foo\nbar""")
    [TString (T """foo\nbar""") (T "foo" ++ [10] ++ T "bar")]
  /\ pops (T """foo\zbar""")
    [TError (StringEscapeUnknown 0x7a); TString (T """foo\zbar""") (T "foozbar")]
  /\ pops (T """foo\u1234bar""")
    [TString (T """foo\u1234bar""") (T "foo" ++ [0xe1; 0x88; 0xb4] ++ T "bar")]
  /\ pops (T """foo\u01Zbar""")
    [TError StringEscapeInvalid; TString (T """foo\u01Zbar""") (T "foo" ++ [0xef; 0xbf; 0xbd] ++ T "Zbar")]
  /\ pops (T """foo\udc00bar""")
    [TError (StringEscapeUnpairedTrailSurrogate 0xdc00); TString (T """foo\udc00bar""") (T "foo" ++ [0xef; 0xbf; 0xbd] ++ T "bar")]
  /\ pops (T """foo\ud800\udc00bar""")
    [TString (T """foo\ud800\udc00bar""") (T "foo" ++ [0xf0; 0x90; 0x80; 0x80] ++ T "bar")]
  /\ pops (T """foo\ud800bar""")
    [TError (StringEscapeUnpairedLeadSurrogate 0xd800); TString (T """foo\ud800bar""") (T "foo" ++ [0xef; 0xbf; 0xbd] ++ T "bar")]
  /\ pops (T """foo\ud800\nbar""")
    [TError (StringEscapeUnpairedLeadSurrogate 0xd800); TString (T """foo\ud800\nbar""") (T "foo" ++ [0xef; 0xbf; 0xbd] ++ [10] ++ T "bar")]
  /\ pops (T """foo\ud800\ud800\udc00bar""")
    [TError (StringEscapeUnpairedLeadSurrogate 0xd800); TString (T """foo\ud800\ud800\udc00bar""") (T "foo" ++ [0xef; 0xbf; 0xbd] ++ [0xf0; 0x90; 0x80; 0x80] ++ T "bar")]
  /\ pops (T """foo\ud800\u1234bar""")
    [TError (StringEscapeUnpairedLeadSurrogate 0xd800); TString (T """foo\ud800\u1234bar""") (T "foo" ++ [0xef; 0xbf; 0xbd] ++ [0xe1; 0x88; 0xb4] ++ T "bar")].
Proof. repeat (split; [vm_compute; reflexivity|]). vm_compute. reflexivity. Qed.

(** lib/tmp/src/fmt/json/token.rs:1260-1300, [string_esc]. *)
Example replay_string_esc :
  pops (T """\b\f\n\r\t\""\\\/""")
    [TString (T """\b\f\n\r\t\""\\\/""") ([8; 12; 10; 13; 9; 34; 92; 47])]
  /\ pops (T """\u0000\u1234\uffff""")
    [TString (T """\u0000\u1234\uffff""") ([0; 0xe1; 0x88; 0xb4; 0xef; 0xbf; 0xbf])]
  /\ pops (T """\ud834\udd1e""")
    [TString (T """\ud834\udd1e""") ([0xf0; 0x9d; 0x84; 0x9e])].
Proof. repeat (split; [vm_compute; reflexivity|]). vm_compute. reflexivity. Qed.
