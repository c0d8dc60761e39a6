(** The tests of lib/osi/src/json/token.rs, run on the model.  They pass on the
    code, so they have to pass here: a check that the model is transcribed
    right, not a proof of any property. *)
From Verif Require Import Base JsonSyntax JsonModel JsonHist.
Local Open Scope N_scope.
Notation J := chars_of (only parsing).

(** lib/osi/src/json/token.rs:1233-1243, [basic], and 1247-1436, [known]: each
    text with the errors and tokens that are reported for it. *)
Definition known : list (list N * list event) :=
  [(J "",
    []);
   (J ":",
    [Tok Colon]);
   (J ",",
    [Tok Comma]);
   (J "[",
    [Tok ArrayOpen]);
   (J "]",
    [Tok ArrayClose]);
   (J "{",
    [Tok ObjectOpen]);
   (J "}",
    [Tok ObjectClose]);
   (J "null",
    [Tok Null]);
   (J "false",
    [Tok False_]);
   (J "true",
    [Tok True_]);
   ([32; 10; 13; 9],
    [Tok (Whitespace [32; 10; 13; 9])]);
   (J "0",
    [Tok (Number (J "0") [0] [] [] Plus Plus)]);
   (J """foobar""",
    [Tok (Text (J "foobar") (J "foobar"))]);
   (J "-0",
    [Tok (Number (J "-0") [0] [] [] Minus Plus)]);
   (J "12.34e-56",
    [Tok (Number (J "12.34e-56") [1; 2] [3; 4] [5; 6] Plus Minus)]);
   (J "-0e100",
    [Tok (Number (J "-0e100") [0] [] [1; 0; 0] Minus Plus)]);
   (J "0.12345678901234567890123456789012345678901234567890123456789",
    [Tok (Number (J "0.12345678901234567890123456789012345678901234567890123456789") [0] [1; 2; 3; 4; 5; 6; 7; 8; 9; 0; 1; 2; 3; 4; 5; 6; 7; 8; 9; 0; 1; 2; 3; 4; 5; 6; 7; 8; 9; 0; 1; 2; 3; 4; 5; 6; 7; 8; 9; 0; 1; 2; 3; 4; 5; 6; 7; 8; 9; 0; 1; 2; 3; 4; 5; 6; 7; 8; 9] [] Plus Plus)]);
   (J "0.0000",
    [Tok (Number (J "0.0000") [0] [0; 0; 0; 0] [] Plus Plus)]);
   (J """foo\nbar""",
    [Tok (Text (J "foo\nbar") (J "foo" ++ [10] ++ J "bar"))]);
   (J """\u0020""",
    [Tok (Text (J "\u0020") (J " "))]);
   (J """\uD834\udd1e""",
    [Tok (Text (J "\uD834\udd1e") [0x1d11e])]);
   (J """\""\\\/\b\f\n\r\t""",
    [Tok (Text (J "\""\\\/\b\f\n\r\t") [34; 92; 47; 8; 12; 10; 13; 9])]);
   (J "+",
    [Err (CharacterStray 43)]);
   (J "foobar",
    [Err (KeywordUnknown (J "foobar"))]);
   (J "0e",
    [Err NumberIncomplete; Tok (Number (J "0e") [0] [] [] Plus Plus)]);
   (J """",
    [Err StringIncomplete]);
   ([34; 0; 34],
    [Err (StringCharacterInvalid 0); Tok (Text [0] [0])]);
   (J """\ """,
    [Err (StringEscapeInvalid 32); Tok (Text (J "\ ") (J " "))]);
   (J """\u """,
    [Err StringEscapeIncomplete; Tok (Text (J "\u ") (J " "))]);
   (J """\ud834""",
    [Err StringSurrogateUnpaired; Tok (Text (J "\ud834") [])]);
   (J "# foobar",
    [Err (Comment (J " foobar"))]);
   (J " ""foo\""bar"":-0.1e-10 ",
    [Tok (Whitespace [32]); Tok (Text (J "foo\""bar") (J "foo""bar")); Tok Colon; Tok (Number (J "-0.1e-10") [0] [1] [1; 0] Minus Minus); Tok (Whitespace [32])])].
Example replay_json : Forall (fun c => reports 0 (fst c) (snd c)) known.
Proof. repeat constructor. Qed.
