(** Specification: the text that a reported token shows.  Errors that go with a
    token that is reported as well show nothing, those reported in place of a
    token show its text. *)
From Verif Require Import Base TokSyntax.
Local Open Scope N_scope.

Definition shown (t : Token) : list N :=
  match t with
  | TWhitespace s => s
  | TColon => [0x3a]
  | TComma => [0x2c]
  | TArrayOpen => [0x5b]
  | TArrayClose => [0x5d]
  | TObjectOpen => [0x7b]
  | TObjectClose => [0x7d]
  | TNull => [0x6e; 0x75; 0x6c; 0x6c]
  | TFalse => [0x66; 0x61; 0x6c; 0x73; 0x65]
  | TTrue => [0x74; 0x72; 0x75; 0x65]
  | TNumber n => raw n
  | TString s _ => s
  | TError (ItemUnknown s) | TError (ItemNonUtf8 s) | TError (StringNonUtf8 s _) => s
  | TError _ => []
  end.
