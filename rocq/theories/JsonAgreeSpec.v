(** Specification: tokens of the two JSON tokenizers that say the same.  One
    reports characters and the values of digits, the other bytes. *)
From Verif Require Import Base.
From Verif Require JsonSyntax TokSyntax DvarDecSpec.
Local Open Scope N_scope.

(** A text as bytes. *)
Definition utf8s (l : list N) : list N := flat_map DvarDecSpec.utf8 l.
(** Digits and their values. *)
Definition digits (l : list N) : list N := map (fun c => c - 0x30) l.
Definition same_sign (a : JsonSyntax.Sign) (b : TokSyntax.Sign) : Prop :=
  match a, b with
  | JsonSyntax.Plus, TokSyntax.Plus | JsonSyntax.Minus, TokSyntax.Minus => True
  | _, _ => False
  end.
(** A part that a number does not have has no digits, and its sign is plus. *)
Definition same_number (raw int frac exp : list N) (s es : JsonSyntax.Sign) (n : TokSyntax.Number) : Prop :=
  TokSyntax.raw n = utf8s raw /\ same_sign s (TokSyntax.sign n) /\ digits (TokSyntax.integer n) = int
  /\ match TokSyntax.fraction n with Some ds => digits ds = frac | None => frac = [] end
  /\ match TokSyntax.exponent n with
     | Some (s', ds) => same_sign es s' /\ digits ds = exp
     | None => es = JsonSyntax.Plus /\ exp = []
     end.
Definition same_token (k : JsonSyntax.Token) (t : TokSyntax.Token) : Prop :=
  match k, t with
  | JsonSyntax.Colon, TokSyntax.TColon | JsonSyntax.Comma, TokSyntax.TComma
  | JsonSyntax.ArrayOpen, TokSyntax.TArrayOpen | JsonSyntax.ArrayClose, TokSyntax.TArrayClose
  | JsonSyntax.ObjectOpen, TokSyntax.TObjectOpen | JsonSyntax.ObjectClose, TokSyntax.TObjectClose
  | JsonSyntax.Null, TokSyntax.TNull | JsonSyntax.False_, TokSyntax.TFalse | JsonSyntax.True_, TokSyntax.TTrue => True
  | JsonSyntax.Whitespace raw, TokSyntax.TWhitespace bytes => bytes = utf8s raw
  | JsonSyntax.Number raw int frac exp s es, TokSyntax.TNumber n => same_number raw int frac exp s es n
  | JsonSyntax.Text raw chars, TokSyntax.TString bytes value =>
      bytes = 0x22 :: utf8s raw ++ [0x22] /\ value = utf8s chars
  | _, _ => False
  end.

(** null, false or true. *)
Definition is_name (k : JsonSyntax.Token) : Prop :=
  match k with JsonSyntax.Null | JsonSyntax.False_ | JsonSyntax.True_ => True | _ => False end.
Definition is_number (k : JsonSyntax.Token) : Prop :=
  match k with JsonSyntax.Number _ _ _ _ _ _ => True | _ => False end.
(** No name is directly followed by a number. *)
Fixpoint spaced (ks : list JsonSyntax.Token) : Prop :=
  match ks with
  | k :: rest => match rest with k' :: _ => ~ (is_name k /\ is_number k') | [] => True end /\ spaced rest
  | [] => True
  end.

(** Something that starts with a structural character. *)
Definition punctuated (next : list N) : Prop :=
  match next with c :: _ => In c [0x5b; 0x5d; 0x7b; 0x7d; 0x3a; 0x2c] | [] => False end.
(** A token that does not show where it ends: more of it could follow. *)
Definition open_ended (k : JsonSyntax.Token) : Prop :=
  is_name k \/ is_number k \/ match k with JsonSyntax.Whitespace _ => True | _ => False end.
