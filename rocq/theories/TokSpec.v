(** Specification for the streaming JSON tokenizer: lexemes as sequences of
    bytes, and the tokens that are to be reported for them.  Does not use the
    model. *)
From Verif Require Import Base TokSyntax.
From Verif Require DvarDecSpec.
Local Open Scope N_scope.

Definition utf8_text (s : list N) : Prop :=
  exists cs, Forall DvarDecSpec.scalar cs /\ s = flat_map DvarDecSpec.utf8 cs.

(** ** RFC 8259, section 2: whitespace and structural characters *)

Definition ws (c : N) : Prop := In c [0x20; 0x09; 0x0a; 0x0d].
Inductive structural : N -> Token -> Prop :=
| st_array_open : structural 0x5b TArrayOpen
| st_object_open : structural 0x7b TObjectOpen
| st_array_close : structural 0x5d TArrayClose
| st_object_close : structural 0x7d TObjectClose
| st_colon : structural 0x3a TColon
| st_comma : structural 0x2c TComma.

(** ** Section 3: words.  Anything that starts like none of the other lexemes is
    a word; it goes on with letters, digits, signs and points. *)
Definition digit (c : N) : Prop := 0x30 <= c <= 0x39.
Definition sign_char (c : N) : Prop := c = 0x2b \/ c = 0x2d.
Definition letter (c : N) : Prop := 0x61 <= c <= 0x7a \/ 0x41 <= c <= 0x5a.
Definition word_char (c : N) : Prop := letter c \/ digit c \/ sign_char c \/ c = 0x2e.
Definition word_start (c : N) : Prop :=
  ~ ws c /\ (forall t, ~ structural c t) /\ c <> 0x22 /\ ~ digit c /\ ~ sign_char c.
(** null, false and true. *)
Inductive literal : list N -> Token -> Prop :=
| lit_null : literal [0x6e; 0x75; 0x6c; 0x6c] TNull
| lit_false : literal [0x66; 0x61; 0x6c; 0x73; 0x65] TFalse
| lit_true : literal [0x74; 0x72; 0x75; 0x65] TTrue.

(** ** Section 6: numbers.  A numeral here may have any number of signs and empty
    parts, so that the errors can be described too. *)
Record numeral := mkNumeral {
  n_signs : list N;
  n_int : list N;
  n_frac : option (list N);
  n_exp : option (N * list N * list N)     (* the letter, signs, digits *)
}.
Definition frac_text (x : option (list N)) : list N := match x with None => [] | Some ds => 0x2e :: ds end.
Definition exp_text (x : option (N * list N * list N)) : list N :=
  match x with None => [] | Some (e, ss, ds) => e :: ss ++ ds end.
Definition written (n : numeral) : list N :=
  n_signs n ++ n_int n ++ frac_text (n_frac n) ++ exp_text (n_exp n).
Definition numeral_ok (n : numeral) : Prop :=
  Forall sign_char (n_signs n) /\ Forall digit (n_int n) /\ (n_signs n = [] -> n_int n <> []) /\
  (forall ds, n_frac n = Some ds -> Forall digit ds) /\
  (forall e ss ds, n_exp n = Some (e, ss, ds) -> (e = 0x65 \/ e = 0x45) /\ Forall sign_char ss /\ Forall digit ds).
(** A byte that would be part of the numeral. *)
Definition continues (n : numeral) (c : N) : Prop :=
  digit c \/
  match n_exp n, n_frac n with
  | Some (_, _, ds), _ => sign_char c /\ ds = []
  | None, Some _ => c = 0x65 \/ c = 0x45
  | None, None => c = 0x2e \/ c = 0x65 \/ c = 0x45 \/ (sign_char c /\ n_int n = [])
  end.
(** The last of the signs counts. *)
Fixpoint sign_of (ss : list N) : Sign :=
  match ss with [] => Plus | [c] => if c =? 0x2d then Minus else Plus | _ :: ss => sign_of ss end.
Definition number_of (n : numeral) : Number :=
  mkNumber (written n) (sign_of (n_signs n)) (n_int n) (n_frac n)
    (match n_exp n with None => None | Some (_, ss, ds) => Some (sign_of ss, ds) end).
(** Errors that come before the number: a leading plus, several signs in front
    of it, each sign too much in its exponent, a part without digits. *)
Definition number_errors (n : numeral) : list Error :=
  (match n_signs n with c :: _ => if c =? 0x2b then [NumberLeadingPlus] else [] | [] => [] end) ++
  (match n_signs n with _ :: _ :: _ => [NumberMultipleSigns] | _ => [] end) ++
  (match n_exp n with Some (_, _ :: ss, _) => map (fun _ => NumberMultipleSigns) ss | _ => [] end) ++
  (if (match n_int n with [] => true | _ => false end)
      || (match n_frac n with Some [] => true | _ => false end)
      || (match n_exp n with Some (_, _, []) => true | _ => false end)
   then [NumberRangeEmpty] else []).
(** The numbers of the RFC. *)
Definition rfc_number (n : numeral) : Prop :=
  numeral_ok n /\ (n_signs n = [] \/ n_signs n = [0x2d]) /\ n_int n <> [] /\ n_frac n <> Some [] /\
  (forall e ss ds, n_exp n = Some (e, ss, ds) -> (length ss <= 1)%nat /\ ds <> []) /\
  (forall d ds, n_int n <> 0x30 :: d :: ds).

(** ** Section 7: strings *)

Definition hex_digit (c : N) : Prop := 0x30 <= c <= 0x39 \/ 0x41 <= c <= 0x46 \/ 0x61 <= c <= 0x66.
Definition hex_val (c : N) : N := if c <=? 0x39 then c - 0x30 else if c <=? 0x46 then c - 0x41 + 10 else c - 0x61 + 10.
Definition code (h : list N) : N := fold_left (fun x c => x * 16 + hex_val c) h 0.
Definition hex4 (h : list N) : Prop := length h = 4%nat /\ Forall hex_digit h.
Definition lead (u : N) : Prop := 0xd800 <= u <= 0xdbff.
Definition trail (u : N) : Prop := 0xdc00 <= u <= 0xdfff.
(** Two-character escapes: the letter and its meaning. *)
Inductive escape : N -> N -> Prop :=
| e_quote : escape 0x22 0x22
| e_backslash : escape 0x5c 0x5c
| e_slash : escape 0x2f 0x2f
| e_b : escape 0x62 0x08
| e_f : escape 0x66 0x0c
| e_n : escape 0x6e 0x0a
| e_r : escape 0x72 0x0d
| e_t : escape 0x74 0x09.

(** The parts of a string: its text, the bytes it stands for, its errors.  The
    first four are those of the RFC. *)
Inductive piece :=
| Plain (c : N)
| Escaped (letter c : N)
| Unicode (h : list N)
| Pair (h1 h2 : list N)
| Control (c : N)
| UnknownEscape (letter : N)
| ShortUnicode (h : list N)
| LoneTrail (h : list N)
| LoneLead (h : list N).
Definition u_text (h : list N) : list N := 0x5c :: 0x75 :: h.
Definition piece_text (p : piece) : list N :=
  match p with
  | Plain c | Control c => [c]
  | Escaped l _ | UnknownEscape l => [0x5c; l]
  | Unicode h | ShortUnicode h | LoneTrail h | LoneLead h => u_text h
  | Pair h1 h2 => u_text h1 ++ u_text h2
  end.
Definition replacement : list N := DvarDecSpec.utf8 0xfffd.
Definition piece_value (p : piece) : list N :=
  match p with
  | Plain c | Control c | Escaped _ c | UnknownEscape c => [c]
  | Unicode h => DvarDecSpec.utf8 (code h)
  | Pair h1 h2 => DvarDecSpec.utf8 (0x10000 + (code h1 - 0xd800) * 0x400 + (code h2 - 0xdc00))
  | ShortUnicode _ | LoneTrail _ | LoneLead _ => replacement
  end.
Definition piece_errors (p : piece) : list Error :=
  match p with
  | Plain _ | Escaped _ _ | Unicode _ | Pair _ _ => []
  | Control c => [StringUnescaped c]
  | UnknownEscape l => [StringEscapeUnknown l]
  | ShortUnicode _ => [StringEscapeInvalid]
  | LoneTrail h => [StringEscapeUnpairedTrailSurrogate (code h)]
  | LoneLead h => [StringEscapeUnpairedLeadSurrogate (code h)]
  end.
(** Which pieces there are, given the text that follows. *)
Definition piece_ok (p : piece) (next : list N) : Prop :=
  match p with
  | Plain c => 0x20 <= c /\ c <> 0x22 /\ c <> 0x5c
  | Escaped l c => escape l c
  | Unicode h => hex4 h /\ ~ lead (code h) /\ ~ trail (code h)
  | Pair h1 h2 => hex4 h1 /\ hex4 h2 /\ lead (code h1) /\ trail (code h2)
  | Control c => c < 0x20
  | UnknownEscape l => l <> 0x75 /\ forall c, ~ escape l c
  | ShortUnicode h => Forall hex_digit h /\ (length h < 4)%nat /\ exists c r, next = c :: r /\ ~ hex_digit c
  | LoneTrail h => hex4 h /\ trail (code h)
  | LoneLead h => hex4 h /\ lead (code h) /\ forall h2 r, hex4 h2 -> trail (code h2) -> next <> u_text h2 ++ r
  end.
Definition text (ps : list piece) : list N := flat_map piece_text ps.
Definition value (ps : list piece) : list N := flat_map piece_value ps.
Definition errors (ps : list piece) : list Error := flat_map piece_errors ps.
(** The pieces of a string up to its closing quotation mark; [next] is what
    follows the string. *)
Fixpoint pieces_ok (ps : list piece) (next : list N) : Prop :=
  match ps with [] => True | p :: ps => piece_ok p (text ps ++ 0x22 :: next) /\ pieces_ok ps next end.
(** The strings of the RFC. *)
Definition rfc_piece (p : piece) : Prop :=
  match p with Plain _ | Escaped _ _ | Unicode _ | Pair _ _ => True | _ => False end.
Definition any (ps : list piece) : Prop := True.
(** Strings without the control character U+001F, and where other control
    characters come only before all escapes. *)
Definition verbatim (p : piece) : Prop := match p with Plain _ | Control _ => True | _ => False end.
Definition tame (ps : list piece) : Prop :=
  ~ In (Control 0x1f) ps /\
  exists a b, ps = a ++ b /\ Forall verbatim a /\ forall c, ~ In (Control c) b.

(** ** Lexemes: text, the tokens for it, and the text that may follow *)

Definition stops (p : N -> Prop) (next : list N) : Prop := exists c r, next = c :: r /\ ~ p c.
(** [Q] restricts the strings that may occur. *)
Inductive lexeme (Q : list piece -> Prop) : list N -> list Token -> list N -> Prop :=
| lx_ws s next : s <> [] -> Forall ws s -> stops ws next -> lexeme Q s [TWhitespace s] next
| lx_structural c t next : structural c t -> lexeme Q [c] [t] next
| lx_literal s t next : literal s t -> stops word_char next -> lexeme Q s [t] next
| lx_word c s next : word_start c -> Forall word_char s -> (forall t, ~ literal (c :: s) t) ->
    stops word_char next -> utf8_text (c :: s) -> lexeme Q (c :: s) [TError (ItemUnknown (c :: s))] next
| lx_bytes c s next : word_start c -> Forall word_char s -> stops word_char next ->
    ~ utf8_text (c :: s) -> lexeme Q (c :: s) [TError (ItemNonUtf8 (c :: s))] next
| lx_number n next : numeral_ok n -> stops (continues n) next ->
    lexeme Q (written n) (map TError (number_errors n) ++ [TNumber (number_of n)]) next
| lx_string ps next : Q ps -> pieces_ok ps next -> utf8_text (value ps) ->
    lexeme Q (0x22 :: text ps ++ [0x22])
      (map TError (errors ps) ++ [TString (0x22 :: text ps ++ [0x22]) (value ps)]) next
| lx_string_bytes ps next : Q ps -> pieces_ok ps next -> ~ utf8_text (value ps) ->
    lexeme Q (0x22 :: text ps ++ [0x22])
      (map TError (errors ps) ++ [TError (StringNonUtf8 (0x22 :: text ps ++ [0x22]) (value ps))]) next.
(** A text made of lexemes, followed by [rest]. *)
Inductive lexed (Q : list piece -> Prop) : list N -> list Token -> list N -> Prop :=
| lexed_nil rest : lexed Q rest [] rest
| lexed_cons s ts next ts' rest : lexeme Q s ts next -> lexed Q next ts' rest -> lexed Q (s ++ next) (ts ++ ts') rest.

(** ** The texts of the RFC: one token each, and no errors *)

(** Section 7: [char].  [Raw c] is an unescaped character. *)
Inductive rfc_char :=
| Raw (c : N)
| Short (letter c : N)
| Hex (h : list N)
| Surrogates (h1 h2 : list N).
Definition rfc_char_ok (x : rfc_char) : Prop :=
  match x with
  | Raw c => 0x20 <= c <= 0x21 \/ 0x23 <= c <= 0x5b \/ (0x5d <= c /\ DvarDecSpec.scalar c)
  | Short l c => escape l c
  | Hex h => hex4 h /\ ~ lead (code h) /\ ~ trail (code h)
  | Surrogates h1 h2 => hex4 h1 /\ hex4 h2 /\ lead (code h1) /\ trail (code h2)
  end.
Definition rfc_char_text (x : rfc_char) : list N :=
  match x with
  | Raw c => DvarDecSpec.utf8 c
  | Short l _ => [0x5c; l]
  | Hex h => u_text h
  | Surrogates h1 h2 => u_text h1 ++ u_text h2
  end.
Definition code_point (x : rfc_char) : N :=
  match x with
  | Raw c | Short _ c => c
  | Hex h => code h
  | Surrogates h1 h2 => 0x10000 + (code h1 - 0xd800) * 0x400 + (code h2 - 0xdc00)
  end.
Inductive rfc_lexeme : list N -> Token -> list N -> Prop :=
| rl_ws s next : s <> [] -> Forall ws s -> stops ws next -> rfc_lexeme s (TWhitespace s) next
| rl_structural c t next : structural c t -> rfc_lexeme [c] t next
| rl_literal s t next : literal s t -> stops word_char next -> rfc_lexeme s t next
| rl_number n next : rfc_number n -> stops (continues n) next -> rfc_lexeme (written n) (TNumber (number_of n)) next
| rl_string xs next : Forall rfc_char_ok xs ->
    rfc_lexeme (0x22 :: flat_map rfc_char_text xs ++ [0x22])
      (TString (0x22 :: flat_map rfc_char_text xs ++ [0x22]) (flat_map DvarDecSpec.utf8 (map code_point xs))) next.
Inductive rfc_lexed : list N -> list Token -> list N -> Prop :=
| rfc_lexed_nil rest : rfc_lexed rest [] rest
| rfc_lexed_cons s t next ts rest : rfc_lexeme s t next -> rfc_lexed next ts rest -> rfc_lexed (s ++ next) (t :: ts) rest.
