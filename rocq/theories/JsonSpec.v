(** Specification for the JSON tokenizer: the lexical grammar of RFC 8259 and,
    for texts outside of it, the segmentation of any text into lexemes.
    Does not use the model. *)
From Verif Require Import Base JsonSyntax.
Local Open Scope N_scope.

(** ** RFC 8259 *)

(** Section 2: insignificant whitespace. *)
Definition ws (c : N) : Prop := In c [0x20; 0x09; 0x0a; 0x0d].

(** Section 2: the six structural characters. *)
Inductive structural : N -> Token -> Prop :=
| st_array_open : structural 0x5b ArrayOpen
| st_object_open : structural 0x7b ObjectOpen
| st_array_close : structural 0x5d ArrayClose
| st_object_close : structural 0x7d ObjectClose
| st_colon : structural 0x3a Colon
| st_comma : structural 0x2c Comma.

(** Section 3: the literal names. *)
Inductive literal : list N -> Token -> Prop :=
| lit_false : literal (chars_of "false") False_
| lit_null : literal (chars_of "null") Null
| lit_true : literal (chars_of "true") True_.

(** Section 6: numbers.  A numeral is written as an optional sign, digits, an
    optional fraction and an optional exponent.  The parts may be empty here,
    so that a numeral can also describe a number that was cut short. *)
Record numeral := mkNumeral {
  n_sign : list N;                         (* empty, or one sign character *)
  n_int : list N;                          (* digits *)
  n_frac : option (list N);                (* digits after the point *)
  n_exp : option (N * list N * list N)     (* the letter, the sign, the digits *)
}.
Definition digit (c : N) : Prop := 0x30 <= c <= 0x39.
Definition frac_text (x : option (list N)) : list N :=
  match x with None => [] | Some ds => 0x2e :: ds end.
Definition exp_text (x : option (N * list N * list N)) : list N :=
  match x with None => [] | Some (e, s, ds) => e :: s ++ ds end.
Definition written (n : numeral) : list N :=
  n_sign n ++ n_int n ++ frac_text (n_frac n) ++ exp_text (n_exp n).

(** Flag [ALLOW_PLUS_SIGN] adds the plus sign, which the RFC does not allow. *)
Definition has (flag f : N) : Prop := N.land f flag = flag.
Definition sign_ok (f : N) (s : list N) : Prop :=
  s = [] \/ s = [0x2d] \/ (s = [0x2b] /\ has ALLOW_PLUS_SIGN f).
Definition numeral_ok (f : N) (n : numeral) : Prop :=
  sign_ok f (n_sign n) /\ Forall digit (n_int n) /\
  (forall ds, n_frac n = Some ds -> Forall digit ds) /\
  (forall e s ds, n_exp n = Some (e, s, ds) ->
     In e [0x65; 0x45] /\ In s [[]; [0x2b]; [0x2d]] /\ Forall digit ds).
(** No part is missing. *)
Definition whole (n : numeral) : Prop :=
  n_int n <> [] /\ n_frac n <> Some [] /\ forall e s, n_exp n <> Some (e, s, []).
(** Flag [ALLOW_LEADING_ZERO] lifts the rule that only 0 itself starts with 0. *)
Definition leading_zero (n : numeral) : Prop := exists d ds, n_int n = 0x30 :: d :: ds.
Definition rfc_numeral (f : N) (n : numeral) : Prop :=
  numeral_ok f n /\ whole n /\ (has ALLOW_LEADING_ZERO f \/ ~ leading_zero n).

(** What is reported for a numeral: the text, the values of the digits of the
    three parts and the two signs. *)
Definition values (ds : list N) : list N := map (fun c => c - 0x30) ds.
Definition sign_value (s : list N) : Sign := match s with [0x2d] => Minus | _ => Plus end.
Definition number_token (n : numeral) : Token :=
  Number (written n) (values (n_int n))
    (match n_frac n with None => [] | Some ds => values ds end)
    (match n_exp n with None => [] | Some (_, _, ds) => values ds end)
    (sign_value (n_sign n))
    (match n_exp n with None => Plus | Some (_, s, _) => sign_value s end).

(** Section 7: strings. *)
Definition unescaped (c : N) : Prop :=
  (0x20 <= c <= 0x21 \/ 0x23 <= c <= 0x5b \/ 0x5d <= c <= 0x10ffff) /\ scalar_value c.
(** The two-character escapes: letter after the backslash, and meaning. *)
Inductive escape : N -> N -> Prop :=
| e_quote : escape 0x22 0x22
| e_backslash : escape 0x5c 0x5c
| e_slash : escape 0x2f 0x2f
| e_b : escape 0x62 0x08
| e_f : escape 0x66 0x0c
| e_n : escape 0x6e 0x0a
| e_r : escape 0x72 0x0d
| e_t : escape 0x74 0x09.
Inductive hex_digit : N -> N -> Prop :=
| hex_num c : 0x30 <= c <= 0x39 -> hex_digit c (c - 0x30)
| hex_lower c : 0x61 <= c <= 0x66 -> hex_digit c (c - 0x61 + 10)
| hex_upper c : 0x41 <= c <= 0x46 -> hex_digit c (c - 0x41 + 10).
(** Hexadecimal digits, most significant first, and their value. *)
Definition hexes (h : list N) (v : N) : Prop :=
  exists vs, Forall2 hex_digit h vs /\ v = fold_left (fun a d => 16 * a + d) vs 0.
Definition hex4 (h : list N) (v : N) : Prop := length h = 4%nat /\ hexes h v.
Definition lead (v : N) : Prop := 0xd800 <= v <= 0xdbff.
Definition trail (v : N) : Prop := 0xdc00 <= v <= 0xdfff.
(** The character a surrogate pair stands for (UTF-16). *)
Definition paired (l t : N) : N := 0x10000 + (l - 0xd800) * 0x400 + (t - 0xdc00).
Notation backslash := 0x5c (only parsing).
Notation letter_u := 0x75 (only parsing).

(** One character and a spelling of it inside a string. *)
Inductive spelling : list N -> N -> Prop :=
| sp_plain c : unescaped c -> spelling [c] c
| sp_escape e c : escape e c -> spelling [backslash; e] c
| sp_unicode h v : hex4 h v -> ~ lead v -> ~ trail v -> spelling (backslash :: letter_u :: h) v
| sp_pair h k l t : hex4 h l -> lead l -> hex4 k t -> trail t ->
    spelling (backslash :: letter_u :: h ++ backslash :: letter_u :: k) (paired l t).
(** A string without the quotes around it, and its characters. *)
Inductive string_body : list N -> list N -> Prop :=
| sb_nil : string_body [] []
| sb_cons p c raw chars : spelling p c -> string_body raw chars -> string_body (p ++ raw) (c :: chars).

(** The text of a token. *)
Inductive token_text (f : N) : Token -> list N -> Prop :=
| tt_structural c k : structural c k -> token_text f k [c]
| tt_literal w k : literal w k -> token_text f k w
| tt_ws raw : raw <> [] -> Forall ws raw -> token_text f (Whitespace raw) raw
| tt_number n : rfc_numeral f n -> token_text f (number_token n) (written n)
| tt_string raw chars : string_body raw chars -> token_text f (Text raw chars) (0x22 :: raw ++ [0x22]).

(** What follows a token must not prolong it: a blank after a blank, a digit
    after a number, a letter or digit after a literal.  RFC 8259 allows no two
    values next to each other, so this holds in all JSON texts. *)
Definition starts (P : N -> Prop) (l : list N) : Prop := exists c r, l = c :: r /\ P c.
Definition letter (c : N) : Prop := 0x41 <= c <= 0x5a \/ 0x61 <= c <= 0x7a.
Definition apart (k : Token) (rest : list N) : Prop :=
  match k with
  | Whitespace _ => ~ starts ws rest
  | Number _ _ _ _ _ _ => ~ starts digit rest
  | Null | True_ | False_ => ~ starts (fun c => letter c \/ digit c) rest
  | _ => True
  end.
(** A text that is a sequence of tokens. *)
Inductive tokens_text (f : N) : list N -> list Token -> Prop :=
| tts_nil : tokens_text f [] []
| tts_cons k t rest ks : token_text f k t -> apart k rest -> tokens_text f rest ks ->
    tokens_text f (t ++ rest) (k :: ks).

(** ** JSON texts *)

(** RFC 8259 sections 2 to 5: values.  The text of a value, and its tokens.
    Whitespace is allowed around structural characters; here it is taken
    together with the token before it, and at the start of the text. *)
Inductive blank_run : list N -> list Token -> Prop :=
| br_none : blank_run [] []
| br_some raw : raw <> [] -> Forall ws raw -> blank_run raw [Whitespace raw].
Inductive json_value : list N -> list Token -> Prop :=
| jv_literal w k : literal w k -> json_value w [k]
| jv_number n : rfc_numeral 0 n -> json_value (written n) [number_token n]
| jv_string raw chars : string_body raw chars -> json_value (0x22 :: raw ++ [0x22]) [Text raw chars]
| jv_array s e : json_elements s e -> json_value (0x5b :: s ++ [0x5d]) (ArrayOpen :: e ++ [ArrayClose])
| jv_object s e : json_members s e -> json_value (0x7b :: s ++ [0x7d]) (ObjectOpen :: e ++ [ObjectClose])
(** Elements of an array: empty, or values separated by commas. *)
with json_elements : list N -> list Token -> Prop :=
| je_none w b : blank_run w b -> json_elements w b
| je_one s e : json_padded s e -> json_elements s e
| je_more s e ss es : json_padded s e -> json_elements1 ss es ->
    json_elements (s ++ 0x2c :: ss) (e ++ Comma :: es)
with json_elements1 : list N -> list Token -> Prop :=
| je1_one s e : json_padded s e -> json_elements1 s e
| je1_more s e ss es : json_padded s e -> json_elements1 ss es ->
    json_elements1 (s ++ 0x2c :: ss) (e ++ Comma :: es)
with json_members : list N -> list Token -> Prop :=
| jm_none w b : blank_run w b -> json_members w b
| jm_one s e : json_member s e -> json_members s e
| jm_more s e ss es : json_member s e -> json_members1 ss es ->
    json_members (s ++ 0x2c :: ss) (e ++ Comma :: es)
with json_members1 : list N -> list Token -> Prop :=
| jm1_one s e : json_member s e -> json_members1 s e
| jm1_more s e ss es : json_member s e -> json_members1 ss es ->
    json_members1 (s ++ 0x2c :: ss) (e ++ Comma :: es)
(** [ws string ws : ws value ws] *)
with json_member : list N -> list Token -> Prop :=
| jmem w1 b1 raw chars w2 b2 s e :
    blank_run w1 b1 -> string_body raw chars -> blank_run w2 b2 -> json_padded s e ->
    json_member (w1 ++ (0x22 :: raw ++ [0x22]) ++ w2 ++ 0x3a :: s)
      (b1 ++ Text raw chars :: b2 ++ Colon :: e)
(** [ws value ws]; also a whole JSON text. *)
with json_padded : list N -> list Token -> Prop :=
| jp w1 b1 s e w2 b2 : blank_run w1 b1 -> json_value s e -> blank_run w2 b2 ->
    json_padded (w1 ++ s ++ w2) (b1 ++ e ++ b2).

(** ** Any text *)

(** Unicode property White_Space (PropList.txt). *)
Definition white_space (c : N) : Prop :=
  In c [0x09; 0x0a; 0x0b; 0x0c; 0x0d; 0x20; 0x85; 0xa0; 0x1680;
        0x2000; 0x2001; 0x2002; 0x2003; 0x2004; 0x2005; 0x2006; 0x2007; 0x2008; 0x2009; 0x200a;
        0x2028; 0x2029; 0x202f; 0x205f; 0x3000].

(** A run of whitespace: whitespace that is not JSON whitespace is reported as
    stray, the rest is the whitespace token. *)
Inductive blanks : list N -> list N -> list N -> Prop :=
| bl_nil : blanks [] [] []
| bl_ws c run strays raw : ws c -> blanks run strays raw -> blanks (c :: run) strays (c :: raw)
| bl_stray c run strays raw : white_space c -> ~ ws c -> blanks run strays raw ->
    blanks (c :: run) (c :: strays) raw.

(** Words.  A word ends before whitespace and before any of these. *)
Definition word_end (c : N) : Prop :=
  white_space c \/ In c (chars_of ":,[]{}-#/+=") \/ c = 0x22.
Definition word_start (c : N) : Prop := ~ digit c /\ (c = 0x2f \/ ~ word_end c).
(** Two slashes start a comment. *)
Inductive word : list N -> Prop :=
| w_word c w : word_start c -> Forall (fun d => ~ word_end d) w -> word (c :: w).
Definition word_over (w rest : list N) : Prop :=
  rest = [] \/ (starts word_end rest /\ ~ (w = [0x2f] /\ starts (eq 0x2f) rest)).
Inductive word_event : list N -> event -> Prop :=
| we_literal w k : literal w k -> word_event w (Tok k)
| we_unknown w : (forall k, ~ literal w k) -> word_event w (Err (KeywordUnknown w)).

(** Numbers that may be incomplete. *)
Definition numeral_shape (f : N) (n : numeral) : Prop :=
  numeral_ok f n /\
  (n_int n = [] -> n_sign n <> [] /\ n_frac n = None /\ n_exp n = None) /\
  (n_frac n = Some [] -> n_exp n = None).
(** The character would continue the numeral. *)
Definition continues (n : numeral) (c : N) : Prop :=
  digit c \/
  (n_int n <> [] /\ n_frac n = None /\ n_exp n = None /\ c = 0x2e) \/
  (n_int n <> [] /\ n_frac n <> Some [] /\ n_exp n = None /\ In c [0x65; 0x45]) \/
  (exists e, n_exp n = Some (e, [], []) /\ In c [0x2b; 0x2d]).
Inductive zero_events (f : N) (n : numeral) : list event -> Prop :=
| ze_allowed : has ALLOW_LEADING_ZERO f \/ ~ leading_zero n -> zero_events f n []
| ze_stray d ds : ~ has ALLOW_LEADING_ZERO f -> n_int n = 0x30 :: d :: ds ->
    zero_events f n [Err (CharacterStray d)].
Inductive missing_events (n : numeral) : list event -> Prop :=
| me_whole : whole n -> missing_events n []
| me_missing : ~ whole n -> missing_events n [Err NumberIncomplete].

(** Strings with errors.  A piece is a stretch of the string with what it
    stands for and the errors in it; the last argument is the next character
    of the text, or nothing at its end.  Text that does not stand for a
    character is reported as an error and stands for nothing. *)
Definition some_hex (h : list N) : Prop := exists v, hexes h v.
Definition next_is_not (P : N -> Prop) (next : option N) : Prop := exists c, next = Some c /\ ~ P c.
Definition is_hex_char (c : N) : Prop := exists v, hex_digit c v.
Definition bad_escape (e : N) : Prop := e <> letter_u /\ forall c, ~ escape e c.
Inductive piece : list N -> list N -> list Error -> option N -> Prop :=
| pc_ok p c next : spelling p c -> piece p [c] [] next
| pc_control c next : c < 0x20 -> piece [c] [c] [StringCharacterInvalid c] next
| pc_bad_escape e next : bad_escape e -> piece [backslash; e] [e] [StringEscapeInvalid e] next
| pc_trail h v next : hex4 h v -> trail v ->
    piece (backslash :: letter_u :: h) [] [StringSurrogateUnpaired] next
| pc_lead h v next : hex4 h v -> lead v -> next_is_not (eq backslash) next ->
    piece (backslash :: letter_u :: h) [] [StringSurrogateUnpaired] next
| pc_lead_escape h v e c next : hex4 h v -> lead v -> escape e c ->
    piece (backslash :: letter_u :: h ++ [backslash; e]) [c] [StringSurrogateUnpaired] next
| pc_lead_bad_escape h v e next : hex4 h v -> lead v -> bad_escape e ->
    piece (backslash :: letter_u :: h ++ [backslash; e]) [e]
      [StringSurrogateUnpaired; StringEscapeInvalid e] next
| pc_lead_other h v k w next : hex4 h v -> lead v -> hex4 k w -> ~ trail w ->
    piece (backslash :: letter_u :: h ++ backslash :: letter_u :: k) [] [StringSurrogateUnpaired] next
| pc_short h next : some_hex h -> (length h < 4)%nat -> next_is_not is_hex_char next ->
    piece (backslash :: letter_u :: h) [] [StringEscapeIncomplete] next
| pc_lead_short h v k next : hex4 h v -> lead v ->
    some_hex k -> (length k < 4)%nat -> next_is_not is_hex_char next ->
    piece (backslash :: letter_u :: h ++ backslash :: letter_u :: k) [] [StringEscapeIncomplete] next.
Definition first_of (l : list N) (next : option N) : option N :=
  match l with [] => next | c :: _ => Some c end.
Inductive pieces : list N -> list N -> list Error -> option N -> Prop :=
| pcs_nil next : pieces [] [] [] next
| pcs_cons p d e ps ds es next : piece p d e (first_of ps next) -> pieces ps ds es next ->
    pieces (p ++ ps) (d ++ ds) (e ++ es) next.
(** The begin of an escape at the end of the text. *)
Inductive dangling : list N -> Prop :=
| dg_nil : dangling []
| dg_backslash : dangling [backslash]
| dg_unicode h : some_hex h -> (length h < 4)%nat -> dangling (backslash :: letter_u :: h)
| dg_lead h v : hex4 h v -> lead v -> dangling (backslash :: letter_u :: h)
| dg_lead_backslash h v : hex4 h v -> lead v -> dangling (backslash :: letter_u :: h ++ [backslash])
| dg_lead_unicode h v k : hex4 h v -> lead v -> some_hex k -> (length k < 4)%nat ->
    dangling (backslash :: letter_u :: h ++ backslash :: letter_u :: k).

(** The events for a whole text.  [f] are the flags. *)
Inductive lexed (f : N) : list N -> list event -> Prop :=
| lx_end : lexed f [] []
| lx_structural c k rest ev : structural c k -> lexed f rest ev -> lexed f (c :: rest) (Tok k :: ev)
| lx_equal rest ev : lexed f rest ev ->
    lexed f (0x3d :: rest) (Err (CharacterStray 0x3d) :: Tok Colon :: ev)
| lx_plus rest ev : ~ has ALLOW_PLUS_SIGN f -> lexed f rest ev ->
    lexed f (0x2b :: rest) (Err (CharacterStray 0x2b) :: ev)
| lx_blanks run strays raw rest ev : run <> [] -> blanks run strays raw -> ~ starts white_space rest ->
    lexed f rest ev ->
    lexed f (run ++ rest) (map (fun c => Err (CharacterStray c)) strays ++ Tok (Whitespace raw) :: ev)
| lx_word w e rest ev : word w -> word_over w rest -> word_event w e -> lexed f rest ev ->
    lexed f (w ++ rest) (e :: ev)
| lx_hash_comment body rest ev : ~ In 0x0a body -> (rest = [] \/ starts (eq 0x0a) rest) ->
    lexed f rest ev ->
    lexed f (0x23 :: body ++ rest) (Err (Comment body) :: ev)
| lx_slash_comment body rest ev : ~ In 0x0a body -> (rest = [] \/ starts (eq 0x0a) rest) ->
    lexed f rest ev ->
    lexed f (0x2f :: 0x2f :: body ++ rest) (Err (Comment (0x2f :: 0x2f :: body)) :: ev)
| lx_number n z m rest ev : numeral_shape f n -> ~ starts (continues n) rest ->
    zero_events f n z -> missing_events n m -> lexed f rest ev ->
    lexed f (written n ++ rest) (z ++ m ++ Tok (number_token n) :: ev)
| lx_string raw chars errs rest ev : pieces raw chars errs (Some 0x22) -> lexed f rest ev ->
    lexed f (0x22 :: raw ++ 0x22 :: rest) (map Err errs ++ Tok (Text raw chars) :: ev)
| lx_unterminated raw chars errs tail : pieces raw chars errs (first_of tail None) -> dangling tail ->
    lexed f (0x22 :: raw ++ tail) (map Err errs ++ [Err StringIncomplete]).

(** ** Telling events to a handler *)

(** The handler is told the events one after the other until it breaks. *)
Fixpoint tell {H R} (h : H -> event -> H * option R) (s : H) (ev : list event) : H * option R :=
  match ev with
  | [] => (s, None)
  | e :: more =>
      match h s e with
      | (s', Some r) => (s', Some r)
      | (s', None) => tell h s' more
      end
  end.

(** ** Accounting for the characters of a text *)

(** The text a token stands for. *)
Definition token_source (k : Token) : list N :=
  match k with
  | Colon => [0x3a]
  | Comma => [0x2c]
  | ArrayOpen => [0x5b]
  | ArrayClose => [0x5d]
  | ObjectOpen => [0x7b]
  | ObjectClose => [0x7d]
  | Null => chars_of "null"
  | False_ => chars_of "false"
  | True_ => chars_of "true"
  | Whitespace raw => raw
  | Number raw _ _ _ _ _ => raw
  | Text raw _ => 0x22 :: raw ++ [0x22]
  end.
(** [merged a b l]: [l] is an interleaving of [a] and [b]. *)
Inductive merged : list N -> list N -> list N -> Prop :=
| mg_nil : merged [] [] []
| mg_left c a b l : merged a b l -> merged (c :: a) b (c :: l)
| mg_right c a b l : merged a b l -> merged a (c :: b) (c :: l).
(** Errors that only comment on the token that follows. *)
Definition about_number (raw : list N) (e : event) : Prop :=
  e = Err NumberIncomplete \/ exists c, e = Err (CharacterStray c) /\ In c raw.
Definition about_string (e : Error) : Prop :=
  match e with
  | StringCharacterInvalid _ | StringEscapeInvalid _ | StringEscapeIncomplete | StringSurrogateUnpaired => True
  | _ => False
  end.
(** The events account for all characters of the text, in order.  Only the
    text of a string that is not closed is not shown. *)
Inductive accounts : list event -> list N -> Prop :=
| ac_end : accounts [] []
| ac_token k ev rest : accounts ev rest -> accounts (Tok k :: ev) (token_source k ++ rest)
| ac_unknown w ev rest : accounts ev rest -> accounts (Err (KeywordUnknown w) :: ev) (w ++ rest)
| ac_stray c ev rest : accounts ev rest -> accounts (Err (CharacterStray c) :: ev) (c :: rest)
| ac_equal ev rest : accounts ev rest ->
    accounts (Err (CharacterStray 0x3d) :: Tok Colon :: ev) (0x3d :: rest)
| ac_hash body ev rest : accounts ev rest -> accounts (Err (Comment body) :: ev) (0x23 :: body ++ rest)
| ac_slashes body ev rest : accounts ev rest ->
    accounts (Err (Comment (0x2f :: 0x2f :: body)) :: ev) (0x2f :: 0x2f :: body ++ rest)
| ac_blanks strays raw run ev rest : merged strays raw run -> accounts ev rest ->
    accounts (map (fun c => Err (CharacterStray c)) strays ++ Tok (Whitespace raw) :: ev) (run ++ rest)
| ac_number raw i fr ex s es notes ev rest : Forall (about_number raw) notes -> accounts ev rest ->
    accounts (notes ++ Tok (Number raw i fr ex s es) :: ev) (raw ++ rest)
| ac_string raw chars errs ev rest : Forall about_string errs -> accounts ev rest ->
    accounts (map Err errs ++ Tok (Text raw chars) :: ev) (0x22 :: raw ++ 0x22 :: rest)
| ac_unterminated errs rest : Forall about_string errs ->
    accounts (map Err errs ++ [Err StringIncomplete]) (0x22 :: rest).
