(** Specification of what the streaming JSON tokenizer reports for every
    sequence of bytes, right or wrong.  Does not use the model. *)
From Verif Require Import Base TokSyntax TokSpec.
Local Open Scope N_scope.

(** ** Strings as they are reported

    Up to the first escape the string is taken as it is written.  After an escape
    each control character makes everything since that escape be taken twice.
    [since] is the text since the last escape, if there was any. *)
Fixpoint given (since : option (list N)) (ps : list piece) : list N :=
  match ps with
  | [] => []
  | Plain c :: ps => c :: given (option_map (fun s => s ++ [c]) since) ps
  | Control c :: ps =>
      c :: (if c <? 0x1f then match since with Some s => s ++ [c] | None => [] end else []) ++
      given (option_map (fun s => s ++ [c]) since) ps
  | p :: ps => piece_value p ++ given (Some []) ps
  end.
(** The control character U+001F is no error. *)
Definition given_errors (ps : list piece) : list Error :=
  flat_map (fun p => match p with Control c => if c =? 0x1f then [] else [StringUnescaped c] | _ => piece_errors p end) ps.

(** ** Lexemes as they are reported *)
Definition none (ps : list piece) : Prop := False.
Inductive told : list N -> list Token -> list N -> Prop :=
| told_lexeme s ts next : lexeme none s ts next -> told s ts next
| told_string ps next : pieces_ok ps next -> utf8_text (given None ps) ->
    told (0x22 :: text ps ++ [0x22])
      (map TError (given_errors ps) ++ [TString (0x22 :: text ps ++ [0x22]) (given None ps)]) next
| told_string_bytes ps next : pieces_ok ps next -> ~ utf8_text (given None ps) ->
    told (0x22 :: text ps ++ [0x22])
      (map TError (given_errors ps) ++ [TError (StringNonUtf8 (0x22 :: text ps ++ [0x22]) (given None ps))]) next.
Inductive telling : list N -> list Token -> list N -> Prop :=
| telling_nil rest : telling rest [] rest
| telling_cons s ts next ts' rest : told s ts next -> telling next ts' rest -> telling (s ++ next) (ts ++ ts') rest.

(** ** What may be left at the end: a lexeme that may go on.

    [es] are the errors that are already reported for it. *)

(** The beginning of an escape with four digits. *)
Definition begun (w : list N) : Prop := exists h r, hex4 h /\ r <> [] /\ u_text h = w ++ r.
(** The end of a string that is not closed. *)
Definition open_end (w : list N) : Prop :=
  w = [] \/ w = [0x5c] \/ (exists h, Forall hex_digit h /\ (length h < 4)%nat /\ w = u_text h) \/
  (exists h v, hex4 h /\ lead (code h) /\ begun v /\ w = u_text h ++ v).
Fixpoint pieces_before (ps : list piece) (rest : list N) : Prop :=
  match ps with
  | [] => True
  | p :: ps => piece_ok p (text ps ++ rest) /\ (forall h, p = LoneLead h -> ~ begun (text ps ++ rest)) /\ pieces_before ps rest
  end.
(** The errors in a numeral that are seen before its end: those about signs. *)
Definition sign_errors (n : numeral) : list Error :=
  filter (fun e => match e with NumberRangeEmpty => false | _ => true end) (number_errors n).
Inductive unfinished : list N -> list Error -> Prop :=
| uf_nothing : unfinished [] []
| uf_ws s : s <> [] -> Forall ws s -> unfinished s []
| uf_word c s : word_start c -> Forall word_char s -> unfinished (c :: s) []
| uf_number n : numeral_ok n -> unfinished (written n) (sign_errors n)
| uf_string ps w : pieces_before ps w -> open_end w -> unfinished (0x22 :: text ps ++ w) (given_errors ps).
