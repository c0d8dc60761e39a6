(** Model of lib/osi/src/args/layout.rs and lib/osi/src/args/parse.rs: layouts of
    program arguments, and the parser. *)
From Verif Require Import Base.
From Verif Require Export ArgsSyntax.
From Verif Require DvarModel.
Local Open Scope res_scope.

(** Equality of &str, as used by starts_with at layout.rs:434. *)
Definition str_eqb (a b : str) : bool := match str_cmp a b with Eq => true | _ => false end.
(** [<[T]>::starts_with]. As used at layout.rs:434. *)
Fixpoint starts_with (p q : path) : bool :=
  match q, p with
  | [], _ => true
  | y :: q', x :: p' => str_eqb x y && starts_with p' q'
  | _ :: _, [] => false
  end.
(** Ordering::is_eq as used at parse.rs:229. *)
Definition is_eq (c : comparison) : bool := match c with Eq => true | _ => false end.

(** ** Layouts *)

(** layout.rs:201-204 [CommandDef]. *)
Record def := mkDef { d_info : command; d_up : option nat }.
(** layout.rs:191-193 [Schema]: the compiled commands. *)
Definition schema := list def.

(** layout.rs:433-439: the inner loop of [compile].  [ups] are the links of the
    commands before the one with path [p].  The fuel bounds the steps. *)
Fixpoint climb (fuel : nat) (paths : list path) (ups : list (option nat)) (p : path) (o_up : option nat)
  : res (option nat) :=
  match o_up with
  | None => Ok None
  | Some up =>
      match fuel with
      | O => NoFuel
      | S fuel =>
          match nth_error paths up, nth_error ups up with
          | Some q, Some next =>
              if starts_with p q then Ok (Some up) else climb fuel paths ups p next
          | _, _ => Panic
          end
      end
  end.
(** layout.rs:425-441: the outer loop, at index [length ups].  The assertion
    that the links are still unset holds because [CommandDef::with] (402-407)
    makes them so. *)
Fixpoint link_loop (paths todo : list path) (ups : list (option nat)) : res (list (option nat)) :=
  match todo with
  | [] => Ok ups
  | p :: more =>
      do up <- climb (S (length ups)) paths ups p
        (match length ups with O => None | S i => Some i end);
      link_loop paths more (ups ++ [up])
  end.
(** layout.rs:411-452 [CommandSet::with], after the sorting (414-416): [sort_unstable_by]
    yields any sorted permutation, so theorems are about all of them.  The same for the flags of each
    command (252-269). *)
Definition link (sorted : list command) : res schema :=
  let paths := map c_path sorted in
  do ups <- link_loop paths paths [];
  Ok (map (fun '(c, up) => mkDef c up) (combine sorted ups)).

(** layout.rs:481-486 command_at, as used at parse.rs:52, 61, 70, 227, 249; an index
    out of range panics. *)
Definition info_at (s : schema) (i : nat) : res command :=
  match nth_error s i with Some d => Ok (d_info d) | None => Panic end.
(** layout.rs:532-534 [up_from]. *)
Definition up_from (s : schema) (i : nat) : res (option nat) :=
  match nth_error s i with Some d => Ok (d_up d) | None => Panic end.

(** ** Cursor *)

(** [binary_search_by] of the standard library on a sorted slice, given the
    results of the comparisons; the index of an error is never used here. The
    standard library does not say which of several matches it finds, so it is
    a parameter of the parser. layout.rs:521-526 and the same for flags
    (parse.rs:216, 249-251). *)
Definition bsearch := list comparison -> option nat.

(** parse.rs:9-13. *)
Record position := mkPos { p_index : nat; p_level : nat }.

(** parse.rs:28-45 [Cursor::with]. *)
Definition cursor_with (s : schema) : option position :=
  match s with [] => None | _ :: _ => Some (mkPos 0 0) end.

(** parse.rs:47-54 [key]. *)
Definition key (s : schema) (c : option position) : res path :=
  match c with
  | None => Ok []
  | Some v =>
      do cmd <- info_at s (p_index v);
      if p_level v <=? length (c_path cmd) then Ok (firstn (p_level v) (c_path cmd)) else Panic
  end.

(** parse.rs:56-64 [command]. *)
Definition cursor_command (s : schema) (c : option position) : res (option nat) :=
  match c with
  | None => Ok None
  | Some v =>
      do cmd <- info_at s (p_index v);
      Ok (if length (c_path cmd) <=? p_level v then Some (p_index v) else None)
  end.

(** parse.rs:66-74 [command_or_up]. *)
Definition command_or_up (s : schema) (c : option position) : res (option nat) :=
  match c with
  | None => Ok None
  | Some v =>
      do cmd <- info_at s (p_index v);
      if length (c_path cmd) <=? p_level v then Ok (Some (p_index v)) else up_from s (p_index v)
  end.

(** parse.rs:182-187: the loop of [compare_prefix]. *)
Fixpoint compare_loop (element sub : list str) (n : nat) : comparison :=
  match n with
  | O => Eq
  | S n =>
      match element, sub with
      | x :: element, y :: sub => match str_cmp x y with Eq => compare_loop element sub n | c => c end
      | _, _ => Eq (* not reached: n is at most both lengths *)
      end
  end.
(** parse.rs:161-194 [compare_prefix]. *)
Definition compare_prefix (element : path) (prefix : path * str) : comparison :=
  let n_sub := length (fst prefix) in
  let n_el := length element in
  match compare_loop element (fst prefix) (Nat.min n_sub n_el) with
  | Eq =>
      match nth_error element n_sub with
      | Some x => str_cmp x (snd prefix)
      | None => Nat.compare n_el (n_sub + 1)
      end
  | c => c
  end.

(** parse.rs:226-233: the loop of [enter]. *)
Fixpoint back_up (s : schema) (k : path * str) (cand : nat) : res nat :=
  match cand with
  | O => Ok O
  | S before =>
      do cmd <- info_at s before;
      if is_eq (compare_prefix (c_path cmd) k) then back_up s k before else Ok cand
  end.
(** parse.rs:196-240 [enter]; [None] is the result [false]. *)
Definition enter (bs : bsearch) (s : schema) (c : option position) (name : str) : res (option position) :=
  do p <- key s c;
  let k := (p, name) in
  match bs (map (fun d => compare_prefix (c_path (d_info d)) k) s) with
  | None => Ok None
  | Some cand =>
      do cand <- back_up s k cand;
      Ok (Some (mkPos cand (length p + 1)))
  end.

(** parse.rs:248-257: the loop of [find_flag]; [up] leads to smaller indices,
    which bounds it. *)
Fixpoint find_loop (fuel : nat) (bs : bsearch) (s : schema) (name : str) (o_idx : option nat)
  : res (option (nat * nat)) :=
  match o_idx with
  | None => Ok None
  | Some idx =>
      match fuel with
      | O => NoFuel
      | S fuel =>
          do cmd <- info_at s idx;
          match bs (map (fun f => str_cmp (f_name f) name) (c_flags cmd)) with
          | Some v => Ok (Some (idx, v))
          | None => do up <- up_from s idx; find_loop fuel bs s name up
          end
      end
  end.
(** parse.rs:242-260 [find_flag]. *)
Definition find_flag (bs : bsearch) (s : schema) (c : option position) (name : str) : res (option (nat * nat)) :=
  find_loop (S (length s)) bs s name (option_map p_index c).

(** ** Reports *)

(** parse.rs:76-159: the calls of the reports.  Commands and flags are given by
    their index; [current] is the command of the context. *)
Inductive event :=
| EError (e : error)
| EParameter (command : nat) (parameter : option str)
| ESet (at_ : nat * nat) (current : nat) (arg : str)
| EToggle (at_ : nat * nat) (current : nat) (arg : str) (value : bool)
| EParse (at_ : nat * nat) (current : nat) (arg : str) (value : str).
(** The report objects are given by the caller. They can tell the parser only
    to stop. The results [ControlFlow<R>] at parse.rs:76-159. *)
Definition handler (H R : Type) := H -> event -> H * option R.

(** parse.rs:93-106 [report_parameter]. *)
Definition report_parameter (s : schema) (c : option position) (o_parameter : option str) : res (option event) :=
  do cmd <- cursor_command s c;
  match cmd with
  | Some v => Ok (Some (EParameter v o_parameter))
  | None =>
      match o_parameter with
      | Some p => Ok (Some (EError (ParameterUnexpected p)))
      | None => Ok None
      end
  end.
(** parse.rs:113, 131, 149. *)
Definition current_or (s : schema) (c : option position) (idx : nat) : res nat :=
  do at_ <- command_or_up s c;
  Ok (match at_ with Some i => i | None => idx end).

(** ** Parser *)

(** parse.rs:21-25 [Parser], and the cursor. *)
Record state := mkState { s_cursor : option position; commands_finalized : bool; flags_finalized : bool }.
(** parse.rs:383. *)
Definition finalize_commands (st : state) : state := mkState (s_cursor st) true (flags_finalized st).

(** [str::strip_prefix] as used at parse.rs:294, 431. *)
Fixpoint strip_prefix (p s : str) : option str :=
  match p, s with
  | [], _ => Some s
  | x :: p', y :: s' => if (x =? y)%N then strip_prefix p' s' else None
  | _ :: _, [] => None
  end.
(** [str::split_once] as used at parse.rs:432; the character is ASCII. *)
Fixpoint split_once (c : N) (s : str) : option (str * str) :=
  match s with
  | [] => None
  | x :: s' =>
      if (x =? c)%N then Some ([], s')
      else match split_once c s' with Some (a, b) => Some (x :: a, b) | None => None end
  end.
(** [core::str::from_utf8] with [valid_up_to]: the longest prefix that is
    valid. As used at parse.rs:415-424. *)
Fixpoint valid_len (n : nat) (s : str) : nat :=
  match n with
  | O => O
  | S n' => if DvarModel.utf8_valid (firstn n s) then n else valid_len n' s
  end.
(** parse.rs:415-424: [arg_front]. *)
Definition valid_front (s : str) : str := firstn (valid_len (length s) s) s.

(** What a step does: the event it reports, if any, and whether it took the
    next argument. One iteration of the loop at parse.rs:395-504. *)
Definition outcome := res (state * option event * bool).
(** parse.rs:296-361: one report and no argument taken. *)
Definition says (st : state) (e : event) : outcome := Ok (st, Some e, false).

(** parse.rs:285-366 [parse_long]; [next] is what [arguments.next()] yields. *)
Definition parse_long (bs : bsearch) (s : schema) (st : state) (next : option str)
  (flag_str : str) (value_opt : option str) : outcome :=
  let c := s_cursor st in
  do found <- find_flag bs s c flag_str;
  do found <- match found with
    | Some v => Ok (Some (v, None))
    | None =>
        match strip_prefix no_prefix flag_str with
        | None => Ok None
        | Some stripped =>
            do found <- find_flag bs s c stripped;
            Ok (match found with Some v => Some (v, Some stripped) | None => None end)
        end
    end;
  match found with
  | None => says st (EError (FlagUnknown flag_str))
  | Some (idx, flag_toggled) =>
      do cmd <- info_at s (fst idx);
      match nth_error (c_flags cmd) (snd idx) with
      | None => Panic
      | Some fl =>
          match f_mode fl, flag_toggled, value_opt with
          | MSet, Some _, _ | MParse, Some _, _ => says st (EError (FlagUnexpectedToggle flag_str))
          | MSet, None, Some v | MToggle, _, Some v => says st (EError (FlagUnexpectedValue flag_str v))
          | MSet, None, None =>
              do at_ <- current_or s c (fst idx); says st (ESet idx at_ flag_str)
          | MToggle, t, None =>
              do at_ <- current_or s c (fst idx);
              says st (EToggle idx at_ flag_str (match t with None => true | Some _ => false end))
          | MParse, None, None =>
              match next with
              | None => says st (EError (FlagNoValue flag_str))
              | Some v =>
                  do at_ <- current_or s c (fst idx);
                  Ok (st, Some (EParse idx at_ flag_str v), true)
              end
          | MParse, None, Some v =>
              do at_ <- current_or s c (fst idx); says st (EParse idx at_ flag_str v)
          end
      end
  end.

(** parse.rs:368-388 [parse_command]. *)
Definition parse_command (bs : bsearch) (s : schema) (st : state) (arg_os : str) (arg_str_opt : option str) : outcome :=
  do entered <- match arg_str_opt with
    | None => Ok None
    | Some v => enter bs s (s_cursor st) v
    end;
  match entered with
  | Some c => Ok (mkState (Some c) (commands_finalized st) (flags_finalized st), None, false)
  | None =>
      do e <- report_parameter s (s_cursor st) (Some arg_os);
      Ok (finalize_commands st, e, false)
  end.

(** parse.rs:403 and 503. *)
Definition as_parameter (s : schema) (st : state) (arg : str) : outcome :=
  do e <- report_parameter s (s_cursor st) (Some arg);
  Ok (st, e, false).

(** parse.rs:402-504: the body of the loop of [parse_cursor], [parse_short]
    (272-283) included. *)
Definition parse_arg (bs : bsearch) (s : schema) (st : state) (arg : str) (next : option str) : outcome :=
  if commands_finalized st && flags_finalized st then as_parameter s st arg
  else
    let front := valid_front arg in
    let tail := negb (length front =? length arg) in
    let other :=
      if negb (commands_finalized st) then
        parse_command bs s st arg (if tail then None else Some front)
      else as_parameter s st arg in
    if negb (flags_finalized st) then
      match strip_prefix [dash; dash] front with
      | Some dd =>
          let '(name, unknown, value) :=
            match split_once equals dd with
            | None => (dd, tail, None)
            | Some (before, _) => (before, false, Some (skipn (2 + length before + 1) arg))
            end in
          if unknown then says st (EError (FlagUnknown arg))
          else match name, value with
          | [], None => Ok (mkState (s_cursor st) true true, None, false)
          | _, _ => parse_long bs s st next name value
          end
      | None =>
          match arg with
          | x :: _ :: _ => if (x =? dash)%N then says st (EError (ShortsUnknown arg)) else other
          | _ => other
          end
      end
    else other.

(** parse.rs:76-159: the call of a report, if there is one; a [Break] stops
    the parser. *)
Definition tell_opt {H R} (h : handler H R) (x : H) (e : option event) : H * option R :=
  match e with None => (x, None) | Some e => h x e end.

(** parse.rs:390-509 [parse_cursor]; [Break] becomes [Some r]. *)
Fixpoint parse_cursor {H R} (bs : bsearch) (s : schema) (h : handler H R) (x : H) (st : state) (args : list str)
  : res (H * option R * state) :=
  match args with
  | [] =>
      do e <- report_parameter s (s_cursor st) None;
      let '(x, r) := tell_opt h x e in Ok (x, r, st)
  | arg :: rest =>
      do '(st', e, took) <- parse_arg bs s st arg (hd_error rest);
      match tell_opt h x e with
      | (x', Some r) => Ok (x', Some r, st')
      | (x', None) =>
          if (took : bool) then
            match rest with
            | [] => parse_cursor bs s h x' st' rest
            | _ :: rest' => parse_cursor bs s h x' st' rest'
            end
          else parse_cursor bs s h x' st' rest
      end
  end.

(** parse.rs:515: the result type of [parse]: [Ok], [Err(None)],
    [Err(Some(r))]. *)
Inductive selected (R : Type) := Selected (command : nat) | NotSelected | Broken (r : R).
Arguments Selected {R} command.
Arguments NotSelected {R}.
Arguments Broken {R} r.
(** parse.rs:511-527 [parse]. *)
Definition parse {H R} (bs : bsearch) (s : schema) (h : handler H R) (x : H) (args : list str) : res (H * selected R) :=
  do '(x', r, st) <- parse_cursor bs s h x (mkState (cursor_with s) false false) args;
  match r with
  | Some r => Ok (x', Broken r)
  | None =>
      do c <- cursor_command s (s_cursor st);
      Ok (x', match c with Some i => Selected i | None => NotSelected end)
  end.
