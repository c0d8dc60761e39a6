(** Specification of program argument parsing, in terms of the paths and names
    of the layout.  Does not use the model. *)
From Verif Require Import Base.
From Verif Require Export ArgsSyntax.
From Verif Require DvarDecSpec.
From Coq Require Export Permutation Sorted.

(** Valid UTF-8. *)
Definition text : str -> Prop := DvarDecSpec.text.

Definition prefix {A} (a b : list A) : Prop := exists r, b = a ++ r.

(** ** Layouts *)

(** There is a command with this path. *)
Definition is_command (cmds : list command) (p : path) : Prop :=
  exists c, In c cmds /\ c_path c = p.
(** There is a command at or below this path. *)
Definition leads (cmds : list command) (p : path) : Prop :=
  exists c, In c cmds /\ prefix p (c_path c).
(** No two commands have the same path. *)
Definition distinct (cmds : list command) : Prop := NoDup (map c_path cmds).
(** No command has two flags of the same name. *)
Definition distinct_flags (cmds : list command) : Prop :=
  forall c, In c cmds -> NoDup (map f_name (c_flags c)).
(** All commands above a command exist as well. *)
Definition closed (cmds : list command) : Prop := forall p, leads cmds p -> is_command cmds p.
(** The innermost command along a path. *)
Definition innermost (cmds : list command) (p q : path) : Prop :=
  is_command cmds q /\ prefix q p /\
  forall q', is_command cmds q' -> prefix q' p -> length q' <= length q.

(** ** Flags *)

(** The flag called [name], seen from path [a]: that of the innermost command
    along the path that has one. *)
Definition found (cmds : list command) (a : path) (name : str) (q : path) (m : mode) : Prop :=
  exists c, In c cmds /\ c_path c = q /\ prefix q a /\ In (mkFlag name m) (c_flags c) /\
  forall c' m', In c' cmds -> prefix (c_path c') a -> length q < length (c_path c') ->
    ~ In (mkFlag name m') (c_flags c').
Definition missing (cmds : list command) (a : path) (name : str) : Prop :=
  forall c m, In c cmds -> prefix (c_path c) a -> ~ In (mkFlag name m) (c_flags c).
(** How the flag on the command line names a flag of the layout, directly
    ([true]) or with the prefix "no-" ([false]). *)
Inductive named (cmds : list command) (a : path) : str -> path -> str -> mode -> bool -> Prop :=
| nm_plain arg q m : found cmds a arg q m -> named cmds a arg q arg m true
| nm_no name q m : missing cmds a (no_prefix ++ name) -> found cmds a name q m ->
    named cmds a (no_prefix ++ name) q name m false.
Definition nameless (cmds : list command) (a : path) (arg : str) : Prop :=
  missing cmds a arg /\ forall name, arg = no_prefix ++ name -> missing cmds a name.

(** ** Reports *)

(** What the reports are told.  Commands are given by their path, flags by the
    path of the command they belong to and their name; then the path of the
    command they were used on, and the flag as written. *)
Inductive sevent :=
| SError (e : error)
| SParameter (command : path) (parameter : option str)
| SSet (owner : path) (name : str) (current : path) (arg : str)
| SToggle (owner : path) (name : str) (current : path) (arg : str) (value : bool)
| SParse (owner : path) (name : str) (current : path) (arg : str) (value : str).

(** The command a flag was used on: the innermost one entered, or the owner of
    the flag if there is none. *)
Inductive used_on (cmds : list command) (p owner : path) : path -> Prop :=
| uo_inner q : innermost cmds p q -> used_on cmds p owner q
| uo_owner : (forall q, is_command cmds q -> ~ prefix q p) -> used_on cmds p owner owner.

(** Use of the flag [arg], with an inline value or not, when path [p] has been
    entered and flags are looked up from [a].  The next argument is taken as
    value if one is needed. *)
Inductive flag_use (cmds : list command) (p a : path) (arg : str)
  : option str -> list str -> sevent -> list str -> Prop :=
| fu_unknown v rest : nameless cmds a arg ->
    flag_use cmds p a arg v rest (SError (FlagUnknown arg)) rest
| fu_no v rest q name m : named cmds a arg q name m false -> m <> MToggle ->
    flag_use cmds p a arg v rest (SError (FlagUnexpectedToggle arg)) rest
| fu_set_value v rest q name : named cmds a arg q name MSet true ->
    flag_use cmds p a arg (Some v) rest (SError (FlagUnexpectedValue arg v)) rest
| fu_toggle_value v rest q name b : named cmds a arg q name MToggle b ->
    flag_use cmds p a arg (Some v) rest (SError (FlagUnexpectedValue arg v)) rest
| fu_set rest q name cur : named cmds a arg q name MSet true -> used_on cmds p q cur ->
    flag_use cmds p a arg None rest (SSet q name cur arg) rest
| fu_toggle rest q name b cur : named cmds a arg q name MToggle b -> used_on cmds p q cur ->
    flag_use cmds p a arg None rest (SToggle q name cur arg b) rest
| fu_no_value q name : named cmds a arg q name MParse true ->
    flag_use cmds p a arg None [] (SError (FlagNoValue arg)) []
| fu_next v rest q name cur : named cmds a arg q name MParse true -> used_on cmds p q cur ->
    flag_use cmds p a arg None (v :: rest) (SParse q name cur arg v) rest
| fu_inline v rest q name cur : named cmds a arg q name MParse true -> used_on cmds p q cur ->
    flag_use cmds p a arg (Some v) rest (SParse q name cur arg v) rest.

(** ** Arguments *)

Definition double_dash : str := [dash; dash].
(** "--name" and "--name=value" *)
Inductive long : str -> str -> option str -> Prop :=
| long_plain name : text name -> ~ In equals name -> long (double_dash ++ name) name None
| long_value name value : text name -> ~ In equals name ->
    long (double_dash ++ name ++ equals :: value) name (Some value).
(** "--" followed by something that cannot be a name. *)
Inductive unreadable : str -> Prop :=
| ur_plain name : ~ text name -> ~ In equals name -> unreadable (double_dash ++ name)
| ur_value name value : ~ text name -> ~ In equals name ->
    unreadable (double_dash ++ name ++ equals :: value).
(** "-abc" *)
Definition short (arg : str) : Prop := exists c x, arg = dash :: c :: x /\ c <> dash.
(** Anything else: no dash at the start, or only a dash. *)
Definition word (arg : str) : Prop := forall c x, arg <> dash :: c :: x.

(** A parameter goes to the command whose path was entered. *)
Inductive parameter (cmds : list command) (p : path) (x : str) : sevent -> Prop :=
| pm_command : is_command cmds p -> parameter cmds p x (SParameter p (Some x))
| pm_none : ~ is_command cmds p -> parameter cmds p x (SError (ParameterUnexpected x)).
Inductive ending (cmds : list command) (p : path) : list sevent -> Prop :=
| en_command : is_command cmds p -> ending cmds p [SParameter p None]
| en_none : ~ is_command cmds p -> ending cmds p [].

(** ** Parsing *)

(** The path entered so far; whether commands can still be entered; whether
    flags are still recognised. *)
Record stage := mkStage { entered : path; selecting : bool; flagging : bool }.
Definition start : stage := mkStage [] true true.

(** [scope p a]: after path [p] flags are looked up from path [a]. *)
Inductive step (cmds : list command) (scope : path -> path -> Prop)
  : stage -> list str -> list sevent -> stage -> list str -> Prop :=
| st_double_dash p sel rest :
    step cmds scope (mkStage p sel true) (double_dash :: rest) [] (mkStage p false false) rest
| st_unreadable p sel arg rest : unreadable arg ->
    step cmds scope (mkStage p sel true) (arg :: rest) [SError (FlagUnknown arg)] (mkStage p sel true) rest
| st_flag p sel arg name value rest a e rest' : long arg name value -> arg <> double_dash ->
    scope p a -> flag_use cmds p a name value rest e rest' ->
    step cmds scope (mkStage p sel true) (arg :: rest) [e] (mkStage p sel true) rest'
| st_short p sel arg rest : short arg ->
    step cmds scope (mkStage p sel true) (arg :: rest) [SError (ShortsUnknown arg)] (mkStage p sel true) rest
| st_enter p fl arg rest : (fl = true -> word arg) -> text arg -> leads cmds (p ++ [arg]) ->
    step cmds scope (mkStage p true fl) (arg :: rest) [] (mkStage (p ++ [arg]) true fl) rest
| st_stop p fl arg rest e : (fl = true -> word arg) -> ~ (text arg /\ leads cmds (p ++ [arg])) ->
    parameter cmds p arg e ->
    step cmds scope (mkStage p true fl) (arg :: rest) [e] (mkStage p false fl) rest
| st_parameter p fl arg rest e : (fl = true -> word arg) -> parameter cmds p arg e ->
    step cmds scope (mkStage p false fl) (arg :: rest) [e] (mkStage p false fl) rest.
Inductive steps (cmds : list command) (scope : path -> path -> Prop)
  : stage -> list str -> list sevent -> stage -> list str -> Prop :=
| sts_none s args : steps cmds scope s args [] s args
| sts_more s args ev s' args' ev' s'' args'' : step cmds scope s args ev s' args' ->
    steps cmds scope s' args' ev' s'' args'' -> steps cmds scope s args (ev ++ ev') s'' args''.
(** All arguments, what is reported, and the path that was entered. *)
Definition runs (cmds : list command) (scope : path -> path -> Prop) (args : list str)
  (ev : list sevent) (p : path) : Prop :=
  exists s ev1 ev2, steps cmds scope start args ev1 s [] /\ entered s = p /\ ending cmds p ev2 /\ ev = ev1 ++ ev2.

(** The positional arguments: all except flags and the values they take. *)
Inductive positional (cmds : list command) (scope : path -> path -> Prop) : stage -> list str -> list str -> Prop :=
| po_none s : positional cmds scope s [] []
| po_word s arg rest ev s' rest' ws : (flagging s = true -> word arg) -> step cmds scope s (arg :: rest) ev s' rest' ->
    positional cmds scope s' rest' ws -> positional cmds scope s (arg :: rest) (arg :: ws)
| po_flag s arg rest ev s' rest' ws : flagging s = true -> ~ word arg -> step cmds scope s (arg :: rest) ev s' rest' ->
    positional cmds scope s' rest' ws -> positional cmds scope s (arg :: rest) ws.
(** The parameters among the reports, accepted or not. *)
Definition given (e : sevent) : list str :=
  match e with
  | SParameter _ (Some x) | SError (ParameterUnexpected x) => [x]
  | _ => []
  end.

(** The documented scope of flags: what has been entered. *)
Definition innermost_scope (p a : path) : Prop := a = p.
(** The scope the code uses: the first command, in the order of paths, at or
    below what has been entered. *)
Definition first_scope (cmds : list command) (p a : path) : Prop :=
  (is_command cmds a /\ prefix p a /\
   forall b, is_command cmds b -> prefix p b -> path_cmp a b <> Gt) \/
  (~ leads cmds p /\ a = p).

(** ** The standard library *)

(** [binary_search_by] on a slice that is sorted with respect to the
    comparison: finds a match if there is one. *)
Definition ordered (l : list comparison) : Prop :=
  exists a b c, l = repeat Lt a ++ repeat Eq b ++ repeat Gt c.
Definition searches (bs : list comparison -> option nat) : Prop :=
  forall l, ordered l ->
    match bs l with
    | Some i => nth_error l i = Some Eq
    | None => ~ In Eq l
    end.
(** Sorting: some permutation that is sorted. *)
Definition sorted_by {A} (cmp : A -> A -> comparison) (l l' : list A) : Prop :=
  Permutation l l' /\ StronglySorted (fun x y => cmp x y <> Gt) l'.
Definition by_name (x y : flag) : comparison := str_cmp (f_name x) (f_name y).
Definition by_path (x y : command) : comparison := path_cmp (c_path x) (c_path y).
Definition flags_sorted (c c' : command) : Prop :=
  c_path c' = c_path c /\ sorted_by by_name (c_flags c) (c_flags c').
Definition layout_sorted (cmds cmds' : list command) : Prop :=
  exists mid, Forall2 flags_sorted cmds mid /\ sorted_by by_path mid cmds'.
(** The events are told to the reports one by one until one breaks. *)
Fixpoint tell {H R E} (h : H -> E -> H * option R) (x : H) (ev : list E) : H * option R :=
  match ev with
  | [] => (x, None)
  | e :: more =>
      match h x e with
      | (x', Some r) => (x', Some r)
      | (x', None) => tell h x' more
      end
  end.
