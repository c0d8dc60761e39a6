(** Model of lib/osi/src/args/report.rs and lib/osi/src/args/help.rs: the report
    objects that come with the argument parser, and the rendering of help. *)
From Verif Require Import Base ArgsModel.
From Verif Require Export ReportSyntax.
From Verif Require DvarModel.
From Coq Require Import String.
Local Open Scope res_scope.

(** What a report does: it changes itself and continues, or it leaves itself
    as it is and returns what [context.report_error] (report.rs:146-151,
    169-174) returns. *)
Inductive reaction (A : Type) := Change (a : A) | Complain (e : rerror).
Arguments Change {A} a.
Arguments Complain {A} e.

(** [compat::OsStr::to_str] (compat.rs:107-109), for the types that want text;
    the others keep the string as it is. *)
Definition to_enc (enc : encoding) (v : str) : option str :=
  match enc with
  | Os => Some v
  | Text => if DvarModel.utf8_valid v then Some v else None
  end.
(** [Option::get_or_insert_with(Default::default)], then [push]. As at
    lib/osi/src/args/report.rs:387 and similarly in 392-478 and 500-632. *)
Definition opt_push (o : option (list str)) (v : str) : option (list str) :=
  Some (match o with Some l => l | None => [] end ++ [v]).

(** [FlagReport::report_set]: report.rs:33-40 (default), 199-205 (Option<()>),
    226-232 (bool); help.rs:237-243 ([Flag]). *)
Definition report_set (v : value) (current : nat) (arg : str) : reaction value :=
  match v with
  | VUnit _ => Change (VUnit (Some tt))
  | VBool _ => Change (VBool true)
  | VHelp _ => Change (VHelp (Some current))
  | _ => Complain (Common (FlagNoValue arg))
  end.
(** [FlagReport::report_toggle]: report.rs:43-55 (default), 207-218 (Option<()>),
    234-241 (bool); help.rs:245-257 ([Flag]). *)
Definition report_toggle (v : value) (current : nat) (arg : str) (b : bool) : reaction value :=
  match v with
  | VUnit _ => Change (VUnit (if b then Some tt else None))
  | VBool _ => Change (VBool b)
  | VHelp _ => Change (VHelp (if b then Some current else None))
  | _ => if b then report_set v current arg else Complain (Common (FlagUnexpectedToggle arg))
  end.
(** [FlagReport::report_parse]: report.rs:58-67 (default), 244-272 (OsStr),
    274-360 (str, String), 362-390 (Vec<OsStr>), 392-478 (Vec<str>, Vec<String>). *)
Definition report_parse (v : value) (arg : str) (x : str) : reaction value :=
  let keep enc (f : str -> value) :=
    match to_enc enc x with
    | Some x => Change (f x)
    | None => Complain (FlagValueNotUtf8 arg x)
    end in
  match v with
  | VOne enc _ => keep enc (VOne enc)
  | VOption enc _ => keep enc (fun x => VOption enc (Some x))
  | VVec enc l => keep enc (fun x => VVec enc (l ++ [x]))
  | VOptVec enc o => keep enc (fun x => VOptVec enc (opt_push o x))
  | _ => Complain (Common (FlagUnexpectedValue arg x))
  end.
(** [CommandReport::report_parameter]: report.rs:480-498 (unit), 500-532
    (Vec<OsStr>), 534-632 (Vec<str>, Vec<String>). *)
Definition report_param (v : params) (o : option str) : reaction params :=
  match o with
  | None => Change v
  | Some x =>
      let keep enc (f : str -> params) :=
        match to_enc enc x with
        | Some x => Change (f x)
        | None => Complain (ParameterNotUtf8 x)
        end in
      match v with
      | PNone => Complain (Common (ParameterUnexpected x))
      | PVec enc l => keep enc (fun x => PVec enc (l ++ [x]))
      | POptVec enc o => keep enc (fun x => POptVec enc (opt_push o x))
      end
  end.

(** All report objects of a program.  A flag refers to one by its number;
    [Shared] (report.rs:100-102, 649-718) and [Help::flag] (help.rs:117-121) are
    what lets several flags refer to the same.  [Shared] over a [Cell] copies
    the object, and stores the copy only if the report continues; since a
    report that does not continue has not changed the object this is the same.
    [Shared] over a [RefCell] panics if it is already borrowed; no report here
    calls another. *)
Record world (P : Type) := mkWorld { w_values : nat -> value; w_params : nat -> params; w_parser : P }.
Arguments mkWorld {P}. Arguments w_values {P}. Arguments w_params {P}. Arguments w_parser {P}.
(** Rust semantics: assigning one of the objects, e.g.
    lib/osi/src/args/report.rs:203. *)
Definition put {A} (f : nat -> A) (k : nat) (a : A) : nat -> A := fun i => if i =? k then a else f i.

(** [ParserReport] (report.rs:92-99), given by the caller. *)
Definition parser_report (P R : Type) := P -> rerror -> P * option R.
(** report.rs:634-647: the one for [Vec<Error>]. *)
Definition collect : parser_report (list rerror) unit := fun l e => (l ++ [e], None).

(** The objects are attached to the flags and commands of the layout
    (layout.rs:127-132, 158-163) and are sorted with them.  Flags are given by the
    path of their command and their name, so this is for layouts in which
    these are distinct. *)
Section Handle.
  Context {P R : Type} (pr : parser_report P R) (s : schema) (bind : path -> str -> nat) (cbind : path -> nat).
  Definition path_at (i : nat) : path := match nth_error s i with Some d => c_path (d_info d) | None => [] end.
  Definition name_at (at_ : nat * nat) : str :=
    match nth_error s (fst at_) with
    | Some d => match nth_error (c_flags (d_info d)) (snd at_) with Some f => f_name f | None => [] end
    | None => []
    end.
  Definition report (w : world P) (e : rerror) : world P * option R :=
    let '(p, r) := pr (w_parser w) e in (mkWorld (w_values w) (w_params w) p, r).
  Definition react (w : world P) (k : nat) (x : reaction value) : world P * option R :=
    match x with
    | Change v => (mkWorld (put (w_values w) k v) (w_params w) (w_parser w), None)
    | Complain e => report w e
    end.
  Definition react_param (w : world P) (k : nat) (x : reaction params) : world P * option R :=
    match x with
    | Change v => (mkWorld (w_values w) (put (w_params w) k v) (w_parser w), None)
    | Complain e => report w e
    end.
  Definition slot (at_ : nat * nat) : nat := bind (path_at (fst at_)) (name_at at_).
  (** parse.rs:76-159. *)
  Definition handle : handler (world P) R := fun w e =>
    match e with
    | EError e => report w (Common e)
    | EParameter i o =>
        let k := cbind (path_at i) in react_param w k (report_param (w_params w k) o)
    | ESet at_ cur arg => let k := slot at_ in react w k (report_set (w_values w k) cur arg)
    | EToggle at_ cur arg b => let k := slot at_ in react w k (report_toggle (w_values w k) cur arg b)
    | EParse at_ _ arg x => let k := slot at_ in react w k (report_parse (w_values w k) arg x)
    end.
End Handle.

(** ** Help *)

(** [chars().count()]: the standard library counts the bytes that do not
    continue a character. Called at lib/osi/src/args/help.rs:146 and 183. *)
Definition char_count (s : str) : nat :=
  List.length (filter (fun b => negb ((128 <=? b) && (b <? 192))%N) s).
(** help.rs:141-148, 179-185: [o_width]. *)
Definition wider (o_width : option nat) (s : str) : option nat :=
  Some (Nat.max (match o_width with Some w => w | None => 0 end) (char_count s)).

(** [Iterator::map_while] with [then_some]. Called at
    lib/osi/src/args/help.rs:170-175. *)
Fixpoint take_while {A} (f : A -> bool) (l : list A) : list A :=
  match l with
  | [] => []
  | x :: l' => if f x then x :: take_while f l' else []
  end.

(** help.rs:123-201 [write]: the calls it makes, one by one until one breaks off.
    They depend on the layout alone.  [hc] and [hf] are the fields [help_short]
    of the commands and flags (layout.rs:127-132, 158-163), given by path and name
    as above.  The index into the path (help.rs:183, 192) cannot fail; [nth] is
    the model of it. *)
Definition help_write (hc : path -> option str) (hf : path -> str -> option str) (info entry : str)
  (s : schema) (idx_command : nat) : res (list wcall) :=
  do command <- info_at s idx_command;
  let p := c_path command in
  let flags := c_flags command in
  let fsec :=
    match fold_left wider (map f_name flags) None with
    | Some width => WSection (ascii "Flags") :: map (fun f => WFlag (f_name f) (f_mode f) (hf p (f_name f)) width) flags
    | None => []
    end in
  let iter :=
    filter (fun v => List.length (c_path v) =? List.length p + 1)
      (take_while (fun v => (List.length p <? List.length (c_path v)) &&
                            is_eq (path_cmp (firstn (List.length p) (c_path v)) p))
        (map d_info (skipn (idx_command + 1) s))) in
  let csec :=
    match fold_left wider (map (fun v => nth (List.length p) (c_path v) []) iter) None with
    | Some width => WSection (ascii "Commands") ::
        map (fun v => WCommand (nth (List.length p) (c_path v) []) (hc (c_path v)) width) iter
    | None => []
    end in
  Ok ([WInfo info; WSection (ascii "Usage"); WUsage entry p] ++ fsec ++ csec).

(** lib/osi/src/args/help.rs:123-201: the calls are made until one breaks off,
    on which [?] leaves [write]. *)
Fixpoint tell_all {H E} (h : H -> wcall -> H * option E) (x : H) (calls : list wcall) : H * option E :=
  match calls with
  | [] => (x, None)
  | c :: more => match h x c with (x', Some e) => (x', Some e) | (x', None) => tell_all h x' more end
  end.
(** The result [Result<bool, E>] at lib/osi/src/args/help.rs:208 and 224. *)
Inductive helped (E : Type) := Helped | NotAsked | HelpFailed (e : E).
Arguments Helped {E}. Arguments NotAsked {E}. Arguments HelpFailed {E} e.
(** lib/osi/src/args/help.rs:204-233, [help] and [try_help], which are the
    same. *)
Definition try_help {H E} (hc : path -> option str) (hf : path -> str -> option str) (info entry : str)
  (s : schema) (index : option nat) (h : H -> wcall -> H * option E) (x : H) : res (H * helped E) :=
  match index with
  | None => Ok (x, NotAsked)
  | Some idx_command =>
      do calls <- help_write hc hf info entry s idx_command;
      match tell_all h x calls with
      | (x', None) => Ok (x', Helped)
      | (x', Some e) => Ok (x', HelpFailed e)
      end
  end.
