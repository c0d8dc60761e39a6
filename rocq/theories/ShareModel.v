(** Model of [Shared] of lib/osi/src/args/report.rs: several flags that report to
    one object behind a cell, for any type of object. *)
From Verif Require Import Base ArgsModel ReportModel.
Local Open Scope res_scope.

Section Share.
(** [V] is the type of the objects, [P] that of the parser report, [R] what ends
    the parsing. *)
Context {V P R : Type}.

(** lib/osi/src/args/report.rs:10-15 and 106-138, [FlagContext]: the index of the
    current command, the flag as given, and the parser report, which the object
    may change. What it does with the report of the command is not modelled. *)
Record context := mkContext { command_current : nat; flag_arg : str; parser : P }.

(** What a method of lib/osi/src/args/report.rs:31-68 returns. [None] is
    [ControlFlow::Continue]. *)
Definition outcome (S : Type) : Type := res (S * P * option R).

(** lib/osi/src/args/report.rs:31-68, an implementation of [FlagReport]. *)
Record flag_report (S : Type) := mkReport {
  r_set : S -> context -> outcome S;
  r_toggle : S -> context -> bool -> outcome S;
  r_parse : S -> context -> str -> outcome S }.

(** lib/osi/src/args/report.rs:649-687, [Shared] over a [Cell]: the object is copied
    out, told, and put back unless [?] leaves before. *)
Definition cell_call (call : V -> context -> outcome V) (inner : V) (c : context) : outcome V :=
  let v := inner in
  do '(v, p, r) <- call v c;
  match r with
  | Some e => Ok (inner, p, Some e)
  | None => Ok (v, p, None)
  end.
(** lib/osi/src/args/report.rs:649-687, the three methods. *)
Definition shared_cell (f : flag_report V) : flag_report V :=
  mkReport V
    (fun inner c => cell_call (r_set V f) inner c)
    (fun inner c value => cell_call (fun v c => r_toggle V f v c value) inner c)
    (fun inner c value => cell_call (fun v c => r_parse V f v c value) inner c).

(** Rust semantics: [RefCell], its object and whether it is borrowed. As at
    lib/osi/src/args/report.rs:692. *)
Record ref_cell := mkRef { borrowed : bool; object : V }.
(** lib/osi/src/args/report.rs:689-718, [Shared] over a [RefCell]: it is borrowed
    while the object is told; [borrow_mut] panics if it is borrowed already. *)
Definition ref_call (call : V -> context -> outcome V) (inner : ref_cell) (c : context) : outcome ref_cell :=
  if borrowed inner then Panic
  else
    do '(v, p, r) <- call (object inner) c;
    Ok (mkRef false v, p, r).
(** lib/osi/src/args/report.rs:689-718, the three methods. *)
Definition shared_ref (f : flag_report V) : flag_report ref_cell :=
  mkReport ref_cell
    (fun inner c => ref_call (r_set V f) inner c)
    (fun inner c value => ref_call (fun v c => r_toggle V f v c value) inner c)
    (fun inner c value => ref_call (fun v c => r_parse V f v c value) inner c).

(** lib/osi/src/args/parse.rs:108-159, what a flag is told by the parser. *)
Inductive told := TSet | TToggle (b : bool) | TParse (x : str).
(** lib/osi/src/args/parse.rs:108-159, telling it. *)
Definition tell {S} (f : flag_report S) (v : S) (c : context) (t : told) : outcome S :=
  match t with
  | TSet => r_set S f v c
  | TToggle b => r_toggle S f v c b
  | TParse x => r_parse S f v c x
  end.

(** One report: the number of the object the flag refers to, the current
    command, the flag as given, and what is told. As at
    lib/osi/src/args/parse.rs:108-159. *)
Record use := mkUse { u_object : nat; u_current : nat; u_arg : str; u_told : told }.

(** lib/osi/src/args/parse.rs:108-159: the reports of a command line to objects of
    any types, one after the other until one ends the parsing. *)
Fixpoint tell_uses {S} (f : nat -> flag_report S) (s : nat -> S) (p : P) (us : list use)
  : res ((nat -> S) * P * option R) :=
  match us with
  | [] => Ok (s, p, None)
  | u :: us =>
      let k := u_object u in
      do '(v, p, r) <- tell (f k) (s k) (mkContext (u_current u) (u_arg u) p) (u_told u);
      let s := put s k v in
      match r with
      | Some e => Ok (s, p, Some e)
      | None => tell_uses f s p us
      end
  end.
End Share.
Arguments context : clear implicits.
Arguments flag_report : clear implicits.
Arguments ref_cell : clear implicits.
Arguments outcome : clear implicits.

(** lib/osi/src/args/report.rs:146-151, what [context.report_error] does: the parser
    report is told, and the object stays as it is. *)
Definition settle {P R} (pr : parser_report P R) (v : value) (p : P) (x : reaction value) : outcome P R value :=
  match x with
  | Change v => Ok (v, p, None)
  | Complain e => let '(p, r) := pr p e in Ok (v, p, r)
  end.
(** lib/osi/src/args/report.rs:194-478 and lib/osi/src/args/help.rs:236-258: the types
    of the library as reports, made of the methods in [ReportModel]. *)
Definition builtin {P R} (pr : parser_report P R) : flag_report P R value :=
  mkReport value
    (fun v c => settle pr v (parser c) (report_set v (command_current c) (flag_arg c)))
    (fun v c b => settle pr v (parser c) (report_toggle v (command_current c) (flag_arg c) b))
    (fun v c x => settle pr v (parser c) (report_parse v (flag_arg c) x)).
