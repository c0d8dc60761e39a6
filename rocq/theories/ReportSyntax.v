(** Reports of the argument parser and help: the types that the specification
    and the model share. *)
From Verif Require Import Base.
From Verif Require Export ArgsSyntax.
From Coq Require Import String Ascii.

(** Which strings a report takes: [&OsStr] takes all of them; [&str] and
    [String] only text. lib/osi/src/args/report.rs:244-632. *)
Inductive encoding := Os | Text.
(** lib/osi/src/args/report.rs:194-478: the types that are flag reports, with
    what they hold.  [&str] and [String] hold the same characters and are not
    distinguished.  [VHelp] is lib/osi/src/args/help.rs:81-93 [Help] and [Flag]:
    the position of a command. *)
Inductive value :=
| VUnit (o : option unit)                           (* Option<()> *)
| VBool (b : bool)                                  (* bool *)
| VOne (enc : encoding) (s : str)                   (* &OsStr, &str, String *)
| VOption (enc : encoding) (o : option str)         (* Option<..> *)
| VVec (enc : encoding) (l : list str)              (* Vec<..> *)
| VOptVec (enc : encoding) (o : option (list str))  (* Option<Vec<..>> *)
| VHelp (index : option nat).
(** report.rs:480-632: the types that are command reports. *)
Inductive params :=
| PNone                                             (* () *)
| PVec (enc : encoding) (l : list str)              (* Vec<..> *)
| POptVec (enc : encoding) (o : option (list str)). (* Option<Vec<..>> *)

(** lib/osi/src/args.rs:28-81 [Error]: those of the parser and those of the
    reports.  [Uncaught] is used by neither. *)
Inductive rerror :=
| Common (e : error)
| FlagValueNotUtf8 (flag value : str)
| ParameterNotUtf8 (parameter : str).

(** lib/osi/src/args/help.rs:24-70: the calls of [Write]. *)
Inductive wcall :=
| WInfo (info : str)
| WSection (section : str)
| WUsage (entry : str) (p : path)
| WFlag (name : str) (m : mode) (info : option str) (width : nat)
| WCommand (name : str) (info : option str) (width : nat).

(** The section titles at lib/osi/src/args/help.rs:136, 151 and 188 as bytes.
    *)
Definition ascii (s : string) : str := map N_of_ascii (list_ascii_of_string s).
