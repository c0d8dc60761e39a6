(** Program arguments: strings, layouts and errors. *)
From Verif Require Import Base.

(** Strings are their bytes, also those of the layout ([&str]); the arguments
    are arbitrary bytes ([OsStr], on the platforms where that is so).
    lib/osi/src/args/layout.rs:127-163 and lib/osi/src/args/parse.rs:514. *)
Definition str := list N.
(** lib/osi/src/args/layout.rs:158-163: the field [path] of [Command]. *)
Definition path := list str.

(** lib/osi/src/args/layout.rs:112-122 [FlagMode]. *)
Inductive mode := MSet | MToggle | MParse.
(** layout.rs:127-132 [Flag], without the report and the help text. *)
Record flag := mkFlag { f_name : str; f_mode : mode }.
(** layout.rs:158-163 [Command], without the report and the help text. *)
Record command := mkCommand { c_path : path; c_flags : list flag }.

(** lib/osi/src/args.rs:28-81 [Error], those the parser itself reports. *)
Inductive error :=
| ShortsUnknown (shorts : str)
| FlagUnknown (flag : str)
| FlagUnexpectedToggle (flag : str)
| FlagUnexpectedValue (flag value : str)
| FlagNoValue (flag : str)
| ParameterUnexpected (parameter : str).

(** [Ord] of slices: lexicographic. [str] compares like its bytes. As used at
    lib/osi/src/args/layout.rs:415 and parse.rs:183. *)
Fixpoint lex_cmp {A} (cmp : A -> A -> comparison) (a b : list A) : comparison :=
  match a, b with
  | [], [] => Eq
  | [], _ :: _ => Lt
  | _ :: _, [] => Gt
  | x :: a', y :: b' => match cmp x y with Eq => lex_cmp cmp a' b' | c => c end
  end.
(** [str::cmp] as used at lib/osi/src/args/layout.rs:255, parse.rs:183, 190,
    251. *)
Definition str_cmp : str -> str -> comparison := lex_cmp N.compare.
(** The comparison of paths at lib/osi/src/args/layout.rs:415. *)
Definition path_cmp : path -> path -> comparison := lex_cmp str_cmp.

(** lib/osi/src/args/parse.rs:431, 480. *)
Definition dash : N := 45%N.
(** lib/osi/src/args/parse.rs:432. *)
Definition equals : N := 61%N.
(** "no-" lib/osi/src/args/parse.rs:294. *)
Definition no_prefix : str := [110%N; 111%N; 45%N].
