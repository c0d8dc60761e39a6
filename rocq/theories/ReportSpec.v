(** Specification of the reports of the argument parser, and of help.  Does not
    use the model. *)
From Verif Require Import Base ArgsSpec.
From Verif Require Export ReportSyntax.
From Verif Require DvarDecSpec.
From Coq Require Import String.

(** ** Report objects *)

(** Which object each flag reports to.  Flags can share one. *)
Definition binding := path -> str -> nat.

(** A use of a flag: the command it was used on, the flag as written. *)
Inductive use :=
| USet (cur : path) (arg : str)
| UToggle (cur : path) (arg : str) (b : bool)
| UParse (cur : path) (arg : str) (v : str).
(** The uses of those flags that report to object [k]. *)
Definition uses (bind : binding) (k : nat) (e : sevent) : list use :=
  match e with
  | SSet q n cur arg => if bind q n =? k then [USet cur arg] else []
  | SToggle q n cur arg b => if bind q n =? k then [UToggle cur arg b] else []
  | SParse q n cur arg v => if bind q n =? k then [UParse cur arg v] else []
  | _ => []
  end.

Definition accepts (enc : encoding) (v : str) : Prop :=
  match enc with Os => True | Text => text v end.
(** On or off. *)
Definition switch (u : use) : list bool :=
  match u with USet _ _ => [true] | UToggle _ _ b => [b] | UParse _ _ _ => [] end.
(** The accepted ones among some strings. *)
Inductive accepted (enc : encoding) : list str -> list str -> Prop :=
| ac_nil : accepted enc [] []
| ac_yes v vs l : accepts enc v -> accepted enc vs l -> accepted enc (v :: vs) (v :: l)
| ac_no v vs l : ~ accepts enc v -> accepted enc vs l -> accepted enc (v :: vs) l.
Definition argument (u : use) : list str := match u with UParse _ _ v => [v] | _ => [] end.
(** The command help was asked for. *)
Definition asks (u : use) : list (option path) :=
  match u with
  | USet cur _ => [Some cur]
  | UToggle cur _ b => [if b then Some cur else None]
  | UParse _ _ _ => []
  end.
Definition items {A} (o : option (list A)) : list A := match o with Some l => l | None => [] end.

(** What an object holds after some uses, given what it held before: switches
    and single values hold the last, lists all in order.  [at_ i p]: the command
    at position [i] has path [p]. *)
Inductive ends (at_ : nat -> path -> Prop) : value -> list use -> value -> Prop :=
| en_unit o us :
    ends at_ (VUnit o) us (VUnit (last (map (fun b : bool => if b then Some tt else None) (flat_map switch us)) o))
| en_bool b us : ends at_ (VBool b) us (VBool (last (flat_map switch us) b))
| en_one enc s us l : accepted enc (flat_map argument us) l -> ends at_ (VOne enc s) us (VOne enc (last l s))
| en_option enc o us l : accepted enc (flat_map argument us) l ->
    ends at_ (VOption enc o) us (VOption enc (last (map Some l) o))
| en_vec enc l0 us l : accepted enc (flat_map argument us) l -> ends at_ (VVec enc l0) us (VVec enc (l0 ++ l))
| en_optvec_none enc o us : accepted enc (flat_map argument us) [] -> ends at_ (VOptVec enc o) us (VOptVec enc o)
| en_optvec enc o us l : accepted enc (flat_map argument us) l -> l <> [] ->
    ends at_ (VOptVec enc o) us (VOptVec enc (Some (items o ++ l)))
| en_help_same o us : flat_map asks us = [] -> ends at_ (VHelp o) us (VHelp o)
| en_help_off o us : last (flat_map asks us) (Some []) = None -> ends at_ (VHelp o) us (VHelp None)
| en_help_on o us p i : last (flat_map asks us) None = Some p -> at_ i p ->
    ends at_ (VHelp o) us (VHelp (Some i)).

(** Objects that are switches, and objects that take values. *)
Inductive switches : value -> Prop :=
| sw_unit o : switches (VUnit o)
| sw_bool b : switches (VBool b)
| sw_help o : switches (VHelp o).
Inductive takes : value -> encoding -> Prop :=
| tk_one enc s : takes (VOne enc s) enc
| tk_option enc o : takes (VOption enc o) enc
| tk_vec enc l : takes (VVec enc l) enc
| tk_optvec enc o : takes (VOptVec enc o) enc.
(** The errors a use of a flag leads to. *)
Inductive complains (v : value) : use -> list rerror -> Prop :=
| cp_set cur arg : switches v -> complains v (USet cur arg) []
| cp_toggle cur arg b : switches v -> complains v (UToggle cur arg b) []
| cp_value cur arg x : switches v -> complains v (UParse cur arg x) [Common (FlagUnexpectedValue arg x)]
| cp_taken enc cur arg x : takes v enc -> accepts enc x -> complains v (UParse cur arg x) []
| cp_not_text enc cur arg x : takes v enc -> ~ accepts enc x ->
    complains v (UParse cur arg x) [FlagValueNotUtf8 arg x]
| cp_no_value enc cur arg : takes v enc -> complains v (USet cur arg) [Common (FlagNoValue arg)]
| cp_on enc cur arg : takes v enc -> complains v (UToggle cur arg true) [Common (FlagNoValue arg)]
| cp_off enc cur arg : takes v enc -> complains v (UToggle cur arg false) [Common (FlagUnexpectedToggle arg)].

(** Parameters of a command. *)
Definition pbinding := path -> nat.
Definition parameters (cbind : pbinding) (k : nat) (e : sevent) : list str :=
  match e with SParameter q (Some x) => if cbind q =? k then [x] else [] | _ => [] end.
Inductive pends : params -> list str -> params -> Prop :=
| pe_none xs : pends PNone xs PNone
| pe_vec enc l0 xs l : accepted enc xs l -> pends (PVec enc l0) xs (PVec enc (l0 ++ l))
| pe_optvec_none enc o xs : accepted enc xs [] -> pends (POptVec enc o) xs (POptVec enc o)
| pe_optvec enc o xs l : accepted enc xs l -> l <> [] -> pends (POptVec enc o) xs (POptVec enc (Some (items o ++ l))).
Inductive pcomplains : params -> str -> list rerror -> Prop :=
| pc_none x : pcomplains PNone x [Common (ParameterUnexpected x)]
| pc_vec enc l x : accepts enc x -> pcomplains (PVec enc l) x []
| pc_vec_not enc l x : ~ accepts enc x -> pcomplains (PVec enc l) x [ParameterNotUtf8 x]
| pc_optvec enc o x : accepts enc x -> pcomplains (POptVec enc o) x []
| pc_optvec_not enc o x : ~ accepts enc x -> pcomplains (POptVec enc o) x [ParameterNotUtf8 x].

(** The errors that one report leads to, given the objects (only their types
    matter). *)
Inductive errors_of (bind : binding) (cbind : pbinding) (vals : nat -> value) (pars : nat -> params)
  : sevent -> list rerror -> Prop :=
| eo_error e : errors_of bind cbind vals pars (SError e) [Common e]
| eo_use e q n u es : In u (uses bind (bind q n) e) -> complains (vals (bind q n)) u es ->
    errors_of bind cbind vals pars e es
| eo_parameter q x es : pcomplains (pars (cbind q)) x es -> errors_of bind cbind vals pars (SParameter q (Some x)) es
| eo_end q : errors_of bind cbind vals pars (SParameter q None) [].

(** ** Help *)

(** The number of characters. *)
Definition chars (s : str) (n : nat) : Prop :=
  exists cs, Forall DvarDecSpec.scalar cs /\ s = flat_map DvarDecSpec.utf8 cs /\ List.length cs = n.
Definition widest (l : list str) (w : nat) : Prop :=
  (forall s n, In s l -> chars s n -> n <= w) /\ exists s, In s l /\ chars s w.
(** All names are text. *)
Definition text_layout (cmds : list command) : Prop :=
  forall c, In c cmds -> Forall text (c_path c) /\ Forall text (map f_name (c_flags c)).

(** A section is left out if it has no entries.  All entries are told the width
    of the widest name. *)
Inductive section (title : str) (names : list str) (entries : nat -> list wcall) : list wcall -> Prop :=
| se_none : names = [] -> section title names entries []
| se_some w : names <> [] -> widest names w -> section title names entries (WSection title :: entries w).

(** Help on the command with path [p]: its flags by name, and the commands one
    word below it by name.  [hc] and [hf] are the help texts of the layout. *)
Definition help_text (cmds : list command) (hc : path -> option str) (hf : path -> str -> option str)
  (info entry : str) (p : path) (calls : list wcall) : Prop :=
  exists c fl subs fsec csec,
    In c cmds /\ c_path c = p /\ sorted_by by_name (c_flags c) fl /\
    StronglySorted (fun a b => str_cmp a b = Lt) subs /\ (forall x, In x subs <-> is_command cmds (p ++ [x])) /\
    section (ascii "Flags") (map f_name fl)
      (fun w => map (fun f => WFlag (f_name f) (f_mode f) (hf p (f_name f)) w) fl) fsec /\
    section (ascii "Commands") subs (fun w => map (fun x => WCommand x (hc (p ++ [x])) w) subs) csec /\
    calls = [WInfo info; WSection (ascii "Usage"); WUsage entry p] ++ fsec ++ csec.
