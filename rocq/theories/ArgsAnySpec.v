(** What the reports are told, whether or not commands or flags are given twice
    in the layout.  Does not use the model. *)
From Verif Require Import Base ArgsSpec.

(** A command with path [q] has a flag [name] of mode [m]. *)
Definition has_flag (cmds : list command) (q : path) (name : str) (m : mode) : Prop :=
  exists c f, In c cmds /\ c_path c = q /\ In f (c_flags c) /\ f_name f = name /\ f_mode f = m.
(** A call fits the layout: the commands and the flag are in it, the flag is
    of the mode of the call, and it is written the way it was found. *)
Definition fits (cmds : list command) (e : sevent) : Prop :=
  match e with
  | SError _ => True
  | SParameter q _ => is_command cmds q
  | SSet q name cur arg => has_flag cmds q name MSet /\ is_command cmds cur /\ arg = name
  | SToggle q name cur arg b =>
      has_flag cmds q name MToggle /\ is_command cmds cur /\ arg = (if b then name else no_prefix ++ name)
  | SParse q name cur arg _ => has_flag cmds q name MParse /\ is_command cmds cur /\ arg = name
  end.
