(** Model of the accessors of lib/osi/src/args/layout.rs: iterators, indices,
    searching, and mutable access to the parts of a layout. *)
From Verif Require Import Base.
From Verif Require Import ArgsModel.
Local Open Scope res_scope.

(** ** Iterators *)

(** layout.rs:153 [FlagSetIter]: what is left to yield. [clone] (595-603) is a copy. *)
Definition flag_iter := list flag.
(** layout.rs:180 [CommandSetIter]: what is left to yield. [clone] (605-613) is a copy. *)
Definition command_iter := list def.
(** layout.rs:659-669, [next]. *)
Definition flag_next (it : flag_iter) : option (flag * flag_iter) :=
  match it with [] => None | f :: it => Some (f, it) end.
(** layout.rs:671-681, [next]. *)
Definition command_next (it : command_iter) : option (command * command_iter) :=
  match it with [] => None | d :: it => Some (d_info d, it) end.

(** layout.rs:314-316, [FlagSetRef::iter]; [Command::flags_iter] (380-382) is this. *)
Definition flags_iter (c : command) : flag_iter := c_flags c.
(** layout.rs:497-499, [CommandSetRef::iter]; [Schema::commands_iter] (558-560) is this. *)
Definition commands_iter (s : schema) : command_iter := s.
(** layout.rs:502-507, [CommandSetRef::iter_from]: slicing panics beyond the end. *)
Definition iter_from (s : schema) (from : nat) : res command_iter :=
  if from <=? length s then Ok (skipn from s) else Panic.

(** ** Indices *)

(** layout.rs:510-512, [len]; 515-517, [is_empty]. *)
Definition commands_len (s : schema) : nat := length s.
(** layout.rs:298-303, [flag_at] of a set of flags; 385-390 likewise. *)
Definition flag_of (c : command) (j : nat) : res flag :=
  match nth_error (c_flags c) j with Some f => Ok f | None => Panic end.
(** layout.rs:579-584, [Schema::flag_at]. *)
Definition schema_flag_at (s : schema) (at_ : nat * nat) : res flag :=
  do c <- info_at s (fst at_);
  flag_of c (snd at_).

(** ** Searching *)

(** [binary_search_by] of the standard library given the results of all comparisons: the index of a
    match, or where one could be inserted. Called at layout.rs:334 and 525. *)
Definition locate := list comparison -> nat + nat.
(** layout.rs:521-526, [CommandSetRef::search_by]. *)
Definition commands_search (bs : locate) (s : schema) (f : command -> comparison) : nat + nat :=
  bs (map (fun d => f (d_info d)) s).
(** layout.rs:330-335, [FlagSetRef::search_by]. *)
Definition flags_search (bs : locate) (c : command) (f : flag -> comparison) : nat + nat := bs (map f (c_flags c)).

(** The implementation of the standard library (core::slice, not in /repo; called at
    layout.rs:334 and 525): [size] candidates are left, from [base] on. *)
Fixpoint std_loop (fuel : nat) (l : list comparison) (base size : nat) : nat :=
  match fuel with
  | 0 => base
  | S fuel =>
      if size <=? 1 then base
      else
        let half := size / 2 in
        let mid := base + half in
        std_loop fuel l (match nth_error l mid with Some Gt => base | _ => mid end) (size - half)
  end.
(** Likewise: the last comparison (core::slice, called at layout.rs:334 and 525). *)
Definition std_search (l : list comparison) : nat + nat :=
  match l with
  | [] => inr 0
  | _ :: _ =>
      let base := std_loop (length l) l 0 (length l) in
      match nth_error l base with
      | Some Eq => inl base
      | Some Lt => inr (base + 1)
      | _ => inr base
      end
  end.

(** ** Mutable access

    layout.rs:306-311, 393-398, 489-494, 571-576 and 587-592 give out mutable references to a whole
    [Flag] or [Command].  Their fields are hidden, but anything of this type can
    be assigned. *)

(** What safe code can assign through these references. layout.rs:489-494 and 587-592. *)
Inductive edit :=
| PutCommand (i : nat) (c : command)
| PutFlag (at_ : nat * nat) (f : flag).

(** layout.rs:489-494 [command_mut_at] and 587-592 [flag_mut_at], followed by an
    assignment. *)
Definition apply_edit (s : schema) (e : edit) : res schema :=
  match e with
  | PutCommand i c =>
      match nth_error s i with
      | Some d => Ok (upd s i (mkDef c (d_up d)))
      | None => Panic
      end
  | PutFlag (i, j) f =>
      match nth_error s i with
      | Some d =>
          if j <? length (c_flags (d_info d))
          then Ok (upd s i (mkDef (mkCommand (c_path (d_info d)) (upd (c_flags (d_info d)) j f)) (d_up d)))
          else Panic
      | None => Panic
      end
  end.
(** A sequence of such assignments. layout.rs:489-494 and 587-592. *)
Fixpoint apply_edits (s : schema) (es : list edit) : res schema :=
  match es with
  | [] => Ok s
  | e :: es => do s <- apply_edit s e; apply_edits s es
  end.
