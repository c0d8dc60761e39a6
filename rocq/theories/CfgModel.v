(** Model of lib/osi/src/cfg.rs: the macro [cond!].

    Only what the macro expands to is modelled, and which of it the compiler
    keeps.  Blocks are opaque lists of tokens.  Not modelled: parsing of the
    arguments into conditions and blocks. *)
From Verif Require Import Base CfgSpec.

Section Tokens.
Context {T : Type}.

(** An item of the expansion: tokens, with a [#[cfg(..)]] in front.
    lib/osi/src/cfg.rs:27-31. *)
Definition item := (meta * list T)%type.

(** lib/osi/src/cfg.rs 14-16 (termination) and 21-39 (recursion),
    [@internal((acc), ((cond), (block)), ..)]; the condition is optional. *)
Fixpoint internal (acc : list meta) (l : list (option meta * list T)) : list item :=
  match l with
  | [] => []
  | (cond, v) :: rem =>
      (All ((match cond with Some c => [c] | None => [] end) ++ [Not (Any acc)]), v)
      :: internal (acc ++ match cond with Some c => [c] | None => [] end) rem
  end.

(** lib/osi/src/cfg.rs 43-62: one condition with a block at least; the last
    block may come without. *)
Definition cond (l : list (meta * list T)) (otherwise : option (list T)) : option (list item) :=
  match l with
  | [] => None
  | _ => Some (internal []
           (map (fun cv => (Some (fst cv), snd cv)) l
            ++ match otherwise with Some v => [(None, v)] | None => [] end))
  end.

(** The compiler keeps the items whose condition holds, in order; [@expand]
    (lib/osi/src/cfg.rs 9-12) yields the tokens. *)
Definition compiled (on : nat -> bool) (l : list item) : list T :=
  concat (map snd (filter (fun i => true_in on (fst i)) l)).
End Tokens.
