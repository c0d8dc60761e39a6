(** Model of the other ways to create a signature
    (lib/tmp/src/fmt/dbus/signature.rs): in static memory, as a literal, as a
    shared object, and as a copy. *)
From Verif Require Import Base DbusSigModel.
Local Open Scope N_scope.
Local Open Scope res_scope.

(** `MaybeUninit::assume_init` at signature.rs:773, 798 and 925: undefined
    behaviour, [None], unless all of the memory was written. *)
Definition assume_init (s : Sig) : option Sig :=
  if forallb is_some (s_nodes s) then Some s else None.

(** signature.rs:906-928 try_make, with [words] the parameter [SIZE]. *)
Definition sig_try_make (fuel : nat) (words : N) (signature : list N) : res (Error + option Sig) :=
  do r <- sig_parse fuel words signature;
  match r with
  | inl e => Ok (inl e)
  | inr s => Ok (inr (assume_init s))
  end.

(** signature.rs:936-953 make: every error is a panic. *)
Definition sig_make (fuel : nat) (words : N) (signature : list N) : res (option Sig) :=
  do r <- sig_try_make fuel words signature;
  match r with
  | inl _ => Panic
  | inr s => Ok s
  end.

(** signature.rs:1222-1251, the macros `make!` and `sig!`. *)
Definition sig_literal (fuel : nat) (signature : list N) : res (option Sig) :=
  do words <- size_for_length (N.of_nat (length signature));
  sig_make fuel words signature.

(** signature.rs:762-778 new and 787-803 arc, with `assume_init`; they differ
    only in the allocation. *)
Definition sig_alloc (fuel : nat) (signature : list N) : res (Error + option Sig) :=
  do words <- size_for_length (N.of_nat (length signature));
  do r <- sig_parse fuel words signature;
  match r with
  | inl e => Ok (inl e)
  | inr s => Ok (inr (assume_init s))
  end.

(** signature.rs:878-886 clone, 1259-1263 Clone and 1328-1334 to_owned: a copy
    of the memory. *)
Definition sig_clone (s : Sig) : Sig := {| s_kind := s_kind s; s_nodes := s_nodes s |}.
