(** Model of the derived implementations of [OsStr] in lib/osi/src/compat.rs. *)
From Verif Require Import Base EtcModel.
Local Open Scope N_scope.

(** Rust semantics: equality of slices, which [derive(PartialEq)] at
    lib/osi/src/compat.rs:33 calls for the only field: the lengths, then
    element by element. *)
Fixpoint all_equal (a b : list N) : bool :=
  match a, b with
  | x :: a, y :: b => (x =? y) && all_equal a b
  | _, _ => true
  end.
(** lib/osi/src/compat.rs:33-37, [PartialEq]. *)
Definition osstr_eq (a b : osstr) : bool := Nat.eqb (length a) (length b) && all_equal a b.

(** Rust semantics: [memcmp] of two byte ranges of one length, as used to
    compare slices of bytes by [derive(Ord)] at lib/osi/src/compat.rs:33. *)
Fixpoint memcmp (a b : list N) : comparison :=
  match a, b with
  | x :: a, y :: b => match x ?= y with Eq => memcmp a b | c => c end
  | _, _ => Eq
  end.
(** lib/osi/src/compat.rs:33-37, [Ord]: what both have is compared first, then
    the lengths are. *)
Definition osstr_cmp (a b : osstr) : comparison :=
  let n := Nat.min (length a) (length b) in
  match memcmp (firstn n a) (firstn n b) with
  | Eq => Nat.compare (length a) (length b)
  | c => c
  end.
(** lib/osi/src/compat.rs:33-37, [PartialOrd]: of slices of bytes it is their
    order. *)
Definition osstr_partial_cmp (a b : osstr) : option comparison := Some (osstr_cmp a b).

(** Rust semantics: [Debug] of [u8], which is decimal. Used by [derive(Debug)]
    at lib/osi/src/compat.rs:33. *)
Definition byte_debug (b : N) : list N :=
  if b <? 10 then [48 + b]
  else if b <? 100 then [48 + b / 10; 48 + b mod 10]
  else [48 + b / 100; 48 + b / 10 mod 10; 48 + b mod 10].

(** Rust semantics: entries of [debug_list], the elements with a separator
    before all but the first; for lib/osi/src/compat.rs:33. *)
Fixpoint entries (first : bool) (l : list N) : list N :=
  match l with
  | [] => []
  | b :: l => (if first then [] else [44; 32]) ++ byte_debug b ++ entries false l
  end.
(** Rust semantics: entries of [debug_list] in the alternate form, each on a
    line of its own and indented twice; for lib/osi/src/compat.rs:33. *)
Fixpoint entry_lines (l : list N) : list N :=
  match l with
  | [] => []
  | b :: l => repeat 32 8 ++ byte_debug b ++ [44; 10] ++ entry_lines l
  end.
(** lib/osi/src/compat.rs:33-37, [Debug], which derived code does with
    [debug_struct]: the text [OsStr { inner: [...] }], or in the alternate form
    the same with line breaks. *)
Definition osstr_debug (alternate : bool) (o : osstr) : list N :=
  let name := [79; 115; 83; 116; 114; 32; 123] in
  let inner := [105; 110; 110; 101; 114; 58; 32] in
  if alternate then
    name ++ [10] ++ repeat 32 4 ++ inner ++
    match o with
    | [] => [91; 93]
    | _ => [91; 10] ++ entry_lines o ++ repeat 32 4 ++ [93]
    end ++ [44; 10; 125]
  else name ++ [32] ++ inner ++ [91] ++ entries true o ++ [93] ++ [32; 125].
