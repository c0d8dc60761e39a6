(** Model of [OsStr::to_string_lossy] of lib/osi/src/compat.rs, with the
    function of the standard library it is. *)
From Verif Require Import Base DvarModel EtcModel.
Local Open Scope N_scope.
Local Open Scope res_scope.

(** Rust semantics: [safe_get] of [core::str::lossy], the byte at an index and
    0 past the end. Used by the call at lib/osi/src/compat.rs:113. *)
Definition safe_get (l : list N) (i : nat) : N := nth i l 0.

(** Rust semantics: the second bytes of a character of three bytes that start
    with [a], in [Utf8Chunks::next]. Used by the call at
    lib/osi/src/compat.rs:113. *)
Definition second3 (a b : N) : bool :=
  if a =? 224 then in_range 160 191 b else if a =? 237 then in_range 128 159 b else cont b.
(** Rust semantics: the second bytes of a character of four bytes that start
    with [a], in [Utf8Chunks::next]. Used by the call at
    lib/osi/src/compat.rs:113. *)
Definition second4 (a b : N) : bool :=
  if a =? 240 then in_range 144 191 b else if a =? 244 then in_range 128 143 b else cont b.

(** Rust semantics: one pass through the loop of [Utf8Chunks::next]: whether a
    character starts here, and how many bytes were taken. Used by the call at
    lib/osi/src/compat.rs:113. *)
Definition pass (l : list N) : bool * nat :=
  let a := safe_get l 0 in
  if a <? 128 then (true, 1%nat)
  else if in_range 194 223 a then
    if cont (safe_get l 1) then (true, 2%nat) else (false, 1%nat)
  else if in_range 224 239 a then
    if second3 a (safe_get l 1) then
      if cont (safe_get l 2) then (true, 3%nat) else (false, 2%nat)
    else (false, 1%nat)
  else if in_range 240 244 a then
    if second4 a (safe_get l 1) then
      if cont (safe_get l 2) then
        if cont (safe_get l 3) then (true, 4%nat) else (false, 3%nat)
      else (false, 2%nat)
    else (false, 1%nat)
  else (false, 1%nat).

(** Rust semantics: [Utf8Chunks::next] on a non-empty source: the valid bytes,
    the invalid ones after them, and what is left. Used by the call at
    lib/osi/src/compat.rs:113. *)
Fixpoint next_chunk (fuel : nat) (l : list N) : res (list N * list N * list N) :=
  match fuel with
  | O => NoFuel
  | S fuel =>
    match l with
    | [] => Ok ([], [], [])
    | _ =>
      let '(ok, n) := pass l in
      if ok then
        do '(valid, invalid, rest) <- next_chunk fuel (skipn n l);
        Ok (firstn n l ++ valid, invalid, rest)
      else Ok ([], firstn n l, skipn n l)
    end
  end.

(** Rust semantics: the replacement character, U+FFFD, in
    [String::from_utf8_lossy]. Used by the call at
    lib/osi/src/compat.rs:113. *)
Definition replacement : list N := [0xef; 0xbf; 0xbd].

(** Rust semantics: the loop over the chunks in [String::from_utf8_lossy]. Used
    by the call at lib/osi/src/compat.rs:113. *)
Fixpoint push_chunks (fuel : nat) (l : list N) : res (list N) :=
  match fuel with
  | O => NoFuel
  | S fuel =>
    match l with
    | [] => Ok []
    | _ =>
      do '(valid, invalid, rest) <- next_chunk (S (length l)) l;
      do s <- push_chunks fuel rest;
      Ok (valid ++ match invalid with [] => [] | _ => replacement end ++ s)
    end
  end.

(** What [alloc::borrow::Cow<str>] of lib/osi/src/compat.rs:112 is: the bytes
    that were given, or new ones. *)
Inductive cow := Borrowed (s : list N) | Owned (s : list N).

(** Rust semantics: [String::from_utf8_lossy], called at
    lib/osi/src/compat.rs:113. *)
Definition from_utf8_lossy (l : list N) : res cow :=
  match l with
  | [] => Ok (Borrowed [])
  | _ =>
    do '(valid, invalid, rest) <- next_chunk (S (length l)) l;
    match invalid with
    | [] => Ok (Borrowed valid)
    | _ =>
      do s <- push_chunks (S (length rest)) rest;
      Ok (Owned (valid ++ replacement ++ s))
    end
  end.

(** lib/osi/src/compat.rs:112-114 [OsStr::to_string_lossy]. *)
Definition to_string_lossy (o : osstr) : res cow := from_utf8_lossy (as_encoded_bytes o).
