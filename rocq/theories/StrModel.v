(** Model of lib/osi/src/str.rs: string utilities.
    A string is the list of its code points.  The standard library compares the
    UTF-8 bytes of strings; that is the order of their code points, which is
    used here (StrUtf8.v proves it).  The Unicode tables are parameters. *)
From Verif Require Import Base.
Local Open Scope res_scope.

(** str.rs:9-15 [some]. *)
Definition some (v : list N) : option (list N) := match v with [] => None | _ => Some v end.

(** Rust semantics: [str::cmp], called at str.rs:57 and 76. *)
Fixpoint str_cmp (a b : list N) : comparison :=
  match a, b with
  | [], [] => Eq
  | [], _ => Lt
  | _, [] => Gt
  | x :: a, y :: b => match N.compare x y with Eq => str_cmp a b | v => v end
  end.
(** Rust semantics: the digits of [str::parse::<u64>], called at str.rs:53-54;
    [None] for any other character or an overflow. *)
Fixpoint parse_digits (v : N) (s : list N) : option N :=
  match s with
  | [] => Some v
  | c :: s =>
      if ((0x30 <=? c) && (c <=? 0x39))%N then
        let v := (v * 10 + (c - 0x30))%N in
        if (v <? 2 ^ 64)%N then parse_digits v s else None
      else None
  end.
(** Rust semantics: [str::parse::<u64>], called at str.rs:53-54: an optional plus
    sign, then digits; [None] for an empty string. *)
Definition parse_u64 (s : list N) : option N :=
  match s with
  | [] => None
  | c :: s' =>
      if (c =? 0x2b)%N then match s' with [] => None | _ => parse_digits 0 s' end
      else parse_digits 0 s
  end.
(** Rust semantics: [str::find] of the first character that satisfies [p], or
    the length, and [str::split_at] there, as at str.rs:33-36 and 39-42. *)
Fixpoint split_find (p : N -> bool) (s : list N) : list N * list N :=
  match s with
  | [] => ([], [])
  | c :: s' => if p c then ([], s) else let '(a, b) := split_find p s' in (c :: a, b)
  end.

Section Chars.
Variable numeric : N -> bool.
Variable alphabetic : N -> bool.
(** Rust semantics: [char::is_alphanumeric], called at str.rs:109. *)
Definition alphanumeric (c : N) : bool := alphabetic c || numeric c.

(** str.rs:27-47 [advance]: the name, the number, and what remains. *)
Definition advance (stream : list N) : list N * list N * list N :=
  let '(name, rem) := split_find numeric stream in
  let '(number, rem) := split_find (fun c => negb (numeric c)) rem in
  (name, number, rem).
(** str.rs:50-81: the loop. *)
Fixpoint cmp_loop (fuel : nat) (lhs rhs : list N) : res comparison :=
  match fuel with
  | O => NoFuel
  | S fuel =>
      match lhs, rhs with
      | [], [] => Ok Eq
      | _, _ =>
          let '(l_name, l_num, lhs) := advance lhs in
          let '(r_name, r_num, rhs) := advance rhs in
          let l_u64 := parse_u64 l_num in
          let r_u64 := parse_u64 r_num in
          match str_cmp l_name r_name with
          | Lt => Ok Lt
          | Gt => Ok Gt
          | Eq =>
              match (match l_u64, r_u64 with Some l, Some r => N.compare l r | _, _ => Eq end) with
              | Lt => Ok Lt
              | Gt => Ok Gt
              | Eq =>
                  match str_cmp l_num r_num with
                  | Lt => Ok Lt
                  | Gt => Ok Gt
                  | Eq => cmp_loop fuel lhs rhs
                  end
              end
          end
      end
  end.
(** str.rs:21-84 [cmp_natural]. *)
Definition cmp_natural (lhs rhs : list N) : res comparison := cmp_loop (length lhs + length rhs + 1) lhs rhs.

(** str.rs:94-117 [symbolize]. *)
Definition symbolize (input : list N) : list N :=
  let needs_prefix := match input with [] => true | c :: _ => numeric c end in
  (if needs_prefix then [0x5f%N] else []) ++ map (fun c => if alphanumeric c then c else 0x5f%N) input.
End Chars.
