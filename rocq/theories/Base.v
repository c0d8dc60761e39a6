(** Shared vocabulary of all models: results with an explicit panic, and
    list helpers that mirror slice operations. *)
From Coq Require Export List NArith ZArith Arith Bool Lia.
From Coq Require Export ZifyBool ZifyNat ZifyN.
Export ListNotations.

(** Outcome of running a piece of Rust code. [Panic] stands for any panic
    (failed assertion, checked arithmetic, out-of-bounds index, [unwrap] on
    [None], [unreachable!]). [NoFuel] stands for a loop that did not finish
    within the fuel the model gives it; theorems exclude it or exhibit it. Not
    a definition of the code: the shape of the result of every modelled
    function, e.g. lib/osi/src/hash/sha256.rs:177 (push) or
    lib/tmp/src/fmt/dbus/signature.rs:447 (parse). *)
Inductive res (A : Type) : Type :=
| Ok (a : A)
| Panic
| NoFuel.
Arguments Ok {A} a.
Arguments Panic {A}.
Arguments NoFuel {A}.

(** Sequencing of statements, and the propagation of a panic; no counterpart
    of its own in the code. *)
Definition bind {A B : Type} (x : res A) (f : A -> res B) : res B :=
  match x with
  | Ok a => f a
  | Panic => Panic
  | NoFuel => NoFuel
  end.

Declare Scope res_scope.
Notation "'do' x <- e ; f" := (bind e (fun x => f))
  (at level 200, x name, e at level 100, f at level 200) : res_scope.
Notation "'do' ' x <- e ; f" := (bind e (fun x => f))
  (at level 200, x strict pattern, e at level 100, f at level 200) : res_scope.
Notation "'assert!' b ; f" := (if b then f else Panic)
  (at level 200, b at level 100, f at level 200) : res_scope.

(** Rust [&l[i..j]] on an in-range slice. As used at
    lib/osi/src/hash/sha256.rs:184 and elsewhere. *)
Definition slice {A} (l : list A) (i j : nat) : list A := firstn (j - i) (skipn i l).

(** Rust [l[i] = v]; out of range is a panic at the call sites. As used at
    lib/osi/src/hash/sha256.rs:148 and elsewhere. *)
Definition upd {A} (l : list A) (i : nat) (v : A) : list A :=
  firstn i l ++ v :: skipn (S i) l.

(** Rust [l[i..i+d.len()].copy_from_slice(d)]. As used at
    lib/osi/src/hash/sha256.rs:184. *)
Definition splice {A} (l : list A) (i : nat) (d : list A) : list A :=
  firstn i l ++ d ++ skipn (i + length d) l.

(** The range of Rust's u8, e.g. of the elements at
    lib/osi/src/hash/sha256.rs:177. *)
Definition is_byte (b : N) : Prop := (b < 256)%N.
(** A Rust [u8] slice, e.g. the argument of lib/osi/src/hash/sha256.rs:177. *)
Definition bytes (l : list N) : Prop := Forall is_byte l.

Lemma upd_length {A} (l : list A) i v : i < length l -> length (upd l i v) = length l.
Proof. unfold upd; intros H; rewrite app_length, firstn_length; cbn [length]; rewrite skipn_length; lia. Qed.

Lemma splice_length {A} (l d : list A) i :
  i + length d <= length l -> length (splice l i d) = length l.
Proof. unfold splice; intros H; rewrite !app_length, firstn_length, skipn_length; lia. Qed.

Lemma firstn_splice {A} (l d : list A) i :
  i <= length l -> firstn (i + length d) (splice l i d) = firstn i l ++ d.
Proof.
  intros H; unfold splice.
  rewrite app_assoc.
  rewrite firstn_app.
  replace (i + length d - length (firstn i l ++ d)) with 0
    by (rewrite app_length, firstn_length; lia).
  rewrite firstn_O, app_nil_r.
  apply firstn_all2; rewrite app_length, firstn_length; lia.
Qed.
