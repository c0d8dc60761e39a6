(** Specification of uncaught errors, of the bridge between the two [Write]
    traits, of OS strings and of alignment markers.  Written from the documentation of
    [osi::error], [osi::compat] and [osi::align], without reference to the model. *)
From Coq Require Import String.
From Coq Require Import List.
From Verif Require Import Base.
Local Open Scope string_scope.

(** ** Uncaught errors *)

(** How a value is turned into an uncaught error. *)
Inductive wrap := FoldAny | FoldStaticAny | BoxAny | FoldDebug | FoldStaticDebug | BoxDebug
  | FoldDisplay | FoldStaticDisplay | BoxDisplay | FoldError | FoldStaticError | BoxError.

(** What its documentation says is exposed. *)
Inductive exposure := Nothing | OnlyDebug | OnlyDisplay | Everything.
Definition promised (w : wrap) : exposure :=
  match w with
  | FoldAny | FoldStaticAny | BoxAny => Nothing
  | FoldDebug | FoldStaticDebug | BoxDebug => OnlyDebug
  | FoldDisplay | FoldStaticDisplay | BoxDisplay => OnlyDisplay
  | FoldError | FoldStaticError | BoxError => Everything
  end.

(** The name by which it is shown. *)
Definition name (w : wrap) : string :=
  match w with
  | FoldAny | BoxAny => "Any" | FoldStaticAny => "StaticAny"
  | FoldDebug | BoxDebug => "Debug" | FoldStaticDebug => "StaticDebug"
  | FoldDisplay | BoxDisplay => "Display" | FoldStaticDisplay => "StaticDisplay"
  | FoldError | BoxError => "Error" | FoldStaticError => "StaticError"
  end.

(** The texts of a value with debug text [d] and display text [s].  Without the
    standard library, errors have no debug text. *)
Definition debug_text (std : bool) (w : wrap) (d s : string) : string :=
  "Uncaught::" ++ name w ++ "(" ++
  match promised w with
  | Nothing => "" | OnlyDebug => d | OnlyDisplay => s | Everything => if std then d else s
  end ++ ")".
Definition display_text (w : wrap) (d s : string) : string :=
  "Uncaught(" ++ name w ++ ")" ++
  match promised w with
  | Nothing => "" | OnlyDebug => ": " ++ d | OnlyDisplay | Everything => ": " ++ s
  end.

(** ** Writing *)

(** What a device does with a buffer it is offered. *)
Inductive outcome := Wrote (n : nat) | Interrupted | Failed.

(** A device, seen from outside: what it received so far, and how often it will
    still interrupt. *)
Record behaves {D} (write : D -> list N -> D * outcome) (received : D -> list N) (patience : D -> nat) : Prop := {
  b_wrote : forall d buf d' n, write d buf = (d', Wrote n) ->
    n <= List.length buf /\ received d' = (received d ++ firstn n buf)%list /\ patience d' <= patience d;
  b_interrupted : forall d buf d', write d buf = (d', Interrupted) ->
    received d' = received d /\ patience d' < patience d;
  b_failed : forall d buf d', write d buf = (d', Failed) ->
    received d' = received d /\ patience d' <= patience d
}.

(** ** Alignment *)

(** Types that have an alignment marker.  [Number c n] is a number (or [char] or
    [bool]) of class [c] and size [n]. *)
Inductive class := Integer | Float.
Inductive aligned :=
| Number (c : class) (n : nat)
| Size                        (* usize, isize *)
| Unit
| Str
| ArrayOf (n : nat) (t : aligned)
| SliceOf (t : aligned)
| Reference | RawPointer
| As (n : nat).               (* AlignAs<n> *)

(** Alignments for which there are markers. *)
Definition supported (n : nat) : Prop := exists k, k <= 7 /\ n = 2 ^ k.
