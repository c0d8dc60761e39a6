(** Model of the format-generic D-Bus coders of [tmp::fmt::dbus::ende]. *)
From Verif Require Import Base DvarModel.
Local Open Scope res_scope.

Local Open Scope N_scope.

(** lib/tmp/src/fmt/dbus/ende.rs 8-15. *)
Inductive format := FDVarBe | FDVarLe | FJson.

(** lib/tmp/src/fmt/dbus/ende.rs 17-19: the only variant is [DVar]. *)
Definition genc (W : Type) := Enc W.
(** lib/tmp/src/fmt/dbus/ende.rs 21-23: the only variant is [DVar]. *)
Definition gdec (R : Type) := Dec R.

(** lib/tmp/src/fmt/dbus/ende.rs 26-40, [Enc::new]; [unreachable!] panics. *)
Definition genc_new {W} (s : Sig) (f : format) (o : out W) : res (genc W) :=
  match f with
  | FDVarBe => enc_new s DVarBe o
  | FDVarLe => enc_new s DVarLe o
  | _ => Panic
  end.

(** lib/tmp/src/fmt/dbus/ende.rs 68-82, [Dec::new]; [unreachable!] panics. *)
Definition gdec_new {R} (s : Sig) (f : format) (r : R) : res (gdec R) :=
  match f with
  | FDVarBe => dec_new s DVarBe r
  | FDVarLe => dec_new s DVarLe r
  | _ => Panic
  end.
(** lib/tmp/src/fmt/dbus/ende.rs 84-88, [more]. *)
Definition gmore {R} (d : gdec R) : bool := dec_more d.
(** lib/tmp/src/fmt/dbus/ende.rs 90-96, [close]. *)
Definition gclose {R} (d : gdec R) : res (dflow * gdec R) :=
  do '(f, _, d) <- dec_close d; Ok (f, d).

(** lib/tmp/src/fmt/dbus/ende.rs 49-61: the loop of [inline], with fuel; both
    the [unwrap] and the [unreachable!] at 52-53 panic. *)
Fixpoint inline_loop {R} (fuel : nat) (c : Cursor) (d : gdec R) : res (dflow * gdec R) :=
  match fuel with
  | O => NoFuel
  | S fuel =>
    if gmore d then Panic
    else
      do up <- idx_up c;
      match up with
      | Some idx =>
          do '(f, d) <- gclose d;
          match f with
          | Continue _ => inline_loop fuel (move_to c idx) d
          | Break _ => Ok (f, d)
          end
      | None => Ok (Continue tt, d)
      end
  end.
(** lib/tmp/src/fmt/dbus/ende.rs 42-64, [inline]; the encoder is not used. *)
Definition inline {W R} (fuel : nat) (e : genc W) (s : Sig) (d : gdec R) : res (dflow * genc W * gdec R) :=
  do c <- cursor s;
  do '(f, d) <- inline_loop fuel c d; Ok (f, e, d).
