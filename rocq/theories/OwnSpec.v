(** Specification of ownership: what happens to objects when their owners are
    converted, copied and dropped.  Written from the documentation of
    [osi::convert] and [osi::ptr] and the rules of Rust, without reference to the model. *)
From Verif Require Import Base.

(** What kind of pointer a variable is. *)
Inductive kind := Ref | Mut | Box | Rc | Arc.

(** What a program can do with its variables.  [Into] converts a pointer into a
    wrapped pointer to its target, [From] restores it;
    [Unwrap] makes it a plain reference ([OnceRef::into_ref]).  [Same] asks whether
    two pointers, whatever their kind, are identical ([Identity]). *)
Inductive op :=
| New (k : kind) (v : Z)
| Clone (i : nat)
| Drop (i : nat)
| Into (i : nat)
| From (i : nat) (k : kind)
| Unwrap (i : nat)
| Read (i : nat)
| Where (i : nat)
| Same (i j : nat).

(** What can be observed: the value of an object, which object a pointer leads
    to, whether two pointers are identical, and that the destructor of an object is run. *)
Inductive event (L : Type) := Silent | Value (v : Z) | At (where_ : L) | Destroyed (v : Z) | Answer (b : bool).
Arguments Silent {L}. Arguments Value {L} v. Arguments At {L} where_. Arguments Destroyed {L} v. Arguments Answer {L} b.

(** A variable owns an object or borrows it, and is possibly wrapped. *)
Record owner := { object : nat; via : kind; wrapped : bool }.
(** [forgotten] counts the wrapped owners that were dropped without being
    restored: they own their object for ever. *)
Record thing := { content : Z; forgotten : nat }.
Record world := { vars : list (option owner); things : list thing }.
Definition start : world := {| vars := []; things := [] |}.

Definition owning (k : kind) : bool := match k with Ref | Mut => false | _ => true end.
Definition copyable (k : kind) : bool := match k with Ref | Rc | Arc => true | _ => false end.

Definition same_kind (a b : kind) : bool :=
  match a, b with
  | Ref, Ref | Mut, Mut | Box, Box | Rc, Rc | Arc, Arc => true
  | _, _ => false
  end.

Definition owns (o : nat) (v : option owner) : bool :=
  match v with Some w => owning (via w) && (object w =? o) | None => false end.
Definition owners (w : world) (o : nat) : nat := length (filter (owns o) (vars w)).

Definition var (w : world) (i : nat) : option owner :=
  match nth_error (vars w) i with Some (Some v) => Some v | _ => None end.
Definition set (w : world) (i : nat) (v : option owner) : world :=
  {| vars := upd (vars w) i v; things := things w |}.
Definition add (w : world) (v : owner) : world :=
  {| vars := vars w ++ [Some v]; things := things w |}.
(** An owner is given up without its object. *)
Definition forget (w : world) (x : owner) : world :=
  {| vars := vars w;
     things := match nth_error (things w) (object x) with
               | Some t => if owning (via x)
                           then upd (things w) (object x) {| content := content t; forgotten := S (forgotten t) |}
                           else things w
               | None => things w
               end |}.
Definition last_owner (w : world) (o : nat) : bool :=
  match nth_error (things w) o with
  | Some t => (owners w o =? 1) && (forgotten t =? 0)
  | None => false
  end.
Definition value_of (w : world) (o : nat) : Z :=
  match nth_error (things w) o with Some t => content t | None => 0%Z end.

(** One step; [None] if the program may not do that: use a variable that is not
    there, copy what cannot be copied, wrap a wrapped pointer, or restore a
    pointer as something else than it was. *)
Definition step (w : world) (p : op) : option (world * event nat) :=
  match p with
  | New k v =>
      Some ({| vars := vars w ++ [Some {| object := length (things w); via := k; wrapped := false |}];
               things := things w ++ [{| content := v; forgotten := 0 |}] |}, Silent)
  | Clone i =>
      match var w i with
      | Some x => if copyable (via x) && negb (wrapped x) then Some (add w x, Silent) else None
      | None => None
      end
  | Drop i =>
      match var w i with
      | Some x =>
          if wrapped x then Some (forget (set w i None) x, Silent)
          else if owning (via x) && last_owner w (object x)
          then Some (set w i None, Destroyed (value_of w (object x)))
          else Some (set w i None, Silent)
      | None => None
      end
  | Into i =>
      match var w i with
      | Some x => if wrapped x then None
                  else Some (set w i (Some {| object := object x; via := via x; wrapped := true |}), Silent)
      | None => None
      end
  | From i k =>
      match var w i with
      | Some x => if wrapped x && same_kind (via x) k
                  then Some (set w i (Some {| object := object x; via := via x; wrapped := false |}), Silent)
                  else None
      | None => None
      end
  | Unwrap i =>
      match var w i with
      | Some x => if wrapped x
                  then Some (forget (set w i (Some {| object := object x; via := Ref; wrapped := false |})) x, Silent)
                  else None
      | None => None
      end
  | Read i => match var w i with Some x => Some (w, Value (value_of w (object x))) | None => None end
  | Where i => match var w i with Some x => Some (w, At (object x)) | None => None end
  | Same i j =>
      match var w i, var w j with
      | Some x, Some y => Some (w, Answer (object x =? object y))
      | _, _ => None
      end
  end.

(** A whole program, with everything observed. *)
Fixpoint run (w : world) (ps : list op) : option (world * list (event nat)) :=
  match ps with
  | [] => Some (w, [])
  | p :: ps =>
      match step w p with
      | Some (w, e) => match run w ps with Some (w, es) => Some (w, e :: es) | None => None end
      | None => None
      end
  end.

(** What was created and is owned by somebody, and what was destroyed. *)
Definition created (ps : list op) : list Z :=
  flat_map (fun p => match p with New k v => if owning k then [v] else [] | _ => [] end) ps.
Definition destroyed {L} (es : list (event L)) : list Z :=
  flat_map (fun e => match e with Destroyed v => [v] | _ => [] end) es.
(** An object is owned if a variable owns it or an owner of it was forgotten. *)
Definition owned (w : world) : list Z :=
  flat_map (fun o => match nth_error (things w) o with
                     | Some t => if owners w o + forgotten t =? 0 then [] else [content t]
                     | None => []
                     end) (seq 0 (length (things w))).

(** The same event, with objects named by where they are. *)
Definition render {L} (place : nat -> L) (e : event nat) : event L :=
  match e with
  | Silent => Silent | Value v => Value v | At o => At (place o) | Destroyed v => Destroyed v | Answer b => Answer b
  end.

(** ** Maybe-owned values *)

(** Either something borrowed or something owned that can be borrowed. *)
Definition seen {B O : Type} (borrow : O -> B) (m : B + O) : B := match m with inl v => v | inr v => borrow v end.
