(** Specification of what the D-Bus wire format leaves out of a value: how many
    elements an array has if they take no bytes. *)
From Verif Require Import Base DbusSpec DvarSpec.
Local Open Scope N_scope.

(** Types of values without any bytes: structures of nothing else. *)
Fixpoint blank (t : ty) : bool :=
  match t with TStruct ts => forallb blank ts | _ => false end.

(** A value of a type, with the arrays of such elements emptied. *)
Fixpoint kept (t : ty) (v : value) {struct v} : value :=
  match t, v with
  | TVariant, VVariant u v => VVariant u (kept u v)
  | TArray u, VArray vs => VArray (if blank u then [] else map (kept u) vs)
  | TStruct ts, VStruct vs =>
    VStruct ((fix members (ts : list ty) (vs : list value) {struct vs} :=
      match ts, vs with t :: ts, v :: vs => kept t v :: members ts vs | _, _ => [] end) ts vs)
  | TDict _ u, VDict k v => VDict k (kept u v)
  | _, v => v
  end.

(** Types without structures of nothing, nor in a contained variant. *)
Fixpoint solid (t : ty) : bool :=
  match t with
  | TBasic _ | TVariant => true
  | TArray t | TMaybe t | TDict _ t => solid t
  | TStruct ts => negb (forallb blank ts) && forallb solid ts
  end.
Fixpoint solid_variants (v : value) : Prop :=
  match v with
  | VVariant t v => solid t = true /\ solid_variants v
  | VArray vs | VStruct vs => (fix all vs := match vs with [] => True | v :: vs => solid_variants v /\ all vs end) vs
  | VDict k v => solid_variants k /\ solid_variants v
  | _ => True
  end.
