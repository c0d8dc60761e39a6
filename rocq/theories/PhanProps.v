(** Values of variance markers and brands (C114). *)
From Coq Require Import String.
From Verif Require Import Base PhanModel.

(** ** Vocabulary *)

(** Two objects of one type: the same structures around data and markers. *)
Fixpoint same_type {X} (a b : obj X) {struct a} : Prop :=
  match a, b with
  | Data _, Data _ => True
  | Invariant, Invariant => True
  | Fields fs, Fields gs =>
    (fix go (fs gs : list (obj X)) {struct fs} : Prop :=
      match fs, gs with
      | [], [] => True
      | f :: fs, g :: gs => same_type f g /\ go fs gs
      | _, _ => False
      end) fs gs
  | _, _ => False
  end.
(** The data in an object, from the first to the last. *)
Fixpoint contents {X} (a : obj X) : list X :=
  match a with
  | Data x => [x]
  | Invariant => []
  | Fields fs => flat_map contents fs
  end.
(** Lists of equal length, compared element by element. *)
Fixpoint equal_lists {X} (xeq : X -> X -> bool) (a b : list X) : bool :=
  match a, b with
  | [], [] => true
  | x :: a, y :: b => xeq x y && equal_lists xeq a b
  | _, _ => false
  end.
Fixpoint first_difference {X R} (same : R) (decided : R -> bool) (cmp : X -> X -> R) (a b : list X) : R :=
  match a, b with
  | x :: a, y :: b => if decided (cmp x y) then cmp x y else first_difference same decided cmp a b
  | _, _ => same
  end.
Definition decides (c : comparison) : bool := match c with Eq => false | _ => true end.
Definition decides_partial (c : option comparison) : bool := match c with Some Eq => false | _ => true end.

(** ** Proofs *)
Section Ind.
Context {X : Type} (P : obj X -> Prop).
Hypothesis HD : forall x, P (Data x).
Hypothesis HI : P Invariant.
Hypothesis HF : forall fs, Forall P fs -> P (Fields fs).
Fixpoint obj_rect' (a : obj X) : P a :=
  match a with
  | Data x => HD x
  | Invariant => HI
  | Fields fs => HF fs ((fix go fs : Forall P fs :=
      match fs with [] => Forall_nil _ | f :: fs => Forall_cons f (obj_rect' f) (go fs) end) fs)
  end.
End Ind.

Lemma same_length {X} : forall a b : obj X, same_type a b -> List.length (contents a) = List.length (contents b).
Proof.
  induction a as [x| |fs F] using obj_rect'; intros [y| |gs]; cbn [same_type contents]; intros S; try easy.
  revert gs S. induction F as [|f fs Hf F IH]; intros [|g gs] S; try easy. destruct S as [S1 S2].
  cbn [flat_map]. rewrite !app_length, (Hf g S1), (IH gs S2). reflexivity.
Qed.
Lemma equal_app {X} (xeq : X -> X -> bool) a : forall b a' b', List.length a = List.length b ->
  equal_lists xeq (a ++ a') (b ++ b') = equal_lists xeq a b && equal_lists xeq a' b'.
Proof.
  induction a as [|x a IH]; intros [|y b] a' b' L; try discriminate; [reflexivity|]. cbn. injection L as L.
  rewrite IH by exact L. apply andb_assoc.
Qed.
Lemma first_app {X R} (same : R) decided (cmp : X -> X -> R) (D : forall r, decided r = false -> r = same) (D0 : decided same = false) a :
  forall b a' b', List.length a = List.length b ->
  first_difference same decided cmp (a ++ a') (b ++ b') =
  if decided (first_difference same decided cmp a b) then first_difference same decided cmp a b
  else first_difference same decided cmp a' b'.
Proof.
  induction a as [|x a IH]; intros [|y b] a' b' L; try discriminate; cbn.
  - rewrite D0. reflexivity.
  - injection L as L. destruct (decided (cmp x y)) eqn:E; [rewrite E; reflexivity|]. apply IH, L.
Qed.

(** ** C114 *)

(** Markers may be anywhere in a structure, in structures within it, and so on:
    for two objects of one type, equality, both orders and the hash are those of
    the data they contain. *)
Theorem phantom_no_trace {X H} (xeq : X -> X -> bool) xcmp xpartial (xhash : X -> H -> H) (a b : obj X) (s : H) :
  same_type a b ->
  obj_eq xeq a b = equal_lists xeq (contents a) (contents b) /\
  obj_cmp xcmp a b = first_difference Eq decides xcmp (contents a) (contents b) /\
  obj_partial_cmp xpartial a b = first_difference (Some Eq) decides_partial xpartial (contents a) (contents b) /\
  obj_hash xhash a s = fold_left (fun s x => xhash x s) (contents a) s.
Proof.
  assert (D1 : forall r, decides r = false -> r = Eq) by (intros []; easy).
  assert (D2 : forall r, decides_partial r = false -> r = Some Eq) by (intros [[]|]; easy).
  revert b s. induction a as [x| |fs F] using obj_rect'; intros [y| |gs] s; cbn [same_type contents]; intros S; try easy.
  - cbn. rewrite andb_true_r. repeat split.
    + destruct (xcmp x y); reflexivity.
    + destruct (xpartial x y) as [[]|]; reflexivity.
  - cbn [obj_eq obj_cmp obj_partial_cmp obj_hash].
    revert gs s S. induction F as [|f fs Hf F IH]; intros [|g gs] s S; try easy. destruct S as [S1 S2].
    destruct (Hf g s S1) as (E1 & E2 & E3 & E4). destruct (IH gs (obj_hash xhash f s) S2) as (F1 & F2 & F3 & F4).
    pose proof (same_length f g S1) as L. cbn [flat_map].
    rewrite equal_app, !first_app, fold_left_app by (auto || reflexivity).
    rewrite <- E1, <- E2, <- E3, <- E4, <- F1, <- F2, <- F3, <- F4. repeat split.
    + destruct (obj_cmp xcmp f g); reflexivity.
    + destruct (obj_partial_cmp xpartial f g) as [[]|]; reflexivity.
Qed.
Print Assumptions phantom_no_trace.

(** Any two objects of a type that contains nothing but markers, such as the
    marker for lifetimes, [Id] and [Unique], are equal in every comparison and add
    nothing to a hash, and there is only one such object. *)
Theorem phantom_single_value {X H} (xeq : X -> X -> bool) xcmp xpartial (xhash : X -> H -> H) (a b : obj X) (s : H) :
  same_type a b -> contents a = [] ->
  a = b /\ obj_eq xeq a b = true /\ obj_cmp xcmp a b = Eq /\ obj_partial_cmp xpartial a b = Some Eq /\ obj_hash xhash a s = s.
Proof.
  intros S C. destruct (phantom_no_trace xeq xcmp xpartial xhash a b s S) as (E1 & E2 & E3 & E4).
  pose proof (same_length a b S) as L. rewrite C in *. destruct (contents b); [|discriminate].
  split; [|repeat split; assumption]. clear - S C. revert b S C.
  induction a as [x| |fs F] using obj_rect'; intros [y| |gs]; cbn [same_type contents]; intros S C; try easy.
  f_equal. revert gs S C. induction F as [|f fs Hf F IH]; intros [|g gs] S C; try easy. destruct S as [S1 S2].
  cbn [flat_map] in C. apply app_eq_nil in C as [C1 C2]. f_equal; [apply Hf|apply IH]; assumption.
Qed.
Print Assumptions phantom_single_value.
Theorem phantom_values {X} :
  Forall (fun a : obj X => contents a = []) [invariant_new; invariant_default; lifetime_new; brand_id; brand_unique] /\
  (forall a : obj X, invariant_clone a = a).
Proof. split; [repeat constructor|reflexivity]. Qed.
Print Assumptions phantom_values.

(** The debug output of the marker tells the type; the outputs of marker, marker
    for lifetimes, [Id] and [Unique] are told apart, and the last one shows the
    field as a derived implementation would. *)
Theorem phantom_debug (t u : string) :
  (invariant_debug t = invariant_debug u -> t = u) /\
  NoDup [invariant_debug t; lifetime_debug; id_debug; unique_debug] /\
  invariant_debug "u8" = "PhantomInvariant<u8>"%string /\
  lifetime_debug = "PhantomInvariantLifetime"%string /\
  id_debug = "Id<#[unique] '_>"%string /\
  unique_debug = "Unique { id: Id<#[unique] '_> }"%string.
Proof.
  split; [|split; [|repeat split]].
  - unfold invariant_debug. cbn. intros E. injection E as E. revert u E.
    induction t as [|c t IH]; intros [|d u] E; cbn in E; try reflexivity.
    + injection E as E1 E2. destruct u; discriminate.
    + injection E as E1 E2. destruct t; discriminate.
    + injection E as -> E. f_equal. apply IH, E.
  - repeat constructor; cbn; intros I; repeat destruct I as [I|I]; try discriminate I; exact I.
Qed.
Print Assumptions phantom_debug.

(** A pair of numbers with a marker between them, nested with a brand. *)
Example phantom_case :
  let a := Fields [Data 3; Fields [Invariant; Data 5]; brand_unique] in
  let b := Fields [Data 3; Fields [Invariant; Data 7]; brand_unique] in
  same_type a b /\ contents a = [3; 5] /\
  obj_eq Nat.eqb a b = false /\ obj_cmp Nat.compare a b = Lt /\
  obj_partial_cmp (fun _ _ => None) a b = None /\ obj_hash cons a [] = [5; 3] /\
  obj_eq Nat.eqb a a = true.
Proof. cbn. repeat split. Qed.
