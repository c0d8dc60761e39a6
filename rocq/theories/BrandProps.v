(** C88-C90: variance markers and brands. *)
From Coq Require Import String Lia.
From Verif Require Import Base BrandSpec BrandModel BrandProofs.
From Verif Require LayModel.

(** The subtype relation is a preorder. *)
Theorem subtypes_preorder : (forall t, sub t t) /\ forall a b c, sub a b -> sub b c -> sub a c.
Proof. split; [exact sub_refl|]. intros a b c. apply sub_trans. Qed.
Print Assumptions subtypes_preorder.

(** C88: the markers have the variance they are named after, for all types. *)
Theorem marker_variance :
  invariant PhantomInvariant
  /\ covariant CovariantType /\ contravariant ContravariantType /\ invariant InvariantType.
Proof.
  split; [exact phantom_invariant_iff|]. split; [exact covariant_type_iff|].
  split; [exact contravariant_type_iff|exact invariant_type_iff].
Qed.
Print Assumptions marker_variance.

(** C88: one of the two function types is a proper subtype of the other. *)
Theorem marker_proper_subtype : sub SubType SuperType /\ ~ sub SuperType SubType.
Proof.
  split.
  - apply sub_instance with Static. apply sub_refl.
  - intros H. pose proof (general_inv _ _ H (Bound 0)) as G. apply fn_inv in G as [G _].
    apply ref_inv in G as [G _]. inversion G.
Qed.
Print Assumptions marker_proper_subtype.

(** So each marker can be told from the other two. *)
Example marker_variance_case :
  sub (CovariantType SubType) (CovariantType SuperType)
  /\ ~ sub (CovariantType SuperType) (CovariantType SubType)
  /\ sub (ContravariantType SuperType) (ContravariantType SubType)
  /\ ~ sub (ContravariantType SubType) (ContravariantType SuperType)
  /\ ~ sub (InvariantType SubType) (InvariantType SuperType)
  /\ ~ sub (InvariantType SuperType) (InvariantType SubType)
  /\ ~ sub (PhantomInvariant SubType) (PhantomInvariant SuperType).
Proof.
  destruct marker_proper_subtype as [A B], marker_variance as (P & C & K & I).
  unfold covariant, contravariant, invariant in *. rewrite !C, !K, !I, !P. tauto.
Qed.

(** C88: none of them takes space or raises an alignment, whatever pointers
    look like on the host. *)
Theorem marker_layout : forall data code int t a m,
  In m [PhantomInvariant t; PhantomInvariantLifetime a; Id a; Unique a;
        CovariantType t; ContravariantType t; InvariantType t] ->
  LayModel.size_of (lay data code int m) = 0 /\ LayModel.align_of (lay data code int m) = 1.
Proof.
  intros data code int t a m H. cbn [In] in H.
  repeat (destruct H as [<-|H]; [now split|]). easy.
Qed.
Print Assumptions marker_layout.
(** A marker beside an integer, on a machine with pointers of 8 bytes; without
    the length zero its pointer would take space. *)
Example marker_layout_case :
  let l t := lay (fun _ => (8, 8)) (8, 8) (4, 4) t in
  (LayModel.size_of (l (Pair Int (InvariantType SubType))), LayModel.align_of (l (Pair Int (InvariantType SubType)))) = (4, 4)
  /\ LayModel.size_of (l (Pair Int (Array 1 (MutPtr SubType)))) = 16.
Proof. split; reflexivity. Qed.

(** C89: an identifier, or a unique brand, is of the type for another lifetime
    only if both lifetimes are the same. *)
Theorem brand_invariant : forall a b,
  (sub (Id a) (Id b) <-> a = b) /\ (sub (Unique a) (Unique b) <-> a = b).
Proof. intros a b. rewrite id_iff, unique_iff, outlives_antisym. easy. Qed.
Print Assumptions brand_invariant.

(** C89: a conversion to another type never loses a brand: whoever takes
    a value that gives out the identifier of a brand has a type that says so.
    So the result of a closure, whose type cannot name the brand that the
    closure is called with, does not give it out. *)
Theorem brand_stays : forall n t r, well_formed r -> sub t r -> gives n t -> gives n r.
Proof. intros n t r W S. now apply gives_sub. Qed.
Print Assumptions brand_stays.

(** A function that returns a reference to the unique brand. *)
Example brand_stays_case :
  let t := Fn Int (Ref (Bound 1) (Unique (Bound 1))) in
  let r := Fn Int (Ref (Scope 2) (Unique (Bound 1))) in
  well_formed r /\ sub t r /\ gives 1 t /\ ~ gives 0 r
  /\ ~ sub t (Fn Int (Ref (Scope 2) (Unique (Bound 0)))).
Proof.
  cbn zeta. split; [|split; [|split; [|split]]].
  - cbn. repeat split; try discriminate. intros _. now exists (Bound 1).
  - constructor; [constructor|]. constructor; [constructor|]. apply sub_refl.
  - cbn. right. now left.
  - cbn. intros H. decompose [or] H; try discriminate; easy.
  - intros H. apply fn_inv in H as [_ H]. apply ref_inv in H as [_ H].
    apply brand_invariant in H. discriminate H.
Qed.

(** C90: at all times, whatever safe code does, a unique brand is the only
    value of its brand. *)
Theorem brand_unique : forall l s, run start l = Some s -> forall i j b v,
  nth_error (vars s) i = Some (Some (VUnique b)) -> nth_error (vars s) j = Some (Some v) ->
  v = VUnique b \/ v = VId b -> i = j.
Proof.
  intros l s R i j b v A B O. pose proof (run_sound l _ _ start_sound R) as [_ S].
  apply (S i j b v A B). now destruct O as [-> | ->].
Qed.
Print Assumptions brand_unique.

(** C90: every identifier comes from a unique brand that was given up for it. *)
Theorem brand_origin : forall l s i b, run start l = Some s ->
  nth_error (vars s) i = Some (Some (VId b)) ->
  exists before j after s', l = (before ++ Into j :: after)%list /\ run start before = Some s'
    /\ nth_error (vars s') j = Some (Some (VUnique b)).
Proof. exact id_origin. Qed.
Print Assumptions brand_origin.

(** Two brands, one of them turned into identifiers; what was moved cannot be
    used again. *)
Example brand_unique_case :
  option_map vars (run start [CallUnique; CallUnique; Into 0; Move 2; Move 1; Drop 2])
  = Some [None; None; None; Some (VId 0); Some (VUnique 1)]
  /\ run start [CallUnique; Into 0; Into 0] = None.
Proof. easy. Qed.
