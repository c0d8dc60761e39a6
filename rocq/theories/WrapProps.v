(** C91: nested foreign-function types. *)
From Verif Require Import Base FfiSpec LayModel FfiModel FfiProofs WrapModel WrapProofs.

(** The byte order that the innermost type declares; all alignments are
    positive. *)
Fixpoint order_of (h : order) (s : nest) : order :=
  match s with
  | Value Native => h
  | Value BigEndian => BigFirst
  | Value LittleEndian => LittleFirst
  | IntegerOf s _ | PointerOf s => order_of h s
  end.
Fixpoint well_aligned (s : nest) : Prop :=
  match s with
  | Value _ => True
  | IntegerOf s a => 0 < a /\ well_aligned s
  | PointerOf s => well_aligned s
  end.
(** A value of the primitive type. *)
Definition value_of (t : raw) (z : Z) : Prop :=
  0 < width (int t) /\ in_range (int t) z /\ (nonzero t = true -> z <> 0%Z).
(** An object that starts with the value in the declared order; whatever
    follows up to the size of the type is padding. *)
Definition object (h : order) (t : raw) (al : nat) (s : nest) (z : Z) (m : mem) : Prop :=
  length m = size_of (layout t al s)
  /\ exists bs padding, m = map Some bs ++ padding
       /\ stored (order_of h s) (width (int t)) (pattern (int t) z) bs.

Lemma order_base h s : order_of h s = declared h (base s).
Proof. induction s as [[| |]|s IH a|s IH]; cbn; auto. Qed.
Lemma well_aligned_iff s : well_aligned s <-> aligned s.
Proof. induction s; cbn; tauto. Qed.
Lemma object_image h t al s z m : object h t al s z m ->
  exists r, m = map Some (image h (base s) t z) ++ r.
Proof.
  intros (L & bs & r & -> & S). exists r. f_equal. f_equal. rewrite order_base in S.
  eapply stored_unique; [exact S|]. apply host_stored.
Qed.
Lemma image_object h t al s z r :
  length (map Some (image h (base s) t z) ++ r) = size_of (layout t al s) ->
  object h t al s z (map Some (image h (base s) t z) ++ r).
Proof.
  intros L. split; [easy|]. exists (image h (base s) t z), r. split; [easy|].
  rewrite order_base. apply host_stored.
Qed.

(** C91: converting a value to a nested type at once, and wrapping it one type
    at a time, make the same object, in the declared byte order. *)
Theorem nest_constructs : forall h t al s z, well_aligned s ->
  exists m, nest_make h t al s z = Some m /\ wrap h t al s z = Some m /\ object h t al s z m.
Proof.
  intros h t al s z A%well_aligned_iff. pose proof (layout_size t al s A) as L.
  eexists. split; [rewrite nest_make_base; now apply make_image|]. split; [now apply wrap_image|].
  apply image_object. rewrite app_length, map_length, image_length, repeat_length. lia.
Qed.
Print Assumptions nest_constructs.

(** C91: converting such an object back at once, and unwrapping it one type at
    a time, both give the value, whatever the padding. *)
Theorem nest_reads : forall h t al s z m, well_aligned s -> value_of t z -> object h t al s z m ->
  nest_value h t s m = Some z /\ unwrap h t al s m = Some z.
Proof.
  intros h t al s z m A%well_aligned_iff (W & R & NZ) O.
  destruct (object_image _ _ _ _ _ _ O) as [r ->]. split.
  - rewrite nest_value_base. now apply value_make.
  - apply unwrap_prefix; try easy. apply O.
Qed.
Print Assumptions nest_reads.

(** C91: objects compare and hash as their values, whatever their padding. *)
Theorem nest_compares : forall h t al s x y a b, well_aligned s -> value_of t x -> value_of t y ->
  object h t al s x a -> object h t al s y b ->
  nest_eq h t al s a b = Some (x =? y)%Z /\ nest_cmp h t al s a b = Some (x ?= y)%Z
  /\ forall S (hash : Z -> S -> S) st, nest_hash h t al hash s a st = Some (hash x st).
Proof.
  intros h t al s x y a b A%well_aligned_iff (W & R & NZ) (_ & R' & NZ') O O'.
  destruct (object_image _ _ _ _ _ _ O) as [r ->]. destruct (object_image _ _ _ _ _ _ O') as [r' ->].
  destruct (compare_prefix h t al x W R NZ y R' NZ' s r r' A) as [E C]; [apply O|apply O'|].
  split; [easy|]. split; [easy|]. intros S f st. apply hash_prefix; try easy. apply O.
Qed.
Print Assumptions nest_compares.

(** C91: a native address survives being stored in a nested type of the size of
    [usize]. *)
Theorem nest_addresses : forall h t al s v, well_aligned s -> order_of LittleFirst s <> order_of BigFirst s ->
  signed (int t) = false -> value_of t v ->
  exists m, nest_from_usize h t al (width (int t)) s v = Some (Ok m)
    /\ nest_to_usize h t al (width (int t)) s m = Some (Ok v).
Proof.
  intros h t al s v A%well_aligned_iff N U (W & R & NZ).
  assert (B : base s = Native).
  { rewrite !order_base in N. destruct (base s); easy. }
  assert (V : (0 <= v < 2 ^ (8 * Z.of_nat (width (int t))))%Z).
  { unfold in_range in R. now rewrite U in R. }
  rewrite from_usize_wrap by easy. rewrite wrap_image by easy. eexists. split; [easy|].
  rewrite to_usize_prefix; try easy.
  - unfold to_usize. now rewrite Nat.leb_refl, Z.mod_small.
  - rewrite app_length, map_length, image_length, repeat_length.
    pose proof (layout_size t al s A). lia.
Qed.
Print Assumptions nest_addresses.

(** A pointer with a big-endian address aligned to 8 bytes, in an integer
    aligned to 16: -2 as [i32], with padding of ones. *)
Example nest_case :
  let t := {| int := {| signed := true; width := 4 |}; nonzero := true |} in
  let s := IntegerOf (PointerOf (IntegerOf (Value BigEndian) 8)) 16 in
  let m := ([Some 255; Some 255; Some 255; Some 254] ++ repeat (Some 1) 12)%N in
  well_aligned s /\ value_of t (-2) /\ object LittleFirst t 4 s (-2) m
  /\ nest_make LittleFirst t 4 s (-2)
     = Some ([Some 255; Some 255; Some 255; Some 254] ++ repeat None 12)%N.
Proof.
  cbn zeta. split; [cbn; lia|]. split; [split; cbn; [lia|split; [lia|easy]]|].
  split; [|reflexivity]. split; [reflexivity|].
  exists [255; 255; 255; 254]%N, (repeat (Some 1%N) 12). split; [easy|]. split; [easy|].
  intros i H. cbn in H. do 4 (destruct i as [|i]; [easy|]). lia.
Qed.
