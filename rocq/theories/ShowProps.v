(** How foreign-function types are shown (C106). *)
From Coq Require Import String DecimalString DecimalZ DecimalPos.
From Verif Require Import Base FfiSpec LayModel FfiModel FfiProofs WrapModel WrapProofs WrapProps ShowModel.

(** The number that a decimal text denotes. *)
Definition denotes (s : string) (z : Z) : Prop :=
  exists d, NilZero.int_of_string s = Some d /\ Z.of_int d = z.
(** The names of the types, from the outside in, around a text. *)
Fixpoint layers (s : nest) (text : string) : string :=
  (match s with
   | Value Native => text
   | Value BigEndian => "BigEndian(" ++ text ++ ")"
   | Value LittleEndian => "LittleEndian(" ++ text ++ ")"
   | IntegerOf s _ => "Integer(" ++ layers s text ++ ")"
   | PointerOf s => "Pointer(" ++ layers s text ++ ")"
   end)%string.
(** The number that a host sees in the bytes of a value stored in some order. *)
Definition seen_as (h o : order) (t : raw) (z z' : Z) : Prop :=
  value_of t z' /\
  exists bs, stored o (width (int t)) (pattern (int t) z) bs /\ stored h (width (int t)) (pattern (int t) z') bs.

Lemma to_int_nonnil z : Z.to_int z <> Decimal.Pos Decimal.Nil /\ Z.to_int z <> Decimal.Neg Decimal.Nil.
Proof.
  destruct z as [|p|p]; cbn; split; try discriminate;
    intros E; injection E; apply (Unsigned.to_uint_nonnil p).
Qed.
Lemma decimal_denotes z : denotes (decimal z) z.
Proof.
  exists (Z.to_int z). split; [|apply DecimalZ.of_to].
  apply NilZero.isi; apply to_int_nonnil.
Qed.
Lemma denotes_fun s x y : denotes s x -> denotes s y -> x = y.
Proof. intros (d & E & <-) (e & F & <-). congruence. Qed.

Section Prefix.
Context (h : order) (t : raw) (al : nat) (z : Z).
Context (W : 0 < width (int t)) (R : in_range (int t) z) (NZ : nonzero t = true -> z <> 0%Z).

Lemma display_prefix s r : aligned s ->
  length (map Some (image h (base s) t z) ++ r) = size_of (layout t al s) ->
  nest_display h t al s (map Some (image h (base s) t z) ++ r) = Some (decimal z).
Proof.
  revert r. induction s as [w|s IH a|s IH]; intros r; cbn [aligned layout nest_display base].
  - intros _ _. now rewrite value_make.
  - intros [A B] S.
    destruct (get_prefix t al s a (map Some (image h (base s) t z)) r) as (r' & -> & Q); try easy.
    { now rewrite map_length, image_length. }
    now apply IH.
  - apply IH.
Qed.

Lemma debug_prefix s l r z' : aligned s -> length l = width (int t) -> bytes l ->
  length (map Some l ++ r) = size_of (layout t al s) ->
  value h Native t (map Some l) = Some z' ->
  nest_debug h t al s (map Some l ++ r) = Some (layers s (decimal z')).
Proof.
  intros A Ll Bl. revert r A. induction s as [w|s IH a|s IH]; intros r; cbn [aligned layout nest_debug layers].
  - intros _ _ V.
    assert (E : load h t (to_raw (width (int t)) (map Some l ++ r)) = Some z').
    { rewrite <- (app_nil_r (map Some l)) in V. rewrite value_object in V by easy.
      unfold to_raw. rewrite <- Ll, <- (map_length Some l), transmute_shrink.
      unfold load. rewrite init_some. destruct h; exact V. }
    rewrite E. destruct w; reflexivity.
  - intros [A B] S V.
    destruct (get_prefix t al s a (map Some l) r) as (r' & -> & Q); try easy.
    { now rewrite map_length. }
    now rewrite IH.
  - intros A S V. now rewrite IH.
Qed.
End Prefix.

Lemma seen_exists h w t z : value_of t z ->
  exists z', value h Native t (map Some (image h w t z)) = Some z' /\ seen_as h (declared h w) t z z'.
Proof.
  intros (W & R & NZ).
  destruct (value h Native t (map Some (image h w t z))) as [z'|] eqn:V.
  - exists z'. split; [easy|]. rewrite <- (app_nil_r (map Some _)) in V.
    apply make_value in V; [|easy|apply image_length|apply image_bytes].
    destruct V as (R' & NZ' & E). repeat split; try easy.
    exists (image h w t z). split; [apply host_stored|]. rewrite <- E. apply (host_stored h).
  - exfalso. rewrite <- (app_nil_r (map Some _)) in V.
    apply value_zero in V; [|easy|apply image_length|apply image_bytes].
    assert (V' : value h w t (map Some (image h w t z) ++ []) = None).
    { apply value_zero; [easy|apply image_length|apply image_bytes|exact V]. }
    rewrite value_make in V' by easy. discriminate.
Qed.
Lemma seen_same h t z z' : value_of t z -> seen_as h h t z z' -> z' = z.
Proof.
  intros (W & R & _) ((_ & R' & _) & bs & S & S').
  apply (pattern_inj (int t)); auto.
  assert (E : host_bytes h (width (int t)) (pattern (int t) z') = host_bytes h (width (int t)) (pattern (int t) z)).
  { transitivity bs; [eapply stored_unique; [apply host_stored|exact S']|eapply stored_unique; [exact S|apply host_stored]]. }
  apply (f_equal (of_host h)) in E. rewrite !of_host_bytes in E.
  rewrite !N.mod_small in E by apply pattern_bound. exact E.
Qed.
Lemma seen_fun h o t z x y : seen_as h o t z x -> seen_as h o t z y -> x = y.
Proof.
  intros (Vx & bs & S & Sx) (Vy & bs' & S' & Sy).
  rewrite (stored_unique _ _ _ _ _ S' S) in Sy.
  apply (seen_same h t y x); [exact Vy|]. split; [exact Vx|]. now exists bs.
Qed.

(** ** C106: what is shown *)

(** [Display] of a type of any nesting is the number that was stored, in decimal,
    whatever the byte orders are and whatever the padding holds; also in a
    [Packed]. *)
Theorem show_display h t al s z m : well_aligned s -> value_of t z -> object h t al s z m ->
  exists text, nest_display h t al s m = Some text /\ denotes text z
    /\ packed_display h t al s (packed_new (layout t al s) m) = Some text.
Proof.
  intros A%well_aligned_iff (W & R & NZ) O.
  destruct (object_image _ _ _ _ _ _ O) as [r E]. exists (decimal z).
  assert (D : nest_display h t al s m = Some (decimal z)).
  { rewrite E. apply display_prefix; auto. rewrite <- E. apply O. }
  split; [exact D|]. split; [apply decimal_denotes|].
  unfold packed_display. rewrite packed_new_image by apply O. now rewrite packed_get_image by apply O.
Qed.
(** So it tells different numbers apart, and only those. *)
Theorem show_display_distinct h t al s x y a b : well_aligned s -> value_of t x -> value_of t y ->
  object h t al s x a -> object h t al s y b ->
  nest_display h t al s a = nest_display h t al s b <-> x = y.
Proof.
  intros A Vx Vy Ox Oy.
  destruct (show_display h t al s x a A Vx Ox) as (p & Ep & Dp & _).
  destruct (show_display h t al s y b A Vy Oy) as (q & Eq & Dq & _).
  rewrite Ep, Eq. split.
  - intros [= ->]. eapply denotes_fun; eauto.
  - intros ->. rewrite <- Ep, <- Eq.
    destruct (object_image _ _ _ _ _ _ Ox) as [r E]. destruct (object_image _ _ _ _ _ _ Oy) as [r' E'].
    apply well_aligned_iff in A. destruct Vy as (W & R & NZ).
    rewrite E, E', !display_prefix; auto; [rewrite <- E'; apply Oy|rewrite <- E; apply Ox].
Qed.

(** [Debug] names all the types, and shows the number that the host sees in the
    bytes: the one that was stored if the declared order is that of the host. *)
Theorem show_debug h t al s z m : well_aligned s -> value_of t z -> object h t al s z m ->
  exists z' text, seen_as h (order_of h s) t z z' /\ denotes text z'
    /\ nest_debug h t al s m = Some (layers s text)
    /\ packed_debug h t al s (packed_new (layout t al s) m) = Some ("Packed(" ++ layers s text ++ ")")%string
    /\ (order_of h s = h -> z' = z).
Proof.
  intros A%well_aligned_iff V O.
  destruct (object_image _ _ _ _ _ _ O) as [r E].
  destruct (seen_exists h (base s) t z V) as (z' & Vz & S).
  exists z', (decimal z'). rewrite order_base. split; [exact S|]. split; [apply decimal_denotes|].
  assert (D : nest_debug h t al s m = Some (layers s (decimal z'))).
  { rewrite E. apply debug_prefix; auto using image_length, image_bytes. rewrite <- E. apply O. }
  split; [exact D|]. split.
  - unfold packed_debug. rewrite packed_new_image by apply O. rewrite packed_get_image by apply O.
    rewrite D. reflexivity.
  - intros F. rewrite F in S. eapply seen_same; eauto.
Qed.

(** A big-endian number of 2 bytes with 2 bytes of padding, on either host. *)
Example show_case :
  let t := {| int := {| signed := true; width := 2 |}; nonzero := false |} in
  let s := PointerOf (IntegerOf (Value BigEndian) 4) in
  let m := [Some 0xff; Some 0xfe; None; None]%N in
  well_aligned s /\ value_of t (-2) /\ object LittleFirst t 2 s (-2) m /\ object BigFirst t 2 s (-2) m /\
  nest_display LittleFirst t 2 s m = Some "-2"%string /\
  nest_display BigFirst t 2 s m = Some "-2"%string /\
  nest_debug LittleFirst t 2 s m = Some "Pointer(Integer(BigEndian(-257)))"%string /\
  nest_debug BigFirst t 2 s m = Some "Pointer(Integer(BigEndian(-2)))"%string /\
  seen_as LittleFirst BigFirst t (-2) (-257).
Proof.
  cbv zeta. split; [cbn; lia|]. split; [repeat split; cbn; lia|].
  assert (O : forall h, object h {| int := {| signed := true; width := 2 |}; nonzero := false |} 2
                          (PointerOf (IntegerOf (Value BigEndian) 4)) (-2) [Some 0xff; Some 0xfe; None; None]%N).
  { intros h. split; [reflexivity|]. exists [0xff; 0xfe]%N, [None; None]. split; [reflexivity|].
    exact (host_stored BigFirst 2 _). }
  split; [apply O|]. split; [apply O|]. repeat split; try reflexivity; try (cbn; lia).
  exists [0xff; 0xfe]%N. split; [exact (host_stored BigFirst 2 _)|exact (host_stored LittleFirst 2 _)].
Qed.

Print Assumptions show_display.
Print Assumptions show_display_distinct.
Print Assumptions show_debug.
