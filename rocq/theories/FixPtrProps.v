(** C104: pointers of fixed size as pointers. *)
From Verif Require Import Base FfiSpec LayModel FfiModel FfiProofs WrapModel WrapProofs FixPtrModel.
From Verif Require WrapProps.
Import WrapProps(order_of, well_aligned, well_aligned_iff, nest_addresses).

(** An address of the machine: of the size of [usize]; [0] is null. *)
Definition address (usize_ : nat) (a : Z) : Prop := (0 <= a < 2 ^ (8 * Z.of_nat usize_))%Z.
(** A primitive type that holds an address of the machine, in its byte order:
    the types for which the conversions exist. *)
Definition native_address (usize_ : nat) (t : raw) (s : nest) : Prop :=
  0 < usize_ /\ width (int t) = usize_ /\ signed (int t) = false
  /\ order_of LittleFirst s = LittleFirst /\ order_of BigFirst s = BigFirst.

Lemma address_value usize_ t s a : native_address usize_ t s -> address usize_ a -> a <> 0%Z ->
  WrapProps.value_of t a.
Proof.
  intros (P & W & U & _) R N. split; [lia|]. split; [|easy]. unfold in_range. now rewrite U, W.
Qed.

(** C104: a reference becomes a pointer that leads to the same object, however
    it is cast, copied and unwrapped afterwards; converting the raw pointer or
    the address does the same. *)
Theorem fixed_pointer_leads : forall h t al usize_ s a,
  well_aligned s -> native_address usize_ t s -> address usize_ a -> a <> 0%Z ->
  exists m, pointer_from_reference h t al usize_ s a = Some (Ok m)
    /\ pointer_from_usize h t al usize_ s a = Some (Ok (Some m))
    /\ forall later, let m' := fold_left pointer_again later m in
         pointer_address h t al usize_ s m' = Some (Ok a)
         /\ forall V (heap : Z -> option V), pointer_target h t al usize_ heap s m' = Some (Ok (heap a)).
Proof.
  intros h t al usize_ s a A N R Z. pose proof (address_value _ _ _ _ N R Z) as Hv.
  destruct N as (P & W & U & L & B). subst usize_.
  destruct (nest_addresses h t al s a A) as (m & F & T); try easy; [congruence|].
  exists m. split; [exact F|]. split.
  { unfold pointer_from_usize, pointer_unchecked. cbn [nest_from_usize]. rewrite F.
    destruct (Z.eqb_spec a 0) as [E|_]; [now elim Z|easy]. }
  intros later m'. assert (m' = m) as ->.
  { subst m'. clear. revert m. induction later as [|x later IH]; intros m; [easy|]. cbn. destruct x; apply IH. }
  split; [exact T|]. intros V heap. unfold pointer_target, pointer_address. cbn [nest_to_usize]. now rewrite T.
Qed.
Print Assumptions fixed_pointer_leads.

(** C104: null is refused, whatever the types. *)
Theorem fixed_pointer_null : forall h t al usize_ s, pointer_from_usize h t al usize_ s 0 = Some (Ok None).
Proof. easy. Qed.
Print Assumptions fixed_pointer_null.

(** C104: a dangling pointer is not null, and is aligned. *)
Theorem fixed_pointer_dangling : forall h t al usize_ s align,
  well_aligned s -> native_address usize_ t s -> 0 < align -> address usize_ (Z.of_nat align) ->
  exists m v, pointer_dangling h t al usize_ s align = Some (Ok m)
    /\ pointer_address h t al usize_ s m = Some (Ok v) /\ v <> 0%Z /\ (Z.of_nat align | v)%Z.
Proof.
  intros h t al usize_ s align A N Z R.
  destruct (fixed_pointer_leads h t al usize_ s (Z.of_nat align) A N R) as (m & F & _ & H); [lia|].
  exists m, (Z.of_nat align). split; [exact F|]. split; [apply (H [])|]. split; [lia|]. apply Z.divide_refl.
Qed.
Print Assumptions fixed_pointer_dangling.

(** Memory: bytes, or nothing known. *)
Definition byte_memory (m : mem) : Prop := Forall (fun b => match b with Some b => (b < 256)%N | None => True end) m.

Lemma slice_memory m i j : byte_memory m -> byte_memory (slice m i j).
Proof.
  intros H. unfold slice, byte_memory in *. rewrite Forall_forall in *. intros b B. apply H.
  rewrite <- (firstn_skipn i m). apply in_or_app. right.
  rewrite <- (firstn_skipn (j - i) (skipn i m)). apply in_or_app. now left.
Qed.
Lemma init_bytes : forall m l, byte_memory m -> init m = Some l -> bytes l /\ length l = length m.
Proof.
  induction m as [|[b|] m IH]; intros l H E; cbn in E; try easy.
  - injection E as <-. split; [constructor|easy].
  - destruct (init m) as [k|]; [|easy]. injection E as <-. inversion H as [|? ? B H']; subst.
    destruct (IH k H' eq_refl) as [K L]. split; [now constructor|]. cbn. now rewrite L.
Qed.
Lemma raw_memory n m l : byte_memory m -> init (to_raw n m) = Some l -> bytes l /\ length l = n.
Proof.
  intros H E. unfold to_raw, transmute_copy_uninit in E. destruct (length m <? n) eqn:C.
  - exfalso. apply Nat.ltb_lt in C. revert E.
    assert (X : exists u v, splice (repeat None n) 0 m = u ++ None :: v).
    { unfold splice. exists m, (repeat None (n - length m - 1)). cbn [firstn app].
      f_equal. rewrite Nat.add_0_l. replace n with (length m + S (n - length m - 1)) at 1 by lia.
      rewrite repeat_app, skipn_app, repeat_length, Nat.sub_diag, skipn_all2 by (rewrite repeat_length; lia).
      easy. }
    destruct X as (u & v & ->). clear. revert l. induction u as [|[b|] u IH]; intros l; cbn; try easy.
    destruct (init (u ++ None :: v)); [|easy]. intros _. now eapply IH.
  - apply Nat.ltb_ge in C. destruct (init_bytes (firstn n m) l) as [B L]; [|easy|].
    { unfold byte_memory in *. rewrite Forall_forall in *. intros b I. apply H.
      rewrite <- (firstn_skipn n m). apply in_or_app. now left. }
    split; [easy|]. rewrite L, firstn_length. lia.
Qed.

(** C104 in full, false of the code: what a pointer says its address is, is
    never null.  Proved: never if the primitive type excludes zero, whatever is
    in the memory of the pointer.  Missing: the other types. *)
Theorem fixed_pointer_never_null_partial : forall h t al usize_ s m a,
  nonzero t = true -> width (int t) = usize_ -> signed (int t) = false -> byte_memory m ->
  pointer_address h t al usize_ s m = Some (Ok a) -> a <> 0%Z.
Proof.
  intros h t al usize_ s m a NZ W U. unfold pointer_address. cbn [nest_to_usize]. revert m.
  induction s as [w|s IH b|s IH]; intros m M; cbn [nest_to_usize]; [| |now apply IH].
  2:{ apply IH. unfold integer_get, packed_get, field. now do 2 apply slice_memory. }
  destruct w; try easy. cbn [nest_to_usize].
  replace (value h Native t m) with (load h t (to_raw (width (int t)) m)) by now destruct h.
  destruct (load h t (to_raw (width (int t)) m)) as [z|] eqn:E; [|easy].
  unfold load in E. destruct (init (to_raw (width (int t)) m)) as [l|] eqn:I; [|easy].
  rewrite NZ in E. cbn [andb] in E.
  destruct (raw_memory _ _ _ M I) as [B L].
  pose proof (of_host_bound h l B) as Bd. rewrite L in Bd.
  assert (S : signed_value (int t) (of_host h l) = Z.of_N (of_host h l)).
  { unfold signed_value. now rewrite U. }
  rewrite S in E. destruct (Z.eqb_spec (Z.of_N (of_host h l)) 0) as [|N]; [easy|]. injection E as <-.
  unfold to_usize. destruct (_ <=? _); [|easy]. intros Q. apply (f_equal (fun r => match r with Some (Ok v) => v | _ => 0%Z end)) in Q. cbv beta iota in Q.
  subst a. rewrite <- W, pow_bytes. rewrite Z.mod_small; lia.
Qed.
Print Assumptions fixed_pointer_never_null_partial.

(** C104: with a type that does not exclude zero, the documented guarantee is
    false: the null address can be put into a pointer, and is then its address.
    [Pointer::<u64, _>::new(0).as_ptr()]. *)
Theorem fixed_pointer_never_null_refuted : forall h al,
  let t := {| int := {| signed := false; width := 8 |}; nonzero := false |} in
  exists m, wrap h t al (PointerOf (Value Native)) 0 = Some m /\ byte_memory m
    /\ pointer_address h t al 8 (Value Native) m = Some (Ok 0%Z).
Proof.
  intros h al. cbn zeta. exists (repeat (Some 0%N) 8). split; [now destruct h|]. split.
  - repeat constructor.
  - now destruct h.
Qed.
Print Assumptions fixed_pointer_never_null_refuted.

(** C104: after any sequence of [set] and [replace] a pointer holds the last
    address stored; [replace] returned the one before, [set] dropped it. *)
Theorem fixed_pointer_cell : forall x us, exists m log z,
  uses pointer_use (pointer_new x) us = (m, log) /\ cell x us log z
  /\ pointer_inner m = z /\ z = last (map put us) x.
Proof.
  unfold pointer_new, pointer_inner. intros x us. revert x. induction us as [|u us IH]; intros x.
  { exists x, [], x. repeat split. constructor. }
  destruct (IH (put u)) as (m0 & log & z & E & C & <- & L).
  assert (LL : last (map put us) (put u) = last (map put (u :: us)) x).
  { clear. cbn [map]. generalize (map put us). intros l. revert x. generalize (put u).
    induction l as [|a l IH]; intros b x; [easy|]. cbn [last]. destruct l; [easy|]. exact (IH b x). }
  destruct u as [y|y|y]; cbn [put] in *; cbn [uses pointer_use]; unfold pointer_new, pointer_inner; rewrite E.
  - exists m0, ((None, Some x) :: log), m0. repeat split; [now constructor|congruence].
  - exists m0, ((Some x, None) :: log), m0. repeat split; [now constructor|congruence].
  - exists m0, ((Some x, None) :: log), m0. repeat split; [now constructor|congruence].
Qed.
Print Assumptions fixed_pointer_cell.

(** A reference at 0x1234 in a [Pointer<Integer<u64, AlignAs<8>>, _>]. *)
Example fixed_pointer_case :
  let t := {| int := {| signed := false; width := 8 |}; nonzero := true |} in
  let s := IntegerOf (Value Native) 8 in
  well_aligned s /\ native_address 8 t s /\ address 8 4660 /\
  pointer_from_reference LittleFirst t 8 8 s 4660 =
    Some (Ok (map Some [52; 18; 0; 0; 0; 0; 0; 0]%N))
  /\ pointer_address LittleFirst t 8 8 s (map Some [52; 18; 0; 0; 0; 0; 0; 0]%N) = Some (Ok 4660%Z).
Proof.
  cbn zeta. split; [now repeat split; lia|]. split; [repeat split; cbn; lia|]. split; [cbv; split; easy|].
  split; reflexivity.
Qed.
(** A dangling pointer to an object that must be aligned to 4096 bytes; and memory
    that holds nothing but zeroes, which is a value of no type that excludes zero. *)
Example fixed_pointer_dangling_case :
  let t := {| int := {| signed := false; width := 8 |}; nonzero := true |} in
  let s := IntegerOf (Value Native) 8 in
  address 8 (Z.of_nat 4096) /\ byte_memory (repeat (Some 0%N) 8) /\
  (exists m, pointer_dangling LittleFirst t 8 8 s 4096 = Some (Ok m) /\ byte_memory m
     /\ pointer_address LittleFirst t 8 8 s m = Some (Ok 4096%Z)) /\
  pointer_address LittleFirst t 8 8 s (repeat (Some 0%N) 8) = None.
Proof.
  cbn zeta. split; [split; [lia|reflexivity]|]. split; [repeat constructor|].
  split; [|reflexivity]. exists (map Some [0; 16; 0; 0; 0; 0; 0; 0]%N).
  split; [vm_compute; reflexivity|]. split; [repeat constructor|reflexivity].
Qed.
