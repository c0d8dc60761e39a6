(** References to members of structures: C111. *)
From Verif Require Import Base FieldSpec LayModel PtrModel PtrProps FieldModel FieldProofs.
From Coq Require Import Lia.
Local Open Scope N_scope.

(** C111: for every layout a compiler may choose and every place the structure
    may live at, the reference to a member is one a reference may be, and points
    to the member: at its offset, with no wrapping, and within the structure.
    The pointer to it leads back to the structure. *)
Theorem field_reference w a c o f : laid_out c -> lives w a (whole c) -> In (o, f) (members c) ->
  field_of w o f (whole c) a = Some (a + o)
  /\ field_of_mut w o f (whole c) a = Some (a + o)
  /\ lives w (a + o) f
  /\ (forall x, covers (a + o) f x -> covers a (whole c) x)
  /\ container_of_ptr w o (field_of_ptr w o a) = Ok a.
Proof.
  intros L (W & P & D & E & S) I.
  pose proof (inside c L _ _ I) as In_. destruct (aligned c L _ _ I) as (A1 & A2 & A3).
  assert (B : (align f | a + o)) by (apply N.divide_add_r; [exact (N.divide_trans _ _ _ A2 D)|exact A3]).
  assert (F : field_of_ptr w o a = a + o) by (unfold field_of_ptr; apply N.mod_small; lia).
  assert (R : deref a (bytes (whole c)) f (a + o) = Some (a + o)) by (apply deref_ok; lia || easy).
  unfold field_of, field_of_mut. rewrite F at 1 2. rewrite R.
  repeat split; try easy; try (unfold covers in *; lia).
  apply container_of_field; lia.
Qed.
Print Assumptions field_reference.

(** C111: what is read through the reference is the bytes of the member. *)
Theorem field_read w a c o f m r : laid_out c -> lives w a (whole c) -> In (o, f) (members c) ->
  field_of w o f (whole c) a = Some r -> load m f r = content m (a + o) f.
Proof.
  intros L A I H. destruct (field_reference w a c o f L A I) as (E & _). rewrite E in H. now injection H as <-.
Qed.
Print Assumptions field_read.

(** C111: an assignment through the mutable reference to the member number [i]
    is what is read from it afterwards, through either kind of reference; every
    other member keeps its bytes, and so does every address that does not belong
    to the member, be it a gap in the structure or outside of it. *)
Theorem field_write w a c i o f m r v : laid_out c -> lives w a (whole c) ->
  nth_error (members c) i = Some (o, f) -> field_of_mut w o f (whole c) a = Some r -> N.of_nat (length v) = bytes f ->
  let m' := assign m r v in
  content m' (a + o) f = v
  /\ (forall j o' f', j <> i -> nth_error (members c) j = Some (o', f') ->
        content m' (a + o') f' = content m (a + o') f')
  /\ (forall x, ~ covers (a + o) f x -> m' x = m x).
Proof.
  intros L A I H V. cbn zeta.
  destruct (field_reference w a c o f L A (nth_error_In _ _ I)) as (_ & E & _). rewrite E in H. injection H as <-.
  assert (O : forall x, ~ covers (a + o) f x -> assign m (a + o) v x = m x).
  { intros x X. apply assign_out. unfold covers in X. now rewrite V. }
  split; [|split; [|exact O]].
  - unfold content. replace (N.to_nat (bytes f)) with (length v) by lia. apply map_nth_ext.
    intros k K. now apply assign_in.
  - intros j o' f' J I'. unfold content. apply map_ext_in. intros k K. apply in_seq in K. apply O.
    intros X. apply (apart c L i j o f o' f' (o' + N.of_nat k)); [congruence|exact I|exact I'|].
    unfold covers in *. lia.
Qed.
Print Assumptions field_write.

(** Every [repr(C)] structure whose members are aligned is laid out so, whatever
    its members are. *)
Theorem field_repr_c n fs : (exists k, n = 2 ^ k)%nat -> Forall (fun f => exists k, align_of f = 2 ^ k)%nat fs ->
  laid_out (structure_of (Struct false n fs)).
Proof. apply structure_laid_out. Qed.
Print Assumptions field_repr_c.

(** A reference to a member of a packed structure may not exist: the member is
    not aligned there, and the trait excludes it. *)
Theorem field_packed_refuted :
  exists w a fs o f, let c := structure_of (Struct true 1 fs) in
    lives w a (whole c) /\ In (o, f) (members c) /\ field_of w o f (whole c) a = None.
Proof.
  exists 64, 0x1000, [Prim 1 1; Prim 4 4], 1, (mkShape 4 4). cbn zeta.
  split; [|split; [right; left; reflexivity|reflexivity]].
  unfold lives. cbn. repeat split; try easy. exists 0x1000. reflexivity.
Qed.
Print Assumptions field_packed_refuted.

(** The structure of the test: [a: u16, b: u8, c: u32] with [align(4)]. *)
Example field_example :
  let c := structure_of (Struct false 4 [Prim 2 2; Prim 1 1; Prim 4 4]) in
  laid_out c /\ lives 64 0x1000 (whole c) /\ nth_error (members c) 1 = Some (2, mkShape 1 1)
  /\ field_of_mut 64 2 (mkShape 1 1) (whole c) 0x1000 = Some 0x1002
  /\ content (assign (fun x => Some (x mod 256)) 0x1002 [Some 99]) 0x1000 (whole c)
     = map Some [0; 1; 99; 3; 4; 5; 6; 7].
Proof.
  cbn zeta. split; [|repeat split; try easy; now exists 0x400].
  apply field_repr_c; [now exists 2%nat|]. repeat constructor; cbn; [now exists 1%nat|now exists 0%nat|now exists 2%nat].
Qed.
