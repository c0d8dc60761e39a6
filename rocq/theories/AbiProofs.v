(** Proofs about platform ABIs (AbiModel.v against AbiSpec.v). *)
From Coq Require Import String.
From Coq Require Import List.
From Verif Require Import Base FfiSpec LayModel FfiModel FfiProofs AbiSpec AbiModel.

Lemma abi_layout p h t :
  size_of (abi p h t) = csize p (meaning t) /\ align_of (abi p h t) = calign p (meaning t).
Proof.
  destruct p, t; cbn [abi aarch64_sysv x86_sysv x86_64_sysv]; unfold pointer_ty;
    cbn [size_of align_of]; unfold le_ty;
    (rewrite integer_size, integer_align by lia); split; reflexivity.
Qed.

Lemma csize_pos p k : 0 < csize p k.
Proof. destruct p, k; cbn; lia. Qed.
Lemma calign_pos p k : 0 < calign p k.
Proof. destruct p, k; cbn; lia. Qed.

Lemma least_multiple_unique a s r r' : least_multiple a s r -> least_multiple a s r' -> r = r'.
Proof. intros (A1 & A2 & A3) (B1 & B2 & B3). specialize (A3 _ B1 B2). specialize (B3 _ A1 A2). lia. Qed.

Section CtypeInd.
  Variable P : ctype -> Prop.
  Hypothesis Hs : forall t, P (Scalar t).
  Hypothesis Hm : forall n d, P d -> P (Many n d).
  Hypothesis Hr : forall ds, Forall P ds -> P (Record ds).
  Fixpoint ctype_ind' (d : ctype) : P d :=
    match d with
    | Scalar t => Hs t
    | Many n d => Hm n d (ctype_ind' d)
    | Record ds => Hr ds ((fix go ds := match ds return Forall P ds with
                            | [] => Forall_nil _
                            | d :: ds => Forall_cons d (ctype_ind' d) (go ds) end) ds)
    end.
End CtypeInd.

(** End of the fields, as [size_of] computes it. *)
Fixpoint end_of (off : nat) (fs : list ty) : nat :=
  match fs with
  | [] => off
  | f :: fs => end_of (round_up off (align_of f) + size_of f) fs
  end.

Lemma size_of_record fs :
  size_of (Struct false 1 fs) = round_up (end_of 0 fs) (align_of (Struct false 1 fs)).
Proof.
  reflexivity.
Qed.

Definition max_align (fs : list ty) : nat := fold_right Nat.max 1 (map align_of fs).

Lemma align_of_record fs : align_of (Struct false 1 fs) = max_align fs.
Proof. reflexivity. Qed.

Lemma max_align_pos fs : 0 < max_align fs.
Proof. induction fs; cbn; [lia|]. fold (max_align fs). lia. Qed.

(** The layout is the one of C, for every type assignment that gives the
    scalars their C layout. *)
Definition faithful (p : platform) (f : symbol -> ty) : Prop :=
  forall t, size_of (f t) = csize p (meaning t) /\ align_of (f t) = calign p (meaning t).

Lemma places_of p f ds :
  Forall (fun d => lays p d (size_of (declare f d)) (align_of (declare f d)) /\ 0 < align_of (declare f d)) ds ->
  forall at_, places p at_ ds (offsets false at_ (map (declare f) ds))
      (end_of at_ (map (declare f) ds)) (max_align (map (declare f) ds)).
Proof.
  induction 1 as [|d ds (H & Hp) _ IH]; intros at_; cbn [map offsets end_of]; [constructor|].
  change (max_align (declare f d :: map (declare f) ds))
    with (Nat.max (align_of (declare f d)) (max_align (map (declare f) ds))).
  econstructor; [exact H| |apply IH]. now apply round_up_least.
Qed.

Lemma lays_of p f : faithful p f -> forall d,
  lays p d (size_of (declare f d)) (align_of (declare f d)) /\ 0 < align_of (declare f d).
Proof.
  intros F. induction d as [t|n d (IH & Hp)|ds IH] using ctype_ind'; cbn [declare].
  - destruct (F t) as (-> & ->). split; [constructor|apply calign_pos].
  - cbn [size_of align_of]. split; [now constructor|exact Hp].
  - rewrite size_of_record, align_of_record. split; [|apply max_align_pos].
    econstructor; [apply places_of, IH|]. apply round_up_least, max_align_pos.
Qed.

Lemma record_places p f : faithful p f -> forall ds,
  places p 0 ds (offsets_of (declare f (Record ds)))
    (end_of 0 (map (declare f) ds)) (max_align (map (declare f) ds)).
Proof.
  intros F ds. cbn [declare offsets_of]. apply places_of. apply Forall_forall. intros d _. now apply lays_of.
Qed.

(** C's layout is a function. *)
Lemma lays_scalar_inv p t s a : lays p (Scalar t) s a -> s = csize p (meaning t) /\ a = calign p (meaning t).
Proof. inversion 1; auto. Qed.
Lemma lays_many_inv p n d s a : lays p (Many n d) s a -> exists s', s = n * s' /\ lays p d s' a.
Proof. inversion 1; eauto. Qed.
Lemma lays_record_inv p ds s a : lays p (Record ds) s a ->
  exists offs l, places p 0 ds offs l a /\ least_multiple a l s.
Proof. inversion 1; eauto. Qed.
Lemma places_nil_inv p at_ o l a : places p at_ [] o l a -> o = [] /\ l = at_ /\ a = 1.
Proof. inversion 1; auto. Qed.
Lemma places_cons_inv p at_ d ds o l a : places p at_ (d :: ds) o l a ->
  exists q os s b c, o = q :: os /\ a = Nat.max b c /\ lays p d s b /\ least_multiple b at_ q
    /\ places p (q + s) ds os l c.
Proof. inversion 1; subst. do 5 eexists. eauto. Qed.

Lemma places_unique_if p ds :
  Forall (fun d => forall s a s' a', lays p d s a -> lays p d s' a' -> s = s' /\ a = a') ds ->
  forall at_ o1 o2 l1 l2 a a',
  places p at_ ds o1 l1 a -> places p at_ ds o2 l2 a' -> o1 = o2 /\ l1 = l2 /\ a = a'.
Proof.
  induction 1 as [|d ds Hd _ IH]; intros at_ o1 o2 l1 l2 a a' P1 P2.
  - apply places_nil_inv in P1 as (-> & -> & ->). apply places_nil_inv in P2 as (-> & -> & ->). auto.
  - apply places_cons_inv in P1 as (q1 & os1 & s1 & b1 & c1 & -> & -> & A1 & B1 & C1).
    apply places_cons_inv in P2 as (q2 & os2 & s2 & b2 & c2 & -> & -> & A2 & B2 & C2).
    destruct (Hd _ _ _ _ A1 A2); subst. assert (q1 = q2) by (eapply least_multiple_unique; eauto). subst q2.
    destruct (IH _ _ _ _ _ _ _ C1 C2) as (-> & -> & ->). auto.
Qed.

Lemma lays_unique p : forall d s a s' a', lays p d s a -> lays p d s' a' -> s = s' /\ a = a'.
Proof.
  induction d as [t|n d IH|ds IH] using ctype_ind'; intros s a s' a' H H'.
  - apply lays_scalar_inv in H as (-> & ->). apply lays_scalar_inv in H' as (-> & ->). auto.
  - apply lays_many_inv in H as (s1 & -> & H). apply lays_many_inv in H' as (s2 & -> & H').
    destruct (IH _ _ _ _ H H'); subst; auto.
  - apply lays_record_inv in H as (o1 & l1 & P1 & L1). apply lays_record_inv in H' as (o2 & l2 & P2 & L2).
    destruct (places_unique_if p ds IH _ _ _ _ _ _ _ P1 P2) as (_ & -> & ->).
    split; [eapply least_multiple_unique; eauto|reflexivity].
Qed.

Lemma places_unique p ds : forall at_ o1 o2 l1 l2 a a',
  places p at_ ds o1 l1 a -> places p at_ ds o2 l2 a' -> o1 = o2 /\ l1 = l2 /\ a = a'.
Proof. apply places_unique_if, Forall_forall. intros d _. apply lays_unique. Qed.

(** A machine of a platform: its primitives have the layout of C there. *)
Lemma native_faithful p h :
  address h = csize p Pointer ->
  (forall k, prim_align h (match k with Float | Double => FloatClass | Pointer => PtrClass | _ => IntClass end)
       (csize p k) = calign p k) ->
  faithful p (native h).
Proof.
  intros A P t.
  assert (PI : prim_align h IntClass (csize p Pointer) = calign p Pointer).
  { specialize (P Long). destruct p; exact P. }
  destruct t; cbn [native size_of align_of meaning]; unfold prim; cbn [size_of align_of]; rewrite ?A;
    (split; [destruct p; reflexivity|]).
  all: first [exact (P Char)|exact (P Short)|exact (P Int)|exact (P LongLong)|exact (P Int128)|exact (P Long)
    |exact (P Float)|exact (P Double)|exact (P Pointer)|exact PI].
Qed.

(** ** Error numbers *)

Definition table_eqb (a b : list (string * N)) : bool :=
  forallb (fun '(n, v) => match lookup n b with Some w => N.eqb v w | None => false end) a.

Lemma table_eqb_ok a b : table_eqb a b = true -> forall n v, In (n, v) a -> lookup n b = Some v.
Proof.
  unfold table_eqb. rewrite forallb_forall. intros H n v I. specialize (H _ I). cbn in H.
  destruct (lookup n b); [|discriminate]. apply N.eqb_eq in H. now subst.
Qed.

Lemma lookup_in n v l : lookup n l = Some v -> In (n, v) l.
Proof.
  induction l as [|(m, w) l IH]; cbn; [discriminate|]. destruct (String.eqb_spec m n) as [->|].
  - intros [= ->]. now left.
  - intros H. right. auto.
Qed.

Lemma u16_size p h : size_of (abi p h U16) = 2.
Proof. now destruct (abi_layout p h U16) as (-> & _). Qed.
