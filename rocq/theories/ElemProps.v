(** Properties of D-Bus elements (C112). *)
From Verif Require Import Base DbusSpec DbusElement DbusFlagBits ElemModel.
From Verif Require DvarDecSpec.
Local Open Scope N_scope.

(** ** C112: what an element says of itself is true of the types it occurs in *)

(** Elements are the characters of signatures, one for each. *)
Theorem element_codes :
  (forall c e, from_code c = Some e <-> e_code e = c) /\
  (forall c, In c codes <-> exists e, e_code e = c).
Proof.
  assert (A : forall c e, from_code c = Some e <-> e_code e = c).
  { intros c e. split; [|intros <-; now destruct e].
    destruct c as [|p]; [discriminate|].
    repeat match goal with p : positive |- _ => destruct p; try discriminate end;
      intros [= <-]; reflexivity. }
  split; [exact A|]. intros c. split.
  - intros I. assert (B : exists e, from_code c = Some e).
    { cbn in I. repeat (destruct I as [<-|I]; [eexists; reflexivity|]). destruct I. }
    destruct B as (e & B). exists e. now apply A.
  - intros (e & <-). destruct e; cbn; tauto.
Qed.

(** Ids are never zero, differ, and stand for the element. *)
Theorem element_ids :
  (forall e, 0 < e_id e < 256) /\
  (forall e, e_from_id (e_id e) = Some e) /\
  (forall e f, e_id e = e_id f -> e = f).
Proof.
  assert (A : forall e, e_from_id (e_id e) = Some e) by now intros [].
  split; [now intros []|]. split; [exact A|].
  intros e f E. pose proof (A e) as B. rewrite E, A in B. congruence.
Qed.

(** The character and the text of an element are its code, in UTF-8. *)
Theorem element_text : forall e,
  e_char e = e_code e /\ e_code e < 128 /\ e_str e = DvarDecSpec.utf8 (e_char e).
Proof. now intros []. Qed.

(** The three kinds of positions: at the start of a type, of a container, and at
    the end of one. *)
Theorem element_positions : forall e,
  (e_all e FLAG_PREFIX = true <-> exists t rest, print t = e_code e :: rest) /\
  (e_all e FLAG_OPEN = true <-> exists f, opening f = e_code e) /\
  (e_all e FLAG_CLOSE = true <-> is_closing (e_code e)) /\
  (e_all e FLAG_BASIC = true <-> exists b, basic_chr b = e_code e).
Proof.
  intros e. repeat split.
  - intros H.
    assert (B : (exists b, basic_chr b = e_code e) -> exists t rest, print t = e_code e :: rest).
    { intros (b & <-). exists (TBasic b), []. reflexivity. }
    destruct e; try discriminate H.
    1-13: apply B; first [now exists BByte|now exists BUint16|now exists BInt16|now exists BUint32|now exists BInt32|
      now exists BUint64|now exists BInt64|now exists BDouble|now exists BBoolean|now exists BString|now exists BObjectPath|
      now exists BSignature|now exists BHandle].
    + now exists TVariant, [].
    + exists (TArray TVariant). eexists. reflexivity.
    + exists (TMaybe TVariant). eexists. reflexivity.
    + exists (TStruct []). eexists. reflexivity.
    + exists (TDict BByte TVariant). eexists. reflexivity.
  - intros (t & rest & E). destruct e; try reflexivity; exfalso; destruct t as [[]| | | | |]; discriminate E.
  - intros H. destruct e; try discriminate H;
      [now exists FArray|now exists FMaybe|now exists (FStruct [])|now exists (FDict [])].
  - intros (f & E). destruct e; try reflexivity; exfalso; destruct f; discriminate E.
  - intros H. destruct e; try discriminate H; [now left|now right].
  - intros [E|E]; destruct e; try reflexivity; discriminate E.
  - intros H. destruct e; try discriminate H;
      first [now exists BByte|now exists BUint16|now exists BInt16|now exists BUint32|now exists BInt32|
      now exists BUint64|now exists BInt64|now exists BDouble|now exists BBoolean|now exists BString|now exists BObjectPath|
      now exists BSignature|now exists BHandle].
  - intros (b & E). destruct e; try reflexivity; exfalso; destruct b; discriminate E.
Qed.

(** Two elements are a pair if one opens a container that the other closes. *)
Theorem element_pairs : forall e p,
  e_pair e = Some p <-> exists f, (opening f = e_code e /\ closes (e_code p) f) \/ (opening f = e_code p /\ closes (e_code e) f).
Proof.
  intros e p. split.
  - intros H. destruct e; try discriminate H; injection H as <-.
    1,2: exists (FStruct []); cbn; tauto.
    1,2: exists (FDict []); cbn; tauto.
  - intros (f & [[A B]|[A B]]); destruct f; cbn in B; try contradiction.
    all: assert (A' := A); assert (B' := B).
    all: assert (C : forall x y, e_code x = e_code y -> x = y)
      by (intros x y X; pose proof (proj2 (proj1 element_codes (e_code x) x) eq_refl) as P;
          rewrite X, (proj2 (proj1 element_codes (e_code y) y) eq_refl) in P; congruence).
    + rewrite (C e EStructOpen) by (symmetry; exact A). now rewrite (C p EStructClose) by exact B.
    + rewrite (C e EDictOpen) by (symmetry; exact A). now rewrite (C p EDictClose) by exact B.
    + rewrite (C p EStructOpen) by (symmetry; exact A). now rewrite (C e EStructClose) by exact B.
    + rewrite (C p EDictOpen) by (symmetry; exact A). now rewrite (C e EDictClose) by exact B.
Qed.

(** For every type that starts with the element: its alignment in DVar, and, if
    the element is the whole type or an array or maybe, whether its size is fixed.
    It tells handles, variants (which alone are aligned less than what they may
    hold) and containers with a closing element.  If it is the whole type: the
    sizes and the alignment in GVar. *)
Theorem element_types : forall e t rest, print t = e_code e :: rest ->
  2 ^ e_dvar_alignment_exp e = 2 ^ dvar_align t /\
  (e_all e FLAG_DYNAMIC = true -> dynamic t = true) /\
  (e_all e FLAG_DYNAMIC = false -> dynamic t = true -> exists ms, inner t = Some ms) /\
  (e_all e FLAG_DVAR_UNSUPPORTED = true <-> exists u, t = TMaybe u) /\
  (e_all e FLAG_HANDLE = true <-> t = TBasic BHandle) /\
  (e_all e FLAG_VARIANT = true <-> t = TVariant) /\
  (e_all e FLAG_DVAR_MISALIGNED = true <-> t = TVariant) /\
  (e_all e FLAG_DICT = true <-> exists ms, inner t = Some ms) /\
  (rest = [] -> e_dvar_size e = dvar_size t /\ e_gvar_size e = gvar_size t /\ e_gvar_alignment_exp e = gvar_align t).
Proof.
  intros e t rest E.
  assert (C : e = match t with
                  | TBasic b => match b with
                      | BByte => EU8 | BUint16 => EU16 | BInt16 => EI16 | BUint32 => EU32 | BInt32 => EI32
                      | BUint64 => EU64 | BInt64 => EI64 | BDouble => EF64 | BBoolean => EBool
                      | BString => EString | BObjectPath => EObject | BSignature => ESignature | BHandle => EHandle end
                  | TVariant => EVariant | TArray _ => EArray | TMaybe _ => EMaybe
                  | TStruct _ => EStructOpen | TDict _ _ => EDictOpen end).
  { destruct e, t as [[]| | | | |]; try reflexivity; discriminate E. }
  assert (R : forall u, print u <> []) by (intros [[]| | | | |]; discriminate).
  subst e. destruct t as [b| |u|u|ms|k v].
  - destruct b; cbn; repeat split; intros; try discriminate; try congruence; destruct H; discriminate.
  - cbn; repeat split; intros; try discriminate; try congruence; destruct H; discriminate.
  - injection E as E. cbn; repeat split; intros; try discriminate; try congruence; try (destruct H; discriminate); exfalso; eapply R; congruence.
  - injection E as E. cbn; repeat split; intros; try discriminate; try congruence; eauto; try (destruct H; discriminate); exfalso; eapply R; congruence.
  - injection E as E. cbn; repeat split; intros; try discriminate; try congruence; eauto; try (destruct H; discriminate);
      exfalso; subst rest; destruct (flat_map print ms); discriminate.
  - injection E as E. cbn; repeat split; intros; try discriminate; try congruence; eauto; try (destruct H; discriminate);
      exfalso; subst rest; discriminate.
Qed.

(** The flags that can be asked for. *)
Definition public_flags : list N :=
  [FLAG_PREFIX; FLAG_OPEN; FLAG_CLOSE; FLAG_BASIC; FLAG_DYNAMIC; FLAG_VARIANT; FLAG_HANDLE; FLAG_DICT;
   FLAG_DVAR_UNSUPPORTED; FLAG_DVAR_MISALIGNED].
(** Several flags in one mask. *)
Definition mask (fs : list N) : N := fold_right N.lor 0 fs.
(** Asking for several flags at once is asking for each. *)
Theorem element_masks : forall e fs, incl fs public_flags ->
  (e_all e (mask fs) = true <-> forall f, In f fs -> e_all e f = true) /\
  (e_any e (mask fs) = true <-> exists f, In f fs /\ e_all e f = true).
Proof.
  intros e fs I.
  assert (B : forall f, In f fs -> exists k, f = 2 ^ k).
  { intros f F. apply I in F. cbn in F.
    repeat (destruct F as [<-|F]; [match goal with |- exists k, ?x = _ => exists (N.log2 x); reflexivity end|]). destruct F. }
  assert (ALL : forall w m, fs_all w m = true <-> forall i, N.testbit m i = true -> N.testbit w i = true).
  { intros w m. unfold fs_all. rewrite N.eqb_eq. split.
    - intros H i Hi. rewrite <- H, N.land_spec in Hi. now apply andb_prop in Hi.
    - intros H. apply N.bits_inj. intros i. rewrite N.land_spec. destruct (N.testbit m i) eqn:X.
      + now rewrite H.
      + apply andb_false_r. }
  assert (BITS : forall l, (forall f, In f l -> exists k, f = 2 ^ k) ->
            forall i, N.testbit (mask l) i = true <-> In (2 ^ i) l).
  { induction l as [|f l IH]; intros H i; cbn.
    - split; [discriminate|easy].
    - rewrite N.lor_spec, orb_true_iff, IH by (intros; apply H; now right).
      destruct (H f (or_introl eq_refl)) as (k & ->). rewrite N.pow2_bits_eqb, N.eqb_eq.
      split; (intros [X|X]; [left|now right]).
      + now rewrite X.
      + apply N.pow_inj_r in X; [exact X|lia]. }
  assert (ONE : forall k w, fs_all w (2 ^ k) = N.testbit w k).
  { intros k w. apply Bool.eq_iff_eq_true. rewrite ALL. split.
    - intros H. apply H. rewrite N.pow2_bits_eqb. apply N.eqb_refl.
    - intros H i Hi. rewrite N.pow2_bits_eqb in Hi. apply N.eqb_eq in Hi. now subst. }
  unfold e_all, e_any. split.
  - rewrite ALL. split.
    + intros H f F. destruct (B f F) as (k & ->). rewrite ONE. apply H, BITS; auto.
    + intros H i Hi. rewrite <- ONE. apply H, BITS; auto.
  - unfold fs_any. rewrite negb_true_iff, N.eqb_neq. split.
    + intros H. assert (X : exists i, N.testbit (N.land (e_word e) (mask fs)) i = true).
      { exists (N.log2 (N.land (e_word e) (mask fs))). now apply N.bit_log2. }
      destruct X as (i & X). rewrite N.land_spec in X. apply andb_prop in X as (X & Y).
      exists (2 ^ i). rewrite ONE. split; [apply BITS; auto|exact X].
    + intros (f & F & H) Z. destruct (B f F) as (k & ->). rewrite ONE in H.
      assert (Y : N.testbit (mask fs) k = true) by (apply BITS; auto).
      assert (T : N.testbit (N.land (e_word e) (mask fs)) k = true) by (rewrite N.land_spec, H, Y; reflexivity).
      now rewrite Z, N.bits_0 in T.
Qed.

Example element_case :
  print (TStruct [TArray (TBasic BHandle)]) = e_code EStructOpen :: [97; 104; 41] /\
  e_all EString (mask [FLAG_BASIC; FLAG_DYNAMIC]) = true /\ e_all EU8 (mask [FLAG_BASIC; FLAG_DYNAMIC]) = false /\
  e_any EU8 (mask [FLAG_BASIC; FLAG_DYNAMIC]) = true /\ incl [FLAG_BASIC; FLAG_DYNAMIC] public_flags.
Proof. repeat split. intros x [<-|[<-|[]]]; cbn; tauto. Qed.

Print Assumptions element_codes.
Print Assumptions element_ids.
Print Assumptions element_text.
Print Assumptions element_positions.
Print Assumptions element_pairs.
Print Assumptions element_types.
Print Assumptions element_masks.
