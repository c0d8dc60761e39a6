(** Properties of the D-Bus encoder: C126. *)
From Verif Require Import Base DbusSpec DbusSigModel IoMapModel IoMapSpec IoMapProofs IoMapProps DvarModel DvarSpec DvarTyping DvarSubs DvarProofs DvarEncode DvarProps DvarLossSpec DvarLoss.
Local Open Scope N_scope.

(** ** C126: different values are written differently. *)

(** An encoder of a type got calls, on any writer and with any outcomes, and was
    then committed.  Those that count describe the value [v], and [a] is
    the output. *)
Definition wrote {W} (I : Write W) (fmt : Format) (t : ty) (v : value) (a : out W) : Prop :=
  exists fuel o sg e0 l e e' cs,
    bounded I /\ sig_new fuel (print t) = Ok (inr sg) /\ enc_new sg fmt o = Ok e0 /\
    history I e0 l e /\ inside 0 (succeeded l) = true /\ Forall call_fits (succeeded l) /\
    enc_call I e CCommit = Ok (Continue tt, e') /\ counts (succeeded l) cs /\ encodes t v cs /\ a = e_out e'.

(** The wire format of one value does not begin with that of another one of the
    same type, except for the number of elements of arrays whose elements have no
    bytes: it is the same if and only if the values differ in no more. *)
Theorem dvar_distinct_bytes : forall big t pos v v' b b',
  marshal big t v pos = Some b -> marshal big t v' pos = Some b' ->
  ((exists r r', b ++ r = b' ++ r') <-> kept t v = kept t v') /\ (kept t v = kept t v' <-> b = b').
Proof.
  intros big t pos v v' b b' E E'. split; split.
  - intros [r [r' H]]. exact (proj1 (tells big v v' t pos b b' r r' E E' H)).
  - intros K. exists [], []. now rewrite (kins big v v' t pos b b' E E' K).
  - intros K. exact (kins big v v' t pos b b' E E' K).
  - intros ->. exact (proj1 (tells big v v' t pos b' b' [] [] E E' eq_refl)).
Qed.
Print Assumptions dvar_distinct_bytes.
(** Nothing is left a where there are no structures of nothing. *)
Theorem dvar_solid_kept : forall big t v pos b,
  marshal big t v pos = Some b -> solid t = true -> solid_variants v -> kept t v = v.
Proof. intros big t v pos b. apply keeps. Qed.
Print Assumptions dvar_solid_kept.

(** The same calls never describe two values of a type, nor do calls go on to
    describe another one. *)
Theorem dvar_calls_one_value : forall t v v' cs more,
  encodes t v cs -> encodes t v' (cs ++ more) -> v = v' /\ more = [].
Proof.
  intros t v v' cs more H H'. destruct (encodes_functional t v cs H v' _ more [] H' ltac:(now rewrite app_nil_r)) as [-> E].
  split; [reflexivity|]. rewrite <- (app_nil_r cs) in E at 1. now apply app_inv_head in E.
Qed.
Print Assumptions dvar_calls_one_value.

(** Two encoders of the same type and byte order, on any two writers, were
    committed: if the second writer starts with the bytes of the first value, then
    the values were the same.  Not for structures of nothing, see below. *)
Theorem dvar_lossless_partial : forall W W' (I : Write W) (I' : Write W') fmt t v v' a a' b,
  wrote I fmt t v a -> wrote I' fmt t v' a' ->
  marshal (big_endian fmt) t v 0 = Some b -> (forall k, k < size b -> o_mem a k = o_mem a' k) ->
  kept t v = kept t v' /\ (solid t = true -> solid_variants v -> solid_variants v' -> v = v').
Proof.
  assert (G : forall W (I : Write W) fmt t v a, wrote I fmt t v a ->
    exists b, marshal (big_endian fmt) t v 0 = Some b /\ forall k x, nth_error b k = Some x -> o_mem a (N.of_nat k) = Some x).
  { intros W I fmt t v a (fuel & o & sg & e0 & l & e & e' & cs & HB & ES & EN & HH & HI & HF & EC & HC & HE & ->).
    destruct (dvar_committed_bytes W I fuel fmt o t sg e0 l e e' HB ES EN HH HI HF EC) as (cs2 & v2 & b & w & C2 & E2 & M & _ & _ & X).
    rewrite (proj1 dvar_counting _ _ _ HC C2) in HE. destruct (dvar_calls_one_value t v v2 cs2 [] HE ltac:(now rewrite app_nil_r)) as [-> _].
    exists b. auto. }
  intros W W' I I' fmt t v v' a a' b C C' M A.
  destruct (G _ _ _ _ _ _ C) as [b1 [M1 X]]. rewrite M in M1. injection M1 as <-. destruct (G _ _ _ _ _ _ C') as [b' [M' X']].
  assert (K : kept t v = kept t v').
  { assert (P : forall (b b' : list N), (forall k x x', nth_error b k = Some x -> nth_error b' k = Some x' -> x = x') -> exists r r', b ++ r = b' ++ r').
    { clear. induction b as [|x b IH]; intros b' H; [exists b', []; now rewrite app_nil_r|]. destruct b' as [|x' b']; [exists [], (x :: b); now rewrite app_nil_r|].
      destruct (IH b' (fun k => H (S k))) as [r [r' E]]. exists r, r'. cbn. rewrite E. f_equal. exact (H 0%nat x x' eq_refl eq_refl). }
    apply (proj1 (proj1 (dvar_distinct_bytes _ _ _ _ _ _ _ M M'))). apply P. intros k x x' H H'.
    pose proof (X k x H) as Y. pose proof (X' k x' H') as Y'. rewrite <- (A (N.of_nat k)) in Y'; [congruence|].
    assert (k < length b)%nat by (apply nth_error_Some; congruence). unfold size. lia. }
  split; [exact K|]. intros S V V'. rewrite (keeps _ v t _ _ M S V), (keeps _ v' t _ _ M' S V') in K. exact K.
Qed.
Print Assumptions dvar_lossless_partial.


(** An encoder of arrays of structures without members is committed to vectors with
    the same bytes, once after one element and once after two. *)
Theorem dvar_lossless_refuted : exists t a a' b,
  wrote (vec_write (fun c => c)) DVarLe t (VArray [VStruct []]) a /\
  wrote (vec_write (fun c => c)) DVarLe t (VArray [VStruct []; VStruct []]) a' /\
  marshal false t (VArray [VStruct []]) 0 = Some b /\ vec_contents a = map Some b /\ vec_contents a' = map Some b.
Proof.
  assert (B : bounded (vec_write (fun c => c))) by apply vec_bounded.
  exists (TArray (TStruct [])). eexists. eexists. exists (map (fun _ => 0) (seq 0 8)). split; [|split].
  - exists 10%nat, (vec_of [] 0). do 2 eexists. exists (map (fun c => (c, Continue tt)) (describe (VArray [VStruct []]))). do 3 eexists.
    split; [exact B|]. split; [vm_compute; reflexivity|]. split; [vm_compute; reflexivity|]. split.
    { repeat (eapply his_cons; [exact Logic.I|vm_compute; reflexivity|]). apply his_nil. }
    split; [reflexivity|]. split; [repeat constructor|]. split; [vm_compute; reflexivity|].
    split; [apply dvar_counting; repeat constructor|]. split; [|reflexivity].
    refine (dvar_describes false (TArray (TStruct [])) (VArray [VStruct []]) 0 (map (fun _ => 0) (seq 0 8)) _). vm_compute. reflexivity.
  - exists 10%nat, (vec_of [] 0). do 2 eexists. exists (map (fun c => (c, Continue tt)) (describe (VArray [VStruct []; VStruct []]))). do 3 eexists.
    split; [exact B|]. split; [vm_compute; reflexivity|]. split; [vm_compute; reflexivity|]. split.
    { repeat (eapply his_cons; [exact Logic.I|vm_compute; reflexivity|]). apply his_nil. }
    split; [reflexivity|]. split; [repeat constructor|]. split; [vm_compute; reflexivity|].
    split; [apply dvar_counting; repeat constructor|]. split; [|reflexivity].
    refine (dvar_describes false (TArray (TStruct [])) (VArray [VStruct []; VStruct []]) 0 (map (fun _ => 0) (seq 0 8)) _). vm_compute. reflexivity.
  - split; [vm_compute; reflexivity|]. split; vm_compute; reflexivity.
Qed.
Print Assumptions dvar_lossless_refuted.
(** A writer that fails now and then, and a vector: the same bytes. *)
Example dvar_lossless_case : exists t v a a' b,
  wrote flaky DVarLe t v a /\ wrote (vec_write (fun c => c)) DVarLe t v a' /\ marshal false t v 0 = Some b /\
  map (o_mem a) (map N.of_nat (seq 0 8)) = map Some b /\ vec_contents a' = map Some b /\ size b = 8 /\
  solid t = true /\ solid_variants v.
Proof.
  exists (TArray (TBasic BUint16)), (VArray [VU16 5; VU16 6]). eexists. eexists. exists [4; 0; 0; 0; 5; 0; 6; 0]. split; [|split].
  - exists 0%nat, (mkOut 1 (fun _ => Some 99)). do 2 eexists.
    exists [(CArray, Break None); (CArray, Continue tt); (CU16 5, Continue tt); (CU32 1, Break (Some Mismatch));
      (CClose, Break None); (CU16 6, Continue tt); (CClose, Continue tt)]. do 3 eexists. split.
    { intros w idx len k w' H. cbn in H. destruct ((w =? 3) || (w =? 12)); [discriminate|]. injection H as <- _. lia. }
    split; [vm_compute; reflexivity|]. split; [vm_compute; reflexivity|]. split.
    { repeat (eapply his_cons; [exact Logic.I|vm_compute; reflexivity|]). apply his_nil. }
    split; [reflexivity|]. split; [repeat constructor|]. split; [vm_compute; reflexivity|].
    split; [apply dvar_counting; repeat constructor|]. split; [|reflexivity].
    refine (dvar_describes false (TArray (TBasic BUint16)) (VArray [VU16 5; VU16 6]) 0 [4; 0; 0; 0; 5; 0; 6; 0] _). vm_compute. reflexivity.
  - exists 0%nat, (vec_of [] 0). do 2 eexists. exists (map (fun c => (c, Continue tt)) (describe (VArray [VU16 5; VU16 6]))). do 3 eexists.
    split; [apply vec_bounded|]. split; [vm_compute; reflexivity|]. split; [vm_compute; reflexivity|]. split.
    { repeat (eapply his_cons; [exact Logic.I|vm_compute; reflexivity|]). apply his_nil. }
    split; [reflexivity|]. split; [repeat constructor|]. split; [vm_compute; reflexivity|].
    split; [apply dvar_counting; repeat constructor|]. split; [|reflexivity].
    refine (dvar_describes false (TArray (TBasic BUint16)) (VArray [VU16 5; VU16 6]) 0 [4; 0; 0; 0; 5; 0; 6; 0] _). vm_compute. reflexivity.
  - split; [vm_compute; reflexivity|]. split; [vm_compute; reflexivity|]. split; [vm_compute; reflexivity|]. split; [reflexivity|]. split; [reflexivity|].
    cbn. auto.
Qed.
(** Two values that differ in an array of no bytes within a variant, and two that
    differ in an integer. *)
Example dvar_kept_case :
  kept TVariant (VVariant (TArray (TStruct [])) (VArray [VStruct []])) = kept TVariant (VVariant (TArray (TStruct [])) (VArray [])) /\
  kept TVariant (VVariant (TBasic BUint16) (VU16 1)) <> kept TVariant (VVariant (TBasic BUint16) (VU16 2)) /\
  marshal false TVariant (VVariant (TArray (TStruct [])) (VArray [VStruct []])) 0 = Some [3; 97; 40; 41; 0; 0; 0; 0; 0; 0; 0; 0; 0; 0; 0; 0] /\
  marshal false TVariant (VVariant (TArray (TStruct [])) (VArray [])) 0 = Some [3; 97; 40; 41; 0; 0; 0; 0; 0; 0; 0; 0; 0; 0; 0; 0].
Proof. split; [reflexivity|]. split; [discriminate|]. split; vm_compute; reflexivity. Qed.
