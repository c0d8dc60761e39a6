(** C134: signatures mark the types of which the wire format depends on the position. *)
From Verif Require Import Base DbusSpec DbusSigModel DbusSigAnnot DbusSigTheory DbusSigProofs DbusSigRefine DbusObs DbusSigResults DbusSigProps DvarModel DvarSpec DvarFixed DvarAlign.
Local Open Scope N_scope.

(** ** C134 *)

(** A type depends on the position when some value of it has different bytes at two
    positions, although both are aligned as the type demands (so that there is no
    padding before the value). *)
Definition aligned (t : ty) (pos : N) : Prop := pos mod 2 ^ dvar_align t = 0.
Definition position_dependent (t : ty) : Prop := exists big v p q b c,
  aligned t p /\ aligned t q /\ marshal big t v p = Some b /\ marshal big t v q = Some c /\ b <> c.

(** A type that the signature does not mark has, at each aligned position, the bytes
    it has when it is written alone: it can be cached, moved and compared as such. *)
Theorem dvar_unmarked_anywhere : forall fuel T sg fs t f, sig_new fuel (print T) = Ok (inr sg) -> occurs T fs t ->
  node_flags sg (index fs) = Ok (Some f) -> f_dvar_misaligned f = false ->
  forall big v pos, aligned t pos -> marshal big t v pos = marshal big t v 0.
Proof.
  intros fuel T sg fs t f S O G M big v pos A. destruct (mis_flag fuel T sg fs t S O) as (f' & G' & _ & M').
  rewrite G in G'. injection G' as <-. rewrite M in M'.
  apply N.mod_divide in A; [|apply N.pow_nonzero; discriminate]. destruct A as [k ->].
  destruct (r_mis t) eqn:R.
  - assert (D : dvar_align t = 3). { destruct fs; [discriminate|]. symmetry in M'. apply N.ltb_ge in M'. pose proof (align_up_to t). lia. }
    rewrite D. pose proof (shifting big v t 0 k) as Q. rewrite N.mul_comm. exact Q.
  - pose proof (unmarked big t R v 0 k) as Q. exact Q.
Qed.
Print Assumptions dvar_unmarked_anywhere.

Lemma never_eight t : dvar_align t = 3 -> ~ position_dependent t.
Proof.
  intros D (big & v & p & q & b & c & P & Q & B & C & X). unfold aligned in *. rewrite D in *.
  apply N.mod_divide in P; [|discriminate]. apply N.mod_divide in Q; [|discriminate]. destruct P as [k ->], Q as [j ->].
  pose proof (shifting big v t 0 k) as K. pose proof (shifting big v t 0 j) as J. cbn [N.add] in K, J. change (2 ^ 3) with 8 in *.
  rewrite N.mul_comm in B, C. congruence.
Qed.
Lemma depends_iff t : r_uns t = false -> len t < 2 ^ 29 -> position_dependent t <-> r_mis t && (dvar_align t <? 3) = true.
Proof.
  intros U L. split.
  - intros D. destruct (N.ltb_spec (dvar_align t) 3) as [A|A]; [|exfalso; apply (never_eight t); [pose proof (align_up_to t); lia|exact D]].
    rewrite andb_true_r. destruct (r_mis t) eqn:R; [reflexivity|exfalso].
    destruct D as (big & v & p & q & b & c & P & Q & B & C & X). unfold aligned in *.
    apply N.mod_divide in P; [|apply N.pow_nonzero; discriminate]. apply N.mod_divide in Q; [|apply N.pow_nonzero; discriminate]. destruct P as [k ->], Q as [j ->].
    pose proof (unmarked big t R v 0 k) as K. pose proof (unmarked big t R v 0 j) as J. cbn [N.add] in K, J. congruence.
  - intros H. apply andb_prop in H. destruct H as [R A]. apply N.ltb_lt in A.
    destruct (marked false t R U A L) as (v & b & c & B & C & X & _). exists false, v, 0, 4, b, c. unfold aligned.
    split; [apply N.mod_0_l, N.pow_nonzero; discriminate|]. split; [|auto].
    destruct (four (dvar_align t) ltac:(lia)) as [k ->]. apply N.mod_mul, N.pow_nonzero; discriminate.
Qed.

(** Within a signature, and for whole signatures that are not structures or dictionary
    entries, the mark tells exactly the types that depend on the position. (The wire
    format has no values for types marked as unsupported by it. The bound excludes
    types of which each value with an array may be larger than arrays can be.)
    Missing: a signature that is one structure or dictionary entry as a whole. There
    the mark tells something else, see the two theorems below. *)
Theorem dvar_marked_exactly_partial : forall fuel T sg fs t f, sig_new fuel (print T) = Ok (inr sg) -> occurs T fs t ->
  fs <> [] \/ dvar_align t < 3 -> node_flags sg (index fs) = Ok (Some f) -> f_dvar_unsupported f = false ->
  size (print t) < 2 ^ 29 -> (f_dvar_misaligned f = true <-> position_dependent t).
Proof.
  intros fuel T sg fs t f S O W G U L. destruct (mis_flag fuel T sg fs t S O) as (f' & G' & U' & M').
  rewrite G in G'. injection G' as <-. rewrite depends_iff by (congruence || exact L). rewrite M'.
  destruct fs; [|reflexivity]. destruct W as [W|W]; [congruence|]. rewrite (proj2 (N.ltb_lt _ _) W). reflexivity.
Qed.
Print Assumptions dvar_marked_exactly_partial.

(** A signature that is one structure is marked if and only if one of its members
    depends on the position. *)
Theorem dvar_marked_structure : forall fuel ms sg f, sig_new fuel (print (TStruct ms)) = Ok (inr sg) ->
  node_flags sg 0 = Ok (Some f) -> f_dvar_unsupported f = false -> size (print (TStruct ms)) < 2 ^ 29 ->
  (f_dvar_misaligned f = true <-> exists m, In m ms /\ position_dependent m).
Proof.
  intros fuel ms sg f S G U L. destruct (mis_flag fuel _ sg [] _ S (occ_root _)) as (f' & G' & U' & M').
  change (index []) with 0 in G'. rewrite G in G'. injection G' as <-. rewrite andb_true_r in M'. rewrite M'. rewrite U in U'.
  cbn [r_uns] in U'. cbn [r_mis].
  assert (Z : forall m, In m ms -> r_uns m = false /\ len m < 2 ^ 29).
  { intros m I. split.
    - destruct (r_uns m) eqn:R; [|reflexivity]. symmetry in U'. rewrite <- U'. symmetry. apply existsb_exists. exists m. auto.
    - fold (len (TStruct ms)) in L. apply in_split in I. destruct I as (x & y & ->). rewrite len_struct, lens_app, lens_cons in L. lia. }
  rewrite existsb_exists. split; intros (m & I & H); exists m; (split; [exact I|]); destruct (Z m I) as [Z1 Z2]; apply (depends_iff m Z1 Z2); exact H.
Qed.
Print Assumptions dvar_marked_structure.

(** So the mark does not tell the types that depend on the position: the signature
    ["(v)"] is marked, though structures are aligned to 8 bytes. And two equal signatures
    differ in it: the one taken out of ["a(v)"] is not marked. *)
Theorem dvar_marked_exactly_refuted : exists sg f whole sub g,
  sig_new 0 (print (TStruct [TVariant])) = Ok (inr sg) /\ node_flags sg 0 = Ok (Some f) /\
  f_dvar_unsupported f = false /\ f_dvar_misaligned f = true /\ ~ position_dependent (TStruct [TVariant]) /\
  sig_new 0 (print (TArray (TStruct [TVariant]))) = Ok (inr whole) /\ c_sub (mkCursor whole 1) = Ok (Some sub) /\
  sig_eq sub sg = Ok true /\ node_flags sub 0 = Ok (Some g) /\ f_dvar_misaligned g = false.
Proof.
  do 5 eexists. split; [vm_compute; reflexivity|]. split; [vm_compute; reflexivity|]. split; [reflexivity|]. split; [reflexivity|].
  split; [apply never_eight; reflexivity|]. split; [vm_compute; reflexivity|]. split; [vm_compute; reflexivity|].
  split; [vm_compute; reflexivity|]. split; [vm_compute; reflexivity|]. reflexivity.
Qed.
Print Assumptions dvar_marked_exactly_refuted.

(** An array of variants is marked, an array of strings is not; both occur in
    ["(avas)"]. *)
Example dvar_marked_case : exists sg f g, sig_new 0 (print (TStruct [TArray TVariant; TArray (TBasic BString)])) = Ok (inr sg) /\
  occurs (TStruct [TArray TVariant; TArray (TBasic BString)]) [FStruct []] (TArray TVariant) /\
  occurs (TStruct [TArray TVariant; TArray (TBasic BString)]) [FStruct [TArray TVariant]] (TArray (TBasic BString)) /\
  node_flags sg (index [FStruct []]) = Ok (Some f) /\ f_dvar_misaligned f = true /\ f_dvar_unsupported f = false /\
  node_flags sg (index [FStruct [TArray TVariant]]) = Ok (Some g) /\ f_dvar_misaligned g = false.
Proof.
  do 3 eexists. split; [vm_compute; reflexivity|].
  split; [exact (occ_struct _ [] [] _ [_] (occ_root _))|]. split; [exact (occ_struct _ [] [_] _ [] (occ_root _))|].
  split; [vm_compute; reflexivity|]. split; [reflexivity|]. split; [reflexivity|]. split; [vm_compute; reflexivity|]. reflexivity.
Qed.
