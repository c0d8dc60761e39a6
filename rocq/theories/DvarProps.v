(** Properties of the D-Bus encoder: C23, C25 and C92. *)
From Verif Require Import Base DbusSpec DbusSigModel IoMapModel IoMapSpec IoMapProofs IoMapProps DvarModel DvarSpec DvarEncode DvarBig DvarTyping DvarTypingProofs DvarSound DvarSubs.
Local Open Scope N_scope.

(** ** C23: encoding is the wire format. *)

(** The calls that describe a value, made on an encoder for its type, succeed on
    every writer that serves the bytes, write exactly the wire format of the
    value, and commit its length.  Not for contained variants whose type has
    more than 31 elements, see below. *)
Theorem dvar_encodes_partial : forall W (I : Write W) P limit fuel fmt o sg t v cs b,
  serving I P limit -> bounded I -> limit < usize -> P (o_w o) ->
  sig_new fuel (print t) = Ok (inr sg) -> encodes t v cs -> variants_up_to 31 v ->
  marshal (big_endian fmt) t v 0 = Some b -> size b <= limit ->
  exists e e', enc_new sg fmt o = Ok e /\ enc_calls I e cs = Ok (Continue tt, e') /\
    P (o_w (e_out e')) /\ written (o_mem o) 0 b (o_mem (e_out e')) /\
    forall w, w_commit I (o_w (e_out e')) (size b) = Ok w ->
    exists e'', enc_call I e' CCommit = Ok (Continue tt, e'') /\ e_out e'' = mkOut w (o_mem (e_out e')).
Proof. exact encoded. Qed.
Print Assumptions dvar_encodes_partial.
(** Into an empty vector. *)
Theorem dvar_encodes_vec_partial : forall grow extra fuel fmt sg t v cs b,
  extra <= isize_max -> sig_new fuel (print t) = Ok (inr sg) -> encodes t v cs -> variants_up_to 31 v ->
  marshal (big_endian fmt) t v 0 = Some b -> size b <= isize_max ->
  exists e e', enc_new sg fmt (vec_of [] extra) = Ok e /\
    enc_calls (vec_write grow) e (cs ++ [CCommit]) = Ok (Continue tt, e') /\ vec_contents (e_out e') = map Some b.
Proof. exact encoded_vec. Qed.
Print Assumptions dvar_encodes_vec_partial.

(** Every value of a type has such calls. *)
Theorem dvar_describes : forall big t v pos b, marshal big t v pos = Some b -> encodes t v (describe v).
Proof. intros big t v pos b. exact (describes big v t pos b). Qed.
Print Assumptions dvar_describes.

(** A value of type a{s(qv)} with one entry and a variant in it. *)
Definition ex_type : ty := TArray (TDict BString (TStruct [TBasic BUint16; TVariant])).
Definition ex_value : value :=
  VArray [VDict (VString [97; 98]) (VStruct [VU16 258; VVariant (TArray (TBasic BUint32)) (VArray [VU32 7])])].
Definition ex_bytes : list N :=
  [24; 0; 0; 0;  0; 0; 0; 0;  2; 0; 0; 0;  97; 98; 0; 0;  2; 1; 2; 97;  117; 0; 0; 0;  4; 0; 0; 0;  7; 0; 0; 0].
Example ex_marshal : marshal false ex_type ex_value 0 = Some ex_bytes.
Proof. vm_compute. reflexivity. Qed.
Example ex_calls : describe ex_value =
  [CArray; CDict; CString [97; 98]; CStructure; CU16 258; CVariant [97; 117]; CArray; CU32 7;
   CClose; CClose; CClose; CClose; CClose].
Proof. reflexivity. Qed.
Example ex_encodes : encodes ex_type ex_value (describe ex_value) /\ variants_up_to 31 ex_value.
Proof. split; [exact (describes _ _ _ _ _ ex_marshal)|]. vm_compute. intuition discriminate. Qed.
(** With a sub-encoder. *)
Example ex_sub : encodes (TArray (TBasic BUint32)) (VArray [VU32 7]) [CArray; CEnc; CU32 7; CCommit; CDrop; CClose].
Proof.
  refine (enc_as_array _ [_] [CEnc; CU32 7; CCommit; CDrop] _).
  refine (enc_as_cons _ _ _ _ (CEnc :: [CU32 7] ++ [CCommit; CDrop]) [] _ _); constructor. constructor.
Qed.

(** Exactly the values without such variants are encoded: the calls that describe
    a value of at most [limit] bytes succeed if and only if the types of all
    contained variants have at most 31 elements. *)
Theorem dvar_encodes_exactly_partial : forall W (I : Write W) P limit fuel fmt o sg t v cs b,
  serving I P limit -> bounded I -> limit < usize -> P (o_w o) ->
  sig_new fuel (print t) = Ok (inr sg) -> encodes t v cs ->
  marshal (big_endian fmt) t v 0 = Some b -> size b <= limit ->
  exists e, enc_new sg fmt o = Ok e /\
    ((exists e', enc_calls I e cs = Ok (Continue tt, e')) <-> variants_up_to 31 v).
Proof. exact encoded_exactly. Qed.
Print Assumptions dvar_encodes_exactly_partial.
(** Whatever the writer, the encoder and its history: a variant of a type with
    more than 31 elements is never begun, and with more than 42 elements the
    call is rejected without effect. *)
Theorem dvar_big_variant : forall W (I : Write W) e u, 31 < size (print u) ->
  (forall e', enc_call I e (CVariant (print u)) <> Ok (Continue tt, e')) /\
  (42 < size (print u) -> forall r e', enc_call I e (CVariant (print u)) = Ok (r, e') ->
     e' = e /\ (r = Break (Some Mismatch) \/ r = Break (Some DataOverflow))).
Proof.
  intros W I e u L. split; [intros e'; exact (variant_never I e u e' L)|].
  intros L' r e'. exact (variant_overflow I e u L' r e').
Qed.
Print Assumptions dvar_big_variant.

(** A variant of a type with 32 elements, a structure of 30 integers, cannot be
    written: the call panics. *)
Theorem dvar_variant_panics_refuted : exists t v b sg e, marshal false t v 0 = Some b /\
  sig_new 0 (print t) = Ok (inr sg) /\ enc_new sg DVarLe (vec_of [] 0) = Ok e /\
  enc_calls (vec_write (fun c => c)) e (describe v) = Panic.
Proof.
  exists TVariant, (VVariant (TStruct (repeat (TBasic BUint16) 30)) (VStruct (repeat (VU16 1) 30))).
  do 3 eexists. split; [vm_compute; reflexivity|]. split; [vm_compute; reflexivity|].
  split; [vm_compute; reflexivity|]. vm_compute. reflexivity.
Qed.
Print Assumptions dvar_variant_panics_refuted.
(** With 43 elements or more an overflow is reported, though signatures of up to
    255 elements fit the format. *)
Theorem dvar_variant_overflow_refuted : exists t v b sg e e', marshal false t v 0 = Some b /\
  sig_new 0 (print t) = Ok (inr sg) /\ enc_new sg DVarLe (vec_of [] 0) = Ok e /\
  enc_calls (vec_write (fun c => c)) e (describe v) = Ok (Break (Some DataOverflow), e').
Proof.
  exists TVariant, (VVariant (TStruct (repeat (TBasic BUint16) 41)) (VStruct (repeat (VU16 1) 41))).
  do 4 eexists. split; [vm_compute; reflexivity|]. split; [vm_compute; reflexivity|].
  split; [vm_compute; reflexivity|]. vm_compute. reflexivity.
Qed.
Print Assumptions dvar_variant_overflow_refuted.
(** A vector that holds bytes already: they are overwritten, and uninitialised
    bytes are committed at the end. *)
Theorem dvar_encodes_vec_refuted : exists t v b l sg e e', marshal false t v 0 = Some b /\
  sig_new 0 (print t) = Ok (inr sg) /\ enc_new sg DVarLe (vec_of l 0) = Ok e /\
  enc_calls (vec_write (fun c => c)) e (describe v ++ [CCommit]) = Ok (Continue tt, e') /\
  firstn (length l) (vec_contents (e_out e')) <> map Some l /\ In None (vec_contents (e_out e')).
Proof.
  exists (TBasic BUint16), (VU16 258), [2; 1], [7; 8; 9]. do 3 eexists.
  split; [reflexivity|]. split; [vm_compute; reflexivity|]. split; [vm_compute; reflexivity|].
  split; [vm_compute; reflexivity|]. split; [vm_compute; discriminate|]. vm_compute. tauto.
Qed.
Print Assumptions dvar_encodes_vec_refuted.

(** ** C25: mistyped calls. *)

(** Whatever calls are made on an encoder, including after errors, they succeed
    or are rejected as the machine of types (DvarTyping.v) says. *)
Theorem dvar_typed_history : forall W (I : Write W) fuel fmt o t sg e0 l e,
  sig_new fuel (print t) = Ok (inr sg) -> enc_new sg fmt o = Ok e0 ->
  history I e0 l e -> exists s, follows [([HSeq [t]], false)] l s.
Proof. exact @typed_history. Qed.
Print Assumptions dvar_typed_history.
(** After any calls, a call that the machine does not accept returns the error
    and changes nothing: not the encoder, its output or its position. *)
Theorem dvar_mistyped_no_effect : forall W (I : Write W) fuel fmt o t sg e0 l e s c,
  sig_new fuel (print t) = Ok (inr sg) -> enc_new sg fmt o = Ok e0 ->
  history I e0 l e -> follows [([HSeq [t]], false)] l s ->
  valid_call c -> (forall s', ~ accepts s c s') -> enc_call I e c = Ok (Break (Some (mistake c)), e).
Proof. exact @mistyped. Qed.
Print Assumptions dvar_mistyped_no_effect.
(** Calls that fail otherwise leave the encoder and its position unchanged, and
    have an effect on the output only. *)
Theorem dvar_failed_no_effect : forall W (I : Write W) fuel fmt o t sg e0 l e c b e',
  sig_new fuel (print t) = Ok (inr sg) -> enc_new sg fmt o = Ok e0 ->
  history I e0 l e -> valid_call c -> enc_call I e c = Ok (Break b, e') ->
  e_format e' = e_format e /\ e_top e' = e_top e /\ e_up e' = e_up e /\
  ((b = Some Mismatch \/ b = Some Pending) -> e' = e).
Proof. exact @failed_call. Qed.
Print Assumptions dvar_failed_no_effect.
(** A commit is final: after it, each further call on the encoder but dropping it
    leaves the encoder and its output as they are, and fails unless it is another
    commit. *)
Theorem dvar_commit_final : forall W (I : Write W) fuel fmt o t sg e0 l e e' l' e'',
  sig_new fuel (print t) = Ok (inr sg) -> enc_new sg fmt o = Ok e0 ->
  history I e0 l e -> enc_call I e CCommit = Ok (Continue tt, e') ->
  history I e' l' e'' -> ~ In CDrop (map fst l') ->
  e'' = e' /\ Forall (fun cr => snd cr = match fst cr with CCommit => Continue tt | _ => Break (Some Mismatch) end) l'.
Proof.
  intros W I fuel fmt o t sg e0 l e e' l' e'' Es En H Hc.
  assert (S : forall a b c d, history I a b c -> forall r, history I c d r -> history I a (b ++ d) r).
  { induction 1; cbn; intros ? Hr; [exact Hr|econstructor; eauto]. }
  assert (H1 : history I e0 (l ++ [(CCommit, Continue tt)]) e') by (eapply S; [exact H|econstructor; [exact Logic.I|exact Hc|constructor]]).
  destruct (dvar_typed_history _ _ _ _ _ _ _ _ _ _ Es En H1) as [s F].
  assert (F' : forall a b, follows a (l ++ [(CCommit, Continue tt)]) b -> exists up, b = ([HSeq []], false) :: up).
  { clear. induction l as [|x l IH]; cbn; intros a b F.
    - inversion F as [|? ? ? ? ? A G| |]; subst. inversion G; subst. inversion A; subst; eauto.
    - inversion F; subst; eauto. }
  destruct (F' _ _ F) as [up ->]. clear F' H.
  assert (A : forall c, valid_call c -> c <> CDrop -> c <> CCommit -> enc_call I e' c = Ok (Break (Some Mismatch), e')).
  { intros c V D C. replace Mismatch with (mistake c) by (destruct c; easy).
    refine (dvar_mistyped_no_effect _ _ _ _ _ _ _ _ _ _ _ _ Es En H1 F V _).
    intros s' X. inversion X; subst; cbn in *; congruence. }
  assert (B : enc_call I e' CCommit = Ok (Continue tt, e')).
  { clear - Hc. cbn [enc_call] in *. unfold enc_commit in *. destruct (idx_step (f_cursor (e_top e))) as [st| |] eqn:X; [|discriminate..].
    cbn [bind] in Hc. destruct st; [discriminate|]. destruct (f_stk (e_top e)) eqn:K; [|discriminate].
    destruct (f_link (e_top e)) eqn:L.
    - destruct (e_up e); [discriminate|]. injection Hc as <-. cbn. rewrite X. cbn. reflexivity.
    - destruct (f_done (e_top e)) eqn:D; cbn [negb] in Hc.
      + injection Hc as <-. rewrite X. cbn. rewrite K, L, D. reflexivity.
      + destruct (w_commit I _ _) as [w| |]; [|discriminate..]. injection Hc as <-. cbn. rewrite X. cbn. reflexivity. }
  clear Hc H1 F. induction l' as [|[c r] l' IH]; intros H N; inversion H as [|? ? ? e1 ? ? V E H']; subst; [split; [reflexivity|constructor]|].
  cbn in N. assert (X : e1 = e' /\ r = match c with CCommit => Continue tt | _ => Break (Some Mismatch) end).
  { destruct (ltac:(destruct c; (left; reflexivity) || (right; discriminate)) : c = CCommit \/ c <> CCommit) as [->|Nc].
    - rewrite B in E. injection E as <- <-. split; reflexivity.
    - rewrite (A c V ltac:(intros ->; apply N; left; reflexivity) Nc) in E. injection E as <- <-. split; [reflexivity|]. destruct c; congruence. }
  destruct X as [-> ->]. destruct (IH H' ltac:(tauto)) as [-> G]. split; [reflexivity|]. constructor; [reflexivity|exact G].
Qed.
Print Assumptions dvar_commit_final.
(** A vector to which nothing is added after a commit. *)
Example dvar_commit_final_example : exists sg e0 e e' l',
  sig_new 0 (print (TBasic BUint16)) = Ok (inr sg) /\ enc_new sg DVarLe (vec_of [] 0) = Ok e0 /\
  history (vec_write (fun c => c)) e0 [(CCommit, Break (Some Pending)); (CU16 5, Continue tt)] e /\
  enc_call (vec_write (fun c => c)) e CCommit = Ok (Continue tt, e') /\
  l' = [(CCommit, Continue tt); (CU16 6, Break (Some Mismatch)); (CClose, Break (Some Mismatch)); (CEnc, Break (Some Mismatch)); (CCommit, Continue tt)] /\
  history (vec_write (fun c => c)) e' l' e' /\ ~ In CDrop (map fst l') /\ vec_contents (e_out e') = [Some 5; Some 0].
Proof.
  do 5 eexists. split; [vm_compute; reflexivity|]. split; [vm_compute; reflexivity|]. split.
  { repeat (eapply his_cons; [exact Logic.I|vm_compute; reflexivity|]). apply his_nil. }
  split; [vm_compute; reflexivity|]. split; [reflexivity|]. split.
  { repeat (eapply his_cons; [exact Logic.I|vm_compute; reflexivity|]). apply his_nil. }
  split; [cbn; intuition discriminate|]. vm_compute. reflexivity.
Qed.
(** An encoder can be committed only after calls that describe a value, not counting
    those on sub-encoders that were dropped before they were committed. *)
Theorem dvar_committed_is_value : forall W (I : Write W) fuel fmt o t sg e0 cs e e',
  sig_new fuel (print t) = Ok (inr sg) -> enc_new sg fmt o = Ok e0 ->
  Forall valid_call cs -> inside 0 cs = true ->
  enc_calls I e0 cs = Ok (Continue tt, e) -> enc_call I e CCommit = Ok (Continue tt, e') ->
  exists m v, counts cs m /\ encodes t v m.
Proof. exact committed. Qed.
Print Assumptions dvar_committed_is_value.
(** A structure of an integer and an array: an array before the integer is
    rejected, and so is committing before the end. *)
Example dvar_typed_example : exists sg e0 e,
  sig_new 0 (print (TStruct [TBasic BUint16; TArray (TBasic BString)])) = Ok (inr sg) /\
  enc_new sg DVarBe (vec_of [] 0) = Ok e0 /\
  history (vec_write (fun c => c)) e0
    [(CStructure, Continue tt); (CArray, Break (Some Mismatch)); (CU16 5, Continue tt); (CCommit, Break (Some Pending));
     (CArray, Continue tt); (CString [97], Continue tt)] e /\
  follows [([HSeq [TStruct [TBasic BUint16; TArray (TBasic BString)]]], false)]
    [(CStructure, Continue tt); (CArray, Break (Some Mismatch)); (CU16 5, Continue tt); (CCommit, Break (Some Pending));
     (CArray, Continue tt); (CString [97], Continue tt)]
    [([HArr (TBasic BString); HSeq []; HSeq []], false)] /\
  (forall s', ~ accepts [([HArr (TBasic BString); HSeq []; HSeq []], false)] (CU16 7) s').
Proof.
  do 3 eexists. split; [vm_compute; reflexivity|]. split; [vm_compute; reflexivity|]. split.
  - repeat (eapply his_cons; [exact Logic.I|vm_compute; reflexivity|]). apply his_nil.
  - split; [|intros s' A; inversion A; discriminate].
    eapply fol_done; [apply acc_structure; reflexivity|]. apply (fol_rejected _ CArray); [intros s' A; inversion A; discriminate|].
    eapply fol_done; [apply acc_u16; reflexivity|]. apply (fol_rejected _ CCommit); [intros s' A; inversion A|].
    eapply fol_done; [apply acc_array; reflexivity|]. eapply fol_done; [apply acc_string; reflexivity|]. apply fol_nil.
Qed.

(** ** C92: what is committed, whatever the writer does. *)

(** Calls may fail at any point and the caller may go on: when the calls that
    succeeded describe a value, then the output starts with the wire format of
    this value, and committing commits its length. *)
Theorem dvar_history_bytes : forall W (I : Write W) fuel fmt o t sg e0 l e v,
  bounded I -> sig_new fuel (print t) = Ok (inr sg) -> enc_new sg fmt o = Ok e0 ->
  history I e0 l e -> Forall call_fits (succeeded l) -> encodes t v (succeeded l) ->
  exists b, marshal (big_endian fmt) t v 0 = Some b /\
    (forall k x, nth_error b k = Some x -> o_mem (e_out e) (N.of_nat k) = Some x) /\
    forall r e', enc_call I e CCommit = Ok (r, e') ->
      r = Continue tt /\ exists w, w_commit I (o_w (e_out e)) (size b) = Ok w /\ e_out e' = mkOut w (o_mem (e_out e)).
Proof. exact bytes_of_history. Qed.
Print Assumptions dvar_history_bytes.
(** And they do describe a value whenever an encoder is committed, not counting
    those on sub-encoders that were dropped before they were committed, which leave
    no trace. *)
Theorem dvar_committed_bytes : forall W (I : Write W) fuel fmt o t sg e0 l e e',
  bounded I -> sig_new fuel (print t) = Ok (inr sg) -> enc_new sg fmt o = Ok e0 ->
  history I e0 l e -> inside 0 (succeeded l) = true -> Forall call_fits (succeeded l) ->
  enc_call I e CCommit = Ok (Continue tt, e') ->
  exists cs v b w, counts (succeeded l) cs /\ encodes t v cs /\ marshal (big_endian fmt) t v 0 = Some b /\
    w_commit I (o_w (e_out e)) (size b) = Ok w /\ o_w (e_out e') = w /\
    (forall k x, nth_error b k = Some x -> o_mem (e_out e') (N.of_nat k) = Some x).
Proof. exact committed_history. Qed.
Print Assumptions dvar_committed_bytes.
(** Which calls count is determined, and all do that are made on the encoder itself. *)
Theorem dvar_counting : (forall l m m', counts l m -> counts l m' -> m = m') /\
  (forall l, Forall plain_call l -> inside 0 l = true /\ counts l l).
Proof. split; [exact counts_unique|]. intros l P. split; [apply inside_plain, P|apply counts_plain, P]. Qed.
Print Assumptions dvar_counting.

(** A writer that grants one byte at a time, and fails the 3rd and the 12th
    time. *)
Definition flaky : Write N := mkWrite
  (fun w idx len => Ok (if (w =? 3) || (w =? 12) then Break None else Continue (N.min 1 len), w + 1))
  (fun w len => Ok (1000 + len)).
(** Opening an array fails within its length, and closing it fails within the
    final length, whereupon another element is added. *)
Example dvar_flaky_example : exists sg e0 e e',
  bounded flaky /\
  sig_new 0 (print (TArray (TBasic BUint16))) = Ok (inr sg) /\ enc_new sg DVarLe (mkOut 1 (fun _ => Some 99)) = Ok e0 /\
  history flaky e0 [(CArray, Break None); (CArray, Continue tt); (CU16 5, Continue tt); (CU32 1, Break (Some Mismatch));
    (CClose, Break None); (CU16 6, Continue tt); (CClose, Continue tt)] e /\
  map (o_mem (e_out e)) [0; 1; 2; 3; 4; 5; 6; 7; 8] = map Some [4; 0; 0; 0; 5; 0; 6; 0; 99] /\
  enc_call flaky e CCommit = Ok (Continue tt, e') /\ o_w (e_out e') = 1008.
Proof.
  do 4 eexists. split.
  { intros w idx len k w' H. cbn in H. destruct ((w =? 3) || (w =? 12)); [discriminate|]. injection H as <- _. lia. }
  split; [vm_compute; reflexivity|]. split; [vm_compute; reflexivity|]. split.
  { repeat (eapply his_cons; [exact Logic.I|vm_compute; reflexivity|]). apply his_nil. }
  split; [vm_compute; reflexivity|]. split; vm_compute; reflexivity.
Qed.

(** A sub-encoder writes half of the second member and is dropped; another one writes
    all of it, and is committed twice. *)
Example dvar_dropped_example : exists sg e0 e e' l,
  sig_new 0 (print (TStruct [TBasic BUint16; TStruct [TBasic BUint16; TBasic BUint32]])) = Ok (inr sg) /\
  enc_new sg DVarLe (vec_of [] 0) = Ok e0 /\
  l = [(CStructure, Continue tt); (CU16 1, Continue tt); (CEnc, Continue tt); (CStructure, Continue tt); (CU16 9, Continue tt);
    (CCommit, Break (Some Pending)); (CDrop, Continue tt); (CEnc, Continue tt); (CStructure, Continue tt); (CU16 2, Continue tt);
    (CU32 3, Continue tt); (CClose, Continue tt); (CCommit, Continue tt); (CCommit, Continue tt); (CDrop, Continue tt); (CClose, Continue tt)] /\
  history (vec_write (fun c => c)) e0 l e /\ inside 0 (succeeded l) = true /\
  counts (succeeded l) [CStructure; CU16 1; CEnc; CStructure; CU16 2; CU32 3; CClose; CCommit; CDrop; CClose] /\
  enc_call (vec_write (fun c => c)) e CCommit = Ok (Continue tt, e') /\
  vec_contents (e_out e') = map Some [1; 0; 0; 0; 0; 0; 0; 0; 2; 0; 0; 0; 3; 0; 0; 0].
Proof.
  do 5 eexists. split; [vm_compute; reflexivity|]. split; [vm_compute; reflexivity|]. split; [reflexivity|]. split.
  { repeat (eapply his_cons; [exact Logic.I|vm_compute; reflexivity|]). apply his_nil. }
  split; [reflexivity|]. split; [|split; vm_compute; reflexivity].
  cbn [succeeded]. apply counts_call; [exact Logic.I|]. apply counts_call; [exact Logic.I|].
  apply (counts_dropped CEnc [CStructure; CU16 9] [CStructure; CU16 9]); [auto|repeat constructor|].
  apply (counts_sub CEnc [CStructure; CU16 2; CU32 3; CClose] [CStructure; CU16 2; CU32 3; CClose] 1 [CClose] [CClose]); [auto|repeat constructor..].
Qed.
