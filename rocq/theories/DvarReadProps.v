(** C108: what a committed decoder has read from arbitrary bytes. *)
From Verif Require Import Base DbusSpec DbusSigModel IoMapModel IoMapSpec IoMapProofs IoMapProps DvarModel DvarSpec DvarProofs DvarEncode DvarDecSpec DvarDecode DvarVisit DvarTyping DvarDecTyping DvarDecReads DvarSubs DvarDecCommit DvarDecProps.
Local Open Scope N_scope.

(** Whatever the bytes and the calls, which may fail and may be made on sub-decoders
    that are dropped: a decoder that can be committed has read one value of its type,
    which is in the message from its start to where the decoder is.  What it has
    yielded are the parts of this value. *)
Theorem dvar_dec_committed_is_read : forall R (I : Read R) P msg fuel fmt t sg r d0 l d x d',
  reading I P msg -> keeping I P -> answering I P -> size msg + 8 < usize -> Forall (fun b => b < 256) msg ->
  P r -> sig_new fuel (print t) = Ok (inr sg) -> dec_new sg fmt r = Ok d0 ->
  dreads I d0 l d -> inside 0 l = true -> dec_call I d DCCommit = Ok (Continue tt, x, d') ->
  exists m v, counts l m /\ encodes t v m /\ reads (big_endian fmt) msg t v 0 (position d) /\ position d' = position d.
Proof. intros R I P msg fuel fmt t sg r d0 l d x d' H1 H2 H3 H4 H5. exact (committed_reads I P msg H1 H2 H3 H4 H5 fuel fmt t sg r d0 l d x d'). Qed.
Print Assumptions dvar_dec_committed_is_read.

Scheme reads_mut := Minimality for reads Sort Prop with reads_all_mut := Minimality for reads_all Sort Prop.
(** Such a value takes the space it takes when it is written. *)
Theorem dvar_reads_length : forall big msg t v p p' b, reads big msg t v p p' -> marshal big t v p = Some b -> p' = p + size b.
Proof.
  intros big msg t v p p' b H. revert b. pattern t, v, p, p'. revert t v p p' H.
  apply (reads_mut big msg _ (fun t vs p p' => forall b, marshal_all big (repeat t (length vs)) vs p = Some b -> p' = p + size b)).
  - intros n p q Eq Hn _ _ b EM. cbn [marshal] in EM. rewrite (proj2 (N.ltb_lt _ _)) in EM by exact Hn. injection EM as <-. rewrite size_app', size_int. lia.
  - intros s p q Eq _ Hn _ _ b EM. cbn [marshal] in EM. rewrite (proj2 (N.ltb_lt _ _)) in EM by exact Hn. injection EM as <-. unfold counted. rewrite !size_app', size_int.
    change (size [0]) with 1. lia.
  - intros s p _ Hn _ _ b EM. cbn [marshal] in EM. rewrite (proj2 (N.ltb_lt _ _)) in EM by exact Hn. injection EM as <-. unfold counted. rewrite !size_app', size_int.
    change (size [0]) with 1. lia.
  - intros t vs p q p' Eq _ _ IH b EM. rewrite marshal_array in EM. cbv zeta in EM. rewrite <- Eq in EM.
    destruct (marshal_all _ _ _ _) as [b1|] eqn:E1; [|discriminate]. destruct (size b1 <? 2 ^ 32); [|discriminate]. injection EM as <-.
    specialize (IH _ eq_refl). rewrite !size_app', size_int. lia.
  - intros t p b EM. cbn [length repeat marshal_all] in EM. injection EM as <-. change (size (@nil N)) with 0. lia.
  - intros t v vs p p1 p2 _ IH1 _ IH2 b EM. cbn [length repeat marshal_all] in EM.
    destruct (marshal big t v p) as [b2|] eqn:E2; [|discriminate]. specialize (IH1 _ eq_refl). subst p1.
    destruct (marshal_all _ _ vs _) as [b3|] eqn:E3; [|discriminate]. injection EM as <-. rewrite (IH2 _ eq_refl). rewrite size_app'. lia.
Qed.
Print Assumptions dvar_reads_length.

(** Calls that fail leave a decoder as it was, except for its reader. *)
Theorem dvar_dec_failed_no_effect : forall R (I : Read R) P msg d c e x d',
  reading I P msg -> keeping I P -> P (d_read d) -> dec_call I d c = Ok (Break e, x, d') ->
  P (d_read d') /\ d' = dput_read d (d_read d').
Proof.
  intros R I P msg d c e x d' H1 H2 HP H. destruct (call_fails I P msg H1 H2 d c e x d' HP H) as [A [B [C D]]]. split; [exact A|].
  destruct d, d'. cbn in *. subst. reflexivity.
Qed.
Print Assumptions dvar_dec_failed_no_effect.
(** So do sub-decoders that are dropped before they are committed. *)
Theorem dvar_dec_dropped_no_effect : forall R (I : Read R) P msg fuel fmt t sg r d0 l0 d c x l d1 d2 y d3,
  reading I P msg -> keeping I P -> answering I P -> size msg + 8 < usize -> Forall (fun b => b < 256) msg ->
  P r -> sig_new fuel (print t) = Ok (inr sg) -> dec_new sg fmt r = Ok d0 -> dreads I d0 l0 d ->
  valid_dcall c -> c = DCDec \/ (exists u, c = DCDecWith u) -> dec_call I d c = Ok (Continue tt, x, d1) ->
  dreads I d1 l d2 -> inside 0 l = true -> dec_call I d2 DCDrop = Ok (Continue tt, y, d3) -> d3 = dput_read d (d_read d3).
Proof.
  intros R I P msg fuel fmt t sg r d0 l0 d c x l d1 d2 y d3 HR HK HA HM HB Pr Es En H0 V Hc E H HI D.
  assert (HD : RD P msg d0 [([HSeq [t]], false)]) by (eapply RD_start; eassumption).
  destruct (dreads_steps I P msg HR HK HA HM HB _ _ _ H0 _ HD) as [s [_ [R0 _]]].
  destruct (dcall_typed I P msg HR HK HA HM d s c R0 V) as [A B]. destruct (daccepts_dec s c V (RD_nonempty _ _ _ _ R0)) as [[s1 Hs1]|N].
  2:{ rewrite (A N) in E. discriminate. }
  destruct (B _ Hs1) as [f [v [d4 [E4 [[-> R1]|[b [z [-> _]]]]]]]]; rewrite E4 in E; injection E; [|discriminate]. intros -> ->.
  destruct (dreads_steps I P msg HR HK HA HM HB _ _ _ H _ R1) as [s2 [Hs2 [_ S]]].
  destruct s1 as [|[h b] up]; [exfalso; exact (RD_nonempty _ _ _ _ R1 eq_refl)|].
  destruct (accrun_counts _ _ (le_n _) _ _ _ _ Hs2 HI) as [m [h' [_ [Hm _]]]].
  destruct (ltac:(eapply plain_counts_keep; eassumption) : d_up d2 = d_up d1 /\ d_format d2 = d_format d1 /\ f_link (d_top d2) = f_link (d_top d1)) as [U [F _]].
  destruct (sub_up I d c x d1 Hc E4) as [U1 [F1 _]]. rewrite U1 in U. rewrite (drop_up I _ _ _ _ _ U D). rewrite F, F1. reflexivity.
Qed.
Print Assumptions dvar_dec_dropped_no_effect.

(** Bytes that are not well-formed: the length of the array is wrong, and so are its
    padding and the bytes after strings.  A sub-decoder is dropped, another one is
    committed. *)
Definition rd_msg : list N := [200; 1; 0; 0; 1; 0; 0; 0; 65; 7; 9; 9; 2; 0; 0; 0; 66; 67].
Example dvar_dec_committed_example : exists sg d0 d d' l x,
  sig_new 0 (print (TArray (TBasic BString))) = Ok (inr sg) /\ dec_new sg DVarLe rd_msg = Ok d0 /\
  l = [CArray; CString [65]; CEnc; CString [66; 67]; CDrop; CEnc; CString [66; 67]; CCommit; CDrop; CClose] /\
  dreads slice_read d0 l d /\ inside 0 l = true /\ dec_call slice_read d DCCommit = Ok (Continue tt, x, d') /\
  counts l [CArray; CString [65]; CEnc; CString [66; 67]; CCommit; CDrop; CClose] /\
  reads false rd_msg (TArray (TBasic BString)) (VArray [VString [65]; VString [66; 67]]) 0 (position d) /\
  position d = 19 /\ marshal false (TArray (TBasic BString)) (VArray [VString [65]; VString [66; 67]]) 0 =
    Some [15; 0; 0; 0; 1; 0; 0; 0; 65; 0; 0; 0; 2; 0; 0; 0; 66; 67; 0].
Proof.
  do 6 eexists. split; [vm_compute; reflexivity|]. split; [vm_compute; reflexivity|]. split; [reflexivity|]. split.
  { Ltac go c := eapply (drd_done slice_read _ c); [exact Logic.I|vm_compute; reflexivity|].
    change [CArray; CString [65]; CEnc; CString [66; 67]; CDrop; CEnc; CString [66; 67]; CCommit; CDrop; CClose]
      with (rewrite DCArray DUnit ++ rewrite DCMore (DMore true) ++ rewrite DCString (DText [65]) ++ rewrite DCDec DUnit ++ rewrite DCString (DText [66; 67]) ++ rewrite DCDrop DUnit ++
        rewrite DCDec DUnit ++ rewrite DCString (DText [66; 67]) ++ rewrite DCCommit DUnit ++ rewrite DCDrop DUnit ++ rewrite DCClose DUnit ++ []).
    go DCArray. go DCMore. eapply (drd_failed slice_read _ DCU16); [exact Logic.I|vm_compute; reflexivity|]. go DCString. go DCDec. go DCString. go DCDrop. go DCDec. go DCString. go DCCommit. go DCDrop. go DCClose. apply drd_nil. }
  split; [reflexivity|]. split; [vm_compute; reflexivity|]. split.
  { apply counts_call; [exact Logic.I|]. apply counts_call; [exact Logic.I|].
    apply (counts_dropped CEnc [CString [66; 67]] [CString [66; 67]]); [auto|repeat constructor|].
    apply (counts_sub CEnc [CString [66; 67]] [CString [66; 67]] 0 [CClose] [CClose]); [auto|repeat constructor..]. }
  split; [|split; vm_compute; reflexivity].
  eapply rd_array; [reflexivity|vm_compute; discriminate|].
  eapply rd_cons; [eapply rd_string; [reflexivity|apply dvar_utf8_exact; reflexivity|vm_compute; reflexivity|vm_compute; reflexivity|vm_compute; discriminate]|].
  eapply rd_cons; [eapply rd_string; [reflexivity|apply dvar_utf8_exact; reflexivity|vm_compute; reflexivity|vm_compute; reflexivity|vm_compute; discriminate]|].
  apply rd_nil.
Qed.
