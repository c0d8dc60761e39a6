(** C137: the messages that a D-Bus decoder accepts. *)
From Verif Require Import Base DbusSpec DbusSigModel DbusSigAnnot DbusSigRefine DbusSigTheory DbusSigResults IoMapModel IoMapSpec IoMapProofs IoMapProps DvarModel DvarSpec DvarProofs DvarEncode DvarDecSpec DvarDecode DvarTyping DvarSubs DvarDecCommit DvarProps DvarDecProps DvarReadProps DvarLossSpec DvarLoss DvarLossProps DvarFixed DvarAccept.
Local Open Scope N_scope.
Local Open Scope res_scope.

(** ** C137 *)

(** A decoder for the type [t] of the message [msg] accepts the value [v] up to the
    position [p]: some calls for it succeed and yield its parts, and the decoder is committed at [p]. *)
Definition accepts_value (sg : Sig) (fmt : Format) (msg : list N) (cs : list dcall) (ds : list datum) (p : N) : Prop :=
  exists d d', dec_new sg fmt msg = Ok d /\ dec_calls slice_read d (cs ++ [DCCommit]) = Ok (Continue tt, ds ++ [DUnit], d') /\ position d' = p.

Fixpoint rewrites (cs : list dcall) (ds : list datum) : list call :=
  match cs, ds with c :: cs, x :: ds => rewrite c x ++ rewrites cs ds | _, _ => [] end.
Lemma rewrites_app a : forall x b y, length a = length x -> rewrites (a ++ b) (x ++ y) = rewrites a x ++ rewrites b y.
Proof.
  induction a as [|c a IH]; intros [|d x] b y H; try discriminate H; [reflexivity|].
  cbn [app rewrites]. rewrite IH by (cbn in H; congruence). apply app_assoc.
Qed.
Definition as_calls (l : list call) : Prop :=
  (forall rest m, counts rest m -> counts (l ++ rest) (l ++ m)) /\ (forall d rest, inside d (l ++ rest) = inside d rest).
Lemma as_calls_app a b : as_calls a -> as_calls b -> as_calls (a ++ b).
Proof. intros [A A'] [B B']. split; intros; rewrite <- !app_assoc; [auto|rewrite A'; apply B']. Qed.
Lemma as_calls_plain c : plain_call c -> (forall d l, inside d (c :: l) = inside d l) -> as_calls [c].
Proof. intros H G. split; intros; cbn [app]; [constructor; auto|apply G]. Qed.
Lemma as_calls_sub c l : (c = CEnc \/ exists s, c = CEncWith s) -> as_calls l -> as_calls (c :: l ++ [CCommit; CDrop]).
Proof.
  intros C [L L']. split.
  - intros rest m H. pose proof (L [] [] counts_nil) as L0. rewrite app_nil_r in L0.
    pose proof (counts_sub c l l 0 rest m C L0 H) as K. cbn [repeat app] in K. cbn [app]. rewrite <- !app_assoc in *. exact K.
  - intros d rest. cbn [app]. rewrite <- app_assoc. destruct C as [-> | [s ->]]; cbn [inside]; rewrite L'; reflexivity.
Qed.
Definition reads_as t v cs ds := length cs = length ds /\ Forall valid_dcall cs /\ encodes t v (rewrites cs ds) /\ as_calls (rewrites cs ds).
Definition reads_all_as t vs cs ds := length cs = length ds /\ Forall valid_dcall cs /\
  encodes_all (repeat t (length vs)) vs (rewrites cs ds) /\ as_calls (rewrites cs ds).
Lemma reading_as : (forall t v cs ds, decodes t v cs ds -> (len t < 2 ^ 61 -> reads_as t v cs ds)) /\
  (forall t vs cs ds, decodes_all t vs cs ds -> (len t < 2 ^ 61 -> reads_all_as t vs cs ds)).
Proof.
  apply decodes_both.
  - intros n _. split; [reflexivity|]. split; [repeat constructor|]. split; [constructor|]. apply as_calls_plain; [exact Logic.I|reflexivity].
  - intros s _ _. split; [reflexivity|]. split; [repeat constructor|]. split; [constructor|]. apply as_calls_plain; [exact Logic.I|reflexivity].
  - intros s _ _. split; [reflexivity|]. split; [repeat constructor|]. split; [constructor|]. apply as_calls_plain; [exact Logic.I|reflexivity].
  - intros t vs cs ds _ IH L. rewrite len_array in L. destruct (IH ltac:(lia)) as (A & B & C & D).
    split; [cbn [length]; rewrite !app_length; cbn; lia|]. split; [constructor; [exact Logic.I|]; apply Forall_app; split; [exact B|repeat constructor]|].
    cbn [rewrites rewrite as_call app]. rewrite rewrites_app by exact A. cbn [rewrites rewrite as_call app].
    split; [apply enc_as_array; exact C|]. change (CArray :: rewrites cs ds ++ [CClose]) with ([CArray] ++ rewrites cs ds ++ [CClose]).
    apply as_calls_app; [apply as_calls_plain; [exact Logic.I|reflexivity]|]. apply as_calls_app; [exact D|apply as_calls_plain; [exact Logic.I|reflexivity]].
  - intros t v cs ds _ IH L. destruct (IH L) as (A & B & C & D).
    split; [cbn [length]; rewrite !app_length; cbn; lia|]. split; [constructor; [exact Logic.I|]; apply Forall_app; split; [exact B|repeat constructor]|].
    cbn [rewrites rewrite as_call app]. rewrite rewrites_app by exact A. cbn [rewrites rewrite as_call app].
    split; [apply enc_as_sub; exact C|]. apply as_calls_sub; auto.
  - intros t v cs ds _ IH L. destruct (IH L) as (A & B & C & D).
    split; [cbn [length]; rewrite !app_length; cbn; lia|]. split.
    { constructor; [|apply Forall_app; split; [exact B|repeat constructor]]. destruct (make_sig_ok t L) as [s [E _]]. exists t, s. auto. }
    cbn [rewrites rewrite as_call app]. rewrite rewrites_app by exact A. cbn [rewrites rewrite as_call app].
    split; [apply enc_as_sub_with; exact C|]. apply as_calls_sub; eauto.
  - intros t _. split; [reflexivity|]. split; [constructor|]. split; [constructor|]. split; auto.
  - intros t v vs cs ds cs' ds' _ IH1 _ IH2 L. destruct (IH1 L) as (A & B & C & D), (IH2 L) as (A' & B' & C' & D').
    split; [rewrite !app_length; lia|]. split; [apply Forall_app; auto|]. rewrite rewrites_app by exact A.
    split; [cbn [length repeat]; constructor; assumption|]. apply as_calls_app; assumption.
Qed.
Lemma calls_read {R} (I : Read R) cs : Forall valid_dcall cs -> forall ds d d', dec_calls I d cs = Ok (Continue tt, ds, d') -> dreads I d (rewrites cs ds) d'.
Proof.
  induction 1 as [|c cs V F IH]; intros ds d d' H; cbn [dec_calls] in H.
  - injection H as <- <-. constructor.
  - destruct (dec_call I d c) as [[[[x|[]] y] d1]| |] eqn:E; cbn [bind] in H; try discriminate.
    destruct (dec_calls I d1 cs) as [[[r' xs'] d2]| |] eqn:E2; cbn [bind] in H; try discriminate. injection H as -> <- <-.
    cbn [rewrites]. eapply drd_done; [exact V|exact E|apply IH; exact E2].
Qed.
Lemma calls_split {R} (I : Read R) a c : forall ds d d' y, length a = length ds -> dec_calls I d (a ++ [c]) = Ok (Continue tt, ds ++ [y], d') ->
  exists d1, dec_calls I d a = Ok (Continue tt, ds, d1) /\ dec_call I d1 c = Ok (Continue tt, y, d').
Proof.
  induction a as [|x a IH]; intros [|z ds] d d' y L H; try discriminate L; cbn [app dec_calls] in *.
  - destruct (dec_call I d c) as [[[[x|[]] y'] d1]| |] eqn:E; cbn [bind] in H; try discriminate. injection H as <- <-. exists d. auto.
  - destruct (dec_call I d x) as [[[[e|[]] y'] d1]| |] eqn:E; cbn [bind] in H; try discriminate.
    destruct (dec_calls I d1 (a ++ [c])) as [[[r' xs'] d2]| |] eqn:E2; cbn [bind] in H; try discriminate. injection H as -> -> -> ->.
    destruct (IH ds d1 d' y ltac:(cbn in L; congruence) E2) as [d3 [E3 E4]]. exists d3. cbn [bind]. rewrite E3. auto.
Qed.

(** A decoder should accept a value exactly if the message begins with the wire format of the
    value. If it does, the value is accepted (C24). But decoders accept more, see
    below: exactly the messages in which the numbers and texts of the value are where
    the wire format has them ([reads]), whatever the other bytes are. *)
Theorem dvar_accepted_partial : forall fuel fmt sg t v cs ds msg p,
  Forall (fun b => b < 256) msg -> size msg + 8 < usize -> sig_new fuel (print t) = Ok (inr sg) -> decodes t v cs ds ->
  (accepts_value sg fmt msg cs ds p <-> reads (big_endian fmt) msg t v 0 p).
Proof.
  intros fuel fmt sg t v cs ds msg p B M S D.
  destruct (map_slice_reading msg ltac:(lia)) as [HR HA]. split.
  - intros (d & d' & E & C & <-). destruct (proj1 reading_as t v cs ds D (sig_new_small _ _ _ S)) as (L & V & EN & K & K').
    destruct (calls_split slice_read cs DCCommit ds d d' DUnit L C) as (d1 & E1 & E2).
    pose proof (calls_read slice_read cs V ds d d1 E1) as RD.
    destruct (dvar_dec_committed_is_read _ slice_read (fun r => r = msg) msg fuel fmt t sg msg d (rewrites cs ds) d1 DUnit d' HR (dvar_slice_keeping msg)
      (dvar_slice_answering msg) M B eq_refl S E RD) as (m & v' & CM & EV & X & ->).
    { pose proof (K' 0%nat []) as Q. rewrite app_nil_r in Q. rewrite Q. reflexivity. }
    { exact E2. }
    pose proof (K [] [] counts_nil) as K0. rewrite app_nil_r in K0. rewrite (proj1 dvar_counting _ _ _ CM K0) in EV.
    destruct (dvar_calls_one_value t v' v (rewrites cs ds) [] EV ltac:(now rewrite app_nil_r)) as [-> _]. exact X.
  - intros X. destruct (accepted _ slice_read (fun r => r = msg) fuel fmt sg t v cs ds p msg msg HR HA M eq_refl S D X) as (d & d' & E & C & Q & _).
    exists d, d'. auto.
Qed.
Print Assumptions dvar_accepted_partial.

(** In all accepted messages, the decoder is in the end where the wire format ends. *)
Theorem dvar_accepted_position : forall fuel fmt sg t v cs ds msg p b,
  Forall (fun b => b < 256) msg -> size msg + 8 < usize -> sig_new fuel (print t) = Ok (inr sg) -> decodes t v cs ds ->
  accepts_value sg fmt msg cs ds p -> marshal (big_endian fmt) t v 0 = Some b -> p = size b.
Proof.
  intros fuel fmt sg t v cs ds msg p b B M S D A E. apply (dvar_accepted_partial fuel fmt sg t v cs ds msg p B M S D) in A.
  apply (dvar_reads_length _ _ _ _ _ _ _ A E).
Qed.
Print Assumptions dvar_accepted_position.

(** Messages that are accepted though they do not begin with the wire format of any
    value: *)
Definition accepted_wrongly (fmt : Format) (t : ty) (msg : list N) : Prop := exists sg v cs ds p,
  Forall (fun b => b < 256) msg /\ sig_new 0 (print t) = Ok (inr sg) /\ decodes t v cs ds /\ accepts_value sg fmt msg cs ds p /\
  forall v' b rest, marshal (big_endian fmt) t v' 0 = Some b -> msg <> b ++ rest.
(** - a string of which the last byte is missing, so that the decoder is past the end of the message,
    - a string that does not end with zero,
    - an array with padding that is not zero,
    - an array with a length that is not that of its elements. *)
Theorem dvar_accepted_refuted :
  accepted_wrongly DVarLe (TBasic BString) [1; 0; 0; 0; 65] /\
  accepted_wrongly DVarLe (TBasic BString) [1; 0; 0; 0; 65; 7] /\
  accepted_wrongly DVarLe (TArray (TBasic BUint64)) [0; 0; 0; 0; 9; 9; 9; 9] /\
  accepted_wrongly DVarLe (TArray (TBasic BUint16)) [4; 0; 0; 0; 1; 0].
Proof.
  assert (C : forall n r a l, n < 2 ^ 32 -> a :: 0 :: 0 :: 0 :: l = int false 4 n ++ r -> n = a /\ l = r).
  { intros n r a l N E. change (a :: 0 :: 0 :: 0 :: l) with ([a; 0; 0; 0] ++ l) in E. apply app_cut in E; [|rewrite int_length; reflexivity].
    destruct E as [E ->]. split; [|reflexivity]. rewrite <- (le_int 4 n N), <- E. cbn. lia. }
  assert (S : forall v b l rest, marshal false (TBasic BString) v 0 = Some b -> 1 :: 0 :: 0 :: 0 :: l = b ++ rest -> exists x, l = x :: 0 :: rest).
  { intros v b l rest E Q. destruct v as [| | |l0| | | | | |]; try discriminate E. cbn [marshal] in E. destruct (N.ltb_spec (size l0) (2 ^ 32)) as [H|]; [|discriminate].
    injection E as <-. change (padding 0 2) with (@nil N) in Q. unfold counted in Q. cbn [app] in Q. rewrite <- !app_assoc in Q. apply C in Q; [|exact H]. destruct Q as [Z ->].
    destruct l0 as [|x [|y l0]]; [discriminate Z|exists x; reflexivity|unfold size in Z; cbn [length] in Z; lia]. }
  assert (A : forall t v b a l rest, marshal false (TArray t) v 0 = Some b -> a :: 0 :: 0 :: 0 :: l = b ++ rest ->
    exists b', l = padding 4 (dvar_align t) ++ b' ++ rest /\ size b' = a).
  { intros t v b a l rest E Q. destruct v; try discriminate E. rewrite marshal_array in E. cbv zeta in E.
    change (0 + size (padding 0 2) + 4) with 4 in E. destruct (marshal_all _ _ _ _) as [b'|]; [|discriminate].
    destruct (N.ltb_spec (size b') (2 ^ 32)) as [H|]; [|discriminate]. injection E as <-. change (padding 0 2) with (@nil N) in Q. cbn [app] in Q.
    rewrite <- !app_assoc in Q. apply C in Q; [|exact H]. destruct Q as [Z ->]. exists b'. auto. }
  assert (T : text [65]) by (exists [65]; split; [repeat constructor; left; reflexivity|reflexivity]).
  split; [|split; [|split]].
  - eexists. exists (VString [65]). do 3 eexists. split; [repeat constructor|]. split; [vm_compute; reflexivity|]. split; [constructor; exact T|].
    split; [do 2 eexists; split; [vm_compute; reflexivity|]; split; vm_compute; reflexivity|].
    intros v' b rest E Q. destruct (S _ _ _ _ E Q) as [x X]. discriminate X.
  - eexists. exists (VString [65]). do 3 eexists. split; [repeat constructor|]. split; [vm_compute; reflexivity|]. split; [constructor; exact T|].
    split; [do 2 eexists; split; [vm_compute; reflexivity|]; split; vm_compute; reflexivity|].
    intros v' b rest E Q. destruct (S _ _ _ _ E Q) as [x X]. discriminate X.
  - eexists. exists (VArray []). do 3 eexists. split; [repeat constructor|]. split; [vm_compute; reflexivity|]. split; [constructor; constructor|].
    split; [do 2 eexists; split; [vm_compute; reflexivity|]; split; vm_compute; reflexivity|].
    intros v' b rest E Q. destruct (A _ _ _ _ _ _ E Q) as (x & X & _). discriminate X.
  - eexists. exists (VArray [VU16 1]). do 3 eexists. split; [repeat constructor|]. split; [vm_compute; reflexivity|].
    split; [apply dec_as_array; apply (dec_as_cons (TBasic BUint16) (VU16 1) [] [DCU16] [DNum 1] [] []); constructor|].
    split; [do 2 eexists; split; [vm_compute; reflexivity|]; split; vm_compute; reflexivity|].
    intros v' b rest E Q. destruct (A _ _ _ _ _ _ E Q) as (x & X & Z). apply (f_equal (@length N)) in X. rewrite !app_length in X.
    cbn in X. unfold size in Z. lia.
Qed.
Print Assumptions dvar_accepted_refuted.

(** A message that is accepted, and what is read in it: two strings between bytes that
    no one looks at. *)
Example dvar_accepted_case : exists sg cs ds,
  Forall (fun b => b < 256) [14; 0; 0; 0; 1; 0; 0; 0; 65; 3; 9; 9; 1; 0; 0; 0; 66; 5] /\
  sig_new 0 (print (TArray (TBasic BString))) = Ok (inr sg) /\ decodes (TArray (TBasic BString)) (VArray [VString [65]; VString [66]]) cs ds /\
  accepts_value sg DVarLe [14; 0; 0; 0; 1; 0; 0; 0; 65; 3; 9; 9; 1; 0; 0; 0; 66; 5] cs ds 18.
Proof.
  assert (T : forall x, x < 128 -> text [x]).
  { intros x H. exists [x]. split; [constructor; [left; lia|constructor]|]. cbn. unfold utf8. rewrite (proj2 (N.ltb_lt _ _) H). reflexivity. }
  do 3 eexists. split; [repeat constructor|]. split; [vm_compute; reflexivity|]. split.
  - apply dec_as_array. eapply (dec_as_cons (TBasic BString) (VString [65])); [apply dec_as_string; apply T; lia|].
    eapply (dec_as_cons (TBasic BString) (VString [66])); [apply dec_as_string; apply T; lia|]. constructor.
  - do 2 eexists. split; [vm_compute; reflexivity|]. split; vm_compute; reflexivity.
Qed.
