(** Properties of the D-Bus decoder: C24, C26 and C56. *)
From Verif Require Import Base DbusSpec DbusSigModel IoMapModel IoMapSpec IoMapProofs IoMapProps DvarModel DvarSpec DvarEncode DvarDecSpec DvarDecode DvarVisit DvarTyping DvarDecTyping DvarDecReads DvarProofs.
Local Open Scope N_scope.

(** ** C24: round trip. *)

(** From any reader of a message that starts with the wire format of a value,
    the calls for this value yield the value, use up its bytes exactly, and the
    decoder can be committed.  The decoder has methods for the types q, s, g
    and for arrays only. *)
Theorem dvar_decodes_partial : forall R (I : Read R) P fuel fmt sg t v cs ds b r msg,
  reading I P msg -> reading_all I P msg -> size msg < usize -> P r ->
  sig_new fuel (print t) = Ok (inr sg) -> decodes t v cs ds -> marshal (big_endian fmt) t v 0 = Some b ->
  (exists rest, msg = b ++ rest) ->
  exists d d', dec_new sg fmt r = Ok d /\ dec_calls I d (cs ++ [DCCommit]) = Ok (Continue tt, ds ++ [DUnit], d') /\
    position d' = size b /\ P (d_read d').
Proof. exact decoded. Qed.
Print Assumptions dvar_decodes_partial.
(** What an encoder wrote to a vector, decoded from it. *)
Theorem dvar_round_trip_partial : forall grow extra fuel fmt sg t v ecs dcs ds b,
  extra <= isize_max -> sig_new fuel (print t) = Ok (inr sg) ->
  encodes t v ecs -> decodes t v dcs ds -> marshal (big_endian fmt) t v 0 = Some b -> size b <= isize_max ->
  exists e e' d d' bytes, enc_new sg fmt (vec_of [] extra) = Ok e /\
    enc_calls (vec_write grow) e (ecs ++ [CCommit]) = Ok (Continue tt, e') /\
    vec_contents (e_out e') = map Some bytes /\
    dec_new sg fmt bytes = Ok d /\ dec_calls slice_read d (dcs ++ [DCCommit]) = Ok (Continue tt, ds ++ [DUnit], d') /\
    position d' = size bytes.
Proof. exact round_trip. Qed.
Print Assumptions dvar_round_trip_partial.
(** The strings a decoder accepts are those that are UTF-8. *)
Theorem dvar_utf8_exact : forall s, utf8_valid s = true <-> text s.
Proof. exact utf8_exact. Qed.
Print Assumptions dvar_utf8_exact.

(** An array of arrays of strings, the second of them empty, read through a
    decoder of its own. *)
Definition rt_type : ty := TArray (TArray (TBasic BString)).
Definition rt_value : value := VArray [VArray [VString [195; 164]; VString []]; VArray []].
Definition rt_calls : list dcall :=
  [DCArray] ++ ([DCArray; DCString; DCString; DCClose] ++ ([DCDec; DCArray; DCClose; DCCommit; DCDrop] ++ [])) ++ [DCClose].
Definition rt_data : list datum :=
  [DUnit] ++ ([DUnit; DText [195; 164]; DText []; DUnit] ++ ([DUnit; DUnit; DUnit; DUnit; DUnit] ++ [])) ++ [DUnit].
Example rt_marshal : marshal true rt_type rt_value 0 = Some
  [0; 0; 0; 24;  0; 0; 0; 13;  0; 0; 0; 2;  195; 164; 0; 0;  0; 0; 0; 0;  0; 0; 0; 0;  0; 0; 0; 0].
Proof. vm_compute. reflexivity. Qed.
Example rt_decodes : decodes rt_type rt_value rt_calls rt_data.
Proof.
  apply (dec_as_array _ _ (_ ++ _) (_ ++ _)). apply dec_as_cons.
  - apply (dec_as_array _ _ ([DCString] ++ [DCString] ++ []) ([_] ++ [_] ++ [])).
    apply dec_as_cons; [apply dec_as_string; exists [228]; split; [repeat constructor; left; reflexivity|reflexivity]|].
    apply dec_as_cons; [apply dec_as_string; exists []; split; [constructor|reflexivity]|]. constructor.
  - apply dec_as_cons; [|constructor]. apply (dec_as_sub _ _ [DCArray; DCClose] [DUnit; DUnit]).
    apply (dec_as_array _ [] [] []). constructor.
Qed.

(** ** C26: the end of an array. *)

(** At every point of every sequence of calls on a decoder, within an array:
    when [more] is true then the position is before the end of its contents.
    It should be true whenever this is so. *)
Theorem dvar_more_partial : forall R (I : Read R) P fuel fmt sg t r d0 d msg start n l s,
  reading I P msg -> keeping I P -> P r -> sig_new fuel (print t) = Ok (inr sg) -> dec_new sg fmt r = Ok d0 ->
  visit I msg d0 d (((start, n) :: l) :: s) ->
  start <= position d /\ (dec_more d = true -> position d < start + n) /\ (dec_more d = true <-> position d < n).
Proof.
  intros R I P fuel fmt sg t r d0 d msg start n l s HR HK HP Hs H0 HV.
  destruct (visit_more I P msg HR HK fuel sg fmt t r d0 d start n l s HP Hs H0 HV) as [A B].
  split; [exact A|]. rewrite B, N.ltb_lt. split; [lia|reflexivity].
Qed.
Print Assumptions dvar_more_partial.
(** Byte slices are such readers. *)
Theorem dvar_slice_keeping : forall msg, keeping slice_read (fun r => r = msg).
Proof.
  intros msg r idx len f r' -> H. cbn [slice_read r_map] in H. destruct (checked_add idx len) as [e|]; [destruct (size msg <? e)|]; injection H as _ <-; reflexivity.
Qed.
Print Assumptions dvar_slice_keeping.
(** It is false though there is an element left: an array of one integer, at
    its start. *)
Theorem dvar_more_refuted : exists msg sg d0 d start n,
  msg = [2; 0; 0; 0; 7; 0] /\ marshal false (TArray (TBasic BUint16)) (VArray [VU16 7]) 0 = Some msg /\
  sig_new 0 (print (TArray (TBasic BUint16))) = Ok (inr sg) /\ dec_new sg DVarLe msg = Ok d0 /\
  visit slice_read msg d0 d [[(start, n)]] /\ position d = start /\ start < start + n /\ dec_more d = false.
Proof.
  exists [2; 0; 0; 0; 7; 0]. do 4 eexists. exists 2.
  split; [reflexivity|]. split; [vm_compute; reflexivity|]. split; [vm_compute; reflexivity|]. split; [vm_compute; reflexivity|].
  split; [eapply (vis_array _ _ _ _ _ _ _ _ 2); [apply vis_new|vm_compute; reflexivity|reflexivity|vm_compute; reflexivity]|].
  split; [reflexivity|]. split; [reflexivity|]. vm_compute. reflexivity.
Qed.
Print Assumptions dvar_more_refuted.
(** For a longer array it is true at first. *)
Example dvar_more_example : exists sg d0 d d' xs, sig_new 0 (print (TArray (TBasic BUint16))) = Ok (inr sg) /\
  dec_new sg DVarLe ([6; 0; 0; 0; 1; 0; 2; 0; 3; 0]) = Ok d0 /\
  dec_call slice_read d0 DCArray = Ok (Continue tt, DUnit, d) /\ dec_more d = true /\
  dec_calls slice_read d [DCU16] = Ok (Continue tt, xs, d') /\ dec_more d' = false.
Proof.
  do 5 eexists. split; [vm_compute; reflexivity|]. split; [vm_compute; reflexivity|]. split; [vm_compute; reflexivity|].
  split; [reflexivity|]. split; [vm_compute; reflexivity|]. reflexivity.
Qed.

(** ** C56: decoding arbitrary bytes. *)

(** Whatever the bytes and whatever the calls made before, every call returns. *)
Theorem dvar_dec_total : forall R (I : Read R) P msg fuel fmt t sg r d0 l d c,
  reading I P msg -> keeping I P -> answering I P -> size msg + 8 < usize ->
  P r -> sig_new fuel (print t) = Ok (inr sg) -> dec_new sg fmt r = Ok d0 ->
  dhistory I d0 l d -> valid_dcall c -> exists f x d', dec_call I d c = Ok (f, x, d').
Proof. intros R I P msg fuel fmt t sg r d0 l d c H1 H2 H3 H4. exact (dec_total I P msg H1 H2 H3 H4 fuel fmt t sg r d0 l d c). Qed.
Print Assumptions dvar_dec_total.
(** Calls succeed or are rejected as the machine of types says, also after
    errors. *)
Theorem dvar_dec_typed_history : forall R (I : Read R) P msg fuel fmt t sg r d0 l d,
  reading I P msg -> keeping I P -> answering I P -> size msg + 8 < usize ->
  P r -> sig_new fuel (print t) = Ok (inr sg) -> dec_new sg fmt r = Ok d0 ->
  dhistory I d0 l d -> exists s, dfollows [([HSeq [t]], false)] l s.
Proof. intros R I P msg fuel fmt t sg r d0 l d H1 H2 H3 H4. exact (dec_typed_history I P msg H1 H2 H3 H4 fuel fmt t sg r d0 l d). Qed.
Print Assumptions dvar_dec_typed_history.
(** Rejected calls have no effect. *)
Theorem dvar_dec_mistyped_no_effect : forall R (I : Read R) P msg fuel fmt t sg r d0 l d s c,
  reading I P msg -> keeping I P -> answering I P -> size msg + 8 < usize ->
  P r -> sig_new fuel (print t) = Ok (inr sg) -> dec_new sg fmt r = Ok d0 ->
  dhistory I d0 l d -> dfollows [([HSeq [t]], false)] l s -> valid_dcall c -> (forall s', ~ daccepts s c s') ->
  dec_call I d c = Ok (Break (Some (mistake (as_call c))), DUnit, d).
Proof. intros R I P msg fuel fmt t sg r d0 l d s c H1 H2 H3 H4. exact (dec_mistyped I P msg H1 H2 H3 H4 fuel fmt t sg r d0 l d s c). Qed.
Print Assumptions dvar_dec_mistyped_no_effect.
(** What a call returns is in the message, at the position of the decoder, which
    moves past it. *)
Theorem dvar_dec_reads_u16 : forall R (I : Read R) P msg d x d',
  reading I P msg -> Forall (fun b => b < 256) msg -> P (d_read d) -> dec_call I d DCU16 = Ok (Continue tt, x, d') ->
  exists n, x = DNum n /\ n < 2 ^ 16 /\ let p := position d + size (padding (position d) 1) in
  holds msg p (int (big_endian (d_format d)) 2 n) /\ p + 2 <= size msg /\ position d' = p + 2.
Proof. intros R I P msg d x d' H1 H2. exact (reads_u16 I P msg H1 H2 d x d'). Qed.
Print Assumptions dvar_dec_reads_u16.
Theorem dvar_dec_reads_string : forall R (I : Read R) P msg d x d',
  reading I P msg -> Forall (fun b => b < 256) msg -> P (d_read d) -> dec_call I d DCString = Ok (Continue tt, x, d') ->
  exists s, x = DText s /\ text s /\ size s < 2 ^ 32 /\ let p := position d + size (padding (position d) 2) in
  holds msg p (int (big_endian (d_format d)) 4 (size s) ++ s) /\ p + 4 + size s <= size msg /\ position d' = p + 4 + size s + 1.
Proof.
  intros R I P msg d x d' H1 H2 HP H.
  exact (reads_str I P msg H1 H2 d EString EU32 4 de_u32 x d' HP ltac:(cbn; lia) ltac:(lia) (fun _ => eq_refl) H).
Qed.
Print Assumptions dvar_dec_reads_string.
Theorem dvar_dec_reads_signature : forall R (I : Read R) P msg d x d',
  reading I P msg -> Forall (fun b => b < 256) msg -> P (d_read d) -> dec_call I d DCSignature = Ok (Continue tt, x, d') ->
  exists s, x = DText s /\ text s /\ size s < 2 ^ 8 /\
  holds msg (position d) (int (big_endian (d_format d)) 1 (size s) ++ s) /\ position d + 1 + size s <= size msg /\ position d' = position d + 1 + size s + 1.
Proof.
  intros R I P msg d x d' H1 H2 HP H.
  pose proof (reads_str I P msg H1 H2 d ESignature EU8 1 de_u8 x d' HP ltac:(cbn; lia) ltac:(lia) (fun _ => eq_refl) H) as X.
  change (e_dvar_alignment_exp EU8) with 0 in X. rewrite padding_0 in X. change (size (@nil N)) with 0 in X. rewrite N.add_0_r in X. exact X.
Qed.
Print Assumptions dvar_dec_reads_signature.
(** Byte slices are such readers. *)
Theorem dvar_slice_answering : forall msg, answering slice_read (fun r => r = msg).
Proof.
  intros msg r idx len -> Hl. cbn [slice_read r_map]. unfold checked_add. destruct (idx + len <? usize) eqn:E0; [|do 2 eexists; split; [reflexivity|discriminate]].
  destruct (N.ltb_spec (size msg) (idx + len)) as [H|H]; do 2 eexists; (split; [reflexivity|]); try discriminate.
  intros E. injection E as E. apply (f_equal (@length N)) in E. rewrite firstn_length, skipn_length in E. unfold size in H. cbn [length] in E. lia.
Qed.
Print Assumptions dvar_slice_answering.
(** A length that goes past the end of the message, then a call of the wrong
    type, then a string that is not UTF-8. *)
Example dvar_dec_hostile : exists sg d0 d1 d2 d3, sig_new 0 (print (TArray (TBasic BString))) = Ok (inr sg) /\
  dec_new sg DVarLe [255; 255; 255; 255; 1; 0; 0; 0; 200; 9] = Ok d0 /\
  dec_call slice_read d0 DCArray = Ok (Continue tt, DUnit, d1) /\
  dec_call slice_read d1 DCU16 = Ok (Break (Some Mismatch), DUnit, d1) /\
  dec_call slice_read d1 DCString = Ok (Break (Some DataNonUtf8), DUnit, d2) /\
  dec_call slice_read d2 DCClose = Ok (Continue tt, DUnit, d3).
Proof. do 5 eexists. do 5 (split; [vm_compute; reflexivity|]). vm_compute. reflexivity. Qed.
