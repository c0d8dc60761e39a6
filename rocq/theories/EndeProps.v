(** Properties of the format-generic D-Bus coders (C84). *)
From Verif Require Import Base DbusSpec DvarModel EndeModel.
From Verif Require DbusSigProps.
Local Open Scope N_scope.
Local Open Scope res_scope.

(** ** C84: format-generic coders

    For the DVar formats coders are created for every signature and are those
    of the format. *)
Lemma cursor_of fuel text s : sig_new fuel text = Ok (inr s) -> cursor s = Ok (mkCursor s 0).
Proof.
  intros H. unfold cursor, cursor_with. rewrite (DbusSigProps.sig_len_partial _ _ _ H). cbn [bind].
  destruct (if size text <=? 31 then size text else 6 * size text); reflexivity.
Qed.

Theorem ende_new_partial : forall W R fuel text s (o : out W) (r : R), sig_new fuel text = Ok (inr s) ->
  exists eb el db dl,
    genc_new s FDVarBe o = Ok eb /\ genc_new s FDVarLe o = Ok el /\ gdec_new s FDVarBe r = Ok db /\ gdec_new s FDVarLe r = Ok dl
    /\ e_format eb = DVarBe /\ e_format el = DVarLe /\ d_format db = DVarBe /\ d_format dl = DVarLe
    /\ f_cursor (e_top eb) = mkCursor s 0 /\ f_cursor (e_top el) = mkCursor s 0
    /\ f_cursor (d_top db) = mkCursor s 0 /\ f_cursor (d_top dl) = mkCursor s 0.
Proof.
  intros W R fuel text s o r H. unfold genc_new, gdec_new, enc_new, dec_new, frame_for. rewrite (cursor_of _ _ _ H). cbn [bind].
  do 4 eexists. repeat (split; [reflexivity|]). reflexivity.
Qed.
Print Assumptions ende_new_partial.
Example ende_new_example : exists s eb db, sig_new 0 [97; 113] = Ok (inr s) /\
  genc_new s FDVarBe (mkOut tt (fun _ => None)) = Ok eb /\ gdec_new s FDVarBe [0; 0; 0; 2; 0; 7] = Ok db.
Proof. do 3 eexists. split; [vm_compute; reflexivity|]. split; vm_compute; reflexivity. Qed.

(** The third format of the interface makes both constructors panic. *)
Theorem ende_new_refuted : exists f, forall W R s (o : out W) (r : R), genc_new s f o = Panic /\ gdec_new s f r = Panic.
Proof. exists FJson. intros. split; reflexivity. Qed.
Print Assumptions ende_new_refuted.

(** [inline] is to copy from a decoder to an encoder what a signature describes.
    On a new decoder it reports success and does nothing, whatever the
    message, the signatures and the encoder. *)
Theorem inline_does_nothing_partial : forall W R fuel f1 t1 s1 f2 t2 s2 f (e : genc W) (r : R) d,
  sig_new f1 t1 = Ok (inr s1) -> sig_new f2 t2 = Ok (inr s2) -> size t2 < 2 ^ 61 -> gdec_new s1 f r = Ok d ->
  inline (S fuel) e s2 d = Ok (Continue tt, e, d).
Proof.
  intros W R fuel f1 t1 s1 f2 t2 s2 f e r d H1 H2 L D.
  assert (M : gmore d = false).
  { unfold gdec_new, dec_new, frame_for in D. rewrite (cursor_of _ _ _ H1) in D. cbn [bind] in D.
    destruct f; try discriminate; injection D as <-; reflexivity. }
  destruct (proj1 (DbusSigProps.sig_accepts_exactly f2 t2 L) (ex_intro _ s2 H2)) as (t & ->).
  destruct (DbusSigProps.sig_structure f2 t s2 [] t H2 (occ_root t)) as (_ & _ & U & _).
  unfold inline. rewrite (cursor_of _ _ _ H2). cbn [bind inline_loop]. rewrite M.
  change (index []) with 0 in U. rewrite U. reflexivity.
Qed.
Print Assumptions inline_does_nothing_partial.

(** So it does not copy: the decoder of a message with a 16-bit number still has
    it afterwards, and the encoder does not. *)
Theorem inline_copies_refuted : exists s (e : genc unit) d d', make_sig [113] = Ok s
  /\ genc_new s FDVarLe (mkOut tt (fun _ => None)) = Ok e /\ gdec_new s FDVarLe [7; 0] = Ok d
  /\ inline 1 e s d = Ok (Continue tt, e, d)
  /\ dec_call slice_read d DCU16 = Ok (Continue tt, DNum 7, d').
Proof. do 4 eexists. do 4 (split; [vm_compute; reflexivity|]). vm_compute. reflexivity. Qed.
Print Assumptions inline_copies_refuted.

(** And where the decoder has elements left, it panics. *)
Theorem inline_panics : forall W R fuel t s (e : genc W) (d : gdec R),
  sig_new fuel t = Ok (inr s) -> dec_more d = true -> inline 1 e s d = Panic.
Proof.
  intros W R fuel t s e d H M. unfold inline. rewrite (cursor_of _ _ _ H). cbn [bind inline_loop]. unfold gmore. now rewrite M.
Qed.
Print Assumptions inline_panics.

Theorem inline_returns_refuted : exists s s' (e : genc unit) d d1, make_sig [97; 113] = Ok s /\ make_sig [113] = Ok s'
  /\ genc_new s FDVarLe (mkOut tt (fun _ => None)) = Ok e /\ gdec_new s FDVarLe [6; 0; 0; 0; 1; 0; 2; 0; 3; 0] = Ok d
  /\ dec_call slice_read d DCArray = Ok (Continue tt, DUnit, d1) /\ inline 1 e s' d1 = Panic.
Proof. do 5 eexists. do 5 (split; [vm_compute; reflexivity|]). vm_compute. reflexivity. Qed.
Print Assumptions inline_returns_refuted.
