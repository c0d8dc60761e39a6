(** The decoder follows the machine of types and never panics. *)
From Verif Require Import Base DbusSpec IoMapModel IoMapSpec IoMapProofs.
From Verif Require Import DbusElement DbusSigModel DbusSigAnnot DbusSigRefine DbusSigTheory DbusCursorProofs DbusCursorQueries DbusSigResults DbusSigRefuted.
From Verif Require Import DvarModel DvarSpec DvarDecSpec DvarProofs DvarEncode DvarTyping DvarTypingProofs DvarDecode DvarVisit.
Local Open Scope N_scope.
Local Open Scope res_scope.

Definition bnd (B : N) (f : Frame) : Prop := l_idx (f_lvl f) <= B.
Section Typed.
Context {R : Type} (I : Read R) (P : R -> Prop) (msg : list N).
Context (HR : reading I P msg) (HK : keeping I P) (HA : answering I P) (HM : size msg + 8 < usize).
Implicit Type d : Dec R.
Definition RD d (s : state) : Prop := frames (d_top d :: d_up d) s /\ P (d_read d) /\ Forall (bnd (size msg + 8)) (d_top d :: d_up d).

Lemma read_loop_ok : forall fuel r idx len got, (N.to_nat len < fuel)%nat -> P r -> exists y, read_loop fuel I r idx len got = Ok y.
Proof.
  induction fuel as [|fuel IH]; intros r idx len got Hf HP; [lia|]. cbn [read_loop].
  destruct (N.ltb_spec 0 len) as [L|L]; [|eauto].
  destruct (HA r idx len HP L) as [f [r' [E Ne]]]. rewrite E. cbn [bind]. destruct f as [e|s]; [eauto|].
  destruct (HR _ _ _ _ _ HP E) as [ES HP'].
  assert (Hs : s <> []) by congruence. assert (0 < size s) by (destruct s; [congruence|unfold size; cbn; lia]).
  rewrite (proj2 (N.ltb_lt _ _)) by assumption. pose proof (reading_bound msg s (N.to_nat idx) Hs ES).
  rewrite add_ok by (unfold size in *; lia). cbn [bind]. apply IH; [lia|exact HP'].
Qed.
Lemma sread_ok r idx len d k : P r ->
  (exists e r', seq_read (read I r idx len) d k = Ok (Break (option_map Io e), DUnit, dput_read d r') /\ P r') \/
  (exists r', P r' /\ (0 < len -> idx + len <= size msg) /\
    seq_read (read I r idx len) d k = k r' (idx + len) (slice msg (N.to_nat idx) (N.to_nat (idx + len)))).
Proof.
  intros HP. destruct (read_loop_ok (S (N.to_nat len)) r idx len [] ltac:(lia) HP) as [[[[f r'] idx'] got] E]. fold (read I r idx len) in E.
  pose proof (read_keeps I P HK _ _ _ _ _ _ _ _ _ HP E) as HP'. pose proof (read_any I P msg _ _ _ _ _ _ _ HR HP E) as [G [B [C D]]].
  unfold seq_read. rewrite E. cbn [bind]. destruct f as [e|[]].
  - left. exists e, r'. split; [reflexivity|exact HP'].
  - right. exists r'. destruct (D eq_refl) as [-> _]. split; [exact HP'|]. split; [intros; apply C; lia|]. rewrite <- G. reflexivity.
Qed.
Lemma dalign_ok idx a d k : a < 31 ->
  dec_align idx a d k = Ok (Break (Some (Io Overflow)), DUnit, d) \/ dec_align idx a d k = k (idx + size (padding idx a)).
Proof.
  intros Ha. unfold dec_align, shl_usize. rewrite (proj2 (N.ltb_lt _ _)) by exact Ha. cbn [bind].
  rewrite (checked_next _ _ (pow_pos a)). destruct ((idx mod 2 ^ a =? 0) || (pad_to (2 ^ a) idx <? usize)); [right|left; reflexivity].
  rewrite pad_padding. reflexivity.
Qed.

(** Outcomes of an accepted call. *)
Definition doutcome d (s' : state) (x : dstep R) : Prop :=
  exists r v d', x = Ok (r, v, d') /\
  ((r = Continue tt /\ RD d' s') \/
   (exists b y, r = Break b /\ b <> Some Mismatch /\ b <> Some Pending /\ d' = dput_read d y /\ P y)).
Lemma do_fail d s' b y : b <> Some Mismatch -> b <> Some Pending -> P y -> doutcome d s' (Ok (Break b, DUnit, dput_read d y)).
Proof. intros H1 H2 H3. do 3 eexists. split; [reflexivity|]. right. exists b, y. repeat split; assumption. Qed.
Lemma put_same d : d = dput_read d (d_read d).
Proof. destruct d; reflexivity. Qed.
Lemma do_align d idx a s' k : a < 31 -> P (d_read d) -> doutcome d s' (k (idx + size (padding idx a))) -> doutcome d s' (dec_align idx a d k).
Proof.
  intros Ha HP H. destruct (dalign_ok idx a d k Ha) as [E|E]; rewrite E; [|exact H].
  rewrite (put_same d) at 2. apply do_fail; [discriminate|discriminate|exact HP].
Qed.
Lemma do_read d r idx len s' k : P r ->
  (forall r', P r' -> (0 < len -> idx + len <= size msg) ->
    doutcome d s' (k r' (idx + len) (slice msg (N.to_nat idx) (N.to_nat (idx + len))))) ->
  doutcome d s' (seq_read (read I r idx len) d k).
Proof.
  intros HP H. destruct (sread_ok r idx len d k HP) as [[e [r' [E HP']]]|[r' [HP' [B E]]]]; rewrite E.
  - apply do_fail; [destruct e; discriminate..|exact HP'].
  - apply H; assumption.
Qed.

Lemma RD_segs d s : RD d s -> exists h b up, s = (h, b) :: up /\ segs (f_cursor (d_top d)) (f_stk (d_top d)) h.
Proof. intros [H _]. apply frames_segs in H. exact H. Qed.
Lemma RD_set d h b up f r h' : RD d ((h, b) :: up) -> f_link f = f_link (d_top d) -> P r -> l_idx (f_lvl f) <= size msg + 8 ->
  segs (f_cursor f) (f_stk f) h' -> RD (dput_read (dput d f) r) ((h', b) :: up).
Proof.
  intros [H [_ B]] L Pr Hi S. split; [|split; [exact Pr|]].
  - cbn [dput_read dput d_top d_up]. eapply frames_set; eassumption.
  - cbn [dput_read dput d_top d_up]. inversion B; subst. constructor; assumption.
Qed.

Lemma dfixed_typed d h b up el n k u : RD d ((h, b) :: up) -> not_closing el -> (forall v, e_id (ty_el v) = e_id el <-> v = u) ->
  e_dvar_alignment_exp el < 31 -> 0 < n ->
  (next h <> Some u -> dec_fixed I d el n k = Ok (Break (Some Mismatch), DUnit, d)) /\
  (next h = Some u -> doutcome d ((pop h, b) :: up) (dec_fixed I d el n k)).
Proof.
  intros HD NC HU Ha Hn. destruct (RD_segs _ _ HD) as [h0 [b0 [up0 [E S]]]]. injection E as <- <- <-.
  pose proof (proj1 (proj2 HD)) as HP.
  unfold dec_fixed. cbv zeta. rewrite (segs_expects _ _ _ el S NC). cbn [bind]. split.
  - intros N. destruct (next h) as [v|]; [|reflexivity]. destruct (N.eqb_spec (e_id (ty_el v)) (e_id el)) as [E|E]; [|reflexivity].
    apply HU in E. congruence.
  - intros N. rewrite N. rewrite (proj2 (N.eqb_eq _ _)) by (apply HU; reflexivity). cbn [negb].
    apply do_align; [exact Ha|exact HP|]. apply do_read; [exact HP|]. intros r' HP' HB.
    destruct (segs_pop _ _ _ _ S N) as [c [Ec Sc]]. rewrite Ec. cbn [bind]. do 3 eexists. split; [reflexivity|]. left. split; [reflexivity|].
    eapply RD_set; [exact HD|reflexivity|exact HP'| |exact Sc]. cbn [with_cursor with_level f_lvl set_idx l_idx]. lia.
Qed.
Lemma dstr_typed d h b up el len_el n de u : RD d ((h, b) :: up) -> not_closing el -> (forall v, e_id (ty_el v) = e_id el <-> v = u) ->
  e_dvar_alignment_exp len_el < 31 -> 0 < n ->
  (next h <> Some u -> dec_str I d el len_el n de = Ok (Break (Some Mismatch), DUnit, d)) /\
  (next h = Some u -> doutcome d ((pop h, b) :: up) (dec_str I d el len_el n de)).
Proof.
  intros HD NC HU Ha Hn. destruct (RD_segs _ _ HD) as [h0 [b0 [up0 [E S]]]]. injection E as <- <- <-.
  pose proof (proj1 (proj2 HD)) as HP.
  unfold dec_str. cbv zeta. rewrite (segs_expects _ _ _ el S NC). cbn [bind]. split.
  - intros N. destruct (next h) as [v|]; [|reflexivity]. destruct (N.eqb_spec (e_id (ty_el v)) (e_id el)) as [E|E]; [|reflexivity].
    apply HU in E. congruence.
  - intros N. rewrite N. rewrite (proj2 (N.eqb_eq _ _)) by (apply HU; reflexivity). cbn [negb].
    apply do_align; [exact Ha|exact HP|]. apply do_read; [exact HP|]. intros r' HP' HB. apply do_read; [exact HP'|]. intros r2 HP2 HB2.
    destruct (utf8_valid _); cbn [negb]; [|apply do_fail; [discriminate|discriminate|exact HP2]].
    specialize (HB Hn). set (p := l_idx (f_lvl (d_top d)) + size (padding (l_idx (f_lvl (d_top d))) (e_dvar_alignment_exp len_el)) + n) in *.
    set (q := de _ _) in *.
    assert (p + q <= size msg) by (destruct (N.eq_dec q 0) as [Eq|Eq]; [lia|apply HB2; lia]).
    rewrite add_ok by lia. cbn [bind].
    destruct (segs_pop _ _ _ _ S N) as [c [Ec Sc]]. rewrite Ec. cbn [bind]. do 3 eexists. split; [reflexivity|]. left. split; [reflexivity|].
    eapply RD_set; [exact HD|reflexivity|exact HP2| |exact Sc]. cbn [with_cursor with_level f_lvl set_idx l_idx]. lia.
Qed.
Lemma segs_down_el c stk h u : segs c stk h -> next h = Some (TArray u) -> exists o, unwrap (c_down c) = Ok o.
Proof.
  intros H Nx. destruct (segs_top _ _ _ H) as [T [s [i [h1 [h2 [es [-> [Hs [He [-> [Ne _]]]]]]]]]]].
  rewrite (next_app h1 h2 Ne) in Nx. destruct (expecting_next _ _ _ _ He Nx) as [fs [-> Hc]].
  pose proof (ctx_occurs _ _ _ _ Hc) as O. pose proof (occ_array T fs u O) as O'.
  unfold c_down. rewrite (start_down T s Hs fs _ O). cbn [is_container bind].
  assert (EI : size (prefix fs) + 1 = size (prefix (FArray :: fs))) by (rewrite prefix_fs; cbn; change (size (@nil N)) with 0; lia).
  rewrite EI. change (element_at (mkCursor s (size (prefix fs)))) with (element_at (mkCursor s (size (prefix (FArray :: fs))))).
  rewrite (start_element T s Hs _ _ O'). eexists. reflexivity.
Qed.
Lemma padding_small i a : a <= 3 -> size (padding i a) <= 7.
Proof.
  intros H. pose proof (pad_padding i a) as E. unfold pad_to in E. pose proof (pow_pos a).
  pose proof (N.div_mod (i + 2 ^ a - 1) (2 ^ a) ltac:(lia)).
  assert (2 ^ a <= 8) by (change 8 with (2 ^ 3); apply N.pow_le_mono_r; lia). lia.
Qed.
Lemma darray_typed d h b up : RD d ((h, b) :: up) ->
  ((forall t, next h <> Some (TArray t)) -> dec_array I d = Ok (Break (Some Mismatch), DUnit, d)) /\
  (forall t, next h = Some (TArray t) -> doutcome d ((HArr t :: pop h, b) :: up) (dec_array I d)).
Proof.
  intros HD. destruct (RD_segs _ _ HD) as [h0 [b0 [up0 [E S]]]]. injection E as <- <- <-. pose proof (proj1 (proj2 HD)) as HP.
  unfold dec_array. cbv zeta. rewrite (segs_expects _ _ _ EArray S) by (split; discriminate). cbn [bind]. split.
  - intros N. destruct (next h) as [v|]; [|reflexivity]. specialize (N (match v with TArray t => t | _ => v end)).
    destruct (N.eqb_spec (e_id (ty_el v)) (e_id EArray)) as [E|E]; [|reflexivity].
    destruct v as [[]| | | | |]; try discriminate E; exfalso; apply N; reflexivity.
  - intros t N. rewrite N. cbn [ty_el]. rewrite N.eqb_refl. cbn [negb].
    destruct (segs_down_el _ _ _ _ S N) as [o Eo]. rewrite Eo. cbn [bind].
    apply do_align; [cbn; lia|exact HP|]. apply do_read; [exact HP|]. intros r' HP' HB. specialize (HB ltac:(lia)).
    destruct (dalign_ok (l_idx (f_lvl (d_top d)) + size (padding (l_idx (f_lvl (d_top d))) (e_dvar_alignment_exp EU32)) + 4) (e_dvar_alignment_exp o) (dput_read d r')
      (fun idx => do c <- do_move (f_cursor (d_top d)) Down;
        Ok (Continue tt, DUnit, dput_read (dput d
        (mkFrame (f_done (d_top d)) c (mkLevel idx (l_from (f_lvl (d_top d))) (de_u32 (d_format d) (slice msg
           (N.to_nat (l_idx (f_lvl (d_top d)) + size (padding (l_idx (f_lvl (d_top d))) (e_dvar_alignment_exp EU32))))
           (N.to_nat (l_idx (f_lvl (d_top d)) + size (padding (l_idx (f_lvl (d_top d))) (e_dvar_alignment_exp EU32)) + 4)))))
          ((EArray, f_lvl (d_top d), None) :: f_stk (d_top d)) (f_link (d_top d)))) r')) ltac:(destruct o; cbn; lia)) as [E|E]; rewrite E.
    { apply do_fail; [discriminate|discriminate|exact HP']. }
    destruct (segs_down _ _ _ _ (HArr t) EArray (f_lvl (d_top d)) S N) as [c [Ec Sc]]; [split; reflexivity|].
    rewrite Ec. cbn [bind]. do 3 eexists. split; [reflexivity|]. left. split; [reflexivity|].
    eapply RD_set; [exact HD|reflexivity|exact HP'| |exact Sc]. cbn [f_lvl l_idx].
    match goal with |- ?a + size (padding ?a ?e) <= _ => pose proof (padding_small a e ltac:(destruct o; cbn; lia)) end. lia.
Qed.
Lemma dclose_typed d h b up : RD d ((h, b) :: up) ->
  ((forall s', ~ accepts ((h, b) :: up) CClose s') -> dec_close d = Ok (Break (Some Mismatch), DUnit, d)) /\
  (forall s', accepts ((h, b) :: up) CClose s' -> doutcome d s' (dec_close d)).
Proof.
  intros HD. destruct (RD_segs _ _ HD) as [h0 [b0 [up0 [E S]]]]. injection E as <- <- <-. pose proof (proj1 (proj2 HD)) as HP.
  unfold dec_close. cbv zeta. destruct (segs_step _ _ _ S) as [st [Est Hst]]. rewrite Est. cbn [bind]. split.
  - intros N. destruct st as [i|]; [reflexivity|]. pose proof (segs_close _ _ _ S (proj1 Hst eq_refl)) as C.
    destruct (f_stk (d_top d)) as [|[[el l] oc] stk]; [reflexivity|]. exfalso.
    destruct C as [g [h' [-> [Ne [K _]]]]]. destruct K as [[_ [t ->]]|[_ ->]]; eapply N; constructor; exact Ne.
  - intros s' A.
    assert (A' : exists g h', h = g :: h' /\ h' <> [] /\ ends h = true /\ s' = (h', b) :: up) by (inversion A; subst; do 2 eexists; eauto).
    destruct A' as [g [h' [Eh [Ne [Ee ->]]]]]. rewrite (proj2 Hst Ee).
    pose proof (segs_close _ _ _ S Ee) as C.
    destruct (f_stk (d_top d)) as [|[[el l] oc] stk] eqn:Es; [subst h; congruence|].
    destruct C as [g' [h'' [Eh' [_ [Hel [c1 [c2 [E1 [E2 S2]]]]]]]]]. rewrite Eh in Eh'. injection Eh' as <- <-.
    assert (F : close_frame (d_top d) = Ok (mkFrame (f_done (d_top d)) c2 (set_idx l (l_idx (f_lvl (d_top d)))) stk (f_link (d_top d)))).
    { unfold close_frame. rewrite Es. rewrite E1. cbn [bind]. rewrite E2. reflexivity. }
    rewrite F. cbn [bind].
    assert (G : doutcome d ((h', b) :: up) (Ok (Continue tt, DUnit, dput d (mkFrame (f_done (d_top d)) c2 (set_idx l (l_idx (f_lvl (d_top d)))) stk (f_link (d_top d)))))).
    { do 3 eexists. split; [reflexivity|]. left. split; [reflexivity|].
      rewrite (put_same (dput d _)). eapply RD_set; [exact HD|reflexivity|exact HP| |exact S2].
      cbn [f_lvl set_idx l_idx]. destruct HD as [_ [_ B]]. inversion B; subst. assumption. }
    destruct Hel as [[-> _]|[[-> | [-> | ->]] _]]; exact G.
Qed.
Lemma ddec_typed d h b up : RD d ((h, b) :: up) ->
  match next h with
  | None => dec_dec d = Ok (Break (Some Mismatch), DUnit, d)
  | Some t => exists d', dec_dec d = Ok (Continue tt, DUnit, d') /\ RD d' (([HSeq [t]], true) :: (h, b) :: up)
  end.
Proof.
  intros HD. destruct (RD_segs _ _ HD) as [h0 [b0 [up0 [E S]]]]. injection E as <- <- <-.
  unfold dec_dec. cbv zeta. destruct (segs_step _ _ _ S) as [st [Est _]]. rewrite Est. cbn [bind].
  pose proof (segs_sub _ _ _ S) as Q. destruct (next h) as [t|] eqn:N.
  - destruct Q as [s' [Es Hs']]. rewrite Es. cbn [bind]. unfold frame_for. rewrite (cursor_root t s' Hs'). cbn [bind].
    eexists. split; [reflexivity|]. destruct HD as [HF [HP HB]]. split; [|split; [exact HP|]]; cbn [d_top d_up].
    + eapply fra_sub; [reflexivity|..].
      * cbn [f_cursor f_stk]. apply segs_new. exact Hs'.
      * exact Est.
      * congruence.
      * exact HF.
    + constructor; [|exact HB]. inversion HB; subst. assumption.
  - rewrite Q. reflexivity.
Qed.
Lemma dcommit_typed d h b up : RD d ((h, b) :: up) ->
  ((forall s', ~ accepts ((h, b) :: up) CCommit s') -> dec_commit d = Ok (Break (Some Pending), DUnit, d)) /\
  (forall s', accepts ((h, b) :: up) CCommit s' -> doutcome d s' (dec_commit d)).
Proof.
  intros HD. destruct (RD_segs _ _ HD) as [h0 [b0 [up0 [E S]]]]. injection E as <- <- <-.
  pose proof HD as [HF [HP HB]].
  unfold dec_commit. cbv zeta. destruct (segs_step _ _ _ S) as [st [Est Hst]]. rewrite Est. cbn [bind]. split.
  - intros N. destruct st as [i|]; [reflexivity|]. pose proof (segs_close _ _ _ S (proj1 Hst eq_refl)) as C.
    destruct (f_stk (d_top d)) as [|en stk]; [|reflexivity]. subst h. exfalso.
    inversion HF; subst; eapply N; constructor.
  - intros s' A.
    assert (Eh : h = [HSeq []]) by (inversion A; reflexivity).
    rewrite (proj2 Hst) by (rewrite Eh; reflexivity). pose proof (segs_close _ _ _ S ltac:(rewrite Eh; reflexivity)) as C.
    destruct (f_stk (d_top d)) as [|[[el l] oc] stk] eqn:Es.
    2:{ destruct C as [g [h' [Eh' [Ne _]]]]. rewrite Eh in Eh'. injection Eh' as <- <-. congruence. }
    subst h. inversion HF as [f h L Sf Ef Es'|f h g fs s L Sf Hf Ef Es'|f h g fs u b1 s us L Sf Eg Nu Hf Ef Es']; subst.
    + rewrite L. assert (s' = [([HSeq []], false)]) by (inversion A; subst; reflexivity). subst s'.
      do 3 eexists. split; [reflexivity|]. left. split; [reflexivity|exact HD].
    + rewrite L. assert (s' = ([HSeq []], false) :: up) by (inversion A; subst; reflexivity). subst s'.
      do 3 eexists. split; [reflexivity|]. left. split; [reflexivity|exact HD].
    + rewrite L. match goal with H : _ = d_up d |- _ => rewrite <- H in * end.
      do 3 eexists. split; [reflexivity|]. left. split; [reflexivity|].
      assert (s' = ([HSeq []], false) :: (pop u, b1) :: s) by (inversion A; subst; reflexivity). subst s'.
      split; [|split; [exact HP|]]; cbn [d_top d_up].
      * constructor; [reflexivity|cbn [f_cursor f_stk]; rewrite ?Es in *; exact Sf|].
        destruct (next u) as [v|] eqn:Nv; [|congruence].
        destruct (frames_segs _ _ _ Hf) as [u0 [b0 [s0 [X Su]]]]. injection X as <- <- <-.
        destruct (segs_pop _ _ _ _ Su Nv) as [c [Ec Sc]].
        eapply frames_set; [exact Hf|destruct us; reflexivity|].
        unfold move_step, do_move in Ec. cbn [idx_of] in Ec. rewrite Eg in Ec. cbn [bind] in Ec. injection Ec as <-.
        destruct us; exact Sc.
      * inversion HB as [|? ? B1 B2]; subst. inversion B2 as [|? ? B3 B4]; subst.
        constructor; [exact B1|]. constructor; [|exact B4]. destruct us; exact B1.
Qed.

Ltac ty_unique := let v := fresh in intros v; destruct v as [[]| | | | |]; cbn; split; intros X; try discriminate X; reflexivity.
Theorem dcall_typed d s c : RD d s -> valid_dcall c ->
  ((forall s', ~ daccepts s c s') -> dec_call I d c = Ok (Break (Some (mistake (as_call c))), DUnit, d)) /\
  (forall s', daccepts s c s' -> doutcome d s' (dec_call I d c)).
Proof.
  intros HD V. destruct (RD_segs _ _ HD) as [h [b [up [E S]]]]. subst s.
  destruct c as [| | | | | | |x| |]; cbn [daccepts dec_call as_call mistake].
  - destruct (dfixed_typed d h b up EU16 2 (fun v => DNum (de_u16 (d_format d) v)) (TBasic BUint16) HD ltac:(split; discriminate) ltac:(ty_unique) ltac:(cbn; lia) ltac:(lia)) as [A B].
    split; [intros N; apply A; intros Nx; eapply N; constructor; exact Nx|]. intros s' H. inversion H; subst. apply B. assumption.
  - destruct (dstr_typed d h b up EString EU32 4 de_u32 (TBasic BString) HD ltac:(split; discriminate) ltac:(ty_unique) ltac:(cbn; lia) ltac:(lia)) as [A B].
    split; [intros N; apply A; intros Nx; eapply N; constructor; exact Nx|]. intros s' H. inversion H; subst. apply B. assumption.
  - destruct (dstr_typed d h b up ESignature EU8 1 de_u8 (TBasic BSignature) HD ltac:(split; discriminate) ltac:(ty_unique) ltac:(cbn; lia) ltac:(lia)) as [A B].
    split; [intros N; apply A; intros Nx; eapply N; constructor; exact Nx|]. intros s' H. inversion H; subst. apply B. assumption.
  - destruct (darray_typed d h b up HD) as [A B]. split.
    + intros N. apply A. intros t Nx. eapply N. constructor. exact Nx.
    + intros s' H. inversion H; subst. apply B. assumption.
  - destruct (dclose_typed d h b up HD) as [A B]. split; [exact A|exact B].
  - split; [intros N; exfalso; eapply N; reflexivity|]. intros s' ->. do 3 eexists. split; [reflexivity|]. left. split; [reflexivity|exact HD].
  - pose proof (ddec_typed d h b up HD) as T. split.
    + intros N. destruct (next h) as [t|] eqn:Nx; [exfalso; eapply N; constructor; exact Nx|exact T].
    + intros s' H. inversion H; subst. destruct (next h) as [t'|] eqn:Nx; [|discriminate].
      destruct T as [e1 [E1 R1]]. rewrite E1. do 3 eexists. split; [reflexivity|]. left. split; [reflexivity|]. congruence.
  - destruct V as [t [sg [-> Esg]]]. rewrite Esg. cbn [bind].
    assert (Ht : is_sig t sg).
    { unfold make_sig in Esg. apply bind_ok in Esg. destruct Esg as [[er|s0] [E1 E2]]; [discriminate|]. injection E2 as <-.
      eapply sig_new_is, E1. }
    pose proof (ddec_typed d h b up HD) as T. pose proof (segs_sub _ _ _ S) as Q. unfold dec_dec_with. split.
    + intros N. destruct (next h) as [t'|] eqn:Nx.
      * destruct Q as [s' [Es Hs']]. rewrite Es. cbn [bind].
        destruct (sig_eq_text t t' sg s' Ht Hs') as [v [Ev Hv]]. rewrite Ev. cbn [bind]. destruct v; [|reflexivity].
        exfalso. rewrite (proj1 Hv eq_refl) in N. eapply N. constructor. exact Nx.
      * rewrite Q. reflexivity.
    + intros s' H. inversion H as [| | | | | | | | | | | | |t' h' b' up' Nx Eh Et| | | |]; subst.
      destruct (print_prefix_free t' t []) as [-> _]; [rewrite app_nil_r; assumption|].
      rewrite Nx in T, Q. destruct Q as [s1 [Es Hs']]. rewrite Es. cbn [bind]. rewrite (sig_eq_same t sg s1 Ht Hs'). cbn [bind].
      destruct T as [e1 [E1 R1]]. rewrite E1. do 3 eexists. split; [reflexivity|]. left. split; [reflexivity|exact R1].
  - destruct (dcommit_typed d h b up HD) as [A B]. split; [exact A|exact B].
  - unfold dec_drop. split.
    + intros N. exfalso. destruct up as [|g up]; eapply N; constructor.
    + intros s' H. pose proof HD as [HF [HP HB]].
      inversion HF as [f h1 L Sf Ef Es'|f h1 g fs s L Sf Hf Ef Es'|f h1 g fs u b1 s us L Sf Eg Nu Hf Ef Es']; subst;
        match goal with H : _ = d_up d |- _ => rewrite <- H in * end.
      * do 3 eexists. split; [reflexivity|]. left. split; [reflexivity|]. inversion H; subst. exact HD.
      * do 3 eexists. split; [reflexivity|]. left. split; [reflexivity|]. inversion HB; subst.
        split; [|split; [exact HP|assumption]]. cbn [d_top d_up]. inversion H; subst; [exact Hf|]. inversion Hf.
      * do 3 eexists. split; [reflexivity|]. left. split; [reflexivity|]. inversion HB; subst.
        split; [|split; [exact HP|assumption]]. cbn [d_top d_up]. inversion H; subst. exact Hf.
Qed.

Lemma RD_read d y s : RD d s -> P y -> RD (dput_read d y) s.
Proof. intros [A [B C]] Py. split; [exact A|]. split; [exact Py|exact C]. Qed.
Lemma daccepts_dec s c : valid_dcall c -> s <> [] -> (exists s', daccepts s c s') \/ (forall s', ~ daccepts s c s').
Proof. intros V Ns. destruct c; try (apply accepts_dec; [exact V|exact Ns]). left. exists s. reflexivity. Qed.
Lemma RD_nonempty d s : RD d s -> s <> [].
Proof. intros H. destruct (RD_segs _ _ H) as [h [b [up [-> _]]]]. discriminate. Qed.
Lemma RD_start fuel fmt t sg r d : sig_new fuel (print t) = Ok (inr sg) -> P r -> dec_new sg fmt r = Ok d -> RD d [([HSeq [t]], false)].
Proof.
  intros Es Hp En. pose proof (sig_new_is _ _ _ Es) as Hs. unfold dec_new, frame_for in En. rewrite (cursor_root t sg Hs) in En.
  cbn [bind] in En. injection En as <-. split; [|split; [exact Hp|]]; cbn [d_top d_up].
  - constructor; [reflexivity|]. apply segs_new, Hs.
  - constructor; [|constructor]. unfold bnd. cbn. lia.
Qed.
Lemma dhistory_follows d l d' : dhistory I d l d' -> forall s, RD d s -> exists s', dfollows s l s' /\ RD d' s'.
Proof.
  induction 1 as [d|d c r x d1 l d2 V E H IH]; intros s HD; [exists s; split; [constructor|exact HD]|].
  destruct (dcall_typed d s c HD V) as [A B]. destruct (daccepts_dec s c V (RD_nonempty _ _ HD)) as [[s1 Hs1]|N].
  - destruct (B _ Hs1) as [r0 [v0 [d0 [E0 [[-> R1]|[y [o [-> [N1 [N2 [-> Po]]]]]]]]]]]; rewrite E0 in E; injection E as <- <- <-.
    + destruct (IH s1 R1) as [s' [F R']]. exists s'. split; [eapply dfol_done; eassumption|exact R'].
    + destruct (IH s (RD_read d o s HD Po)) as [s' [F R']]. exists s'. split; [eapply dfol_failed; eassumption|exact R'].
  - rewrite (A N) in E. injection E as <- <- <-. destruct (IH s HD) as [s' [F R']]. exists s'.
    split; [eapply dfol_rejected; eassumption|exact R'].
Qed.
Lemma dfollows_R d l d' : dhistory I d l d' -> forall s s', RD d s -> dfollows s l s' -> RD d' s'.
Proof.
  induction 1 as [d|d c r x d1 l d2 V E H IH]; intros s s' HD F; inversion F as [|? ? s1 ? ? Hs1 F1|? ? ? ? N F1|? ? s1 y ? ? Hs1 N1 N2 F1]; subst; try exact HD;
    destruct (dcall_typed d s c HD V) as [A B].
  - destruct (B _ Hs1) as [r0 [v0 [d0 [E0 [[_ R1]|[y [o [X _]]]]]]]]; rewrite E0 in E; injection E as -> -> ->; [|discriminate]. eapply IH; eassumption.
  - rewrite (A N) in E. injection E as <- <-. eapply IH; eassumption.
  - destruct (B _ Hs1) as [r0 [v0 [d0 [E0 [[X _]|[z [o [_ [_ [_ [X Po]]]]]]]]]]]; rewrite E0 in E; injection E as -> -> ->; [discriminate|]. subst d1.
    eapply IH; [|exact F1]. apply RD_read; assumption.
Qed.

Theorem dec_total fuel fmt t sg r d0 l d c : P r -> sig_new fuel (print t) = Ok (inr sg) -> dec_new sg fmt r = Ok d0 ->
  dhistory I d0 l d -> valid_dcall c -> exists f x d', dec_call I d c = Ok (f, x, d').
Proof.
  intros Pr Es En H V. destruct (dhistory_follows _ _ _ H _ (RD_start _ _ _ _ _ _ Es Pr En)) as [s [_ HD]].
  destruct (dcall_typed d s c HD V) as [A B]. destruct (daccepts_dec s c V (RD_nonempty _ _ HD)) as [[s1 Hs1]|N].
  - destruct (B _ Hs1) as [f [x [d' [E _]]]]. eauto.
  - rewrite (A N). eauto.
Qed.
Theorem dec_typed_history fuel fmt t sg r d0 l d : P r -> sig_new fuel (print t) = Ok (inr sg) -> dec_new sg fmt r = Ok d0 ->
  dhistory I d0 l d -> exists s, dfollows [([HSeq [t]], false)] l s.
Proof.
  intros Pr Es En H. destruct (dhistory_follows _ _ _ H _ (RD_start _ _ _ _ _ _ Es Pr En)) as [s [F _]]. eauto.
Qed.
Theorem dec_mistyped fuel fmt t sg r d0 l d s c : P r -> sig_new fuel (print t) = Ok (inr sg) -> dec_new sg fmt r = Ok d0 ->
  dhistory I d0 l d -> dfollows [([HSeq [t]], false)] l s -> valid_dcall c -> (forall s', ~ daccepts s c s') ->
  dec_call I d c = Ok (Break (Some (mistake (as_call c))), DUnit, d).
Proof.
  intros Pr Es En H F V N. apply (dcall_typed d s c); [|exact V|exact N].
  eapply dfollows_R; [exact H|eapply RD_start; eassumption|exact F].
Qed.
End Typed.
