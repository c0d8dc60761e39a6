(** The encoder follows the machine of types. *)
From Verif Require Import Base DbusSpec IoMapModel IoMapSpec IoMapProofs.
From Verif Require Import DbusElement DbusSigModel DbusSigAnnot DbusSigRefine DbusSigTheory DbusCursorProofs DbusCursorQueries DbusSigResults DbusSigRefuted.
From Verif Require Import DvarModel DvarSpec DvarProofs DvarEncode DvarTyping.
Local Open Scope N_scope.
Local Open Scope res_scope.

(** The holes of a position within one signature, which is at the start of [u]. *)
Inductive ctx (T : ty) : list frame -> ty -> list hole -> Prop :=
| ctx_root : ctx T [] T [HSeq [T]]
| ctx_array fs u h : ctx T fs (TArray u) h -> ctx T (FArray :: fs) u (HArr u :: pop h)
| ctx_struct fs ms u r h : ctx T fs (TStruct (ms ++ u :: r)) h -> ctx T (FStruct ms :: fs) u (HSeq (u :: r) :: pop h)
| ctx_key fs k u h : ctx T fs (TDict k u) h -> ctx T (FDict [] :: fs) (TBasic k) (HSeq [TBasic k; u] :: pop h)
| ctx_value fs k u h : ctx T fs (TDict k u) h -> ctx T (FDict [TBasic k] :: fs) u (HSeq [u] :: pop h).
Lemma ctx_occurs T fs u h : ctx T fs u h -> occurs T fs u.
Proof. induction 1; [constructor|econstructor; eassumption..]. Qed.
Lemma ctx_next T fs u h : ctx T fs u h -> next h = Some u.
Proof. destruct 1; reflexivity. Qed.

(** Any position within one signature. *)
Inductive expecting (T : ty) : N -> list hole -> Prop :=
| exp_at fs u h : ctx T fs u h -> expecting T (size (prefix fs)) h
| exp_close fs u h : ctx T fs u h -> unbound u -> expecting T (close_idx fs u) (HSeq [] :: pop h)
| exp_end i : i = len T -> expecting T i [HSeq []].

Lemma close_dict fs k u : size (prefix (FDict [TBasic k] :: fs)) + len u = close_idx fs (TDict k u).
Proof. rewrite prefix_fs. unfold close_idx. rewrite len_dict. cbn [members flat_map app]. unfold size. cbn [length print app]. lia. Qed.

Lemma ctx_after T fs u h : ctx T fs u h -> expecting T (after fs u) (pop h).
Proof.
  intros H. destruct H as [|fs u h H|fs ms u r h H|fs k u h H|fs k u h H]; unfold after, step_of; cbn [pop].
  - apply exp_end. reflexivity.
  - apply (exp_at T (FArray :: fs) u). constructor. exact H.
  - assert (E : size (prefix (FStruct ms :: fs)) + len u = size (prefix (FStruct (ms ++ [u]) :: fs))).
    { rewrite !prefix_fs. cbn [members]. rewrite flat_map_app. cbn [flat_map]. rewrite app_nil_r, size_app'. fold (len u). lia. }
    rewrite E. destruct r as [|u' r].
    + rewrite close_struct. apply exp_close; [exact H|exact Logic.I].
    + apply (exp_at T _ u'). apply ctx_struct. rewrite <- app_assoc. exact H.
  - assert (E : size (prefix (FDict [] :: fs)) + len (TBasic k) = size (prefix (FDict [TBasic k] :: fs))).
    { rewrite !prefix_fs. cbn [members flat_map print]. unfold len, size. cbn [length print app]. lia. }
    rewrite E. apply (exp_at T _ u). apply ctx_value. exact H.
  - rewrite (close_dict fs k u). apply exp_close; [exact H|exact Logic.I].
Qed.
Lemma expecting_next T i h u : expecting T i h -> next h = Some u -> exists fs, i = size (prefix fs) /\ ctx T fs u h.
Proof.
  intros H N. destruct H as [fs v h H|fs v h H U|i E]; cbn [next] in N; try discriminate.
  rewrite (ctx_next _ _ _ _ H) in N. injection N as ->. exists fs. split; [reflexivity|exact H].
Qed.
Lemma expecting_nonempty T i h : expecting T i h -> h <> [].
Proof. intros [fs v h' H|fs v h' H U|j E]; [destruct H|..]; discriminate. Qed.

(** What the queries say at a position. *)
Definition ends (h : list hole) : bool := match h with HSeq (_ :: _) :: _ => false | _ => true end.
Lemma expecting_step T s i h : is_sig T s -> expecting T i h ->
  exists o, idx_step (mkCursor s i) = Ok o /\ (o = None <-> ends h = true).
Proof.
  intros Hs H. destruct H as [fs u h H|fs u h H U|i E].
  - exists (step_of fs u). split; [apply (start_step T s Hs _ _ (ctx_occurs _ _ _ _ H))|].
    destruct H; cbn [step_of ends]; split; congruence || discriminate.
  - exists None. destruct (close_queries T s Hs fs u (ctx_occurs _ _ _ _ H) U) as [_ [_ [_ [_ [_ [E _]]]]]].
    split; [exact E|]. cbn [ends]. tauto.
  - exists None. destruct (past_queries T s Hs i ltac:(lia)) as [_ [_ [_ [_ [_ [E' _]]]]]]. split; [exact E'|]. cbn [ends]. tauto.
Qed.
Definition not_closing (el : Element) : Prop := el <> EStructClose /\ el <> EDictClose.
Lemma expecting_expects T s i h el : is_sig T s -> expecting T i h -> not_closing el ->
  expects (mkCursor s i) el = Ok (match next h with Some u => e_id (ty_el u) =? e_id el | None => false end).
Proof.
  intros Hs H NC. destruct H as [fs u h H|fs u h H U|i E].
  - rewrite (ctx_next _ _ _ _ H). apply expects_start with T; [exact Hs|]. eapply ctx_occurs, H.
  - destruct (close_queries T s Hs fs u (ctx_occurs _ _ _ _ H) U) as [E _]. unfold expects. rewrite E. cbn [bind next]. f_equal.
    destruct NC as [N1 N2]. destruct u; try destruct U; destruct el; try reflexivity; congruence.
  - destruct (past_queries T s Hs i ltac:(lia)) as [E' _]. unfold expects. rewrite E'. reflexivity.
Qed.
Lemma expecting_sub T s i h : is_sig T s -> expecting T i h ->
  match next h with Some u => exists s', c_sub (mkCursor s i) = Ok (Some s') /\ is_sig u s' | None => c_sub (mkCursor s i) = Ok None end.
Proof.
  intros Hs H. destruct H as [fs u h H|fs u h H U|i E].
  - rewrite (ctx_next _ _ _ _ H). apply sub_start with T; [exact Hs|]. eapply ctx_occurs, H.
  - cbn [next]. destruct Hs as [k r Hk Hr ->]. apply (at_close k Hk T r Hr fs u (ctx_occurs _ _ _ _ H) U).
  - apply (past_queries T s Hs i ltac:(lia)).
Qed.

(** The stack of an encoder within one signature. *)
Definition entry : Type := (Element * Level * option Cursor).
Inductive entries : list hole -> list entry -> Prop :=
| ent_one h : entries [h] []
| ent_arr t h es l : entries h es -> entries (HArr t :: h) ((EArray, l, None) :: es)
| ent_seq ts h es l el : (el = EStructOpen \/ el = EDictOpen) -> entries h es -> entries (HSeq ts :: h) ((el, l, None) :: es).
Lemma entries_pop h es : entries h es -> entries (pop h) es.
Proof. intros H. destruct H as [[[|u r]|t]|t h es l H|[|u r] h es l el E H]; cbn [pop]; try constructor; assumption. Qed.

Inductive segs : Cursor -> list entry -> list hole -> Prop :=
| segs_root T s i h es : is_sig T s -> expecting T i h -> entries h es -> segs (mkCursor s i) es h
| segs_variant T s i h es c0 l stk h0 :
    is_sig T s -> expecting T i h -> entries h es -> segs c0 stk h0 -> next h0 = Some TVariant ->
    segs (mkCursor s i) (es ++ (EVariant, l, Some c0) :: stk) (h ++ pop h0).

Lemma next_app h h' : h <> [] -> next (h ++ h') = next h.
Proof. destruct h as [|[[|]|] h]; [congruence|reflexivity..]. Qed.
Lemma pop_app h h' : h <> [] -> pop (h ++ h') = pop h ++ h'.
Proof. destruct h as [|[[|]|] h]; [congruence|reflexivity..]. Qed.
Lemma ends_app h h' : h <> [] -> ends (h ++ h') = ends h.
Proof. destruct h as [|[[|]|] h]; [congruence|reflexivity..]. Qed.

(** The current segment, whatever is below. *)
Lemma segs_top c stk h : segs c stk h ->
  exists T s i h1 h2 es, c = mkCursor s i /\ is_sig T s /\ expecting T i h1 /\ h = h1 ++ h2 /\ h1 <> [] /\ entries h1 es /\
    (forall j h1' es', expecting T j h1' -> entries h1' es' ->
      exists stk', stk = es ++ stk' /\ segs (mkCursor s j) (es' ++ stk') (h1' ++ h2)).
Proof.
  intros [T s i h1 es Hs He Hn|T s i h1 es c0 l stk0 h0 Hs He Hn H0 N0].
  - exists T, s, i, h1, [], es. rewrite app_nil_r. repeat split; try assumption; [eapply expecting_nonempty, He|].
    intros j h1' es' He' Hn'. exists []. rewrite !app_nil_r. split; [reflexivity|]. econstructor; eassumption.
  - exists T, s, i, h1, (pop h0), es. repeat split; try assumption; [eapply expecting_nonempty, He|].
    intros j h1' es' He' Hn'. eexists. split; [reflexivity|]. econstructor; eassumption.
Qed.

Lemma segs_nonempty c stk h : segs c stk h -> h <> [].
Proof.
  intros H. destruct (segs_top _ _ _ H) as [T [s [i [h1 [h2 [es [_ [_ [_ [-> [N _]]]]]]]]]]]. destruct h1; [congruence|discriminate].
Qed.
Lemma segs_expects c stk h el : segs c stk h -> not_closing el ->
  expects c el = Ok (match next h with Some u => e_id (ty_el u) =? e_id el | None => false end).
Proof.
  intros H NC. destruct (segs_top _ _ _ H) as [T [s [i [h1 [h2 [es [-> [Hs [He [-> [N _]]]]]]]]]]].
  rewrite (next_app h1 h2 N). eapply expecting_expects; eassumption.
Qed.
Lemma segs_step c stk h : segs c stk h -> exists o, idx_step c = Ok o /\ (o = None <-> ends h = true).
Proof.
  intros H. destruct (segs_top _ _ _ H) as [T [s [i [h1 [h2 [es [-> [Hs [He [-> [N _]]]]]]]]]]].
  rewrite (ends_app h1 h2 N). eapply expecting_step; eassumption.
Qed.
Lemma segs_sub c stk h : segs c stk h ->
  match next h with Some u => exists s', c_sub c = Ok (Some s') /\ is_sig u s' | None => c_sub c = Ok None end.
Proof.
  intros H. destruct (segs_top _ _ _ H) as [T [s [i [h1 [h2 [es [-> [Hs [He [-> [N _]]]]]]]]]]].
  rewrite (next_app h1 h2 N). eapply expecting_sub; eassumption.
Qed.
(** Moving past the expected type. *)
Lemma segs_pop c stk h u : segs c stk h -> next h = Some u ->
  exists c', move_step c = Ok c' /\ segs c' stk (pop h).
Proof.
  intros H N. destruct (segs_top _ _ _ H) as [T [s [i [h1 [h2 [es [-> [Hs [He [-> [Ne [Hn K]]]]]]]]]]]].
  rewrite (next_app h1 h2 Ne) in N. destruct (expecting_next _ _ _ _ He N) as [fs [-> Hc]].
  exists (mkCursor s (after fs u)). split; [apply step_start with T; [exact Hs|eapply ctx_occurs, Hc]|].
  rewrite (pop_app h1 h2 Ne). destruct (K _ _ _ (ctx_after _ _ _ _ Hc) (entries_pop _ _ Hn)) as [stk' [-> S]]. exact S.
Qed.
(** Moving into the expected container. *)
Lemma segs_down c stk h u g el l : segs c stk h -> next h = Some u ->
  match u with
  | TArray t => g = HArr t /\ el = EArray
  | TStruct ts => g = HSeq ts /\ el = EStructOpen
  | TDict k t => g = HSeq [TBasic k; t] /\ el = EDictOpen
  | _ => False
  end ->
  exists c', do_move c Down = Ok c' /\ segs c' ((el, l, None) :: stk) (g :: pop h).
Proof.
  intros H Nx G. destruct (segs_top _ _ _ H) as [T [s [i [h1 [h2 [es [-> [Hs [He [-> [Ne [Hn K]]]]]]]]]]]].
  rewrite (next_app h1 h2 Ne) in Nx. destruct (expecting_next _ _ _ _ He Nx) as [fs [-> Hc]].
  exists (mkCursor s (size (prefix fs) + 1)). split.
  { apply down_start with T u; [exact Hs|eapply ctx_occurs, Hc|]. destruct u; try destruct G; reflexivity. }
  rewrite (pop_app h1 h2 Ne).
  assert (X : expecting T (size (prefix fs) + 1) (g :: pop h1)).
  { destruct u as [b| |t|t|ts|k t]; try destruct G as [-> ->]; try destruct G.
    - replace (size (prefix fs) + 1) with (size (prefix (FArray :: fs))); [apply (exp_at T _ t), ctx_array, Hc|].
      rewrite prefix_fs. cbn [members flat_map]. change (size (@nil N)) with 0. lia.
    - destruct ts as [|t r].
      + replace (size (prefix fs) + 1) with (close_idx fs (TStruct [])); [apply exp_close; [exact Hc|exact Logic.I]|].
        rewrite <- close_struct, prefix_fs. cbn [members flat_map]. change (size (@nil N)) with 0. lia.
      + replace (size (prefix fs) + 1) with (size (prefix (FStruct [] :: fs))); [apply (exp_at T _ t), ctx_struct, Hc|].
        rewrite prefix_fs. cbn [members flat_map]. change (size (@nil N)) with 0. lia.
    - replace (size (prefix fs) + 1) with (size (prefix (FDict [] :: fs))); [apply (exp_at T _ (TBasic k)), ctx_key, Hc|].
      rewrite prefix_fs. cbn [members flat_map]. change (size (@nil N)) with 0. lia. }
  assert (Y : entries (g :: pop h1) ((el, l, None) :: es)).
  { apply entries_pop in Hn. destruct u as [b| |t|t|ts|k t]; try destruct G as [-> ->]; try destruct G; constructor; tauto. }
  destruct (K _ _ _ X Y) as [stk' [-> S]]. exact S.
Qed.
(** Closing. *)
Lemma pop_nonempty h : h <> [] -> pop h <> [].
Proof. destruct h as [|[[|]|] h]; [congruence|discriminate..]. Qed.
Lemma ctx_pop T fs u h : ctx T fs u h -> pop h <> [].
Proof. intros H. apply pop_nonempty. destruct H; discriminate. Qed.
Lemma expecting_close T s i h : is_sig T s -> expecting T i h -> ends h = true ->
  h = [HSeq []] \/
  exists g fs u h0, h = g :: pop h0 /\ ctx T fs u h0 /\ pop h0 <> [] /\
    idx_up (mkCursor s i) = Ok (Some (size (prefix fs))) /\ (g = HSeq [] \/ exists t, g = HArr t).
Proof.
  intros Hs He E. destruct He as [fs u h H|fs u h H U|i Ei].
  - destruct H as [|fs u h H|fs ms u r h H|fs k u h H|fs k u h H]; try discriminate E.
    right. exists (HArr u), fs, (TArray u), h. pose proof (ctx_occurs _ _ _ _ H) as O.
    repeat split; [exact H|eapply ctx_pop, H| |right; eauto].
    rewrite (start_up T s Hs _ _ (occ_array _ _ _ O)). reflexivity.
  - right. exists (HSeq []), fs, u, h. repeat split; [exact H|eapply ctx_pop, H| |left; reflexivity].
    apply (close_queries T s Hs fs u (ctx_occurs _ _ _ _ H) U).
  - left. reflexivity.
Qed.
Lemma segs_close c stk h : segs c stk h -> ends h = true ->
  match stk with
  | [] => h = [HSeq []]
  | (el, l, oc) :: stk' => exists g h', h = g :: h' /\ h' <> [] /\
      (el = EArray /\ (exists t, g = HArr t) \/ (el = EVariant \/ el = EStructOpen \/ el = EDictOpen) /\ g = HSeq []) /\
      exists c1 c2, match oc with Some v => Ok v | None => do_move c Up end = Ok c1 /\ move_step c1 = Ok c2 /\ segs c2 stk' h'
  end.
Proof.
  assert (Inner : forall T s i fs u h0, is_sig T s -> ctx T fs u h0 -> idx_up (mkCursor s i) = Ok (Some (size (prefix fs))) ->
    do_move (mkCursor s i) Up = Ok (mkCursor s (size (prefix fs))) /\
    move_step (mkCursor s (size (prefix fs))) = Ok (mkCursor s (after fs u))).
  { intros T s i fs u h0 Hs Hc E. split; [unfold do_move; cbn [idx_of]; rewrite E; reflexivity|].
    apply step_start with T; [exact Hs|eapply ctx_occurs, Hc]. }
  intros H E. destruct H as [T s i h es Hs He Hn|T s i h es c0 l stk h0 Hs He Hn H0 N0].
  - destruct (expecting_close T s i h Hs He E) as [->|[g [fs [u [h' [-> [Hc [Ne [Eu Hg]]]]]]]]].
    + inversion Hn as [g|t h0 es0 l Hn0|ts h0 es0 l el Hel Hn0]; subst; [reflexivity|]. inversion Hn0.
    + destruct (Inner T s i fs u h' Hs Hc Eu) as [I1 I2].
      inversion Hn as [g0|t h0 es0 l Hn0|ts h0 es0 l el Hel Hn0]; subst; [congruence|..];
        (do 2 eexists; split; [reflexivity|]; split; [exact Ne|]; split; [|
          do 2 eexists; split; [exact I1|]; split; [exact I2|]; econstructor; [exact Hs|eapply ctx_after, Hc|exact Hn0]]).
      * left. split; [reflexivity|eauto].
      * right. split; [tauto|]. destruct Hg as [Hg|[t Hg]]; congruence.
  - rewrite (ends_app h (pop h0) (expecting_nonempty _ _ _ He)) in E.
    destruct (expecting_close T s i h Hs He E) as [->|[g [fs [u [h' [-> [Hc [Ne [Eu Hg]]]]]]]]].
    + inversion Hn as [g|t h1 es0 l0 Hn0|ts h1 es0 l0 el Hel Hn0]; subst; [|inversion Hn0]. cbn [app].
      exists (HSeq []), (pop h0). split; [reflexivity|]. split; [eapply pop_nonempty, segs_nonempty, H0|].
      split; [right; tauto|]. destruct (segs_pop _ _ _ _ H0 N0) as [c' [Ec Sc]].
      exists c0, c'. repeat split; assumption.
    + destruct (Inner T s i fs u h' Hs Hc Eu) as [I1 I2].
      inversion Hn as [g0|t h1 es0 l0 Hn0|ts h1 es0 l0 el Hel Hn0]; subst; [congruence|..]; cbn [app];
        (do 2 eexists; split; [reflexivity|]; split; [intros X; apply app_eq_nil in X; tauto|]; split; [|
          do 2 eexists; split; [exact I1|]; split; [exact I2|]; econstructor; [exact Hs|eapply ctx_after, Hc|exact Hn0|exact H0|exact N0]]).
      * left. split; [reflexivity|eauto].
      * right. split; [tauto|]. destruct Hg as [Hg|[t Hg]]; congruence.
Qed.
Lemma segs_new T s : is_sig T s -> segs (mkCursor s 0) [] [HSeq [T]].
Proof. intros Hs. apply (segs_root T); [exact Hs| |constructor]. apply (exp_at T [] T). constructor. Qed.

(** * All encoders *)
Inductive frames : list Frame -> state -> Prop :=
| fra_last f h : f_link f = None -> segs (f_cursor f) (f_stk f) h -> frames [f] [(h, false)]
| fra_plain f h g fs s : f_link f = None -> segs (f_cursor f) (f_stk f) h -> frames (g :: fs) s -> frames (f :: g :: fs) ((h, false) :: s)
| fra_sub f h g fs u b s up_step :
    f_link f = Some up_step -> segs (f_cursor f) (f_stk f) h ->
    idx_step (f_cursor g) = Ok up_step -> next u <> None ->
    frames (g :: fs) ((u, b) :: s) -> frames (f :: g :: fs) ((h, true) :: (u, b) :: s).
Definition R {W} (e : Enc W) (s : state) : Prop := frames (e_top e :: e_up e) s.

Lemma frames_segs f fs s : frames (f :: fs) s -> exists h b up, s = (h, b) :: up /\ segs (f_cursor f) (f_stk f) h.
Proof. intros H. inversion H; subst; do 3 eexists; split; try reflexivity; assumption. Qed.
(** Replacing the innermost encoder's position. *)
Lemma frames_set f fs h b s f' h' : frames (f :: fs) ((h, b) :: s) -> f_link f' = f_link f ->
  segs (f_cursor f') (f_stk f') h' -> frames (f' :: fs) ((h', b) :: s).
Proof. intros H L S. inversion H; subst; econstructor; try eassumption; congruence. Qed.

Lemma seq_io_inv {W} x (e : Enc W) k r e' : seq_io x e k = Ok (r, e') ->
  (exists o idx, x = Ok (Continue tt, o, idx) /\ k o idx = Ok (r, e')) \/
  (exists b o, r = Break b /\ b <> Some Mismatch /\ b <> Some Pending /\ e' = put_out e o).
Proof.
  unfold seq_io. destruct x as [[[[b|[]] o] idx]| |]; cbn [bind]; try discriminate.
  - intros [= <- <-]. right. exists (option_map Io b), o. unfold from_io. repeat split; destruct b; discriminate.
  - intros H. left. eauto.
Qed.
(** Outcomes of an accepted call. *)
Definition outcome {W} (e : Enc W) (s s' : state) (r : dflow) (e' : Enc W) : Prop :=
  (r = Continue tt /\ R e' s') \/
  (exists b o, r = Break b /\ b <> Some Mismatch /\ b <> Some Pending /\ e' = put_out e o).

Lemma sig_eq_text t u A B : is_sig t A -> is_sig u B -> exists v, sig_eq A B = Ok v /\ (v = true <-> print t = print u).
Proof.
  intros IA IB.
  destruct (is_sig_elements t A IA) as [l [El Ec]]. destruct (is_sig_elements u B IB) as [l' [El' Ec']].
  unfold sig_eq. rewrite El, El'. cbn [bind]. eexists. split; [reflexivity|].
  rewrite list_eqb_eq, ids_codes, Ec, Ec'. reflexivity.
Qed.

Section Typed.
Context {W : Type} (I : Write W).
Implicit Type e : Enc W.

Lemma R_segs e s : R e s -> exists h b up, s = (h, b) :: up /\ segs (f_cursor (e_top e)) (f_stk (e_top e)) h.
Proof. apply frames_segs. Qed.
Lemma R_set e h b up f o h' : R e ((h, b) :: up) -> f_link f = f_link (e_top e) ->
  segs (f_cursor f) (f_stk f) h' -> R (put_out (put_top e f) o) ((h', b) :: up).
Proof. intros H L S. unfold R, put_out, put_top. cbn [e_top e_up]. eapply frames_set; eassumption. Qed.

Lemma bind_ok {A B} (x : res A) (f : A -> res B) y : bind x f = Ok y -> exists a, x = Ok a /\ f a = Ok y.
Proof. destruct x; cbn [bind]; try discriminate. eauto. Qed.

(** Writing one item of a basic type. *)
Lemma fixed_typed e h b up el data u : R e ((h, b) :: up) -> not_closing el -> (forall v, e_id (ty_el v) = e_id el <-> v = u) ->
  (next h <> Some u -> enc_fixed I e el data = Ok (Break (Some Mismatch), e)) /\
  (next h = Some u -> forall r e', enc_fixed I e el data = Ok (r, e') -> outcome e ((h, b) :: up) ((pop h, b) :: up) r e').
Proof.
  intros HR NC HU. destruct (R_segs _ _ HR) as [h0 [b0 [up0 [E S]]]]. injection E as <- <- <-.
  unfold enc_fixed. cbv zeta. rewrite (segs_expects _ _ _ el S NC). cbn [bind]. split.
  - intros N. destruct (next h) as [v|]; [|reflexivity]. destruct (N.eqb_spec (e_id (ty_el v)) (e_id el)) as [E|E]; [|reflexivity].
    apply HU in E. congruence.
  - intros N r e'. rewrite N. rewrite (proj2 (N.eqb_eq _ _)) by (apply HU; reflexivity). cbn [negb]. intros H.
    apply seq_io_inv in H. destruct H as [[o [idx [_ H]]]|H]; [|right; exact H].
    apply seq_io_inv in H. destruct H as [[o' [idx' [_ H]]]|H]; [|right; exact H].
    destruct (segs_pop _ _ _ _ S N) as [c [Ec Sc]]. rewrite Ec in H. cbn [bind] in H. injection H as <- <-.
    left. split; [reflexivity|]. eapply R_set; [exact HR|reflexivity|exact Sc].
Qed.
Lemma str_typed e h b up el len_el limit en data u : R e ((h, b) :: up) -> not_closing el -> (forall v, e_id (ty_el v) = e_id el <-> v = u) ->
  (next h <> Some u -> enc_str I e el len_el limit en data = Ok (Break (Some Mismatch), e)) /\
  (next h = Some u -> forall r e', enc_str I e el len_el limit en data = Ok (r, e') -> outcome e ((h, b) :: up) ((pop h, b) :: up) r e').
Proof.
  intros HR NC HU. destruct (R_segs _ _ HR) as [h0 [b0 [up0 [E S]]]]. injection E as <- <- <-.
  unfold enc_str. cbv zeta. rewrite (segs_expects _ _ _ el S NC). cbn [bind]. split.
  - intros N. destruct (next h) as [v|]; [|reflexivity]. destruct (N.eqb_spec (e_id (ty_el v)) (e_id el)) as [E|E]; [|reflexivity].
    apply HU in E. congruence.
  - intros N r e'. rewrite N. rewrite (proj2 (N.eqb_eq _ _)) by (apply HU; reflexivity). cbn [negb].
    destruct (size data <? limit); cbn [negb].
    2:{ unfold fail. intros [= <- <-]. right. exists (Some DataOverflow), (e_out e). repeat split; try discriminate. destruct e; reflexivity. }
    intros H.
    apply seq_io_inv in H. destruct H as [[o [idx [_ H]]]|H]; [|right; exact H].
    apply seq_io_inv in H. destruct H as [[o' [idx' [_ H]]]|H]; [|right; exact H].
    apply seq_io_inv in H. destruct H as [[o2 [idx2 [_ H]]]|H]; [|right; exact H].
    apply seq_io_inv in H. destruct H as [[o3 [idx3 [_ H]]]|H]; [|right; exact H].
    destruct (segs_pop _ _ _ _ S N) as [c [Ec Sc]]. rewrite Ec in H. cbn [bind] in H. injection H as <- <-.
    left. split; [reflexivity|]. eapply R_set; [exact HR|reflexivity|exact Sc].
Qed.
Lemma open_typed e h b up el : R e ((h, b) :: up) -> (el = EStructOpen \/ el = EDictOpen) ->
  ((forall u, next h = Some u -> ty_el u <> el) -> enc_open I e el = Ok (Break (Some Mismatch), e)) /\
  (forall u g, next h = Some u ->
    match u with TStruct ts => el = EStructOpen /\ g = HSeq ts | TDict k t => el = EDictOpen /\ g = HSeq [TBasic k; t] | _ => False end ->
    forall r e', enc_open I e el = Ok (r, e') -> outcome e ((h, b) :: up) ((g :: pop h, b) :: up) r e').
Proof.
  intros HR Hel. destruct (R_segs _ _ HR) as [h0 [b0 [up0 [E S]]]]. injection E as <- <- <-.
  unfold enc_open. cbv zeta. rewrite (segs_expects _ _ _ el S) by (destruct Hel as [-> | ->]; split; discriminate). cbn [bind]. split.
  - intros N. destruct (next h) as [v|]; [|reflexivity]. specialize (N v eq_refl).
    destruct (N.eqb_spec (e_id (ty_el v)) (e_id el)) as [E|E]; [|reflexivity].
    destruct Hel as [-> | ->]; destruct v as [[]| | | | |]; try discriminate E; exfalso; apply N; reflexivity.
  - intros u g N G r e'. rewrite N. rewrite (proj2 (N.eqb_eq _ _)).
    2:{ destruct u; try destruct G; subst; reflexivity. }
    cbn [negb]. intros H. apply bind_ok in H. destruct H as [al [_ H]].
    apply seq_io_inv in H. destruct H as [[o [idx [_ H]]]|H]; [|right; exact H].
    destruct (segs_down _ _ _ u g el (f_lvl (e_top e)) S N) as [c [Ec Sc]].
    { destruct u; try destruct G; subst; split; reflexivity. }
    rewrite Ec in H. cbn [bind] in H. injection H as <- <-.
    left. split; [reflexivity|]. eapply R_set; [exact HR|reflexivity|exact Sc].
Qed.
Lemma array_typed e h b up : R e ((h, b) :: up) ->
  ((forall t, next h <> Some (TArray t)) -> enc_array I e = Ok (Break (Some Mismatch), e)) /\
  (forall t, next h = Some (TArray t) -> forall r e', enc_array I e = Ok (r, e') -> outcome e ((h, b) :: up) ((HArr t :: pop h, b) :: up) r e').
Proof.
  intros HR. destruct (R_segs _ _ HR) as [h0 [b0 [up0 [E S]]]]. injection E as <- <- <-.
  unfold enc_array. cbv zeta. rewrite (segs_expects _ _ _ EArray S) by (split; discriminate). cbn [bind]. split.
  - intros N. destruct (next h) as [v|]; [|reflexivity]. specialize (N (match v with TArray t => t | _ => v end)).
    destruct (N.eqb_spec (e_id (ty_el v)) (e_id EArray)) as [E|E]; [|reflexivity].
    destruct v as [[]| | | | |]; try discriminate E; exfalso; apply N; reflexivity.
  - intros t N r e'. rewrite N. cbn [ty_el]. rewrite N.eqb_refl. cbn [negb]. intros H.
    apply bind_ok in H. destruct H as [down [_ H]].
    apply seq_io_inv in H. destruct H as [[o [idx [_ H]]]|H]; [|right; exact H].
    apply seq_io_inv in H. destruct H as [[o' [idx' [_ H]]]|H]; [|right; exact H].
    apply seq_io_inv in H. destruct H as [[o2 [idx2 [_ H]]]|H]; [|right; exact H].
    destruct (segs_down _ _ _ _ (HArr t) EArray (f_lvl (e_top e)) S N) as [c [Ec Sc]]; [split; reflexivity|].
    rewrite Ec in H. cbn [bind] in H. injection H as <- <-.
    left. split; [reflexivity|]. eapply R_set; [exact HR|reflexivity|exact Sc].
Qed.
Lemma variant_typed e h b up t sg : R e ((h, b) :: up) -> is_sig t sg ->
  (next h <> Some TVariant -> enc_variant I e sg = Ok (Break (Some Mismatch), e)) /\
  (next h = Some TVariant -> forall r e', enc_variant I e sg = Ok (r, e') -> outcome e ((h, b) :: up) ((HSeq [t] :: pop h, b) :: up) r e').
Proof.
  intros HR Ht. destruct (R_segs _ _ HR) as [h0 [b0 [up0 [E S]]]]. injection E as <- <- <-.
  unfold enc_variant. cbv zeta. rewrite (segs_expects _ _ _ EVariant S) by (split; discriminate). cbn [bind]. split.
  - intros N. destruct (next h) as [v|]; [|reflexivity].
    destruct (N.eqb_spec (e_id (ty_el v)) (e_id EVariant)) as [E|E]; [|reflexivity].
    destruct v as [[]| | | | |]; try discriminate E; exfalso; apply N; reflexivity.
  - intros N r e'. rewrite N. cbn [ty_el]. rewrite N.eqb_refl. cbn [negb]. intros H.
    apply bind_ok in H. destruct H as [n [_ H]].
    destruct (n <? 2 ^ 8); cbn [negb] in H.
    2:{ unfold fail in H. injection H as <- <-. right. exists (Some DataOverflow), (e_out e). repeat split; try discriminate. destruct e; reflexivity. }
    apply seq_io_inv in H. destruct H as [[o [idx [_ H]]]|H]; [|right; exact H].
    apply seq_io_inv in H. destruct H as [[o' [idx' [_ H]]]|H]; [|right; exact H].
    apply bind_ok in H. destruct H as [c0 [_ H]]. apply bind_ok in H. destruct H as [hint [_ H]]. apply bind_ok in H. destruct H as [txt [_ H]].
    apply seq_io_inv in H. destruct H as [[o2 [idx2 [_ H]]]|H]; [|right; exact H].
    apply seq_io_inv in H. destruct H as [[o3 [idx3 [_ H]]]|H]; [|right; exact H].
    rewrite (cursor_root t sg Ht) in H. cbn [bind] in H. injection H as <- <-.
    left. split; [reflexivity|]. eapply R_set; [exact HR|reflexivity|]. cbn [f_cursor f_stk].
    refine (segs_variant t sg 0 [HSeq [t]] [] (f_cursor (e_top e)) (f_lvl (e_top e)) (f_stk (e_top e)) h Ht _ _ S N); [|constructor].
    apply (exp_at t [] t). constructor.
Qed.
Lemma close_typed e h b up : R e ((h, b) :: up) ->
  ((forall s', ~ accepts ((h, b) :: up) CClose s') -> enc_close I e = Ok (Break (Some Mismatch), e)) /\
  (forall s', accepts ((h, b) :: up) CClose s' -> forall r e', enc_close I e = Ok (r, e') -> outcome e ((h, b) :: up) s' r e').
Proof.
  intros HR. destruct (R_segs _ _ HR) as [h0 [b0 [up0 [E S]]]]. injection E as <- <- <-.
  unfold enc_close. cbv zeta. destruct (segs_step _ _ _ S) as [st [Est Hst]]. rewrite Est. cbn [bind]. split.
  - intros N. destruct st as [i|]; [reflexivity|]. pose proof (segs_close _ _ _ S (proj1 Hst eq_refl)) as C.
    destruct (f_stk (e_top e)) as [|[[el l] oc] stk]; [reflexivity|]. exfalso.
    destruct C as [g [h' [-> [Ne [K _]]]]]. destruct K as [[_ [t ->]]|[_ ->]]; eapply N; constructor; exact Ne.
  - intros s' A r e'.
    assert (A' : exists g h', h = g :: h' /\ h' <> [] /\ ends h = true /\ s' = (h', b) :: up) by (inversion A; subst; do 2 eexists; eauto).
    destruct A' as [g [h' [Eh [Ne [Ee ->]]]]]. rewrite (proj2 Hst Ee).
    pose proof (segs_close _ _ _ S Ee) as C.
    assert (F : forall el l oc stk o, f_stk (e_top e) = (el, l, oc) :: stk -> forall x,
      (do f' <- close_frame (e_top e); Ok (Continue tt, put_out (put_top e f') o)) = Ok x -> outcome e ((h, b) :: up) ((h', b) :: up) (fst x) (snd x)).
    { intros el l oc stk o Es x Hx. rewrite Es in C. destruct C as [g' [h'' [Eh' [_ [_ [c1 [c2 [E1 [E2 S2]]]]]]]]].
      rewrite Eh in Eh'. injection Eh' as <- <-.
      unfold close_frame in Hx. rewrite Es in Hx. destruct oc as [v|]; cbn [bind] in Hx.
      - injection E1 as ->. rewrite E2 in Hx. cbn [bind] in Hx. injection Hx as <-. left. split; [reflexivity|].
        eapply R_set; [exact HR|reflexivity|exact S2].
      - rewrite E1 in Hx. cbn [bind] in Hx. rewrite E2 in Hx. cbn [bind] in Hx. injection Hx as <-. left. split; [reflexivity|].
        eapply R_set; [exact HR|reflexivity|exact S2]. }
    destruct (f_stk (e_top e)) as [|[[el l] oc] stk] eqn:Es; [subst h; congruence|].
    destruct el; try discriminate; intros H.
    all: try exact (F _ _ _ _ _ eq_refl _ H).
    apply bind_ok in H. destruct H as [n [_ H]]. destruct (0 <? n); [|exact (F _ _ _ _ _ eq_refl _ H)].
    destruct (n <? 2 ^ 32); cbn [negb] in H.
    + apply seq_io_inv in H. destruct H as [[o [idx [_ H]]]|H]; [|right; exact H]. exact (F _ _ _ _ _ eq_refl _ H).
    + unfold fail in H. injection H as <- <-. right. exists (Some DataOverflow), (e_out e). repeat split; try discriminate. destruct e; reflexivity.
Qed.
Lemma enc_typed e h b up : R e ((h, b) :: up) ->
  match next h with
  | None => enc_enc e = Ok (Break (Some Mismatch), e)
  | Some t => exists e', enc_enc e = Ok (Continue tt, e') /\ R e' (([HSeq [t]], true) :: (h, b) :: up)
  end.
Proof.
  intros HR. destruct (R_segs _ _ HR) as [h0 [b0 [up0 [E S]]]]. injection E as <- <- <-.
  unfold enc_enc. cbv zeta. destruct (segs_step _ _ _ S) as [st [Est _]]. rewrite Est. cbn [bind].
  pose proof (segs_sub _ _ _ S) as Q. destruct (next h) as [t|] eqn:N.
  - destruct Q as [s' [Es Hs']]. rewrite Es. cbn [bind]. unfold frame_for. rewrite (cursor_root t s' Hs'). cbn [bind].
    eexists. split; [reflexivity|]. unfold R. cbn [e_top e_up]. eapply fra_sub; [reflexivity|..].
    + cbn [f_cursor f_stk]. apply segs_new. exact Hs'.
    + exact Est.
    + congruence.
    + exact HR.
  - rewrite Q. reflexivity.
Qed.
Lemma commit_typed e h b up : R e ((h, b) :: up) ->
  ((forall s', ~ accepts ((h, b) :: up) CCommit s') -> enc_commit I e = Ok (Break (Some Pending), e)) /\
  (forall s', accepts ((h, b) :: up) CCommit s' -> forall r e', enc_commit I e = Ok (r, e') -> outcome e ((h, b) :: up) s' r e').
Proof.
  intros HR. destruct (R_segs _ _ HR) as [h0 [b0 [up0 [E S]]]]. injection E as <- <- <-.
  unfold enc_commit. cbv zeta. destruct (segs_step _ _ _ S) as [st [Est Hst]]. rewrite Est. cbn [bind]. split.
  - intros N. destruct st as [i|]; [reflexivity|]. pose proof (segs_close _ _ _ S (proj1 Hst eq_refl)) as C.
    destruct (f_stk (e_top e)) as [|en stk]; [|reflexivity]. subst h. exfalso.
    unfold R in HR. inversion HR; subst; eapply N; constructor.
  - intros s' A r e'.
    assert (Eh : h = [HSeq []]) by (inversion A; reflexivity).
    rewrite (proj2 Hst) by (rewrite Eh; reflexivity). pose proof (segs_close _ _ _ S ltac:(rewrite Eh; reflexivity)) as C.
    destruct (f_stk (e_top e)) as [|[[el l] oc] stk] eqn:Es.
    2:{ destruct C as [g [h' [Eh' [Ne _]]]]. rewrite Eh in Eh'. injection Eh' as <- <-. congruence. }
    subst h. unfold R in HR. inversion HR as [f h L Sf Ef Es'|f h g fs s L Sf Hf Ef Es'|f h g fs u b1 s us L Sf Eg Nu Hf Ef Es']; subst.
    + rewrite L. assert (s' = [([HSeq []], false)]) by (inversion A; subst; reflexivity). subst s'.
      destruct (f_done (e_top e)); cbn [negb].
      * intros [= <- <-]. left. split; [reflexivity|]. exact HR.
      * intros Hc. apply bind_ok in Hc. destruct Hc as [w [_ Hc]]. injection Hc as <- <-. left. split; [reflexivity|].
        unfold R. cbn [e_top e_up]. try match goal with H : _ = e_up e |- _ => rewrite <- H end. constructor; [reflexivity|]. cbn [f_cursor f_stk]. rewrite Es in *. exact Sf.
    + rewrite L. assert (s' = ([HSeq []], false) :: up) by (inversion A; subst; reflexivity). subst s'.
      destruct (f_done (e_top e)); cbn [negb].
      * intros [= <- <-]. left. split; [reflexivity|]. exact HR.
      * intros Hc. apply bind_ok in Hc. destruct Hc as [w [_ Hc]]. injection Hc as <- <-. left. split; [reflexivity|].
        unfold R. cbn [e_top e_up]. try match goal with H : _ = e_up e |- _ => rewrite <- H end.
        constructor; [reflexivity| |exact Hf]. cbn [f_cursor f_stk]. rewrite Es in *. exact Sf.
    + rewrite L. try match goal with H : _ = e_up e |- _ => rewrite <- H end. intros [= <- <-]. left. split; [reflexivity|].
      assert (s' = ([HSeq []], false) :: (pop u, b1) :: s) by (inversion A; subst; reflexivity). subst s'.
      unfold R. cbn [e_top e_up]. constructor; [reflexivity|cbn [f_cursor f_stk]; rewrite Es in *; exact Sf|].
      destruct (next u) as [v|] eqn:Nv; [|congruence].
      destruct (frames_segs _ _ _ Hf) as [u0 [b0 [s0 [X Su]]]]. injection X as <- <- <-.
      destruct (segs_pop _ _ _ _ Su Nv) as [c [Ec Sc]].
      eapply frames_set; [exact Hf|destruct us; reflexivity|].
      unfold move_step, do_move in Ec. cbn [idx_of] in Ec. rewrite Eg in Ec. cbn [bind] in Ec. injection Ec as <-.
      destruct us; exact Sc.
Qed.

Ltac ty_unique := let v := fresh in intros v; destruct v as [[]| | | | |]; cbn; split; intros X; try discriminate X; reflexivity.
Theorem call_typed e s c : R e s -> valid_call c ->
  ((forall s', ~ accepts s c s') -> enc_call I e c = Ok (Break (Some (mistake c)), e)) /\
  (forall s' r e', accepts s c s' -> enc_call I e c = Ok (r, e') -> outcome e s s' r e').
Proof.
  intros HR V. destruct (R_segs _ _ HR) as [h [b [up [E S]]]]. subst s.
  assert (Gen : forall u c', (forall s', accepts ((h, b) :: up) c s' <-> next h = Some u /\ s' = (pop h, b) :: up) ->
    enc_call I e c = c' -> mistake c = Mismatch ->
    ((next h <> Some u -> c' = Ok (Break (Some Mismatch), e)) /\
     (next h = Some u -> forall r e', c' = Ok (r, e') -> outcome e ((h, b) :: up) ((pop h, b) :: up) r e')) ->
    ((forall s', ~ accepts ((h, b) :: up) c s') -> enc_call I e c = Ok (Break (Some (mistake c)), e)) /\
    (forall s' r e', accepts ((h, b) :: up) c s' -> enc_call I e c = Ok (r, e') -> outcome e ((h, b) :: up) s' r e')).
  { intros u c' Hacc -> -> [A B]. split.
    - intros N. apply A. intros Nx. apply (N ((pop h, b) :: up)). apply Hacc. split; [exact Nx|reflexivity].
    - intros s' r e' H. apply Hacc in H. destruct H as [Nx ->]. apply B. exact Nx. }
  destruct c as [n|n|n|x|x|x|x| | | | | |x| |].
  - eapply (Gen (TBasic BUint16)); [|reflexivity|reflexivity|eapply fixed_typed; [exact HR|split; discriminate|ty_unique]].
    intros s'. split; [intros A; inversion A; subst; auto|intros [A ->]; constructor; exact A].
  - eapply (Gen (TBasic BUint32)); [|reflexivity|reflexivity|eapply fixed_typed; [exact HR|split; discriminate|ty_unique]].
    intros s'. split; [intros A; inversion A; subst; auto|intros [A ->]; constructor; exact A].
  - eapply (Gen (TBasic BUint64)); [|reflexivity|reflexivity|eapply fixed_typed; [exact HR|split; discriminate|ty_unique]].
    intros s'. split; [intros A; inversion A; subst; auto|intros [A ->]; constructor; exact A].
  - eapply (Gen (TBasic BString)); [|reflexivity|reflexivity|eapply str_typed; [exact HR|split; discriminate|ty_unique]].
    intros s'. split; [intros A; inversion A; subst; auto|intros [A ->]; constructor; exact A].
  - eapply (Gen (TBasic BObjectPath)); [|reflexivity|reflexivity|eapply str_typed; [exact HR|split; discriminate|ty_unique]].
    intros s'. split; [intros A; inversion A; subst; auto|intros [A ->]; constructor; exact A].
  - eapply (Gen (TBasic BSignature)); [|reflexivity|reflexivity|eapply str_typed; [exact HR|split; discriminate|ty_unique]].
    intros s'. split; [intros A; inversion A; subst; auto|intros [A ->]; constructor; exact A].
  - destruct V as [t [sg [-> Esg]]]. cbn [enc_call mistake]. rewrite Esg. cbn [bind].
    assert (Ht : is_sig t sg).
    { unfold make_sig in Esg. apply bind_ok in Esg. destruct Esg as [[er|s0] [E1 E2]]; [discriminate|]. injection E2 as <-.
      eapply sig_new_is, E1. }
    destruct (variant_typed e h b up t sg HR Ht) as [A B]. split.
    + intros N. apply A. intros Nx. eapply N. constructor. exact Nx.
    + intros s' r e' H. inversion H as [| | | | | |t' h' b' up' Nx Eh Et| | | | | | | | | | |]; subst.
      destruct (print_prefix_free t' t []) as [-> _]; [rewrite app_nil_r; assumption|]. apply B. exact Nx.
  - destruct (array_typed e h b up HR) as [A B]. split.
    + intros N. apply A. intros t Nx. eapply N. constructor. exact Nx.
    + intros s' r e' H. inversion H; subst. apply B. assumption.
  - destruct (open_typed e h b up EStructOpen HR (or_introl eq_refl)) as [A B]. split.
    + intros N. apply A. intros u Nx Eu. destruct u as [[]| | | |ts|]; try discriminate Eu. eapply N. constructor. exact Nx.
    + intros s' r e' H. inversion H; subst. eapply B; [eassumption|split; reflexivity].
  - destruct (open_typed e h b up EDictOpen HR (or_intror eq_refl)) as [A B]. split.
    + intros N. apply A. intros u Nx Eu. destruct u as [[]| | | |ts|]; try discriminate Eu. eapply N. constructor. exact Nx.
    + intros s' r e' H. inversion H; subst. eapply B; [eassumption|split; reflexivity].
  - destruct (close_typed e h b up HR) as [A B]. split; [exact A|]. intros s' r e' H. apply B. exact H.
  - pose proof (enc_typed e h b up HR) as T. cbn [enc_call mistake]. split.
    + intros N. destruct (next h) as [t|] eqn:Nx; [exfalso; eapply N; constructor; exact Nx|exact T].
    + intros s' r e' H. inversion H; subst. destruct (next h) as [t'|] eqn:Nx; [|discriminate].
      destruct T as [e1 [E1 R1]]. rewrite E1. intros [= <- <-]. left. split; [reflexivity|]. congruence.
  - destruct V as [t [sg [-> Esg]]]. cbn [enc_call mistake]. rewrite Esg. cbn [bind].
    assert (Ht : is_sig t sg).
    { unfold make_sig in Esg. apply bind_ok in Esg. destruct Esg as [[er|s0] [E1 E2]]; [discriminate|]. injection E2 as <-.
      eapply sig_new_is, E1. }
    pose proof (enc_typed e h b up HR) as T. pose proof (segs_sub _ _ _ S) as Q. unfold enc_enc_with. split.
    + intros N. destruct (next h) as [t'|] eqn:Nx.
      * destruct Q as [s' [Es Hs']]. rewrite Es. cbn [bind].
        destruct (sig_eq_text t t' sg s' Ht Hs') as [v [Ev Hv]]. rewrite Ev. cbn [bind]. destruct v; [|reflexivity].
        exfalso. rewrite (proj1 Hv eq_refl) in N. eapply N. constructor. exact Nx.
      * rewrite Q. reflexivity.
    + intros s' r e' H. inversion H as [| | | | | | | | | | | | |t' h' b' up' Nx Eh Et| | | |]; subst.
      destruct (print_prefix_free t' t []) as [-> _]; [rewrite app_nil_r; assumption|].
      rewrite Nx in T, Q. destruct Q as [s1 [Es Hs']]. rewrite Es. cbn [bind]. rewrite (sig_eq_same t sg s1 Ht Hs'). cbn [bind].
      destruct T as [e1 [E1 R1]]. rewrite E1. intros [= <- <-]. left. split; [reflexivity|exact R1].
  - destruct (commit_typed e h b up HR) as [A B]. split; [exact A|]. intros s' r e' H. apply B. exact H.
  - cbn [enc_call mistake]. unfold enc_drop. split.
    + intros N. exfalso. destruct up as [|g up]; eapply N; constructor.
    + intros s' r e' H. unfold R in HR.
      inversion HR as [f h1 L Sf Ef Es'|f h1 g fs s L Sf Hf Ef Es'|f h1 g fs u b1 s us L Sf Eg Nu Hf Ef Es']; subst.
      * intros [= <- <-]. left. split; [reflexivity|]. inversion H; subst. exact HR.
      * intros [= <- <-]. left. split; [reflexivity|]. unfold R. cbn [e_top e_up].
        inversion H; subst; [exact Hf|]. inversion Hf.
      * intros [= <- <-]. left. split; [reflexivity|]. unfold R. cbn [e_top e_up]. inversion H; subst. exact Hf.
Qed.
End Typed.

Section Histories.
Context {W : Type} (I : Write W).
Lemma R_start fuel fmt t sg o (e : Enc W) : sig_new fuel (print t) = Ok (inr sg) -> enc_new sg fmt o = Ok e -> R e [([HSeq [t]], false)].
Proof.
  intros Es En. pose proof (sig_new_is _ _ _ Es) as Hs. unfold enc_new, frame_for in En. rewrite (cursor_root t sg Hs) in En.
  cbn [bind] in En. injection En as <-. unfold R. cbn [e_top e_up]. constructor; [reflexivity|]. apply segs_new, Hs.
Qed.
Lemma R_out (e : Enc W) o s : R e s -> R (put_out e o) s.
Proof. exact (fun H => H). Qed.
Lemma accepts_dec s c : valid_call c -> s <> [] -> (exists s', accepts s c s') \/ (forall s', ~ accepts s c s').
Proof.
  intros V Ns. destruct s as [|[h b] up]; [congruence|].
  assert (B : forall u, next h = Some u \/ next h <> Some u).
  { intros u. destruct (next h) as [v|]; [|right; discriminate]. 
    destruct (list_eq_dec N.eq_dec (print v) (print u)) as [E|E].
    - left. f_equal. apply (print_prefix_free v u []). rewrite app_nil_r. exact E.
    - right. congruence. }
  destruct c as [n|n|n|x|x|x|x| | | | | |x| |].
  1-6: match goal with |- (exists s', accepts _ ?c _) \/ _ =>
         let u := match c with CU16 _ => constr:(BUint16) | CU32 _ => constr:(BUint32) | CU64 _ => constr:(BUint64)
                  | CString _ => constr:(BString) | CObject _ => constr:(BObjectPath) | _ => constr:(BSignature) end in
         destruct (B (TBasic u)) as [H|H]; [left; eexists; constructor; exact H|right; intros s' A; inversion A; subst; congruence] end.
  - destruct V as [t [sg [-> _]]]. destruct (B TVariant) as [H|H]; [left; eexists; constructor; exact H|right; intros s' A; inversion A; subst; congruence].
  - destruct (next h) as [[]|] eqn:H; try (right; intros s' A; inversion A; subst; congruence). left. eexists. constructor. exact H.
  - destruct (next h) as [[]|] eqn:H; try (right; intros s' A; inversion A; subst; congruence). left. eexists. constructor. exact H.
  - destruct (next h) as [[]|] eqn:H; try (right; intros s' A; inversion A; subst; congruence). left. eexists. constructor. exact H.
  - destruct h as [|[[|t ts]|t] [|g h]]; try (right; intros s' A; inversion A; subst; congruence); left; eexists; constructor; discriminate.
  - destruct (next h) as [u|] eqn:H; try (right; intros s' A; inversion A; subst; congruence). left. eexists. constructor. exact H.
  - destruct V as [t [sg [-> _]]]. destruct (B t) as [H|H]; [left; eexists; constructor; exact H|right; intros s' A; inversion A; subst].
    match goal with E : print ?a = print ?b |- _ => destruct (print_prefix_free a b []) as [-> _]; [rewrite app_nil_r; exact E|congruence] end.
  - destruct h as [|[[|t ts]|t] [|g h]]; try (right; intros s' A; inversion A; subst; congruence).
    destruct b; [|left; eexists; constructor]. destruct up as [|[u b] up]; [|left; eexists; constructor].
    right. intros s' A. inversion A.
  - left. destruct up as [|g up]; eexists; constructor.
Qed.
Lemma R_nonempty (e : Enc W) s : R e s -> s <> [].
Proof. intros H. destruct (R_segs _ _ H) as [h [b [up [-> _]]]]. discriminate. Qed.
Theorem history_follows (e : Enc W) l e' : history I e l e' -> forall s, R e s -> exists s', follows s l s' /\ R e' s'.
Proof.
  induction 1 as [e|e c r e1 l e2 V E H IH]; intros s HR; [exists s; split; [constructor|exact HR]|].
  destruct (call_typed I e s c HR V) as [A B]. destruct (accepts_dec s c V (R_nonempty _ _ HR)) as [[s1 Hs1]|N].
  - destruct (B _ _ _ Hs1 E) as [[-> R1]|[x [o [-> [N1 [N2 ->]]]]]].
    + destruct (IH s1 R1) as [s' [F R']]. exists s'. split; [eapply fol_done; eassumption|exact R'].
    + destruct (IH s (R_out e o s HR)) as [s' [F R']]. exists s'. split; [eapply fol_failed; eassumption|exact R'].
  - rewrite (A N) in E. injection E as <- <-. destruct (IH s HR) as [s' [F R']]. exists s'.
    split; [eapply fol_rejected; eassumption|exact R'].
Qed.
Theorem follows_R (e : Enc W) l e' : history I e l e' -> forall s s', R e s -> follows s l s' -> R e' s'.
Proof.
  induction 1 as [e|e c r e1 l e2 V E H IH]; intros s s' HR F; inversion F as [|? ? s1 ? ? Hs1 F1|? ? ? ? N F1|? ? s1 x ? ? Hs1 N1 N2 F1]; subst; try exact HR;
    destruct (call_typed I e s c HR V) as [A B].
  - destruct (B _ _ _ Hs1 E) as [[_ R1]|[x [o [X _]]]]; [|discriminate]. eapply IH; eassumption.
  - rewrite (A N) in E. injection E as <-. eapply IH; eassumption.
  - destruct (B _ _ _ Hs1 E) as [[X _]|[y [o [_ [_ [_ ->]]]]]]; [discriminate|]. eapply IH; [|exact F1]. exact HR.
Qed.

Theorem typed_history fuel fmt o t sg (e0 : Enc W) l e : sig_new fuel (print t) = Ok (inr sg) -> enc_new sg fmt o = Ok e0 ->
  history I e0 l e -> exists s, follows [([HSeq [t]], false)] l s.
Proof.
  intros Es En H. destruct (history_follows _ _ _ H _ (R_start _ _ _ _ _ _ Es En)) as [s [F _]]. exists s. exact F.
Qed.
Theorem mistyped fuel fmt o t sg (e0 : Enc W) l e s c : sig_new fuel (print t) = Ok (inr sg) -> enc_new sg fmt o = Ok e0 ->
  history I e0 l e -> follows [([HSeq [t]], false)] l s ->
  valid_call c -> (forall s', ~ accepts s c s') -> enc_call I e c = Ok (Break (Some (mistake c)), e).
Proof.
  intros Es En H F V N. apply (call_typed I e s c); [|exact V|exact N].
  eapply follows_R; [exact H|eapply R_start; eassumption|exact F].
Qed.
Theorem failed_call fuel fmt o t sg (e0 : Enc W) l e c b e' : sig_new fuel (print t) = Ok (inr sg) -> enc_new sg fmt o = Ok e0 ->
  history I e0 l e -> valid_call c -> enc_call I e c = Ok (Break b, e') ->
  e_format e' = e_format e /\ e_top e' = e_top e /\ e_up e' = e_up e /\
  ((b = Some Mismatch \/ b = Some Pending) -> e' = e).
Proof.
  intros Es En H V E. destruct (history_follows _ _ _ H _ (R_start _ _ _ _ _ _ Es En)) as [s [_ HR]].
  destruct (call_typed I e s c HR V) as [A B]. destruct (accepts_dec s c V (R_nonempty _ _ HR)) as [[s1 Hs1]|N].
  - destruct (B _ _ _ Hs1 E) as [[X _]|[x [o' [X [N1 [N2 ->]]]]]]; [discriminate|]. injection X as ->.
    repeat split. intros [-> | ->]; congruence.
  - rewrite (A N) in E. injection E as <- <-. repeat split.
Qed.

(** A run of the machine in which every sub-encoder is committed describes a value. *)
Inductive hrun : list hole -> list call -> list hole -> Prop :=
| hrun_nil h : hrun h [] h
| hrun_cons h c cs h1 h2 : plain_call c -> accepts [(h, false)] c [(h1, false)] -> hrun h1 cs h2 -> hrun h (c :: cs) h2
| hrun_sub h u c cs cs' h2 : next h = Some u -> c = CEnc \/ c = CEncWith (print u) -> hrun [HSeq [u]] cs [HSeq []] ->
    hrun (pop h) cs' h2 -> hrun h ((c :: cs ++ [CCommit; CDrop]) ++ cs') h2.
Definition fills (g : hole) (cs : list call) : Prop :=
  match g with
  | HSeq ts => exists vs, encodes_all ts vs cs
  | HArr t => exists vs, encodes_all (repeat t (length vs)) vs cs
  end.
Definition pop1 (g : hole) : hole := match g with HSeq (_ :: ts) => HSeq ts | _ => g end.
Lemma pop_cons g h : pop (g :: h) = pop1 g :: h.
Proof. destruct g as [[|]|]; reflexivity. Qed.
Lemma fills_cons g h u v cs cs' : next (g :: h) = Some u -> encodes u v cs -> fills (pop1 g) cs' -> fills g (cs ++ cs').
Proof.
  destruct g as [[|u' ts]|t]; cbn [next fills pop1]; intros [= <-] E; intros [vs F]; exists (v :: vs).
  - constructor; assumption.
  - cbn [length repeat]. constructor; assumption.
Qed.
Lemma hrun_fills n : forall cs, (length cs <= n)%nat -> forall g h, hrun (g :: h) cs [HSeq []] ->
  (h = [] -> fills g cs) /\
  (h <> [] -> exists cs1 cs2, cs = cs1 ++ CClose :: cs2 /\ fills g cs1 /\ hrun h cs2 [HSeq []]).
Proof.
  induction n as [|n IH]; intros cs Hn g h H.
  - destruct cs; [|cbn in Hn; lia]. inversion H; subst. split; [intros _; exists []; constructor|congruence].
  - inversion H as [|h0 c cs' h1 h2 Pc A H'|h0 u c cs0 cs' h2 Nu Hc Hs H']; subst.
    { split; [intros _; exists []; constructor|congruence]. }
    2:{ cbn [length app] in Hn. rewrite !app_length in Hn. cbn [length] in Hn. rewrite pop_cons in H'.
      destruct (IH cs0 ltac:(lia) _ _ Hs) as [X0 _]. destruct (X0 eq_refl) as [vs0 F0].
      inversion F0 as [|t0 ts0 v vs1 c1 c2 Hv Hr]; subst. inversion Hr; subst. rewrite app_nil_r in *.
      assert (Ev : encodes u v (c :: c1 ++ [CCommit; CDrop])) by (destruct Hc as [-> | ->]; constructor; exact Hv).
      destruct (IH cs' ltac:(lia) _ _ H') as [X Y]. split.
      - intros Eh. exact (fills_cons g h u v _ cs' Nu Ev (X Eh)).
      - intros Nh. destruct (Y Nh) as [cs1 [cs2 [-> [F K]]]]. exists ((c :: c1 ++ [CCommit; CDrop]) ++ cs1), cs2.
        split; [rewrite <- app_assoc; reflexivity|]. split; [exact (fills_cons g h u v _ cs1 Nu Ev F)|exact K]. }
    cbn [length] in Hn. assert (Hn' : (length cs' <= n)%nat) by lia.
    assert (One : forall u v, next (g :: h) = Some u -> encodes u v [c] -> h1 = pop (g :: h) ->
      (h = [] -> fills g (c :: cs')) /\
      (h <> [] -> exists cs1 cs2, c :: cs' = cs1 ++ CClose :: cs2 /\ fills g cs1 /\ hrun h cs2 [HSeq []])).
    { intros u v Nu Ev E1. rewrite pop_cons in E1. subst h1. destruct (IH cs' Hn' _ _ H') as [X Y]. split.
      - intros Eh. exact (fills_cons g h u v [c] cs' Nu Ev (X Eh)).
      - intros Nh. destruct (Y Nh) as [cs1 [cs2 [-> [F K]]]]. exists (c :: cs1), cs2.
        split; [reflexivity|]. split; [exact (fills_cons g h u v [c] cs1 Nu Ev F)|exact K]. }
    assert (Sub : forall u g', next (g :: h) = Some u -> h1 = g' :: pop (g :: h) ->
      (forall cs1, fills g' cs1 -> exists v, encodes u v (c :: cs1 ++ [CClose])) ->
      (h = [] -> fills g (c :: cs')) /\
      (h <> [] -> exists cs1 cs2, c :: cs' = cs1 ++ CClose :: cs2 /\ fills g cs1 /\ hrun h cs2 [HSeq []])).
    { intros u g' Nu E1 Hv. rewrite pop_cons in E1. subst h1. destruct (IH cs' Hn' _ _ H') as [_ Y].
      destruct (Y ltac:(discriminate)) as [x [y [-> [F K]]]]. destruct (Hv x F) as [v Ev].
      rewrite app_length in Hn'. cbn [length] in Hn'.
      destruct (IH y ltac:(lia) _ _ K) as [X2 Y2].
      assert (EQ : forall z, c :: x ++ CClose :: z = (c :: x ++ [CClose]) ++ z) by (intros z; cbn [app]; rewrite <- app_assoc; reflexivity).
      split.
      - intros Eh. rewrite EQ. exact (fills_cons g h u v _ y Nu Ev (X2 Eh)).
      - intros Nh. destruct (Y2 Nh) as [cs1 [cs2 [-> [F2 K2]]]]. exists ((c :: x ++ [CClose]) ++ cs1), cs2.
        split; [rewrite EQ, app_assoc; reflexivity|]. split; [exact (fills_cons g h u v _ cs1 Nu Ev F2)|exact K2]. }
    inversion A as [n0 ? ? ? Nx|n0 ? ? ? Nx|n0 ? ? ? Nx|x ? ? ? Nx|x ? ? ? Nx|x ? ? ? Nx|t ? ? ? Nx|t ? ? ? Nx|ts ? ? ? Nx|k t ? ? ? Nx|h0 b0 up0 Nh|t h0 b0 up0 Nh| | | | | |]; subst;
      try (exfalso; exact Pc).
    + eapply One; [exact Nx|constructor|reflexivity].
    + eapply One; [exact Nx|constructor|reflexivity].
    + eapply One; [exact Nx|constructor|reflexivity].
    + eapply One; [exact Nx|constructor|reflexivity].
    + eapply One; [exact Nx|constructor|reflexivity].
    + eapply One; [exact Nx|constructor|reflexivity].
    + eapply Sub; [exact Nx|reflexivity|]. intros cs1 [vs F]. inversion F as [|t0 ts0 v vs0 c1 c2 Hv Hr]; subst. inversion Hr; subst.
      rewrite app_nil_r. eexists. constructor. exact Hv.
    + eapply Sub; [exact Nx|reflexivity|]. intros cs1 [vs F]. eexists. constructor. exact F.
    + eapply Sub; [exact Nx|reflexivity|]. intros cs1 [vs F]. eexists. constructor. exact F.
    + eapply Sub; [exact Nx|reflexivity|]. intros cs1 [vs F].
      inversion F as [|t0 ts0 v vs0 c1 c2 Hv Hr]; subst. inversion Hr as [|t1 ts1 v1 vs1 c3 c4 Hv1 Hr1]; subst. inversion Hr1; subst.
      eexists. constructor. exact F.
    + split; [congruence|]. intros _. exists [], cs'. split; [reflexivity|]. split; [exists []; constructor|exact H'].
    + split; [congruence|]. intros _. exists [], cs'. split; [reflexivity|]. split; [exists []; constructor|exact H'].
Qed.
End Histories.
