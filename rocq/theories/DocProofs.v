(** Proofs about the JSON document decoder: the language it accepts. *)
From Verif Require Import Base TokSyntax DocSpec DocModel.

(** ** Runs without errors *)

Fixpoint accepts (d : inner) (ts : list Token) : option inner :=
  match ts with
  | [] => Some d
  | t :: ts => match advance d t with (_, Some IError) => None | (d, _) => accepts d ts end
  end.
Lemma accepts_feed ts : forall d, match accepts d ts with
  | Some d' => fst (feed d ts) = d' /\ ~ In IError (snd (feed d ts))
  | None => In IError (snd (feed d ts))
  end.
Proof.
  induction ts as [|t ts IH]; intros d; [cbn; auto|]. cbn [accepts feed]. destruct (advance d t) as [d1 i].
  specialize (IH d1). destruct (feed d1 ts) as [d2 is_] eqn:E. cbn [fst snd] in *.
  destruct i as [i|].
  - destruct i; cbn [fst snd]; try (left; reflexivity);
      (destruct (accepts d1 ts) as [d'|]; [destruct IH as [IH1 IH2]; split; [exact IH1|intros [H|H]; [discriminate|exact (IH2 H)]]|right; exact IH]).
  - destruct (accepts d1 ts); exact IH.
Qed.
Lemma accepts_app a b : forall d, accepts d (a ++ b) = match accepts d a with Some d' => accepts d' b | None => None end.
Proof.
  induction a as [|t a IH]; intros d; [reflexivity|]. cbn [accepts app]. destruct (advance d t) as [d1 i].
  destruct i as [i|]; [destruct i; try reflexivity; apply IH|apply IH].
Qed.
Lemma ws_none d t : is_ws t = true -> advance d t = (d, None).
Proof. destruct t; try discriminate. intros _. unfold advance. destruct (state d); reflexivity. Qed.
Lemma accepts_strip ts : forall d, accepts d (strip ts) = accepts d ts.
Proof.
  induction ts as [|t ts IH]; intros d; [reflexivity|]. unfold strip. cbn [filter]. destruct (is_ws t) eqn:W; cbn [negb].
  - cbn [accepts]. rewrite (ws_none d t W). apply IH.
  - cbn [accepts]. destruct (advance d t) as [d1 i]. destruct i as [i|]; [destruct i; try reflexivity; apply IH|apply IH].
Qed.

(** ** What is accepted *)

(** States in which a value is expected, and what an array or object there
    leaves on the stack. *)
Definition opens (s : State) : option (option Stack) :=
  match s with
  | Root => Some None
  | ArrayOpen | ArrayComma => Some (Some Array)
  | ObjectColon => Some (Some Object)
  | _ => None
  end.
Definition closed (s : list Stack) : inner :=
  match s with
  | [] => mkInner RootDone []
  | Array :: s => mkInner ArrayValue s
  | Object :: s => mkInner ObjectValue s
  end.
Lemma accepts_scalars d from : opens (state d) = Some from -> forall ss, Forall scalar ss -> accepts d ss = Some d.
Proof.
  intros O. induction ss as [|t ss IH]; intros F; [reflexivity|]. inversion F as [|? ? T F']; subst. cbn [accepts].
  replace (advance d t) with (d, Some IPrim); [apply IH, F'|].
  unfold advance. destruct (state d); try discriminate; destruct T; reflexivity.
Qed.

Scheme container_min := Minimality for container Sort Prop
  with items_min := Minimality for items Sort Prop
  with pairs_min := Minimality for pairs Sort Prop.
Combined Scheme grammar_min from container_min, items_min, pairs_min.

Lemma array_opens d from ts : opens (state d) = Some from -> accepts d (TArrayOpen :: ts) = accepts (mkInner ArrayOpen (push d from)) ts.
Proof. cbn [accepts]. unfold advance. destruct (state d); intros E; try discriminate; injection E as <-; reflexivity. Qed.
Lemma object_opens d from ts : opens (state d) = Some from -> accepts d (TObjectOpen :: ts) = accepts (mkInner ObjectOpen (push d from)) ts.
Proof. cbn [accepts]. unfold advance. destruct (state d); intros E; try discriminate; injection E as <-; reflexivity. Qed.
Lemma array_closes s k ts : s = ArrayOpen \/ s = ArrayValue -> accepts (mkInner s k) (TArrayClose :: ts) = accepts (closed k) ts.
Proof. intros [-> | ->]; reflexivity. Qed.
Lemma object_closes k ts : accepts (mkInner ObjectValue k) (TObjectClose :: ts) = accepts (closed k) ts.
Proof. reflexivity. Qed.

Lemma accepted :
  (forall v, container v -> forall d from, opens (state d) = Some from -> accepts d v = Some (closed (push d from))) /\
  (forall vs, items vs -> forall s k, s = ArrayOpen \/ s = ArrayComma -> accepts (mkInner s k) vs = Some (mkInner ArrayValue k)) /\
  (forall ms, pairs ms -> forall s k, s = ObjectOpen \/ s = ObjectComma -> accepts (mkInner s k) ms = Some (mkInner ObjectValue k)).
Proof.
  assert (VA : forall s k, s = ArrayOpen \/ s = ArrayComma -> opens (state (mkInner s k)) = Some (Some Array)) by (intros s k [-> | ->]; reflexivity).
  apply grammar_min.
  - intros ss F d from O. rewrite (array_opens _ _ _ O), accepts_app, (accepts_scalars _ (Some Array)); [reflexivity|reflexivity|exact F].
  - intros vs _ IH d from O. rewrite (array_opens _ _ _ O), accepts_app, IH by auto. reflexivity.
  - intros ms _ IH d from O. rewrite (object_opens _ _ _ O), accepts_app, IH by auto. reflexivity.
  - intros ss v F _ IH s k S. rewrite accepts_app, (accepts_scalars _ _ (VA s k S) ss F), (IH _ _ (VA s k S)). reflexivity.
  - intros ss v vs F _ IH _ IHs s k S. rewrite accepts_app, (accepts_scalars _ _ (VA s k S) ss F), accepts_app, (IH _ _ (VA s k S)).
    change (accepts (mkInner ArrayComma k) vs = Some (mkInner ArrayValue k)). apply IHs. auto.
  - intros raw key ss v F _ IH s k S.
    transitivity (accepts (mkInner ObjectColon k) (ss ++ v)); [destruct S as [-> | ->]; reflexivity|].
    rewrite accepts_app, (accepts_scalars _ (Some Object)) by (auto; reflexivity). rewrite (IH _ (Some Object)); reflexivity.
  - intros raw key ss v ms F _ IH _ IHs s k S.
    transitivity (accepts (mkInner ObjectColon k) (ss ++ v ++ TComma :: ms)); [destruct S as [-> | ->]; reflexivity|].
    rewrite accepts_app, (accepts_scalars _ (Some Object)) by (auto; reflexivity). rewrite accepts_app, (IH _ (Some Object)) by reflexivity.
    change (accepts (mkInner ObjectComma k) ms = Some (mkInner ObjectValue k)). apply IHs. auto.
Qed.
Lemma code_accepted ts : code_document ts -> accepts new ts = Some (mkInner RootDone []).
Proof.
  intros [ss v F C]. rewrite accepts_app, (accepts_scalars new None eq_refl ss F). rewrite (proj1 accepted v C new None eq_refl). reflexivity.
Qed.

(** ** What was read *)

Inductive before_key : list Token -> Prop :=
| bk_nil : before_key []
| bk_comma ms : pairs ms -> before_key (ms ++ [TComma]).
Inductive ctx : list Token -> inner -> Prop :=
| k_root ss : Forall scalar ss -> ctx ss (mkInner Root [])
| k_done ss v : Forall scalar ss -> container v -> ctx (ss ++ v) (mkInner RootDone [])
| k_aopen p d from ss : ctx p d -> opens (state d) = Some from -> Forall scalar ss ->
    ctx (p ++ TArrayOpen :: ss) (mkInner ArrayOpen (push d from))
| k_avalue p d from vs : ctx p d -> opens (state d) = Some from -> items vs ->
    ctx (p ++ TArrayOpen :: vs) (mkInner ArrayValue (push d from))
| k_acomma p d from vs ss : ctx p d -> opens (state d) = Some from -> items vs -> Forall scalar ss ->
    ctx (p ++ TArrayOpen :: vs ++ TComma :: ss) (mkInner ArrayComma (push d from))
| k_oopen p d from : ctx p d -> opens (state d) = Some from ->
    ctx (p ++ [TObjectOpen]) (mkInner ObjectOpen (push d from))
| k_okey p d from b raw k : ctx p d -> opens (state d) = Some from -> before_key b ->
    ctx (p ++ TObjectOpen :: b ++ [TString raw k]) (mkInner ObjectKey (push d from))
| k_ocolon p d from b raw k ss : ctx p d -> opens (state d) = Some from -> before_key b -> Forall scalar ss ->
    ctx (p ++ TObjectOpen :: b ++ TString raw k :: TColon :: ss) (mkInner ObjectColon (push d from))
| k_ovalue p d from ms : ctx p d -> opens (state d) = Some from -> pairs ms ->
    ctx (p ++ TObjectOpen :: ms) (mkInner ObjectValue (push d from))
| k_ocomma p d from ms : ctx p d -> opens (state d) = Some from -> pairs ms ->
    ctx (p ++ TObjectOpen :: ms ++ [TComma]) (mkInner ObjectComma (push d from)).

Lemma items_snoc vs : items vs -> forall ss v, Forall scalar ss -> container v -> items (vs ++ TComma :: ss ++ v).
Proof.
  assert (G : forall n vs, length vs <= n -> items vs -> forall ss v, Forall scalar ss -> container v -> items (vs ++ TComma :: ss ++ v)).
  { induction n as [|n IH]; intros ws L I ss v F C.
    - inversion I as [ss0 v0 F0 C0 E|ss0 v0 vs0 F0 C0 I0 E]; subst ws; rewrite !app_length in L; inversion C0; subst; cbn in L; lia.
    - inversion I as [ss0 v0 F0 C0 E|ss0 v0 vs0 F0 C0 I0 E]; subst ws.
      + rewrite <- app_assoc. apply i_more; [exact F0|exact C0|]. apply i_one; assumption.
      + rewrite <- !app_assoc. cbn [app]. apply i_more; [exact F0|exact C0|]. apply IH; [|assumption..].
        rewrite !app_length in L. cbn in L. lia. }
  intros I. exact (G (length vs) vs (Nat.le_refl _) I).
Qed.
Lemma pairs_snoc ms : pairs ms -> forall raw k ss v, Forall scalar ss -> container v ->
  pairs (ms ++ TComma :: TString raw k :: TColon :: ss ++ v).
Proof.
  assert (G : forall n ms, length ms <= n -> pairs ms -> forall raw k ss v, Forall scalar ss -> container v ->
    pairs (ms ++ TComma :: TString raw k :: TColon :: ss ++ v)).
  { induction n as [|n IH]; intros ws L I raw k ss v F C.
    - inversion I; subst ws; cbn in L; lia.
    - inversion I as [raw0 k0 ss0 v0 F0 C0 E|raw0 k0 ss0 v0 vs0 F0 C0 I0 E]; subst ws; cbn [app].
      + rewrite <- app_assoc. apply p_more; [exact F0|exact C0|]. apply p_one; assumption.
      + rewrite <- !app_assoc. cbn [app]. apply p_more; [exact F0|exact C0|]. apply IH; [|assumption..].
        cbn in L. rewrite !app_length in L. cbn in L. lia. }
  intros I. exact (G (length ms) ms (Nat.le_refl _) I).
Qed.
Lemma pairs_key b raw k ss v : before_key b -> Forall scalar ss -> container v -> pairs (b ++ TString raw k :: TColon :: ss ++ v).
Proof.
  intros [|ms P] F C; [apply p_one; assumption|]. rewrite <- app_assoc. cbn [app]. apply pairs_snoc; assumption.
Qed.

(** A whole value has been read where one is expected. *)
Lemma ctx_value p d from v : ctx p d -> opens (state d) = Some from -> container v -> ctx (p ++ v) (closed (push d from)).
Proof.
  intros K O C. destruct K as [ss F|ss v0 F C0|p d0 from0 ss K O0 F|p d0 from0 vs K O0 I|p d0 from0 vs ss K O0 I F|p d0 from0 K O0
    |p d0 from0 b raw k K O0 B|p d0 from0 b raw k ss K O0 B F|p d0 from0 ms K O0 P|p d0 from0 ms K O0 P]; cbn in O; try discriminate;
    injection O as <-.
  - cbn. apply k_done; assumption.
  - cbn [push stack closed]. rewrite <- app_assoc. cbn [app]. apply k_avalue; [exact K|exact O0|]. apply i_one; assumption.
  - cbn [push stack closed]. rewrite <- app_assoc. cbn [app]. rewrite <- app_assoc. cbn [app].
    apply k_avalue; [exact K|exact O0|]. apply items_snoc; assumption.
  - cbn [push stack closed]. rewrite <- app_assoc. cbn [app]. rewrite <- app_assoc. cbn [app].
    apply k_ovalue; [exact K|exact O0|]. apply pairs_key; assumption.
Qed.
Lemma scalars_snoc ss t : Forall scalar ss -> scalar t -> Forall scalar (ss ++ [t]).
Proof. intros F S. apply Forall_app. split; [exact F|]. constructor; [exact S|constructor]. Qed.
Lemma ctx_scalar p d from t : ctx p d -> opens (state d) = Some from -> scalar t -> ctx (p ++ [t]) d.
Proof.
  intros K O S. destruct K as [ss F|ss v0 F C0|p d0 from0 ss K O0 F|p d0 from0 vs K O0 I|p d0 from0 vs ss K O0 I F|p d0 from0 K O0
    |p d0 from0 b raw k K O0 B|p d0 from0 b raw k ss K O0 B F|p d0 from0 ms K O0 P|p d0 from0 ms K O0 P]; cbn in O; try discriminate;
    injection O as <-; rewrite <- ?app_assoc; cbn [app]; rewrite <- ?app_assoc; cbn [app].
  - apply k_root, scalars_snoc; assumption.
  - apply k_aopen; [exact K|exact O0|]. apply scalars_snoc; assumption.
  - apply k_acomma; [exact K|exact O0|exact I|]. apply scalars_snoc; assumption.
  - apply k_ocolon; [exact K|exact O0|exact B|]. apply scalars_snoc; assumption.
Qed.
Lemma ctx_step p d t d' : ctx p d -> is_ws t = false -> accepts d [t] = Some d' -> ctx (p ++ [t]) d'.
Proof.
  intros K W A.
  assert (OP : forall from, opens (state d) = Some from -> t <> TArrayClose -> ctx (p ++ [t]) d').
  { intros from O NC. destruct t; try discriminate.
    - destruct d as [s k]; cbn in O; destruct s; discriminate.
    - destruct d as [s k]; cbn in O; destruct s; discriminate.
    - destruct d as [s k]; cbn in O; destruct s; discriminate.
    - rewrite (array_opens _ _ _ O) in A. injection A as <-. apply k_aopen; [exact K|exact O|constructor].
    - congruence.
    - rewrite (object_opens _ _ _ O) in A. injection A as <-. apply k_oopen; [exact K|exact O].
    - destruct d as [s k]; cbn in O; destruct s; discriminate.
    - rewrite (accepts_scalars _ _ O) in A by (repeat constructor). injection A as <-. eapply ctx_scalar; [exact K|exact O|constructor].
    - rewrite (accepts_scalars _ _ O) in A by (repeat constructor). injection A as <-. eapply ctx_scalar; [exact K|exact O|constructor].
    - rewrite (accepts_scalars _ _ O) in A by (repeat constructor). injection A as <-. eapply ctx_scalar; [exact K|exact O|constructor].
    - rewrite (accepts_scalars _ _ O) in A by (repeat constructor). injection A as <-. eapply ctx_scalar; [exact K|exact O|constructor].
    - rewrite (accepts_scalars _ _ O) in A by (repeat constructor). injection A as <-. eapply ctx_scalar; [exact K|exact O|constructor]. }
  destruct (state d) eqn:S; try (eapply OP; [reflexivity|]; intros ->; destruct d as [s k]; cbn in S; subst s; discriminate);
    inversion K; subst; try discriminate.
  - destruct t; discriminate.
  - (* ArrayOpen *)
    assert (D : t = TArrayClose \/ t <> TArrayClose) by (destruct t; try (left; reflexivity); right; discriminate).
    destruct D as [-> | NC]; [|eapply OP; [reflexivity|exact NC]].
    rewrite array_closes in A by auto. injection A as <-. rewrite <- app_assoc. cbn [app].
    eapply ctx_value; [eassumption|eassumption|]. apply c_array_none. assumption.
  - (* ArrayValue *)
    destruct t; try discriminate.
    + injection A as <-. rewrite <- app_assoc. cbn [app]. apply k_acomma; try assumption. constructor.
    + rewrite array_closes in A by auto. injection A as <-. rewrite <- app_assoc. cbn [app].
      eapply ctx_value; [eassumption|eassumption|]. apply c_array. assumption.
  - (* ObjectOpen *)
    destruct t; try discriminate. injection A as <-. rewrite <- app_assoc. cbn [app].
    apply (k_okey p0 d0 from [] raw str); [assumption|assumption|constructor].
  - (* ObjectKey *)
    destruct t; try discriminate. injection A as <-. rewrite <- app_assoc. cbn [app]. rewrite <- app_assoc. cbn [app].
    apply k_ocolon; try assumption. constructor.
  - (* ObjectValue *)
    destruct t; try discriminate.
    + injection A as <-. rewrite <- app_assoc. cbn [app]. apply k_ocomma; assumption.
    + rewrite object_closes in A. injection A as <-. rewrite <- app_assoc. cbn [app].
      eapply ctx_value; [eassumption|eassumption|]. apply c_object. assumption.
  - (* ObjectComma *)
    destruct t; try discriminate. injection A as <-. rewrite <- app_assoc. cbn [app].
    apply (k_okey p0 d0 from (ms ++ [TComma]) raw str); [assumption|assumption|]. constructor. assumption.
Qed.
Lemma ctx_run ts : forall p d d', ctx p d -> strip ts = ts -> accepts d ts = Some d' -> ctx (p ++ ts) d'.
Proof.
  induction ts as [|t ts IH]; intros p d d' K W A; [cbn in A; injection A as <-; rewrite app_nil_r; exact K|].
  assert (WT : is_ws t = false /\ strip ts = ts).
  { unfold strip in *. cbn [filter] in W. destruct (is_ws t) eqn:E; cbn [negb] in W; [|injection W as W; auto].
    assert (L : length (filter (fun t => negb (is_ws t)) ts) <= length ts) by (clear; induction ts as [|x ts IH]; [auto|cbn; destruct (negb _); cbn; lia]).
    rewrite W in L. cbn in L. lia. }
  destruct WT as [WT WS]. change (t :: ts) with ([t] ++ ts) in *. rewrite accepts_app in A.
  destruct (accepts d [t]) as [d1|] eqn:A1; [|discriminate]. rewrite app_assoc. eapply IH; [|exact WS|exact A].
  eapply ctx_step; eassumption.
Qed.
Lemma strip_idem ts : strip (strip ts) = strip ts.
Proof. unfold strip. induction ts as [|t ts IH]; [reflexivity|]. cbn. destruct (is_ws t) eqn:W; cbn; [exact IH|]. rewrite W. cbn. rewrite IH. reflexivity. Qed.
Lemma ctx_new ts d : accepts new ts = Some d -> ctx (strip ts) d.
Proof.
  intros A. rewrite <- accepts_strip in A. apply (ctx_run (strip ts) [] new d); [constructor; constructor|apply strip_idem|exact A].
Qed.

(** Everything read without errors can be brought to an end. *)
Lemma value_ends k : (exists us, accepts (mkInner ArrayValue k) us = Some (mkInner RootDone [])) /\
  (exists us, accepts (mkInner ObjectValue k) us = Some (mkInner RootDone [])).
Proof.
  assert (C : forall k, (exists us, accepts (closed k) us = Some (mkInner RootDone [])) ->
    (exists us, accepts (mkInner ArrayValue k) us = Some (mkInner RootDone [])) /\
    (exists us, accepts (mkInner ObjectValue k) us = Some (mkInner RootDone []))).
  { clear. intros k [us E]. split.
    - exists (TArrayClose :: us). rewrite array_closes by auto. exact E.
    - exists (TObjectClose :: us). rewrite object_closes. exact E. }
  induction k as [|s k [IH1 IH2]]; apply C; [exists []; reflexivity|]. destruct s; assumption.
Qed.
Lemma closed_ends k : exists us, accepts (closed k) us = Some (mkInner RootDone []).
Proof. destruct k as [|[|] k]; [exists []; reflexivity|apply value_ends|apply value_ends]. Qed.
Lemma opens_ends d from : opens (state d) = Some from -> exists us, accepts d us = Some (mkInner RootDone []).
Proof.
  intros O. destruct (closed_ends (push d from)) as [us E]. exists (TArrayOpen :: TArrayClose :: us).
  rewrite (array_opens _ _ _ O), array_closes by auto. exact E.
Qed.
Lemma ends d : (state d = RootDone -> stack d = []) -> exists us, accepts d us = Some (mkInner RootDone []).
Proof.
  destruct d as [s k]. cbn [state stack]. intros R. destruct s; try (eapply opens_ends; reflexivity); try apply value_ends.
  - rewrite (R eq_refl). exists []. reflexivity.
  - destruct (opens_ends (mkInner ObjectColon k) _ eq_refl) as [us E]. exists (TString [] [] :: TColon :: us). exact E.
  - destruct (opens_ends (mkInner ObjectColon k) _ eq_refl) as [us E]. exists (TColon :: us). exact E.
  - destruct (opens_ends (mkInner ObjectColon k) _ eq_refl) as [us E]. exists (TString [] [] :: TColon :: us). exact E.
Qed.
Lemma ctx_done p d : ctx p d -> state d = RootDone -> code_document p /\ stack d = [].
Proof. intros K S. destruct K; try discriminate. split; [constructor; assumption|reflexivity]. Qed.

Lemma strip_app a b : strip (a ++ b) = strip a ++ strip b.
Proof. apply filter_app. Qed.
Theorem accepts_prefix ts : (exists d, accepts new ts = Some d) <-> exists us, code_document (strip (ts ++ us)).
Proof.
  split.
  - intros [d A]. destruct (ends d) as [us E].
    + intros S. eapply ctx_done; [apply (ctx_new ts), A|exact S].
    + exists us. assert (B : accepts new (ts ++ us) = Some (mkInner RootDone [])) by (rewrite accepts_app, A; exact E).
      apply ctx_new in B. apply (ctx_done _ _ B eq_refl).
  - intros [us C]. apply code_accepted in C. rewrite accepts_strip, accepts_app in C.
    destruct (accepts new ts) as [d|]; [exists d; reflexivity|discriminate].
Qed.
(** ... and nothing but white space may follow exactly if the document is complete. *)
Theorem accepts_whole ts : (exists d, accepts new ts = Some d /\ forall t, is_ws t = false -> accepts d [t] = None) <-> code_document (strip ts).
Proof.
  split.
  - intros (d & A & N). apply ctx_new in A. apply (ctx_done _ _ A). destruct d as [s k]. cbn [state].
    destruct s; try reflexivity; exfalso;
      first [specialize (N TArrayOpen eq_refl); discriminate|specialize (N TArrayClose eq_refl); discriminate
            |specialize (N (TString [] []) eq_refl); discriminate|specialize (N TColon eq_refl); discriminate
            |specialize (N TComma eq_refl); discriminate].
  - intros C. apply code_accepted in C. rewrite accepts_strip in C. exists (mkInner RootDone []). split; [exact C|].
    intros t W. destruct t; reflexivity || discriminate.
Qed.
