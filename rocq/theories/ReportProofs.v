(** Proofs about the report objects. *)
From Verif Require Import Base ArgsSpec ArgsModel ArgsOrder ArgsText ArgsParse ReportSpec ReportModel.
From Coq Require Import Lia.

(** ** Lists *)

Lemma last_app {A} (a b : list A) d : last (a ++ b) d = last b (last a d).
Proof.
  revert d. induction a as [|x a IH]; intros d; [reflexivity|]. cbn [app].
  destruct a as [|y a].
  - cbn [app last]. destruct b as [|z b]; [reflexivity|]. cbn [last].
    clear. revert z. induction b as [|y b IH]; intros z; [reflexivity|]. apply IH.
  - exact (IH d).
Qed.
Lemma last_default {A} (a : list A) d d' : a <> [] -> last a d = last a d'.
Proof.
  induction a as [|x a IH]; [contradiction|]. intros _. destruct a as [|y a]; [reflexivity|].
  apply IH. discriminate.
Qed.
Lemma accepted_app enc a b l m : accepted enc a l -> accepted enc b m -> accepted enc (a ++ b) (l ++ m).
Proof. intros A B. induction A; cbn; [exact B|apply ac_yes; assumption|apply ac_no; assumption]. Qed.

Lemma to_enc_yes enc v x : to_enc enc v = Some x -> x = v /\ accepts enc v.
Proof.
  destruct enc; cbn; [intros H; injection H as <-; auto|].
  destruct (DvarModel.utf8_valid v) eqn:E; [|discriminate]. intros H. injection H as <-. split; [reflexivity|]. apply valid_iff, E.
Qed.
Lemma to_enc_no enc v : to_enc enc v = None -> ~ accepts enc v.
Proof.
  destruct enc; cbn; [discriminate|]. destruct (DvarModel.utf8_valid v) eqn:E; [discriminate|]. intros _ T.
  apply valid_iff in T. congruence.
Qed.

(** ** Composition *)

Section At.
  Context (at_ : nat -> path -> Prop).
  Lemma ends_nil v : ends at_ v [] v.
  Proof.
    destruct v as [o|b|enc s|enc o|enc l|enc o|o].
    - exact (en_unit _ o []).
    - exact (en_bool _ b []).
    - exact (en_one _ enc s [] [] (ac_nil _)).
    - exact (en_option _ enc o [] [] (ac_nil _)).
    - rewrite <- (app_nil_r l) at 2. exact (en_vec _ enc l [] [] (ac_nil _)).
    - exact (en_optvec_none _ enc o [] (ac_nil _)).
    - exact (en_help_same _ o [] eq_refl).
  Qed.
  Lemma ends_app v us v1 us' v2 : ends at_ v us v1 -> ends at_ v1 us' v2 -> ends at_ v (us ++ us') v2.
  Proof.
    intros A B. destruct A as [o us|b us|enc s us l A|enc o us l A|enc l0 us l A|enc o us A|enc o us l A N|o us A|o us A|o us p i A I];
      inversion B as [o' us2|b' us2|enc' s' us2 l' B'|enc' o' us2 l' B'|enc' l0' us2 l' B'|enc' o' us2 B'|enc' o' us2 l' B' N'|o' us2 B'|o' us2 B'|o' us2 p' i' B' I']; subst.
    - rewrite <- last_app, <- map_app, <- flat_map_app. apply en_unit.
    - rewrite <- last_app, <- flat_map_app. apply en_bool.
    - rewrite <- last_app. apply en_one. rewrite flat_map_app. apply accepted_app; assumption.
    - rewrite <- last_app, <- map_app. apply en_option. rewrite flat_map_app. apply accepted_app; assumption.
    - rewrite <- app_assoc. apply en_vec. rewrite flat_map_app. apply accepted_app; assumption.
    - apply en_optvec_none. rewrite flat_map_app. exact (accepted_app _ _ _ [] [] A B').
    - apply en_optvec; [|exact N']. rewrite flat_map_app. exact (accepted_app _ _ _ [] _ A B').
    - rewrite <- (app_nil_r l). cbn [items]. apply en_optvec; [|rewrite app_nil_r; exact N].
      rewrite flat_map_app. exact (accepted_app _ _ _ _ [] A B').
    - cbn [items]. rewrite <- app_assoc. apply en_optvec.
      + rewrite flat_map_app. apply accepted_app; assumption.
      + destruct l; [contradiction|discriminate].
    - apply en_help_same. rewrite flat_map_app, A, B'. reflexivity.
    - apply en_help_off. rewrite flat_map_app, A. exact B'.
    - apply (en_help_on _ _ _ p'); [|exact I']. rewrite flat_map_app, A. exact B'.
    - apply en_help_off. rewrite flat_map_app, B', app_nil_r. exact A.
    - apply en_help_off. rewrite flat_map_app, last_app, A.
      rewrite <- B'. apply last_default. intros E. rewrite E in B'. discriminate.
    - apply (en_help_on _ _ _ p'); [|exact I']. rewrite flat_map_app, last_app. rewrite <- B'.
      apply last_default. intros E. rewrite E in B'. discriminate.
    - apply (en_help_on _ _ _ p); [|exact I]. rewrite flat_map_app, B', app_nil_r. exact A.
    - apply en_help_off. rewrite flat_map_app, last_app. rewrite <- B'. apply last_default.
      intros E. rewrite E in B'. discriminate.
    - apply (en_help_on _ _ _ p'); [|exact I']. rewrite flat_map_app, last_app. rewrite <- B'.
      apply last_default. intros E. rewrite E in B'. discriminate.
  Qed.
  Lemma ends_switches v us v' : ends at_ v us v' -> switches v' -> switches v.
  Proof. intros A S. destruct A; inversion S; constructor. Qed.
  Lemma ends_takes v us v' enc : ends at_ v us v' -> takes v' enc -> takes v enc.
  Proof. intros A S. destruct A; inversion S; subst; constructor. Qed.
  Lemma ends_complains v us v' u es : ends at_ v us v' -> complains v' u es -> complains v u es.
  Proof.
    intros A C. pose proof (ends_switches _ _ _ A) as SW. pose proof (fun enc => ends_takes _ _ _ enc A) as TK.
    destruct C; econstructor; eauto.
  Qed.
End At.

Lemma pends_nil v : pends v [] v.
Proof.
  destruct v as [|enc l|enc o]; [constructor| |exact (pe_optvec_none _ _ _ (ac_nil _))].
  rewrite <- (app_nil_r l) at 2. apply pe_vec, ac_nil.
Qed.
Lemma pends_app v xs v1 xs' v2 : pends v xs v1 -> pends v1 xs' v2 -> pends v (xs ++ xs') v2.
Proof.
  intros A B. destruct A as [xs|enc l0 xs l A|enc o xs A|enc o xs l A N];
    inversion B as [xs2|enc' l0' xs2 l' B'|enc' o' xs2 B'|enc' o' xs2 l' B' N']; subst.
  - constructor.
  - rewrite <- app_assoc. apply pe_vec, accepted_app; assumption.
  - apply pe_optvec_none. exact (accepted_app _ _ _ [] [] A B').
  - apply pe_optvec; [exact (accepted_app _ _ _ [] _ A B')|exact N'].
  - rewrite <- (app_nil_r l). cbn [items]. apply pe_optvec; [exact (accepted_app _ _ _ _ [] A B')|rewrite app_nil_r; exact N].
  - cbn [items]. rewrite <- app_assoc. apply pe_optvec; [apply accepted_app; assumption|destruct l; [contradiction|discriminate]].
Qed.
Lemma pends_complains v xs v' x es : pends v xs v' -> pcomplains v' x es -> pcomplains v x es.
Proof. intros A C. destruct A; inversion C; subst; constructor; assumption. Qed.

(** ** One report *)

Section Step.
  Context (s : schema) (bind : binding) (cbind : pbinding).
  Let cs := map d_info s.
  Definition stands (i : nat) (p : path) : Prop := exists c, nth_error (map d_info s) i = Some c /\ c_path c = p.

  Lemma nth_info i c : nth_error cs i = Some c -> exists d, nth_error s i = Some d /\ d_info d = c.
  Proof.
    unfold cs. rewrite nth_error_map. destruct (nth_error s i) as [d|]; [|discriminate]. cbn. intros H. injection H as <-. eauto.
  Qed.
  Lemma path_at_ok i c : nth_error cs i = Some c -> path_at s i = c_path c.
  Proof. intros H. destruct (nth_info _ _ H) as (d & E & <-). unfold path_at. rewrite E. reflexivity. Qed.
  Lemma name_at_ok i k c f : nth_error cs i = Some c -> nth_error (c_flags c) k = Some f -> name_at s (i, k) = f_name f.
  Proof.
    intros H F. destruct (nth_info _ _ H) as (d & E & <-). unfold name_at. cbn [fst snd]. rewrite E, F. reflexivity.
  Qed.

  Lemma set_ok v cur arg p : stands cur p ->
    match report_set v cur arg with
    | Change v' => ends stands v [USet p arg] v' /\ complains v (USet p arg) []
    | Complain e => ends stands v [USet p arg] v /\ complains v (USet p arg) [e]
    end.
  Proof.
    intros S. destruct v as [o|b|enc x|enc o|enc l|enc o|o]; cbn.
    - split; [exact (en_unit _ o [USet p arg])|apply cp_set; constructor].
    - split; [exact (en_bool _ b [USet p arg])|apply cp_set; constructor].
    - split; [exact (en_one _ enc x [USet p arg] [] (ac_nil _))|eapply cp_no_value; constructor].
    - split; [exact (en_option _ enc o [USet p arg] [] (ac_nil _))|eapply cp_no_value; constructor].
    - split; [|eapply cp_no_value; constructor]. rewrite <- (app_nil_r l) at 2. apply en_vec, ac_nil.
    - split; [exact (en_optvec_none _ enc o [USet p arg] (ac_nil _))|eapply cp_no_value; constructor].
    - split; [exact (en_help_on _ o [USet p arg] p cur eq_refl S)|apply cp_set; constructor].
  Qed.
  Lemma toggle_ok v cur arg b p : stands cur p ->
    match report_toggle v cur arg b with
    | Change v' => ends stands v [UToggle p arg b] v' /\ complains v (UToggle p arg b) []
    | Complain e => ends stands v [UToggle p arg b] v /\ complains v (UToggle p arg b) [e]
    end.
  Proof.
    intros S.
    assert (T : forall enc, takes v enc -> complains v (UToggle p arg b)
              [Common (if b then FlagNoValue arg else FlagUnexpectedToggle arg)]).
    { intros enc T. destruct b; [eapply cp_on, T|eapply cp_off, T]. }
    destruct v as [o|b'|enc x|enc o|enc l|enc o|o]; cbn [report_toggle report_set].
    - split; [exact (en_unit _ o [UToggle p arg b])|apply cp_toggle; constructor].
    - split; [exact (en_bool _ b' [UToggle p arg b])|apply cp_toggle; constructor].
    - destruct b; (split; [exact (en_one _ enc x [UToggle p arg _] [] (ac_nil _))|eapply T; constructor]).
    - destruct b; (split; [exact (en_option _ enc o [UToggle p arg _] [] (ac_nil _))|eapply T; constructor]).
    - destruct b; (split; [rewrite <- (app_nil_r l) at 2; apply en_vec, ac_nil|eapply T; constructor]).
    - destruct b; (split; [exact (en_optvec_none _ enc o [UToggle p arg _] (ac_nil _))|eapply T; constructor]).
    - destruct b; (split; [|apply cp_toggle; constructor]).
      + exact (en_help_on _ o [UToggle p arg true] p cur eq_refl S).
      + exact (en_help_off _ o [UToggle p arg false] eq_refl).
  Qed.
  Lemma acc_one enc v : accepts enc v -> accepted enc [v] [v].
  Proof. intros A. apply ac_yes; [exact A|apply ac_nil]. Qed.
  Lemma acc_none enc v : ~ accepts enc v -> accepted enc [v] [].
  Proof. intros A. apply ac_no; [exact A|apply ac_nil]. Qed.
  Lemma parse_value_ok v p arg x :
    match report_parse v arg x with
    | Change v' => ends stands v [UParse p arg x] v' /\ complains v (UParse p arg x) []
    | Complain e => ends stands v [UParse p arg x] v /\ complains v (UParse p arg x) [e]
    end.
  Proof.
    destruct v as [o|b|enc y|enc o|enc l|enc o|o]; cbn [report_parse].
    - split; [exact (en_unit _ o [UParse p arg x])|apply cp_value; constructor].
    - split; [exact (en_bool _ b [UParse p arg x])|apply cp_value; constructor].
    - destruct (to_enc enc x) as [z|] eqn:E.
      + apply to_enc_yes in E. destruct E as [-> A].
        split; [exact (en_one _ enc y [UParse p arg x] [x] (acc_one _ _ A))|eapply cp_taken; [constructor|exact A]].
      + apply to_enc_no in E.
        split; [exact (en_one _ enc y [UParse p arg x] [] (acc_none _ _ E))|eapply cp_not_text; [constructor|exact E]].
    - destruct (to_enc enc x) as [z|] eqn:E.
      + apply to_enc_yes in E. destruct E as [-> A].
        split; [exact (en_option _ enc o [UParse p arg x] [x] (acc_one _ _ A))|eapply cp_taken; [constructor|exact A]].
      + apply to_enc_no in E.
        split; [exact (en_option _ enc o [UParse p arg x] [] (acc_none _ _ E))|eapply cp_not_text; [constructor|exact E]].
    - destruct (to_enc enc x) as [z|] eqn:E.
      + apply to_enc_yes in E. destruct E as [-> A].
        split; [exact (en_vec _ enc l [UParse p arg x] [x] (acc_one _ _ A))|eapply cp_taken; [constructor|exact A]].
      + apply to_enc_no in E. split; [|eapply cp_not_text; [constructor|exact E]].
        rewrite <- (app_nil_r l) at 2. exact (en_vec _ enc l [UParse p arg x] [] (acc_none _ _ E)).
    - destruct (to_enc enc x) as [z|] eqn:E.
      + apply to_enc_yes in E. destruct E as [-> A]. split; [|eapply cp_taken; [constructor|exact A]].
        refine (en_optvec _ enc o [UParse p arg x] [x] (acc_one _ _ A) _). discriminate.
      + apply to_enc_no in E.
        split; [exact (en_optvec_none _ enc o [UParse p arg x] (acc_none _ _ E))|eapply cp_not_text; [constructor|exact E]].
    - split; [exact (en_help_same _ o [UParse p arg x] eq_refl)|apply cp_value; constructor].
  Qed.
  Lemma param_ok v x :
    match report_param v (Some x) with
    | Change v' => pends v [x] v' /\ pcomplains v x []
    | Complain e => pends v [x] v /\ pcomplains v x [e]
    end.
  Proof.
    destruct v as [|enc l|enc o]; cbn [report_param].
    - split; constructor.
    - destruct (to_enc enc x) as [z|] eqn:E.
      + apply to_enc_yes in E. destruct E as [-> A]. split; [apply pe_vec, acc_one, A|constructor; exact A].
      + apply to_enc_no in E. split; [|constructor; exact E].
        rewrite <- (app_nil_r l) at 2. apply pe_vec, acc_none, E.
    - destruct (to_enc enc x) as [z|] eqn:E.
      + apply to_enc_yes in E. destruct E as [-> A]. split; [|constructor; exact A].
        refine (pe_optvec enc o [x] [x] (acc_one _ _ A) _). discriminate.
      + apply to_enc_no in E. split; [apply pe_optvec_none, acc_none, E|constructor; exact E].
  Qed.

  Let h := @handle (list rerror) unit collect s bind cbind.
  (** [w'] is [w] after the report [se]. *)
  Definition stepped (w : world (list rerror)) (se : sevent) (w' : world (list rerror)) (es : list rerror) : Prop :=
    w_parser w' = w_parser w ++ es /\ errors_of bind cbind (w_values w) (w_params w) se es /\
    (forall k, ends stands (w_values w k) (uses bind k se) (w_values w' k)) /\
    (forall k, pends (w_params w k) (parameters cbind k se) (w_params w' k)).

  Lemma put_same {A} (f : nat -> A) k a : put f k a k = a.
  Proof. unfold put. rewrite Nat.eqb_refl. reflexivity. Qed.
  Lemma put_other {A} (f : nat -> A) k a i : i <> k -> put f k a i = f i.
  Proof. unfold put. intros N. apply Nat.eqb_neq in N. rewrite N. reflexivity. Qed.

  Lemma react_ok w q n se u rea :
    (forall k, uses bind k se = if bind q n =? k then [u] else []) -> (forall k, parameters cbind k se = []) ->
    match rea with
    | Change v' => ends stands (w_values w (bind q n)) [u] v' /\ complains (w_values w (bind q n)) u []
    | Complain e => ends stands (w_values w (bind q n)) [u] (w_values w (bind q n)) /\ complains (w_values w (bind q n)) u [e]
    end ->
    exists w' es, react collect w (bind q n) rea = (w', @None unit) /\ stepped w se w' es.
  Proof.
    intros U Pm R.
    assert (I : In u (uses bind (bind q n) se)) by (rewrite U, Nat.eqb_refl; left; reflexivity).
    destruct rea as [v'|e]; destruct R as [E C].
    - exists (mkWorld (put (w_values w) (bind q n) v') (w_params w) (w_parser w)), []. split; [reflexivity|]. split; [|split; [|split]].
      + cbn. rewrite app_nil_r. reflexivity.
      + eapply eo_use; [exact I|exact C].
      + intros k. rewrite U. cbn [w_values]. destruct (Nat.eqb_spec (bind q n) k) as [<-|N].
        * rewrite put_same. exact E.
        * rewrite put_other by congruence. apply ends_nil.
      + intros k. rewrite Pm. apply pends_nil.
    - exists (mkWorld (w_values w) (w_params w) (w_parser w ++ [e])), [e]. split; [reflexivity|]. split; [|split; [|split]].
      + reflexivity.
      + eapply eo_use; [exact I|exact C].
      + intros k. rewrite U. cbn [w_values]. destruct (Nat.eqb_spec (bind q n) k) as [<-|N]; [exact E|apply ends_nil].
      + intros k. rewrite Pm. apply pends_nil.
  Qed.

  Lemma handle_ok w e se : shows cs e se -> exists w' es, h w e = (w', None) /\ stepped w se w' es.
  Proof.
    intros S. destruct S as [e|i c o Ei|i k c f j d arg Ei Ek Ej|i k c f j d arg b Ei Ek Ej|i k c f j d arg v Ei Ek Ej];
      unfold h, handle, slot; cbn [fst];
      try rewrite (path_at_ok _ _ Ei); try rewrite (name_at_ok _ _ _ _ Ei Ek).
    - exists (mkWorld (w_values w) (w_params w) (w_parser w ++ [Common e])), [Common e]. split; [reflexivity|].
      split; [reflexivity|]. split; [constructor|]. split; intros k; [apply ends_nil|apply pends_nil].
    - destruct o as [x|].
      + pose proof (param_ok (w_params w (cbind (c_path c))) x) as R.
        destruct (report_param _ _) as [v'|er]; destruct R as [E C].
        * exists (mkWorld (w_values w) (put (w_params w) (cbind (c_path c)) v') (w_parser w)), []. split; [reflexivity|].
          split; [cbn; rewrite app_nil_r; reflexivity|]. split; [apply eo_parameter, C|]. split; intros k; [apply ends_nil|].
          cbn [parameters w_params]. destruct (Nat.eqb_spec (cbind (c_path c)) k) as [<-|N].
          -- rewrite put_same. exact E.
          -- rewrite put_other by congruence. apply pends_nil.
        * exists (mkWorld (w_values w) (w_params w) (w_parser w ++ [er])), [er]. split; [reflexivity|].
          split; [reflexivity|]. split; [apply eo_parameter, C|]. split; intros k; [apply ends_nil|].
          cbn [parameters w_params]. destruct (Nat.eqb_spec (cbind (c_path c)) k) as [<-|N]; [exact E|apply pends_nil].
      + cbn [report_param react_param].
        exists (mkWorld (w_values w) (put (w_params w) (cbind (c_path c)) (w_params w (cbind (c_path c)))) (w_parser w)), [].
        split; [reflexivity|]. split; [cbn; rewrite app_nil_r; reflexivity|]. split; [apply eo_end|]. split; intros k; [apply ends_nil|].
        cbn [parameters w_params]. destruct (Nat.eq_dec k (cbind (c_path c))) as [->|N].
        * rewrite put_same. apply pends_nil.
        * rewrite put_other by exact N. apply pends_nil.
    - eapply (react_ok w _ _ _ (USet (c_path d) arg)); [intros k'; reflexivity|intros k'; reflexivity|].
      apply set_ok. exists d. auto.
    - eapply (react_ok w _ _ _ (UToggle (c_path d) arg b)); [intros k'; reflexivity|intros k'; reflexivity|].
      apply toggle_ok. exists d. auto.
    - eapply (react_ok w _ _ _ (UParse (c_path d) arg v)); [intros k'; reflexivity|intros k'; reflexivity|].
      apply parse_value_ok.
  Qed.

  Lemma errors_mono vals pars vals' pars' se es us xs :
    (forall k, ends stands (vals k) (us k) (vals' k)) -> (forall k, pends (pars k) (xs k) (pars' k)) ->
    errors_of bind cbind vals' pars' se es -> errors_of bind cbind vals pars se es.
  Proof.
    intros E Pe C. destruct C as [e|e q n u es I C|q x es C|q]; [constructor| | |constructor].
    - eapply eo_use; [exact I|]. eapply ends_complains; [apply E|exact C].
    - apply eo_parameter. eapply pends_complains; [apply Pe|exact C].
  Qed.

  Lemma reports_ok ev sev : Forall2 (shows cs) ev sev -> forall w,
    exists w' ess, tell h w ev = (w', None) /\ w_parser w' = w_parser w ++ concat ess /\
      Forall2 (errors_of bind cbind (w_values w) (w_params w)) sev ess /\
      (forall k, ends stands (w_values w k) (flat_map (uses bind k) sev) (w_values w' k)) /\
      (forall k, pends (w_params w k) (flat_map (parameters cbind k) sev) (w_params w' k)).
  Proof.
    induction 1 as [|e se ev sev S F IH]; intros w.
    - exists w, []. split; [reflexivity|]. split; [cbn; rewrite app_nil_r; reflexivity|]. split; [constructor|].
      split; intros k; [apply ends_nil|apply pends_nil].
    - destruct (handle_ok w e se S) as (w1 & es & E & W & Er & Va & Pa).
      destruct (IH w1) as (w' & ess & T & W' & Er' & Va' & Pa').
      exists w', (es :: ess). split; [cbn; rewrite E; exact T|]. split; [cbn; rewrite W', W, app_assoc; reflexivity|].
      split; [constructor; [exact Er|]|split].
      + clear - Er' Va Pa. induction Er' as [|a b l m X Y IH]; constructor; [|exact IH].
        exact (errors_mono _ _ _ _ _ _ _ _ Va Pa X).
      + intros k. cbn [flat_map]. eapply ends_app; [apply Va|apply Va'].
      + intros k. cbn [flat_map]. eapply pends_app; [apply Pa|apply Pa'].
  Qed.
End Step.
