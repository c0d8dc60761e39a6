(** The parser follows the specification. *)
From Verif Require Import Base ArgsSpec ArgsModel ArgsOrder ArgsProofs ArgsText.
From Coq Require Import Lia.
Local Open Scope res_scope.

(** A call of a report, described by paths and names. *)
Inductive shows (cs : list command) : event -> sevent -> Prop :=
| sh_error e : shows cs (EError e) (SError e)
| sh_parameter i c o : nth_error cs i = Some c -> shows cs (EParameter i o) (SParameter (c_path c) o)
| sh_set i k c f j d arg : nth_error cs i = Some c -> nth_error (c_flags c) k = Some f -> nth_error cs j = Some d ->
    shows cs (ESet (i, k) j arg) (SSet (c_path c) (f_name f) (c_path d) arg)
| sh_toggle i k c f j d arg b : nth_error cs i = Some c -> nth_error (c_flags c) k = Some f -> nth_error cs j = Some d ->
    shows cs (EToggle (i, k) j arg b) (SToggle (c_path c) (f_name f) (c_path d) arg b)
| sh_parse i k c f j d arg v : nth_error cs i = Some c -> nth_error (c_flags c) k = Some f -> nth_error cs j = Some d ->
    shows cs (EParse (i, k) j arg v) (SParse (c_path c) (f_name f) (c_path d) arg v).

Definition events (e : option event) : list event := match e with Some e => [e] | None => [] end.
Lemma tell_app {H R E} (h : H -> E -> H * option R) x a b :
  tell h x (a ++ b) = match tell h x a with (x', Some r) => (x', Some r) | (x', None) => tell h x' b end.
Proof.
  revert x. induction a as [|e a IH]; intros x; cbn; [reflexivity|].
  destruct (h x e) as [x' [r|]]; [reflexivity|apply IH].
Qed.
Lemma tell_opt_tell {H R} (h : handler H R) x e : tell_opt h x e = tell h x (events e).
Proof. destruct e as [e|]; cbn; [|reflexivity]. destruct (h x e) as [x' [r|]]; reflexivity. Qed.
Lemma tell_event {H R} (h : handler H R) x e : tell h x [e] = h x e.
Proof. cbn. destruct (h x e) as [x' [r|]]; reflexivity. Qed.

Section Compiled.
  Context (cs : list command) (s : schema) (C : compiled cs s) (bs : bsearch) (B : searches bs).

  Definition at_stage (st : state) (g : stage) : Prop :=
    at_path cs (s_cursor st) (entered g) /\
    commands_finalized st = negb (selecting g) /\ flags_finalized st = negb (flagging g).

  Lemma report_ok c p x : at_path cs c p ->
    exists e se, report_parameter s c (Some x) = Ok (Some e) /\ shows cs e se /\ parameter cs p x se.
  Proof.
    intros A. unfold report_parameter. destruct (command_ok cs s C c p A) as [(i & cmd & E & H & P)|[E N]]; rewrite E; cbn [bind].
    - exists (EParameter i (Some x)), (SParameter p (Some x)). split; [reflexivity|]. split.
      + rewrite <- P. apply sh_parameter, H.
      + apply pm_command. exists cmd. split; [eapply nth_error_In, H|exact P].
    - exists (EError (ParameterUnexpected x)), (SError (ParameterUnexpected x)). split; [reflexivity|].
      split; [apply sh_error|apply pm_none, N].
  Qed.
  Lemma report_end c p : at_path cs c p ->
    exists e se, report_parameter s c None = Ok e /\ Forall2 (shows cs) (events e) se /\ ending cs p se.
  Proof.
    intros A. unfold report_parameter. destruct (command_ok cs s C c p A) as [(i & cmd & E & H & P)|[E N]]; rewrite E; cbn [bind].
    - exists (Some (EParameter i None)), [SParameter p None]. split; [reflexivity|]. split.
      + constructor; [|constructor]. rewrite <- P. apply sh_parameter, H.
      + apply en_command. exists cmd. split; [eapply nth_error_In, H|exact P].
    - exists None, []. split; [reflexivity|]. split; [constructor|apply en_none, N].
  Qed.
  Lemma current_ok c p i cmd : at_path cs c p -> nth_error cs i = Some cmd ->
    exists k d, current_or s c i = Ok k /\ nth_error cs k = Some d /\ used_on cs p (c_path cmd) (c_path d).
  Proof.
    intros A H. unfold current_or. destruct (up_ok_command cs s C c p A) as [(k & d & E & K & P)|[E N]]; rewrite E; cbn [bind].
    - exists k, d. split; [reflexivity|]. split; [exact K|apply uo_inner, P].
    - exists i, cmd. split; [reflexivity|]. split; [exact H|apply uo_owner, N].
  Qed.

  Lemma long_ok st p name value rest : at_path cs (s_cursor st) p ->
    exists e took se a, parse_long bs s st (hd_error rest) name value = Ok (st, Some e, took) /\ shows cs e se /\
      first_scope cs p a /\ flag_use cs p a name value rest se (if took : bool then tl rest else rest).
  Proof.
    intros A. destruct (find_flag_ok cs s C bs (s_cursor st) p B A) as (a & Ha & F). unfold parse_long.
    destruct (F name) as (r & Er & Hr). rewrite Er. cbn [bind].
    assert (K : exists o, match r with
        | Some v => Ok (Some (v, None))
        | None => match strip_prefix no_prefix name with
                  | None => Ok None
                  | Some stripped => do found <- find_flag bs s (s_cursor st) stripped;
                      Ok (match found with Some v => Some (v, Some stripped) | None => None end)
                  end
        end = Ok o /\
        match o with
        | None => nameless cs a name
        | Some (i, v, t) => exists cmd f, nth_error cs i = Some cmd /\ nth_error (c_flags cmd) v = Some f /\
            named cs a name (c_path cmd) (f_name f) (f_mode f) (match t with None => true | Some _ => false end)
        end).
    { destruct r as [[i v]|].
      - eexists. split; [reflexivity|]. destruct Hr as (cmd & m & H1 & H2 & H3). exists cmd, (mkFlag name m).
        split; [exact H1|]. split; [exact H2|]. apply nm_plain, H3.
      - destruct (strip_prefix no_prefix name) as [stripped|] eqn:ES.
        + apply strip_iff in ES. subst name. destruct (F stripped) as (r2 & Er2 & Hr2). rewrite Er2. cbn [bind].
          destruct r2 as [[i v]|]; eexists; (split; [reflexivity|]).
          * destruct Hr2 as (cmd & m & H1 & H2 & H3). exists cmd, (mkFlag stripped m).
            split; [exact H1|]. split; [exact H2|]. apply nm_no; [exact Hr|exact H3].
          * split; [exact Hr|]. intros n E. apply app_inv_head in E. subst n. exact Hr2.
        + eexists. split; [reflexivity|]. split; [exact Hr|]. intros n E. apply strip_iff in E. congruence. }
    destruct K as (o & Eo & K). rewrite Eo. cbn [bind]. clear Eo.
    destruct o as [[[i v] t]|].
    2:{ eexists _, false, _, a. split; [reflexivity|]. split; [apply sh_error|]. split; [exact Ha|apply fu_unknown, K]. }
    destruct K as (cmd & f & H1 & H2 & H3). cbn [fst snd]. rewrite (at_info cs s C _ _ H1). cbn [bind]. rewrite H2.
    destruct (current_ok (s_cursor st) p i cmd A H1) as (k & d & Ek & Hk & Uk). rewrite Ek. cbn [bind].
    destruct (f_mode f) eqn:M.
    - destruct t as [t|].
      + eexists _, false, _, a. split; [reflexivity|]. split; [apply sh_error|]. split; [exact Ha|eapply fu_no; [exact H3|discriminate]].
      + destruct value as [val|].
        * eexists _, false, _, a. split; [reflexivity|]. split; [apply sh_error|]. split; [exact Ha|eapply fu_set_value; exact H3].
        * eexists _, false, _, a. split; [reflexivity|]. split; [apply sh_set; eassumption|]. split; [exact Ha|apply fu_set; assumption].
    - destruct value as [val|].
      + exists (EError (FlagUnexpectedValue name val)), false, (SError (FlagUnexpectedValue name val)), a.
        split; [destruct t; reflexivity|]. split; [apply sh_error|]. split; [exact Ha|eapply fu_toggle_value; exact H3].
      + exists (EToggle (i, v) k name (match t with None => true | Some _ => false end)), false,
          (SToggle (c_path cmd) (f_name f) (c_path d) name (match t with None => true | Some _ => false end)), a.
        split; [destruct t; reflexivity|]. split; [apply sh_toggle; assumption|]. split; [exact Ha|apply fu_toggle; assumption].
    - destruct t as [t|].
      + eexists _, false, _, a. split; [reflexivity|]. split; [apply sh_error|]. split; [exact Ha|eapply fu_no; [exact H3|discriminate]].
      + destruct value as [val|].
        * eexists _, false, _, a. split; [reflexivity|]. split; [apply sh_parse; eassumption|]. split; [exact Ha|apply fu_inline; assumption].
        * destruct rest as [|val rest]; cbn [hd_error].
          -- eexists _, false, _, a. split; [reflexivity|]. split; [apply sh_error|]. split; [exact Ha|eapply fu_no_value; exact H3].
          -- eexists _, true, _, a. split; [reflexivity|]. split; [apply sh_parse; eassumption|]. split; [exact Ha|cbn [tl]; apply fu_next; assumption].
  Qed.

  Lemma arg_ok st g arg rest : at_stage st g ->
    exists st' e took se g', parse_arg bs s st arg (hd_error rest) = Ok (st', e, took) /\ at_stage st' g' /\
      Forall2 (shows cs) (events e) se /\
      step cs (first_scope cs) g (arg :: rest) se g' (if took : bool then tl rest else rest).
  Proof.
    destruct g as [p sel fl]. intros (A & Ec & Ef). cbn [entered selecting flagging] in *.
    unfold parse_arg. rewrite Ec, Ef, !Bool.negb_involutive.
    assert (PM : (fl = true -> word arg) -> sel = false -> exists st' e took se g',
        as_parameter s st arg = Ok (st', e, took) /\ at_stage st' g' /\ Forall2 (shows cs) (events e) se /\
        step cs (first_scope cs) (mkStage p sel fl) (arg :: rest) se g' (if took : bool then tl rest else rest)).
    { intros W ->. unfold as_parameter. destruct (report_ok _ p arg A) as (e & se & Ee & Sh & Pm). rewrite Ee. cbn [bind].
      eexists _, _, false, [se], (mkStage p false fl). split; [reflexivity|]. split; [split; [exact A|split; assumption]|].
      split; [constructor; [exact Sh|constructor]|]. apply st_parameter; assumption. }
    assert (OT : (fl = true -> word arg) -> exists st' e took se g',
        (if sel then parse_command bs s st arg (if negb (length (valid_front arg) =? length arg) then None else Some (valid_front arg))
         else as_parameter s st arg) = Ok (st', e, took) /\ at_stage st' g' /\ Forall2 (shows cs) (events e) se /\
        step cs (first_scope cs) (mkStage p sel fl) (arg :: rest) se g' (if took : bool then tl rest else rest)).
    { intros W. destruct sel; [|apply PM; [exact W|reflexivity]]. unfold parse_command.
      assert (K : exists o, match (if negb (length (valid_front arg) =? length arg) then None else Some (valid_front arg)) with
          | None => Ok None | Some v => enter bs s (s_cursor st) v end = Ok o /\
          match o with
          | Some c' => text arg /\ at_path cs (Some c') (p ++ [arg])
          | None => ~ (text arg /\ leads cs (p ++ [arg]))
          end).
      { pose proof (read_whole arg) as R. destruct (negb (length (valid_front arg) =? length arg)).
        - exists None. split; [reflexivity|]. intros [X _]. exact (R X).
        - destruct R as [R1 R2]. rewrite R2. destruct (enter_ok cs s C bs (s_cursor st) p arg B A) as [(c' & E & Ha)|[E N]]; rewrite E.
          + exists (Some c'). split; [reflexivity|]. split; assumption.
          + exists None. split; [reflexivity|]. intros [_ X]. exact (N X). }
      destruct K as (o & Eo & K). rewrite Eo. cbn [bind]. destruct o as [c'|].
      - destruct K as [T Ha]. eexists _, None, false, [], (mkStage (p ++ [arg]) true fl). split; [reflexivity|].
        split; [split; [exact Ha|split; assumption]|]. split; [constructor|]. apply st_enter; [exact W|exact T|].
        destruct Ha as (_ & cmd & H & P & _). exists cmd. split; [eapply nth_error_In, H|exact P].
      - destruct (report_ok _ p arg A) as (e & se & Ee & Sh & Pm). rewrite Ee. cbn [bind].
        eexists _, _, false, [se], (mkStage p false fl). split; [reflexivity|].
        split; [split; [exact A|split; [reflexivity|exact Ef]]|].
        split; [constructor; [exact Sh|constructor]|]. apply st_stop; assumption. }
    destruct (negb sel && negb fl) eqn:E0.
    { apply Bool.andb_true_iff in E0. destruct E0 as [E1 E2]. destruct sel; [discriminate|]. destruct fl; [discriminate|].
      apply PM; [discriminate|reflexivity]. }
    cbv zeta. destruct fl; [|exact (OT (fun H => match (Bool.diff_false_true H) with end))].
    destruct (strip_prefix [dash; dash] (valid_front arg)) as [dd|] eqn:ES.
    - pose proof (read_long arg dd ES) as R. cbv zeta in R.
      assert (LG : forall name value, long arg name value -> arg <> double_dash -> exists st' e took se g',
          parse_long bs s st (hd_error rest) name value = Ok (st', e, took) /\ at_stage st' g' /\ Forall2 (shows cs) (events e) se /\
          step cs (first_scope cs) (mkStage p sel true) (arg :: rest) se g' (if took : bool then tl rest else rest)).
      { intros name value L N. destruct (long_ok st p name value rest A) as (e & took & se & a & E & Sh & Sc & F).
        rewrite E. eexists _, _, took, [se], (mkStage p sel true). split; [reflexivity|].
        split; [split; [exact A|split; assumption]|]. split; [constructor; [exact Sh|constructor]|].
        eapply st_flag; eassumption. }
      destruct (split_once equals dd) as [[before after]|].
      + cbv beta iota.
        assert (E : forall Y : outcome, (match before with [] | _ => Y end) = Y)
          by (intros; destruct before; reflexivity).
        rewrite E. apply LG; [exact R|]. intros ->. inversion R as [|n v T I E1]. subst. destruct before; discriminate.
      + cbv beta iota. destruct (negb (length (valid_front arg) =? length arg)).
        * eexists _, _, false, [SError (FlagUnknown arg)], (mkStage p sel true). split; [reflexivity|].
          split; [split; [exact A|split; assumption]|]. split; [constructor; [apply sh_error|constructor]|]. apply st_unreadable, R.
        * destruct dd as [|c dd].
          -- inversion R as [n T I E1|]; subst. eexists _, None, false, [], (mkStage p false false). split; [reflexivity|].
             split; [split; [exact A|split; reflexivity]|]. split; [constructor|]. apply st_double_dash.
          -- apply LG; [exact R|]. intros ->. inversion R. 
    - pose proof (read_other arg ES) as R.
      assert (W : forall x, arg <> dash :: dash :: x) by (intros x E; exact (R x E)).
      destruct arg as [|x [|y arg]].
      + apply OT. intros _ c x. discriminate.
      + apply OT. intros _ c z. discriminate.
      + destruct (N.eqb_spec x dash) as [->|N].
        * eexists _, _, false, [SError (ShortsUnknown (dash :: y :: arg))], (mkStage p sel true). split; [reflexivity|].
          split; [split; [exact A|split; assumption]|]. split; [constructor; [apply sh_error|constructor]|]. apply st_short.
          exists y, arg. split; [reflexivity|]. intros ->. exact (W arg eq_refl).
        * apply OT. intros _ c z E. injection E as E _. exact (N E).
  Qed.

  Theorem cursor_ok : forall n args st g, length args <= n -> at_stage st g ->
    exists ev sev1 sev2 st' g',
      Forall2 (shows cs) ev (sev1 ++ sev2) /\ steps cs (first_scope cs) g args sev1 g' [] /\
      ending cs (entered g') sev2 /\ at_stage st' g' /\
      forall H R (h : handler H R) x,
        match tell h x ev with
        | (x', Some r) => exists st'', parse_cursor bs s h x st args = Ok (x', Some r, st'')
        | (x', None) => parse_cursor bs s h x st args = Ok (x', None, st')
        end.
  Proof.
    induction n as [|n IH]; intros args st g L A.
    - destruct args; [|cbn in L; lia].
      destruct (report_end _ _ (proj1 A)) as (e & se & E & F & En).
      exists (events e), [], se, st, g. split; [exact F|]. split; [constructor|]. split; [exact En|]. split; [exact A|].
      intros H R h x. cbn [parse_cursor]. rewrite E. cbn [bind]. rewrite tell_opt_tell.
      destruct (tell h x (events e)) as [x' [r|]]; [eexists|]; reflexivity.
    - destruct args as [|arg rest].
      { apply IH; [cbn; lia|exact A]. }
      destruct (arg_ok st g arg rest A) as (st1 & e & took & se & g1 & E & A1 & F & St).
      destruct (IH (if took : bool then tl rest else rest) st1 g1) as (ev & sev1 & sev2 & st' & g' & F' & Sts & En & A' & T).
      { cbn in L. destruct took; [destruct rest; cbn in *; lia|lia]. }
      { exact A1. }
      exists (events e ++ ev), (se ++ sev1), sev2, st', g'.
      split; [rewrite <- app_assoc; apply Forall2_app; assumption|]. split; [eapply sts_more; eassumption|].
      split; [exact En|]. split; [exact A'|].
      intros H R h x. rewrite tell_app. cbn [parse_cursor]. rewrite E. cbn [bind]. rewrite tell_opt_tell.
      destruct (tell h x (events e)) as [x1 [r|]]; [eexists; reflexivity|].
      replace (if took then match rest with [] => parse_cursor bs s h x1 st1 rest | _ :: rest' => parse_cursor bs s h x1 st1 rest' end
               else parse_cursor bs s h x1 st1 rest)
        with (parse_cursor bs s h x1 st1 (if took : bool then tl rest else rest)) by (destruct took; [destruct rest; reflexivity|reflexivity]).
      apply T.
  Qed.

  Theorem parse_ok args : exists ev sev p,
    Forall2 (shows cs) ev sev /\ runs cs (first_scope cs) args sev p /\
    forall H R (h : handler H R) x,
      match tell h x ev with
      | (x', Some r) => parse bs s h x args = Ok (x', Broken r)
      | (x', None) =>
          (exists i c, parse bs s h x args = Ok (x', Selected i) /\ nth_error cs i = Some c /\ c_path c = p) \/
          (parse bs s h x args = Ok (x', NotSelected) /\ ~ is_command cs p)
      end.
  Proof.
    destruct (cursor_ok (length args) args (mkState (cursor_with s) false false) start (le_n _)) as (ev & sev1 & sev2 & st' & g' & F & Sts & En & A & T).
    { split; [apply with_ok, C|split; reflexivity]. }
    exists ev, (sev1 ++ sev2), (entered g'). split; [exact F|]. split.
    { exists g', sev1, sev2. split; [exact Sts|]. split; [reflexivity|]. split; [exact En|reflexivity]. }
    intros H R h x. specialize (T H R h x). unfold parse. destruct (tell h x ev) as [x' [r|]].
    - destruct T as [st'' T]. rewrite T. reflexivity.
    - rewrite T. cbn [bind]. destruct (command_ok cs s C _ _ (proj1 A)) as [(i & c & E & Hi & P)|[E N]]; rewrite E; cbn [bind].
      + left. exists i, c. split; [reflexivity|]. split; assumption.
      + right. split; [reflexivity|exact N].
  Qed.
End Compiled.
