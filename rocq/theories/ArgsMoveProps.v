(** Property C127: where flags stand among the arguments. *)
From Coq Require Import List.
From Verif Require Import Base ArgsSpec ArgsModel ArgsOrder ArgsProofs ArgsText ArgsParse ArgsLayout ArgsUse ArgsProps.
From Verif Require Import ReportSpec ReportModel ReportProofs ReportProps.
From Coq Require Import Lia.
Local Open Scope res_scope.

(** ** C127: flags can stand anywhere between the words *)

(** The arguments [args] are complete: whatever follows them, they are taken up,
    with these calls, and lead from one stage to another. *)
Definition complete (cmds : list command) (g : stage) (args : list str) (ev : list sevent) (g' : stage) : Prop :=
  forall rest, steps cmds (first_scope cmds) g (args ++ rest) ev g' rest.
(** After the path [p], they are nothing but flags, with the values that follow
    them: whether commands can still be entered or not, this stays as it is. *)
Definition only_flags (cmds : list command) (p : path) (flags : list str) (ev : list sevent) : Prop :=
  forall sel, complete cmds (mkStage p sel true) flags ev (mkStage p sel true).

Lemma steps_trans cmds sc g a ev g' a' ev' g'' a'' : steps cmds sc g a ev g' a' -> steps cmds sc g' a' ev' g'' a'' -> steps cmds sc g a (ev ++ ev') g'' a''.
Proof.
  induction 1 as [g a|g a v g1 a1 v' g2 a2 St Sts IH]; intros H; [exact H|]. rewrite <- app_assoc. eapply sts_more; [exact St|apply IH, H].
Qed.
Lemma moved cmds pre flags mid post ev fev mev p sel sel' : distinct cmds -> distinct_flags cmds ->
  complete cmds start pre ev (mkStage p sel true) -> only_flags cmds p flags fev ->
  complete cmds (mkStage p sel true) mid mev (mkStage p sel' true) ->
  forall sev q, runs cmds (first_scope cmds) (pre ++ flags ++ mid ++ post) sev q ->
  exists more, sev = ev ++ fev ++ mev ++ more /\ runs cmds (first_scope cmds) (pre ++ mid ++ flags ++ post) (ev ++ mev ++ fev ++ more) q.
Proof.
  intros D DF HP HF HM sev q (gf & e1 & e2 & S & <- & En & ->).
  assert (A : steps cmds (first_scope cmds) start (pre ++ flags ++ mid ++ post) (ev ++ fev ++ mev) (mkStage p sel' true) post).
  { eapply steps_trans; [apply HP|]. eapply steps_trans; [apply HF|apply HM]. }
  assert (B : steps cmds (first_scope cmds) start (pre ++ mid ++ flags ++ post) (ev ++ mev ++ fev) (mkStage p sel' true) post).
  { eapply steps_trans; [apply HP|]. eapply steps_trans; [apply HM|apply HF]. }
  destruct (steps_fun_pre cmds D DF (first_scope cmds) (first_fun cmds) _ _ _ _ _ A _ _ S) as (e3 & -> & Z).
  exists (e3 ++ e2). split; [now rewrite <- !app_assoc|]. exists gf, ((ev ++ mev ++ fev) ++ e3), e2.
  split; [eapply steps_trans; eassumption|]. split; [reflexivity|]. split; [exact En|]. now rewrite <- !app_assoc.
Qed.

(** Flags can be moved across any arguments that are complete, enter no command,
    and are not "--": the same calls are made, and those for the flags are moved
    likewise.  The same command is selected. *)
Theorem args_flags_move : forall cmds s bs pre flags mid post ev fev mev p sel sel',
  distinct cmds -> distinct_flags cmds -> compiles cmds s -> searches bs ->
  complete cmds start pre ev (mkStage p sel true) -> only_flags cmds p flags fev ->
  complete cmds (mkStage p sel true) mid mev (mkStage p sel' true) ->
  exists more q, parses bs s (pre ++ flags ++ mid ++ post) (ev ++ fev ++ mev ++ more) q /\
    parses bs s (pre ++ mid ++ flags ++ post) (ev ++ mev ++ fev ++ more) q.
Proof.
  intros cmds s bs pre flags mid post ev fev mev p sel sel' D DF K B HP HF HM.
  destruct (args_parse cmds s bs (pre ++ flags ++ mid ++ post) D K B) as (sev & q & R & P).
  destruct (moved cmds pre flags mid post ev fev mev p sel sel' D DF HP HF HM sev q R) as (more & -> & R').
  exists more, q. split; [exact P|]. exact (args_parses cmds s bs _ _ _ D DF K B R').
Qed.
Print Assumptions args_flags_move.

(** Flags make no parameters. *)
Lemma still_selecting cmds g a ev g' a' : steps cmds (first_scope cmds) g a ev g' a' -> selecting g' = true ->
  selecting g = true /\ forall cbind k, flat_map (parameters cbind k) ev = [].
Proof.
  induction 1 as [g a|g a v g1 a1 v' g2 a2 St Sts IH]; intros H; [split; [exact H|reflexivity]|].
  destruct (IH H) as [H1 I]. assert (X : selecting g = true /\ forall cbind k, flat_map (parameters cbind k) v = []).
  { inversion St; subst; cbn in H1 |- *; try discriminate H1; subst; (split; [reflexivity|]); intros cbind k; try reflexivity.
    match goal with F : flag_use _ _ _ _ _ _ _ _ |- _ => inversion F; subst; reflexivity end. }
  destruct X as [X Y]. split; [exact X|]. intros cbind k. rewrite flat_map_app, Y, I. reflexivity.
Qed.
Lemma stands_once cmds s : distinct cmds -> compiles cmds s -> forall i j p, stands s i p -> stands s j p -> i = j.
Proof.
  intros D K i j p (c & E & P) (c' & E' & P'). destruct (compiles_compiled cmds s D K) as (cs & L & C).
  pose proof (co_distinct _ _ C) as N. rewrite <- (co_info _ _ C) in N. unfold distinct in N.
  assert (A : nth_error (map c_path (map d_info s)) i = Some p) by (rewrite nth_error_map, E; cbn; now rewrite P).
  assert (A' : nth_error (map c_path (map d_info s)) j = Some p) by (rewrite nth_error_map, E'; cbn; now rewrite P').
  refine (proj1 (NoDup_nth_error _) N i j _ _); [apply nth_error_Some; congruence|congruence].
Qed.

(** If the flags do not report to the same objects as the arguments between, then it
    makes no difference to the objects, nor to the selection, and the errors differ
    at most in their order. *)
Theorem reports_flags_move : forall cmds s bs bind cbind w pre flags mid post ev fev mev p sel sel' w1 x1 w2 x2,
  distinct cmds -> distinct_flags cmds -> compiles cmds s -> searches bs ->
  complete cmds start pre ev (mkStage p sel true) -> only_flags cmds p flags fev ->
  complete cmds (mkStage p sel true) mid mev (mkStage p sel' true) ->
  (forall k, flat_map (uses bind k) fev = [] \/ flat_map (uses bind k) mev = []) ->
  parse bs s (handle collect s bind cbind) w (pre ++ flags ++ mid ++ post) = Ok (w1, x1) ->
  parse bs s (handle collect s bind cbind) w (pre ++ mid ++ flags ++ post) = Ok (w2, x2) ->
  x1 = x2 /\ (forall k, w_values w1 k = w_values w2 k) /\ (forall k, w_params w1 k = w_params w2 k) /\
  Permutation (w_parser w1) (w_parser w2).
Proof.
  intros cmds s bs bind cbind w pre flags mid post ev fev mev p sel sel' w1 x1 w2 x2 D DF K B HP HF HM HU E1 E2.
  destruct (reports_collect cmds s bs (pre ++ flags ++ mid ++ post) bind cbind w D K B) as (sev & q & w1' & x1' & ess & R & P & Se & V & Pa & Er & Pr).
  rewrite E1 in P. injection P as <- <-.
  destruct (reports_collect cmds s bs (pre ++ mid ++ flags ++ post) bind cbind w D K B) as (sev2 & q2 & w2' & x2' & ess2 & R2 & P & Se2 & V2 & Pa2 & Er2 & Pr2).
  rewrite E2 in P. injection P as <- <-.
  destruct (moved cmds pre flags mid post ev fev mev p sel sel' D DF HP HF HM sev q R) as (more & -> & R').
  destruct (args_unique cmds _ _ _ _ _ D DF R2 R') as [-> ->].
  pose proof (stands_once cmds s D K) as Once.
  split; [|split; [|split]].
  - destruct x1 as [i| |r], x2 as [j| |r']; cbn in Se, Se2; try contradiction.
    + now rewrite (Once i j q Se Se2).
    + destruct Se as (c & E & <-). destruct Se2. exists c. split; [eapply nth_error_In; exact E|reflexivity].
    + destruct Se2 as (c & E & <-). destruct Se. exists c. split; [eapply nth_error_In; exact E|reflexivity].
    + reflexivity.
  - intros k. specialize (V k). specialize (V2 k). rewrite !flat_map_app in V, V2.
    destruct (HU k) as [H|H]; rewrite H in V, V2; exact (reports_unique _ _ _ _ _ Once V V2).
  - intros k. specialize (Pa k). specialize (Pa2 k). rewrite !flat_map_app in Pa, Pa2.
    rewrite (proj2 (still_selecting _ _ _ _ _ _ (HF true []) eq_refl) cbind k) in Pa, Pa2. exact (parameters_unique _ _ _ _ Pa Pa2).
  - rewrite Pr, Pr2. apply Permutation_app_head. clear - Er Er2.
    apply Forall2_app_inv_l in Er. destruct Er as (a1 & l1 & A1 & Er & ->). apply Forall2_app_inv_l in Er. destruct Er as (a2 & l2 & A2 & Er & ->).
    apply Forall2_app_inv_l in Er. destruct Er as (a3 & a4 & A3 & A4 & ->).
    apply Forall2_app_inv_l in Er2. destruct Er2 as (b1 & m1 & B1 & Er & ->). apply Forall2_app_inv_l in Er. destruct Er as (b3 & m2 & B3 & Er & ->).
    apply Forall2_app_inv_l in Er. destruct Er as (b2 & b4 & B2 & B4 & ->).
    assert (U : forall l x y, Forall2 (errors_of bind cbind (w_values w) (w_params w)) l x -> Forall2 (errors_of bind cbind (w_values w) (w_params w)) l y -> x = y).
    { induction l as [|e l IH]; intros x y X Y; inversion X; subst; inversion Y; subst; [reflexivity|]. f_equal; [eapply errors_unique; eassumption|apply IH; assumption]. }
    rewrite <- (U _ _ _ A1 B1), <- (U _ _ _ A2 B2), <- (U _ _ _ A3 B3), <- (U _ _ _ A4 B4), !concat_app.
    apply Permutation_app_head. rewrite !app_assoc. apply Permutation_app_tail, Permutation_app_comm.
Qed.
Print Assumptions reports_flags_move.

(** ** Which arguments are complete *)

(** "--name=value" is always a flag of its own: known or not, readable or not. *)
Theorem args_inline_complete : forall cmds s bs pre ev p sel name v,
  distinct cmds -> distinct_flags cmds -> compiles cmds s -> searches bs -> complete cmds start pre ev (mkStage p sel true) ->
  ~ In equals name -> exists e, only_flags cmds p [double_dash ++ name ++ equals :: v] [e].
Proof.
  intros cmds s bs pre ev p sel name v D DF K B HP N.
  destruct (args_parse cmds s bs (pre ++ [double_dash ++ name ++ equals :: v]) D K B) as (sev & q & (gf & e1 & e2 & S & _) & _).
  destruct (steps_fun_pre cmds D DF (first_scope cmds) (first_fun cmds) _ _ _ _ _ (HP _) _ _ S) as (e3 & -> & Z). clear S.
  inversion Z as [|a1 a2 a3 a4 a5 a6 a7 a8 X Y]; subst. clear Z Y.
  inversion X as [p' sel' rest E|p' sel' arg rest U|p' sel' arg n' v' rest a e rest' L Ne Sc F|p' sel' arg rest Sh|p' fl arg rest W|p' fl arg rest e W|p' fl arg rest e W]; subst.
  - destruct name; discriminate.
  - eexists. intros b rest. eapply (sts_more _ _ _ _ [_] _ _ []); [|apply sts_none]. apply st_unreadable. exact U.
  - assert (v' <> None) as V.
    { intros ->. inversion L; subst. match goal with H : ~ In equals (_ ++ _) |- _ => apply H end. apply in_or_app. right. left. reflexivity. }
    exists e. intros b rest. apply (sts_more _ _ _ _ [e] (mkStage p b true) rest []); [|apply sts_none].
    eapply st_flag; [exact L|exact Ne|exact Sc|]. inversion F; subst; try congruence; econstructor; eassumption.
  - destruct Sh as (c & x & E & Nc). cbn in E. injection E as <- _. congruence.
  - exfalso. exact (W eq_refl _ _ eq_refl).
  - exfalso. exact (W eq_refl _ _ eq_refl).
  - exfalso. exact (W eq_refl _ _ eq_refl).
Qed.
Print Assumptions args_inline_complete.
(** "--name value" for a flag that takes a value, and "--name" for one that takes none. *)
Theorem args_value_complete : forall cmds p a name q cur v,
  name <> [] -> text name -> ~ In equals name -> first_scope cmds p a -> found cmds a name q MParse -> used_on cmds p q cur ->
  only_flags cmds p [double_dash ++ name; v] [SParse q name cur name v].
Proof.
  intros cmds p a name q cur v E T N Sc F U b rest. apply (sts_more _ _ _ _ [_] (mkStage p b true) rest []); [|apply sts_none].
  eapply st_flag; [apply long_plain; assumption|destruct name; [congruence|discriminate]|exact Sc|]. apply (fu_next cmds p a name v rest); [apply nm_plain, F|exact U].
Qed.
Print Assumptions args_value_complete.
Theorem args_switch_complete : forall cmds p a name q m cur,
  name <> [] -> text name -> ~ In equals name -> first_scope cmds p a -> found cmds a name q m -> used_on cmds p q cur ->
  (m = MSet -> only_flags cmds p [double_dash ++ name] [SSet q name cur name]) /\
  (m = MToggle -> only_flags cmds p [double_dash ++ name] [SToggle q name cur name true]).
Proof.
  intros cmds p a name q m cur E T N Sc F U.
  split; intros ->; intros b rest; (apply (sts_more _ _ _ _ [_] (mkStage p b true) rest []); [|apply sts_none]);
    (eapply st_flag; [apply long_plain; assumption|destruct name; [congruence|discriminate]|exact Sc|]).
  - apply (fu_set cmds p a name rest); [apply nm_plain, F|exact U].
  - apply (fu_toggle cmds p a name rest q name true); [apply nm_plain, F|exact U].
Qed.
Print Assumptions args_switch_complete.
(** A parameter: a word that does not lead to a command, or any word after one. *)
Theorem args_word_complete : forall cmds p sel x, word x -> (sel = true -> ~ (text x /\ leads cmds (p ++ [x]))) ->
  (is_command cmds p -> complete cmds (mkStage p sel true) [x] [SParameter p (Some x)] (mkStage p false true)) /\
  (~ is_command cmds p -> complete cmds (mkStage p sel true) [x] [SError (ParameterUnexpected x)] (mkStage p false true)).
Proof.
  intros cmds p sel x W L. split; intros C rest; (eapply (sts_more _ _ _ _ [_] _ _ []); [|apply sts_none]);
    (destruct sel; [apply st_stop; [auto|auto|]|apply st_parameter; [auto|]]); constructor; exact C.
Qed.
Print Assumptions args_word_complete.
(** One after another. *)
Theorem args_complete_app : forall cmds g g' g'' args args' ev ev',
  complete cmds g args ev g' -> complete cmds g' args' ev' g'' -> complete cmds g (args ++ args') (ev ++ ev') g''.
Proof. intros cmds g g' g'' args args' ev ev' H H' rest. rewrite <- app_assoc. eapply steps_trans; [apply H|apply H']. Qed.
Print Assumptions args_complete_app.

(** "a --v=1 x y" and "a x y --v=1". *)
Example args_move_case : exists s bs ev fev mev sel',
  distinct ex_cmds /\ distinct_flags ex_cmds /\ compiles ex_cmds s /\ searches bs /\
  complete ex_cmds start [[97%N]] ev (mkStage [[97%N]] true true) /\
  only_flags ex_cmds [[97%N]] [[45%N;45%N;118%N;61%N;49%N]] [fev] /\
  complete ex_cmds (mkStage [[97%N]] true true) [[120%N]; [121%N]] mev (mkStage [[97%N]] sel' true) /\
  (forall k, flat_map (uses ex_bind k) [fev] = [] \/ flat_map (uses ex_bind k) mev = []) /\
  let run args := match parse bs s (handle collect s ex_bind (fun _ => 0)) ex_world args with
    | Ok (w, x) => (map (w_values w) [0; 1; 2], w_params w 0, w_parser w, x) | _ => ([], PNone, [], NotSelected) end in
  run [[97%N]; [45%N;45%N;118%N;61%N;49%N]; [120%N]; [121%N]] = ([VVec Text [[49%N]]; VHelp None; VBool true], POptVec Text (Some [[120%N]; [121%N]]), [], Selected 1) /\
  run [[97%N]; [120%N]; [121%N]; [45%N;45%N;118%N;61%N;49%N]] = run [[97%N]; [45%N;45%N;118%N;61%N;49%N]; [120%N]; [121%N]].
Proof.
  assert (HP : complete ex_cmds start [[97%N]] [] (mkStage [[97%N]] true true)) by (intros rest; apply ex_reaches).
  destruct (args_inline_complete ex_cmds ex_schema first_match [[97%N]] [] [[97%N]] true [118%N] [49%N] (proj1 ex_distinct) (proj2 ex_distinct)
    ex_compiles first_match_ok HP ltac:(intros [H|[]]; discriminate H)) as [fev HF].
  exists ex_schema, first_match, [], fev, ([SParameter [[97%N]] (Some [120%N])] ++ [SParameter [[97%N]] (Some [121%N])]), false.
  split; [apply ex_distinct|]. split; [apply ex_distinct|]. split; [exact ex_compiles|]. split; [exact first_match_ok|].
  split; [exact HP|]. split; [exact HF|]. split; [|split; [intros k; right; reflexivity|split; vm_compute; reflexivity]].
  assert (C : is_command ex_cmds [[97%N]]) by (eexists; split; [right; right; left; reflexivity|reflexivity]).
  apply (args_complete_app ex_cmds _ (mkStage [[97%N]] false true) _ [[120%N]] [[121%N]]).
  - refine (proj1 (args_word_complete ex_cmds [[97%N]] true [120%N] _ _) C); [intros c x E; discriminate E|].
    intros _ [_ (c & [<-|[<-|[<-|[]]]] & [r E])]; discriminate E.
  - refine (proj1 (args_word_complete ex_cmds [[97%N]] false [121%N] _ _) C); [intros c x E; discriminate E|discriminate].
Qed.
