(** Properties C71-C75: the report objects of the argument parser, and help. *)
From Coq Require Import String.
From Coq Require Import List.
From Verif Require Import Base ArgsSpec ArgsModel ArgsOrder ArgsProofs ArgsText ArgsParse ArgsLayout ArgsUse ArgsProps.
From Verif Require Import ReportSpec ReportModel ReportProofs HelpProofs.
From Coq Require Import Lia.
Local Open Scope res_scope.

(** The selection that [parse] yields is the command with path [p], or none if
    there is no such command. *)
Definition selects {R} (s : schema) (p : path) (x : selected R) : Prop :=
  match x with
  | Selected i => stands s i p
  | NotSelected => ~ is_command (map d_info s) p
  | Broken _ => False
  end.

(** ** C71, C72, C73: what the objects hold after parsing *)

(** With the error list as parser report, parsing always completes; every flag
    object holds what the uses of its flags leave (C71), every command object
    the parameters (C72), and the list has all errors in order (C73). *)
Theorem reports_collect : forall cmds s bs args bind cbind w, distinct cmds -> compiles cmds s -> searches bs ->
  exists sev p w' sel ess, runs cmds (first_scope cmds) args sev p /\
    parse bs s (handle collect s bind cbind) w args = Ok (w', sel) /\ selects s p sel /\
    (forall k, ends (stands s) (w_values w k) (flat_map (uses bind k) sev) (w_values w' k)) /\
    (forall k, pends (w_params w k) (flat_map (parameters cbind k) sev) (w_params w' k)) /\
    Forall2 (errors_of bind cbind (w_values w) (w_params w)) sev ess /\
    w_parser w' = w_parser w ++ concat ess.
Proof.
  intros cmds s bs args bind cbind w D K B.
  destruct (args_parse cmds s bs args D K B) as (sev & p & R & ev & F & T).
  destruct (reports_ok s bind cbind ev sev F w) as (w' & ess & E & W & Er & Va & Pa).
  specialize (T _ _ (handle collect s bind cbind) w). rewrite E in T.
  destruct T as [(i & c & Ep & Hi & Hc)|[Ep N]].
  - exists sev, p, w', (Selected i), ess. repeat (split; [assumption|]). split; [exists c; auto|]. auto.
  - exists sev, p, w', NotSelected, ess. repeat (split; [assumption|]). auto.
Qed.
Print Assumptions reports_collect.

(** The specification determines what the objects hold. *)
Lemma accepted_fun enc vs l l' : accepted enc vs l -> accepted enc vs l' -> l = l'.
Proof.
  intros A. revert l'. induction A as [|v vs l Y A IH|v vs l N A IH]; intros l' B; inversion B; subst; try contradiction.
  - reflexivity.
  - f_equal. apply IH. assumption.
  - apply IH. assumption.
Qed.
Theorem reports_unique : forall (at_ : nat -> path -> Prop) v us v1 v2,
  (forall i j p, at_ i p -> at_ j p -> i = j) -> ends at_ v us v1 -> ends at_ v us v2 -> v1 = v2.
Proof.
  intros at_ v us v1 v2 U A B. destruct A as [o us|b us|enc s us l A|enc o us l A|enc l0 us l A|enc o us A|enc o us l A N|o us A|o us A|o us p i A I];
    inversion B as [o' us2|b' us2|enc' s' us2 l' B'|enc' o' us2 l' B'|enc' l0' us2 l' B'|enc' o' us2 B'|enc' o' us2 l' B' N'|o' us2 B'|o' us2 B'|o' us2 p' i' B' I']; subst; try reflexivity;
    try (rewrite (accepted_fun _ _ _ _ A B'); reflexivity);
    try (rewrite (accepted_fun _ _ _ _ A B') in *; congruence).
  - rewrite A in B'. discriminate.
  - rewrite A in B'. discriminate.
  - rewrite B' in A. discriminate.
  - rewrite (last_default (flat_map asks us) None (Some [])) in B'; [congruence|]. intros E. rewrite E in A. discriminate.
  - rewrite B' in A. discriminate.
  - rewrite (last_default (flat_map asks us) None (Some [])) in A; [congruence|]. intros E. rewrite E in A. discriminate.
  - rewrite A in B'. injection B' as <-. rewrite (U _ _ _ I I'). reflexivity.
Qed.
Print Assumptions reports_unique.
Theorem parameters_unique : forall v xs v1 v2, pends v xs v1 -> pends v xs v2 -> v1 = v2.
Proof.
  intros v xs v1 v2 A B. destruct A as [xs|enc l0 xs l A|enc o xs A|enc o xs l A N];
    inversion B as [xs2|enc' l0' xs2 l' B'|enc' o' xs2 B'|enc' o' xs2 l' B' N']; subst; try reflexivity;
    rewrite (accepted_fun _ _ _ _ A B') in *; congruence.
Qed.
Print Assumptions parameters_unique.
Lemma switch_or_takes v enc : switches v -> takes v enc -> False.
Proof. intros S T. destruct S; inversion T. Qed.
Lemma takes_fun v enc enc' : takes v enc -> takes v enc' -> enc = enc'.
Proof. intros A B. destruct A; inversion B; reflexivity. Qed.
Theorem errors_unique : forall bind cbind vals pars e es es',
  errors_of bind cbind vals pars e es -> errors_of bind cbind vals pars e es' -> es = es'.
Proof.
  assert (C : forall v u es es', complains v u es -> complains v u es' -> es = es').
  { intros v u es es' A B. destruct A; inversion B; subst; try reflexivity;
      try (exfalso; eapply switch_or_takes; eassumption);
      match goal with X : takes v ?a, Y : takes v ?b |- _ => rewrite (takes_fun _ _ _ X Y) in *; contradiction end. }
  assert (U : forall bind k e u, In u (uses bind k e) -> forall k' u', In u' (uses bind k' e) -> k = k' /\ u = u').
  { intros bind k e u I k' u' I'. destruct e; cbn in *; try contradiction;
      match type of I with In _ (if ?x =? ?y then _ else _) =>
        destruct (Nat.eqb_spec x y), (Nat.eqb_spec x k'); try contradiction; destruct I as [<-|[]], I' as [<-|[]]; subst; auto end. }
  intros bind cbind vals pars e es es' A B. destruct A as [x|x q n u es I A|q x es A|q]; inversion B as [x'|x' q' n' u' es2 I' B'|q' x' es2 B'|q']; subst; try reflexivity;
    try (cbn in *; contradiction).
  - destruct (U _ _ _ _ I _ _ I') as [E ->]. rewrite E in A. eapply C; eassumption.
  - destruct A; inversion B'; subst; try reflexivity; contradiction.
Qed.
Print Assumptions errors_unique.

(** With any other parser report: it is told the same errors in the same order,
    until it breaks off, which breaks off parsing.  If it does not, the other
    objects hold the same. *)
Lemma handle_sync {P R} (pr : parser_report P R) s bind cbind w e p :
  exists w1 es, handle collect s bind cbind w e = (w1, None) /\ w_parser w1 = w_parser w ++ es /\
    match tell pr p es with
    | (p', None) => handle pr s bind cbind (mkWorld (w_values w) (w_params w) p) e = (mkWorld (w_values w1) (w_params w1) p', None)
    | (p', Some r) => exists w2, handle pr s bind cbind (mkWorld (w_values w) (w_params w) p) e = (w2, Some r) /\ w_parser w2 = p'
    end.
Proof.
  assert (Re : forall er, exists w1 es, report collect w er = (w1, None) /\ w_parser w1 = w_parser w ++ es /\
    match tell pr p es with
    | (p', None) => report pr (mkWorld (w_values w) (w_params w) p) er = (mkWorld (w_values w1) (w_params w1) p', None)
    | (p', Some r) => exists w2, report pr (mkWorld (w_values w) (w_params w) p) er = (w2, Some r) /\ w_parser w2 = p'
    end).
  { intros er. exists (mkWorld (w_values w) (w_params w) (w_parser w ++ [er])), [er]. split; [reflexivity|]. split; [reflexivity|].
    unfold report. cbn. destruct (pr p er) as [p' [r|]]; [eexists; split; reflexivity|reflexivity]. }
  assert (Rv : forall k rea, exists w1 es, react collect w k rea = (w1, None) /\ w_parser w1 = w_parser w ++ es /\
    match tell pr p es with
    | (p', None) => react pr (mkWorld (w_values w) (w_params w) p) k rea = (mkWorld (w_values w1) (w_params w1) p', None)
    | (p', Some r) => exists w2, react pr (mkWorld (w_values w) (w_params w) p) k rea = (w2, Some r) /\ w_parser w2 = p'
    end).
  { intros k [v|er]; [|apply Re]. eexists. exists []. split; [reflexivity|]. split; [cbn; rewrite app_nil_r; reflexivity|reflexivity]. }
  assert (Rp : forall k rea, exists w1 es, react_param collect w k rea = (w1, None) /\ w_parser w1 = w_parser w ++ es /\
    match tell pr p es with
    | (p', None) => react_param pr (mkWorld (w_values w) (w_params w) p) k rea = (mkWorld (w_values w1) (w_params w1) p', None)
    | (p', Some r) => exists w2, react_param pr (mkWorld (w_values w) (w_params w) p) k rea = (w2, Some r) /\ w_parser w2 = p'
    end).
  { intros k [v|er]; [|apply Re]. eexists. exists []. split; [reflexivity|]. split; [cbn; rewrite app_nil_r; reflexivity|reflexivity]. }
  destruct e; cbn [handle w_values w_params]; [apply Re|apply Rp|apply Rv|apply Rv|apply Rv].
Qed.
Lemma tell_sync {P R} (pr : parser_report P R) s bind cbind ev : forall w p,
  exists w1 es, tell (handle collect s bind cbind) w ev = (w1, None) /\ w_parser w1 = w_parser w ++ es /\
    match tell pr p es with
    | (p', None) => tell (handle pr s bind cbind) (mkWorld (w_values w) (w_params w) p) ev = (mkWorld (w_values w1) (w_params w1) p', None)
    | (p', Some r) => exists w2, tell (handle pr s bind cbind) (mkWorld (w_values w) (w_params w) p) ev = (w2, Some r) /\ w_parser w2 = p'
    end.
Proof.
  induction ev as [|e ev IH]; intros w p.
  - exists w, []. split; [reflexivity|]. split; [rewrite app_nil_r; reflexivity|reflexivity].
  - destruct (handle_sync pr s bind cbind w e p) as (w1 & es & H1 & W1 & P1).
    destruct (tell pr p es) as [p' [r|]] eqn:Et.
    + destruct P1 as (w2 & H2 & W2). destruct (IH w1 p) as (w3 & es3 & H3 & W3 & _).
      exists w3, (es ++ es3). cbn [tell]. rewrite H1, H3. split; [reflexivity|]. split; [rewrite W3, W1, app_assoc; reflexivity|].
      rewrite tell_app, Et. exists w2. rewrite H2. auto.
    + destruct (IH w1 p') as (w3 & es3 & H3 & W3 & P3).
      exists w3, (es ++ es3). cbn [tell]. rewrite H1, H3. split; [reflexivity|]. split; [rewrite W3, W1, app_assoc; reflexivity|].
      rewrite tell_app, Et, P1. exact P3.
Qed.
Theorem reports_any_parser : forall {P R} (pr : parser_report P R) cmds s bs args bind cbind vals pars (x : P),
  distinct cmds -> compiles cmds s -> searches bs ->
  exists sev p ess, runs cmds (first_scope cmds) args sev p /\
    Forall2 (errors_of bind cbind vals pars) sev ess /\
    match tell pr x (concat ess) with
    | (x', Some r) => exists w', parse bs s (handle pr s bind cbind) (mkWorld vals pars x) args = Ok (w', Broken r) /\ w_parser w' = x'
    | (x', None) => exists w' sel, parse bs s (handle pr s bind cbind) (mkWorld vals pars x) args = Ok (w', sel) /\
        selects s p sel /\ w_parser w' = x' /\
        (forall k, ends (stands s) (vals k) (flat_map (uses bind k) sev) (w_values w' k)) /\
        (forall k, pends (pars k) (flat_map (parameters cbind k) sev) (w_params w' k))
    end.
Proof.
  intros P R pr cmds s bs args bind cbind vals pars x D K B.
  destruct (args_parse cmds s bs args D K B) as (sev & p & Rn & ev & F & T).
  destruct (reports_ok s bind cbind ev sev F (mkWorld vals pars [])) as (w1 & ess & E & W & Er & Va & Pa).
  exists sev, p, ess. split; [exact Rn|]. split; [exact Er|]. cbn in W, Va, Pa.
  destruct (tell_sync pr s bind cbind ev (mkWorld vals pars []) x) as (w1' & es & E' & W' & Sy).
  rewrite E in E'. injection E' as <-. cbn in W'. rewrite W in W'. subst es.
  specialize (T _ _ (handle pr s bind cbind) (mkWorld vals pars x)). cbn [w_values w_params] in Sy.
  destruct (tell pr x (concat ess)) as [x' [r|]].
  - destruct Sy as (w2 & H2 & W2). rewrite H2 in T. exists w2. split; [exact T|exact W2].
  - rewrite Sy in T. destruct T as [(i & c & Ep & Hi & Hc)|[Ep N]].
    + eexists. exists (Selected i). split; [exact Ep|]. split; [exists c; auto|]. split; [reflexivity|]. split; [exact Va|exact Pa].
    + eexists. exists NotSelected. split; [exact Ep|]. split; [exact N|]. split; [reflexivity|]. split; [exact Va|exact Pa].
Qed.
Print Assumptions reports_any_parser.

(** ** C74: what help shows *)

(** Help on any command of the layout: what the specification says, and no
    panic. *)
Theorem help_lists : forall cmds s hc hf info entry i p, distinct cmds -> text_layout cmds -> compiles cmds s ->
  stands s i p ->
  exists calls, help_write hc hf info entry s i = Ok calls /\ help_text cmds hc hf info entry p calls.
Proof.
  intros cmds s hc hf info entry i p D T K (c & Hi & <-). destruct (compiles_compiled cmds s D K) as (cs & L & C).
  rewrite (co_info _ _ C) in Hi. exact (write_ok cmds cs s L C T hc hf info entry i c Hi).
Qed.
Print Assumptions help_lists.

(** ** C75: whether and for which command *)

Lemma tell_all_tell {H E} (h : H -> wcall -> H * option E) x calls : tell_all h x calls = tell h x calls.
Proof.
  revert x. induction calls as [|c l IH]; intros x; cbn; [reflexivity|]. destruct (h x c) as [x' [e|]]; [reflexivity|apply IH].
Qed.
(** Help is shown if it was asked for and not taken back, and for the command
    it was asked on the last time.  The calls are made in order until one
    fails. *)
Theorem help_asked : forall cmds s bs args bind cbind w k, distinct cmds -> text_layout cmds -> compiles cmds s -> searches bs ->
  w_values w k = VHelp None ->
  exists sev p w' sel index, runs cmds (first_scope cmds) args sev p /\
    parse bs s (handle collect s bind cbind) w args = Ok (w', sel) /\ w_values w' k = VHelp index /\
    forall hc hf info entry,
    match last (flat_map asks (flat_map (uses bind k) sev)) None with
    | None => forall H E (h : H -> wcall -> H * option E) x,
        try_help hc hf info entry s index h x = Ok (x, NotAsked)
    | Some q => exists calls, help_text cmds hc hf info entry q calls /\
        forall H E (h : H -> wcall -> H * option E) x,
        try_help hc hf info entry s index h x =
          Ok (match tell h x calls with
              | (x', None) => (x', Helped)
              | (x', Some e) => (x', HelpFailed e)
              end)
    end.
Proof.
  intros cmds s bs args bind cbind w k D T K B Hk.
  destruct (reports_collect cmds s bs args bind cbind w D K B) as (sev & p & w' & sel & ess & R & P & _ & Va & _).
  specialize (Va k). rewrite Hk in Va. exists sev, p, w', sel.
  set (us := flat_map (uses bind k) sev) in *. clearbody us.
  inversion Va as [| | | | | | |o us' A E1 E2|o us' A E1 E2|o us' q i A I E1 E2]; subst.
  - exists None. repeat (split; [auto|]). intros hc hf info entry. rewrite A. cbn [last]. intros. reflexivity.
  - exists None. repeat (split; [auto|]). intros hc hf info entry.
    rewrite (last_default (flat_map asks us) None (Some [])); [rewrite A; cbv iota; intros; reflexivity|]. intros E. rewrite E in A. discriminate.
  - exists (Some i). repeat (split; [auto|]). intros hc hf info entry. rewrite A.
    destruct (help_lists cmds s hc hf info entry i q D T K I) as (calls & Ew & Ht). exists calls. split; [exact Ht|].
    intros H0 E h x. unfold try_help. rewrite Ew. cbn [Base.bind]. rewrite tell_all_tell.
    destruct (tell h x calls) as [x' [e|]]; reflexivity.
Qed.
Print Assumptions help_asked.

(** ** Refuted *)

(** Help does not list every word that can follow a command: with the commands
    "" and "a b" the help on "" does not mention "a" although it can be entered. *)
Theorem help_words_refuted : exists cmds s p x, distinct cmds /\ text_layout cmds /\ compiles cmds s /\
  is_command cmds p /\ leads cmds (p ++ [x]) /\
  exists i, stands s i p /\
  forall hc hf info entry, exists calls, help_write hc hf info entry s i = Ok calls /\
    forall n h w, ~ In (WCommand n h w) calls.
Proof.
  pose (cmds := [mkCommand [] []; mkCommand [[97%N]; [98%N]] []]).
  assert (K : compiles cmds [mkDef (mkCommand [] []) None; mkDef (mkCommand [[97%N]; [98%N]] []) (Some 0)]).
  { exists (sort_layout cmds). split; [apply sort_layout_ok|vm_compute; reflexivity]. }
  eexists cmds, _, [], [97%N]. split; [repeat constructor; cbn; intuition discriminate|]. split.
  { intros c [<-|[<-|[]]]; (split; [|constructor]); repeat constructor; apply text_one; reflexivity. }
  split; [exact K|]. split; [eexists; split; [left; reflexivity|reflexivity]|].
  split; [eexists; split; [right; left; reflexivity|exists [[98%N]]; reflexivity]|].
  exists 0. split; [exists (mkCommand [] []); split; reflexivity|]. intros hc hf info entry. eexists. split; [reflexivity|].
  cbn. intros n h w [E|[E|[E|[]]]]; discriminate.
Qed.
Print Assumptions help_words_refuted.

(** ** Examples *)

(** The layout of [ex_cmds]: flag "v" of "" (object 0, a list), flag "f" of ""
    (object 1, help), flag "f" of "a b" (object 2, a switch). *)
Definition ex_bind : binding := fun q n =>
  if str_eqb n [118%N] then 0 else match q with [] => 1 | _ => 2 end.
Definition ex_world : world (list rerror) :=
  mkWorld (fun k => match k with 0 => VVec Text [] | 1 => VHelp None | _ => VBool true end) (fun _ => POptVec Text None) [].
(** a --v=1 --v=<ff> --f b --no-f x -- --f *)
Example ex_reports :
  match parse first_match ex_schema (handle collect ex_schema ex_bind (fun _ => 0)) ex_world
    [[97%N]; [45%N;45%N;118%N;61%N;49%N]; [45%N;45%N;118%N;61%N;255%N]; [45%N;45%N;102%N]; [98%N]; [45%N;45%N;110%N;111%N;45%N;102%N];
     [120%N]; double_dash; [45%N;45%N;102%N]] with
  | Ok (w, sel) =>
      map (w_values w) [0; 1; 2] = [VVec Text [[49%N]]; VHelp (Some 1); VBool false] /\
      w_params w 0 = POptVec Text (Some [[120%N]; [45%N;45%N;102%N]]) /\
      w_parser w = [FlagValueNotUtf8 [118%N] [255%N]] /\ sel = Selected 2
  | _ => False
  end.
Proof. vm_compute. repeat split. Qed.
Example ex_text : text_layout ex_cmds.
Proof.
  intros c [<-|[<-|[<-|[]]]]; (split; [repeat constructor; apply text_one; reflexivity|cbn; repeat constructor; apply text_one; reflexivity]).
Qed.
Example ex_stands : stands ex_schema 1 [[97%N]].
Proof. eexists. split; reflexivity. Qed.
Example ex_help : help_write (fun _ => None) (fun _ _ => None) [105%N] [101%N] ex_schema 0 =
  Ok [WInfo [105%N]; WSection (ascii "Usage"); WUsage [101%N] [];
      WSection (ascii "Flags"); WFlag [102%N] MSet None 1; WFlag [118%N] MParse None 1;
      WSection (ascii "Commands"); WCommand [97%N] None 1].
Proof. vm_compute. reflexivity. Qed.
