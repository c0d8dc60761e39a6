(** Properties C42-C45: program arguments. *)
From Verif Require Import Base ArgsSpec ArgsModel ArgsOrder ArgsProofs ArgsText ArgsParse ArgsLayout ArgsUse.
From Coq Require Import Lia.
Local Open Scope res_scope.

(** A compiled layout: flags and commands in any sorted order, and linked. *)
Definition compiles (cmds : list command) (s : schema) : Prop :=
  exists cs, layout_sorted cmds cs /\ link cs = Ok s.
(** Parsing makes the calls [sev], in this order, until one breaks off.  If
    none does, the command with path [p] is selected, or none if there is no
    such command. *)
Definition parses (bs : bsearch) (s : schema) (args : list str) (sev : list sevent) (p : path) : Prop :=
  exists ev, Forall2 (shows (map d_info s)) ev sev /\
  forall H R (h : handler H R) (x : H),
    match tell h x ev with
    | (x', Some r) => parse bs s h x args = Ok (x', Broken r)
    | (x', None) =>
        (exists i c, parse bs s h x args = Ok (x', Selected i) /\ nth_error (map d_info s) i = Some c /\ c_path c = p) \/
        (parse bs s h x args = Ok (x', NotSelected) /\ ~ is_command (map d_info s) p)
    end.

(** ** Compilation *)

Fixpoint insert {A} (cmp : A -> A -> comparison) (x : A) (l : list A) : list A :=
  match l with
  | [] => [x]
  | y :: l' => match cmp x y with Gt => y :: insert cmp x l' | _ => x :: l end
  end.
Definition sort {A} (cmp : A -> A -> comparison) (l : list A) : list A := fold_right (insert cmp) [] l.
Lemma insert_perm {A} (cmp : A -> A -> comparison) x l : Permutation (x :: l) (insert cmp x l).
Proof.
  induction l as [|y l IH]; cbn; [apply Permutation_refl|]. destruct (cmp x y); try apply Permutation_refl.
  eapply perm_trans; [apply perm_swap|]. apply perm_skip, IH.
Qed.
Lemma insert_sorted {A B} (f : A -> B) (cmp : B -> B -> comparison) x l : good cmp ->
  StronglySorted (fun a b => cmp (f a) (f b) <> Gt) l -> StronglySorted (fun a b => cmp (f a) (f b) <> Gt) (insert (fun a b => cmp (f a) (f b)) x l).
Proof.
  intros G. induction 1 as [|y l S IH F]; cbn; [repeat constructor|].
  assert (K : cmp (f x) (f y) <> Gt -> StronglySorted (fun a b => cmp (f a) (f b) <> Gt) (x :: y :: l)).
  { intros L. constructor; [constructor; assumption|]. constructor; [exact L|]. eapply Forall_impl; [|exact F].
    intros z Lz. exact (le_trans _ G _ _ _ L Lz). }
  destruct (cmp (f x) (f y)) eqn:C; [apply K; discriminate|apply K; discriminate|].
  constructor; [exact IH|]. apply (Permutation_Forall (insert_perm _ x l)). constructor; [|exact F].
  rewrite (g_anti _ G (f x) (f y)), C. discriminate.
Qed.
Lemma sort_ok {A B} (f : A -> B) (cmp : B -> B -> comparison) l : good cmp ->
  sorted_by (fun a b => cmp (f a) (f b)) l (sort (fun a b => cmp (f a) (f b)) l).
Proof.
  intros G. induction l as [|x l [P S]]; [split; [apply Permutation_refl|constructor]|]. cbn. split.
  - eapply perm_trans; [apply perm_skip, P|apply insert_perm].
  - apply insert_sorted; assumption.
Qed.
Definition sort_layout (cmds : list command) : list command :=
  sort by_path (map (fun c => mkCommand (c_path c) (sort by_name (c_flags c))) cmds).
Lemma sort_layout_ok cmds : layout_sorted cmds (sort_layout cmds).
Proof.
  exists (map (fun c => mkCommand (c_path c) (sort by_name (c_flags c))) cmds). split.
  - induction cmds as [|c l IH]; constructor; [|exact IH]. split; [reflexivity|]. apply (sort_ok f_name str_cmp), good_str.
  - apply (sort_ok c_path path_cmp), good_path.
Qed.
(** The first match is one way to search. *)
Fixpoint first_match (l : list comparison) : option nat :=
  match l with
  | [] => None
  | Eq :: _ => Some 0
  | _ :: l' => option_map S (first_match l')
  end.
Lemma first_match_ok : searches first_match.
Proof.
  intros l _. induction l as [|c l IH]; cbn; [intros []|].
  destruct c; [reflexivity| |]; (destruct (first_match l); cbn; [exact IH|intros [E|E]; [discriminate|exact (IH E)]]).
Qed.

(** Compiling a layout never panics: whatever order sorting produces. *)
Theorem args_compiles : forall cmds cs, distinct cmds -> layout_sorted cmds cs -> exists s, link cs = Ok s.
Proof.
  intros cmds cs D L. destruct (link_ok cs) as (s & E & _); [eapply layout_paths, L|eapply layout_distinct; eassumption|intros c; eapply layout_flags, L|].
  exists s. exact E.
Qed.
Print Assumptions args_compiles.

Lemma compiles_compiled cmds s : distinct cmds -> compiles cmds s -> exists cs, layout_sorted cmds cs /\ compiled cs s.
Proof.
  intros D (cs & L & E). exists cs. split; [exact L|].
  destruct (link_ok cs) as (s' & E' & C); [eapply layout_paths, L|eapply layout_distinct; eassumption|intros c; eapply layout_flags, L|].
  rewrite E in E'. injection E' as <-. exact C.
Qed.

(** ** Parsing *)

(** For every layout, every argument vector and every report: parsing does not
    panic, makes the calls the specification lists, stops when a call breaks
    off, and otherwise selects the command whose path was entered. *)
Theorem args_parse : forall cmds s bs args, distinct cmds -> compiles cmds s -> searches bs ->
  exists sev p, runs cmds (first_scope cmds) args sev p /\ parses bs s args sev p.
Proof.
  intros cmds s bs args D K B. destruct (compiles_compiled cmds s D K) as (cs & L & C).
  destruct (parse_ok cs s C bs B args) as (ev & sev & p & F & R & T). exists sev, p. split.
  - apply (same_runs cs cmds (same_sym _ _ (layout_same _ _ L)) (first_scope cs)); [|exact R].
    intros x y. apply same_scope, same_sym, layout_same, L.
  - exists ev. rewrite (co_info _ _ C). split; [exact F|exact T].
Qed.
Print Assumptions args_parse.

(** The specification determines the calls and the selection, so they do not
    depend on how the standard library sorts and searches. *)
Theorem args_unique : forall cmds args sev p sev' p', distinct cmds -> distinct_flags cmds ->
  runs cmds (first_scope cmds) args sev p -> runs cmds (first_scope cmds) args sev' p' -> sev = sev' /\ p = p'.
Proof. intros cmds args sev p sev' p' D DF. apply runs_fun; [exact D|exact DF|intros; eapply first_fun; eassumption]. Qed.
Print Assumptions args_unique.

Lemma args_parses cmds s bs args sev p : distinct cmds -> distinct_flags cmds -> compiles cmds s -> searches bs ->
  runs cmds (first_scope cmds) args sev p -> parses bs s args sev p.
Proof.
  intros D DF K B R. destruct (args_parse cmds s bs args D K B) as (sev' & p' & R' & P).
  destruct (args_unique cmds args sev p sev' p' D DF R R') as [-> ->]. exact P.
Qed.

(** ** C42 *)

(** The positional arguments are the path of the selected command and then the
    parameters.  Unless cut short by "--", the path is as long as possible: the
    first parameter does not extend it. *)
Theorem args_selection : forall cmds s bs args, distinct cmds -> compiles cmds s -> searches bs ->
  exists sev p ws, parses bs s args sev p /\ positional cmds (first_scope cmds) start args ws /\
    ws = p ++ flat_map given sev /\ Forall text p /\ (p = [] \/ leads cmds p) /\
    (~ In double_dash args ->
       match flat_map given sev with [] => True | x :: _ => ~ (text x /\ leads cmds (p ++ [x])) end).
Proof.
  intros cmds s bs args D K B. destruct (args_parse cmds s bs args D K B) as (sev & p & (g & e1 & e2 & S & <- & En & ->) & P).
  destruct (positional_ok _ _ _ _ _ _ S) as (ws & more & Po & E & W & _).
  destruct (entered_leads _ _ _ _ _ _ S (Forall_nil _) (or_introl eq_refl)) as [T L].
  exists (e1 ++ e2), (entered g), ws. rewrite flat_map_app, (ending_given _ _ _ En), app_nil_r.
  split; [exact P|]. split; [exact Po|]. split; [rewrite W, E; reflexivity|]. split; [exact T|]. split; [exact L|].
  intros N. apply (stops_right _ _ _ _ _ _ S eq_refl N).
Qed.
Print Assumptions args_selection.

(** Without flags: the longest path at the start of the arguments; what follows
    are parameters, reported to that command and in order. *)
Theorem args_selection_words : forall cmds s bs args, distinct cmds -> compiles cmds s -> searches bs -> Forall word args ->
  exists sev p more, parses bs s args sev p /\ args = p ++ more /\ flat_map given sev = more /\
    Forall text p /\ (p = [] \/ leads cmds p) /\
    match more with [] => True | x :: _ => ~ (text x /\ leads cmds (p ++ [x])) end.
Proof.
  intros cmds s bs args D K B W. destruct (args_selection cmds s bs args D K B) as (sev & p & ws & P & Po & E & T & L & N).
  rewrite (words_positional _ _ _ _ _ W Po) in E. exists sev, p, (flat_map given sev).
  split; [exact P|]. split; [exact E|]. split; [reflexivity|]. split; [exact T|]. split; [exact L|]. apply N.
  intros I. rewrite Forall_forall in W. exact (W _ I dash [] eq_refl).
Qed.
Print Assumptions args_selection_words.

(** ** C43 *)

(** If all commands above a command exist, flags are looked up in the command
    entered, then in those above it, and nowhere else. *)
Theorem args_innermost_partial : forall cmds s bs args, distinct cmds -> closed cmds -> compiles cmds s -> searches bs ->
  exists sev p, runs cmds innermost_scope args sev p /\ parses bs s args sev p.
Proof.
  intros cmds s bs args D Cl K B. destruct (args_parse cmds s bs args D K B) as (sev & p & R & P). exists sev, p. split; [|exact P].
  apply (same_runs cmds cmds (same_refl _) (first_scope cmds)); [|exact R]. intros x y. apply closed_scope, Cl.
Qed.
Print Assumptions args_innermost_partial.
(** In any layout this is so after a path that is a command. *)
Theorem args_innermost_here_partial : forall cmds p a, is_command cmds p -> (first_scope cmds p a <-> a = p).
Proof. exact first_scope_command. Qed.
Print Assumptions args_innermost_here_partial.

(** ** C44 *)

(** Wherever "--" is met as an argument of its own, everything after it is a
    parameter of the command entered so far. *)
Theorem args_double_dash : forall cmds s bs args ev p sel post,
  distinct cmds -> distinct_flags cmds -> compiles cmds s -> searches bs ->
  steps cmds (first_scope cmds) start args ev (mkStage p sel true) (double_dash :: post) ->
  exists params en, Forall2 (parameter cmds p) post params /\ ending cmds p en /\ parses bs s args (ev ++ params ++ en) p.
Proof.
  intros cmds s bs args ev p sel post D DF K B S.
  destruct (parameters_only cmds (first_scope cmds) p post) as (ps & F & S2).
  assert (Sf : steps cmds (first_scope cmds) start args (ev ++ ps) (mkStage p false false) []).
  { clear F. remember (double_dash :: post) as r eqn:Er. remember (mkStage p sel true) as g eqn:Eg.
    induction S as [g0 a0|g0 a0 v g1 a1 v' g2 a2 St Sts IH]; subst.
    - cbn. apply (sts_more cmds _ _ _ [] (mkStage p false false) post ps); [apply st_double_dash|exact S2].
    - rewrite <- app_assoc. eapply sts_more; [exact St|]. apply IH; reflexivity. }
  destruct (args_parse cmds s bs args D K B) as (sev & q & (g & e1 & e2 & S3 & <- & En & ->) & P).
  destruct (steps_fun cmds D DF (first_scope cmds) (first_fun cmds) _ _ _ _ Sf _ _ S3) as [<- <-]. cbn in *.
  exists ps, e2. split; [exact F|]. split; [exact En|]. rewrite app_assoc. exact P.
Qed.
Print Assumptions args_double_dash.

(** ** C45 *)

(** The parser has come to [arg] after making the calls [ev] and entering [p],
    and flags are still recognised. *)
Definition reaches_arg (cmds : list command) (args : list str) (ev : list sevent) (p : path) (sel : bool) (arg : str) (rest : list str) : Prop :=
  steps cmds (first_scope cmds) start args ev (mkStage p sel true) (arg :: rest).
Lemma text_no : text no_prefix.
Proof. unfold no_prefix. do 3 (apply text_cons; [reflexivity|]). exact text_nil. Qed.
Section Flags.
  Context (cmds : list command) (s : schema) (bs : bsearch) (D : distinct cmds) (DF : distinct_flags cmds)
    (K : compiles cmds s) (B : searches bs).
  Lemma next_step args ev g rest ev1 g' rest' : steps cmds (first_scope cmds) start args ev g rest ->
    step cmds (first_scope cmds) g rest ev1 g' rest' ->
    exists more q, parses bs s args (ev ++ ev1 ++ more) q.
  Proof.
    intros S St. destruct (args_parse cmds s bs args D K B) as (sev & q & (gf & e1 & e2 & S3 & <- & En & ->) & P).
    assert (S' : steps cmds (first_scope cmds) start args (ev ++ ev1) g' rest').
    { clear - S St. induction S as [g0 a0|g0 a0 v g1 a1 v' g2 a2 St0 Sts IH].
      - replace ([] ++ ev1) with (ev1 ++ []) by apply app_nil_r. eapply sts_more; [exact St|apply sts_none].
      - rewrite <- app_assoc. eapply sts_more; [exact St0|]. apply IH, St. }
    destruct (steps_fun_pre cmds D DF (first_scope cmds) (first_fun cmds) _ _ _ _ _ S' _ _ S3) as (e3 & -> & _).
    exists (e3 ++ e2), (entered gf). rewrite <- !app_assoc in P. exact P.
  Qed.

  (** What a flag does, in general; the theorems below are cases of it.  [a] is
      where flags are looked up.  Missing from the full statement are short
      flags, which the code does not have: [args_short_refuted]. *)
  Theorem args_flag_partial args ev p sel arg name value rest a e rest' :
    reaches_arg cmds args ev p sel arg rest -> long arg name value -> arg <> double_dash -> first_scope cmds p a ->
    flag_use cmds p a name value rest e rest' -> exists more q, parses bs s args (ev ++ e :: more) q.
  Proof. intros S L N Sc F. eapply (next_step args ev _ _ [e] _ _ S). eapply st_flag; eassumption. Qed.

  (** "--name=value" *)
  Theorem args_flag_inline args ev p sel name v rest a q cur :
    reaches_arg cmds args ev p sel (double_dash ++ name ++ equals :: v) rest -> text name -> ~ In equals name -> first_scope cmds p a ->
    found cmds a name q MParse -> used_on cmds p q cur ->
    exists more x, parses bs s args (ev ++ SParse q name cur name v :: more) x.
  Proof.
    intros S T N Sc F U. eapply args_flag_partial; [exact S|apply long_value; assumption|destruct name; discriminate|exact Sc|].
    apply (fu_inline cmds p a name v rest); [apply nm_plain, F|exact U].
  Qed.
  (** "--name value", where the value can be anything, also "--" or a flag *)
  Theorem args_flag_next args ev p sel name v rest a q cur :
    reaches_arg cmds args ev p sel (double_dash ++ name) (v :: rest) -> name <> [] -> text name -> ~ In equals name -> first_scope cmds p a ->
    found cmds a name q MParse -> used_on cmds p q cur ->
    exists more x, parses bs s args (ev ++ SParse q name cur name v :: more) x.
  Proof.
    intros S Nn T N Sc F U. eapply args_flag_partial; [exact S|apply long_plain; assumption|destruct name; [contradiction|discriminate]|exact Sc|].
    apply (fu_next cmds p a name v rest); [apply nm_plain, F|exact U].
  Qed.
  (** "--name" without a value *)
  Theorem args_flag_no_value args ev p sel name a q :
    reaches_arg cmds args ev p sel (double_dash ++ name) [] -> name <> [] -> text name -> ~ In equals name -> first_scope cmds p a ->
    found cmds a name q MParse -> exists more x, parses bs s args (ev ++ SError (FlagNoValue name) :: more) x.
  Proof.
    intros S Nn T N Sc F. eapply args_flag_partial; [exact S|apply long_plain; assumption|destruct name; [contradiction|discriminate]|exact Sc|].
    eapply fu_no_value, nm_plain, F.
  Qed.
  (** "--name" for flags that are set or toggled *)
  Theorem args_flag_set args ev p sel name rest a q cur :
    reaches_arg cmds args ev p sel (double_dash ++ name) rest -> name <> [] -> text name -> ~ In equals name -> first_scope cmds p a ->
    found cmds a name q MSet -> used_on cmds p q cur ->
    exists more x, parses bs s args (ev ++ SSet q name cur name :: more) x.
  Proof.
    intros S Nn T N Sc F U. eapply args_flag_partial; [exact S|apply long_plain; assumption|destruct name; [contradiction|discriminate]|exact Sc|].
    apply (fu_set cmds p a name rest); [apply nm_plain, F|exact U].
  Qed.
  Theorem args_flag_on args ev p sel name rest a q cur :
    reaches_arg cmds args ev p sel (double_dash ++ name) rest -> name <> [] -> text name -> ~ In equals name -> first_scope cmds p a ->
    found cmds a name q MToggle -> used_on cmds p q cur ->
    exists more x, parses bs s args (ev ++ SToggle q name cur name true :: more) x.
  Proof.
    intros S Nn T N Sc F U. eapply args_flag_partial; [exact S|apply long_plain; assumption|destruct name; [contradiction|discriminate]|exact Sc|].
    apply (fu_toggle cmds p a name rest); [apply nm_plain, F|exact U].
  Qed.
  (** "--no-name" *)
  Theorem args_flag_off args ev p sel name rest a q cur :
    reaches_arg cmds args ev p sel (double_dash ++ no_prefix ++ name) rest -> text name -> ~ In equals name -> first_scope cmds p a ->
    missing cmds a (no_prefix ++ name) -> found cmds a name q MToggle -> used_on cmds p q cur ->
    exists more x, parses bs s args (ev ++ SToggle q name cur (no_prefix ++ name) false :: more) x.
  Proof.
    intros S T N Sc M F U. eapply args_flag_partial; [exact S|apply long_plain| |exact Sc|].
    - apply text_app; [|exact T]. exact text_no.
    - intros I. apply in_app_or in I. destruct I as [[I|[I|[I|[]]]]|I]; try discriminate I. exact (N I).
    - discriminate.
    - apply (fu_toggle cmds p a (no_prefix ++ name) rest); [apply nm_no; assumption|exact U].
  Qed.
  (** "--no-name" for a flag that cannot be toggled *)
  Theorem args_flag_not_toggled args ev p sel name value rest a q m :
    reaches_arg cmds args ev p sel (double_dash ++ (no_prefix ++ name) ++ inline value) rest -> text name -> ~ In equals name -> first_scope cmds p a ->
    missing cmds a (no_prefix ++ name) -> found cmds a name q m -> m <> MToggle ->
    exists more x, parses bs s args (ev ++ SError (FlagUnexpectedToggle (no_prefix ++ name)) :: more) x.
  Proof.
    intros S T N Sc M F U.
    assert (T' : text (no_prefix ++ name)). { apply text_app; [|exact T]. exact text_no. }
    assert (N' : ~ In equals (no_prefix ++ name)).
    { intros I. apply in_app_or in I. destruct I as [[I|[I|[I|[]]]]|I]; try discriminate I. exact (N I). }
    assert (L : long (double_dash ++ (no_prefix ++ name) ++ inline value) (no_prefix ++ name) value).
    { destruct value as [v|]; cbn [inline]; [apply long_value; assumption|]. rewrite app_nil_r. apply long_plain; assumption. }
    eapply args_flag_partial; [exact S|exact L|discriminate|exact Sc|]. eapply fu_no; [apply nm_no; eassumption|exact U].
  Qed.
  (** A value for a flag that takes none *)
  Theorem args_flag_no_values args ev p sel name v rest a q m :
    reaches_arg cmds args ev p sel (double_dash ++ name ++ equals :: v) rest -> text name -> ~ In equals name -> first_scope cmds p a ->
    found cmds a name q m -> m <> MParse ->
    exists more x, parses bs s args (ev ++ SError (FlagUnexpectedValue name v) :: more) x.
  Proof.
    intros S T N Sc F U. eapply args_flag_partial; [exact S|apply long_value; assumption|destruct name; discriminate|exact Sc|].
    destruct m; [eapply fu_set_value, nm_plain, F|eapply fu_toggle_value, nm_plain, F|contradiction].
  Qed.
  (** A flag that does not exist *)
  Theorem args_flag_unknown args ev p sel arg name value rest a :
    reaches_arg cmds args ev p sel arg rest -> long arg name value -> arg <> double_dash -> first_scope cmds p a ->
    nameless cmds a name -> exists more x, parses bs s args (ev ++ SError (FlagUnknown name) :: more) x.
  Proof. intros S L Nd Sc N. eapply args_flag_partial; [exact S|exact L|exact Nd|exact Sc|]. apply fu_unknown, N. Qed.
  (** Short flags are never known; the report gets them with their dash. *)
  Theorem args_short args ev p sel arg rest :
    reaches_arg cmds args ev p sel arg rest -> short arg -> exists more x, parses bs s args (ev ++ SError (ShortsUnknown arg) :: more) x.
  Proof. intros S Sh. eapply (next_step args ev _ _ [SError (ShortsUnknown arg)] _ _ S). apply st_short, Sh. Qed.
End Flags.
Print Assumptions args_flag_partial.
Print Assumptions args_flag_inline.
Print Assumptions args_flag_next.
Print Assumptions args_flag_no_value.
Print Assumptions args_flag_set.
Print Assumptions args_flag_on.
Print Assumptions args_flag_off.
Print Assumptions args_flag_not_toggled.
Print Assumptions args_flag_no_values.
Print Assumptions args_flag_unknown.
Print Assumptions args_short.

(** ** Examples *)

(** Commands "", "a", "a b" with flags "f" (twice) and "v"; given unsorted. *)
Definition ex_cmds : list command :=
  [ mkCommand [[97%N]; [98%N]] [mkFlag [102%N] MToggle];
    mkCommand [] [mkFlag [118%N] MParse; mkFlag [102%N] MSet];
    mkCommand [[97%N]] [] ].
Definition ex_schema : schema :=
  [ mkDef (mkCommand [] [mkFlag [102%N] MSet; mkFlag [118%N] MParse]) None;
    mkDef (mkCommand [[97%N]] []) (Some 0);
    mkDef (mkCommand [[97%N]; [98%N]] [mkFlag [102%N] MToggle]) (Some 1) ].
Example ex_distinct : distinct ex_cmds /\ distinct_flags ex_cmds.
Proof.
  split; [repeat constructor; cbn; intuition discriminate|].
  intros c [<-|[<-|[<-|[]]]]; repeat constructor; cbn; intuition discriminate.
Qed.
Example ex_compiles : compiles ex_cmds ex_schema.
Proof. exists (sort_layout ex_cmds). split; [apply sort_layout_ok|]. vm_compute. reflexivity. Qed.
Example ex_closed : closed ex_cmds.
Proof.
  intros p (c & [<-|[<-|[<-|[]]]] & [r E]); cbn in E.
  - destruct p as [|x [|y [|z p]]]; cbn in E.
    + eexists. split; [right; left; reflexivity|reflexivity].
    + injection E as <- _. eexists. split; [right; right; left; reflexivity|reflexivity].
    + injection E as <- <- _. eexists. split; [left; reflexivity|reflexivity].
    + discriminate.
  - destruct p; [|discriminate]. eexists. split; [right; left; reflexivity|reflexivity].
  - destruct p as [|x [|y p]]; [| |discriminate].
    + eexists. split; [right; left; reflexivity|reflexivity].
    + injection E as <- _. eexists. split; [right; right; left; reflexivity|reflexivity].
Qed.
(** A report that keeps everything. *)
Definition keep : handler (list event) unit := fun l e => (l ++ [e], None).
(** a --v=1 b --no-f x -- --f *)
Example ex_parse : parse first_match ex_schema keep []
  [[97%N]; [45%N;45%N;118%N;61%N;49%N]; [98%N]; [45%N;45%N;110%N;111%N;45%N;102%N]; [120%N]; double_dash; [45%N;45%N;102%N]] =
  Ok ([EParse (0, 1) 1 [118%N] [49%N]; EToggle (2, 0) 2 [110%N;111%N;45%N;102%N] false;
       EParameter 2 (Some [120%N]); EParameter 2 (Some [45%N;45%N;102%N]); EParameter 2 None], Selected 2).
Proof. vm_compute. reflexivity. Qed.
(** The hypotheses of the theorems on flags and on "--": after "a", "--v=1" is
    met; after "a --", the rest. *)
Example ex_leads : leads ex_cmds [[97%N]].
Proof. eexists. split; [right; right; left; reflexivity|apply prefix_refl]. Qed.
Example ex_reaches rest : steps ex_cmds (first_scope ex_cmds) start ([97%N] :: rest) [] (mkStage [[97%N]] true true) rest.
Proof.
  apply (sts_more _ _ _ _ [] (mkStage [[97%N]] true true) rest []); [|apply sts_none].
  apply (st_enter ex_cmds (first_scope ex_cmds) [] true [97%N] rest).
  - intros _ c x. discriminate.
  - apply text_one. reflexivity.
  - exact ex_leads.
Qed.
Example ex_found : found ex_cmds [[97%N]] [118%N] [] MParse.
Proof.
  exists (mkCommand [] [mkFlag [118%N] MParse; mkFlag [102%N] MSet]). split; [right; left; reflexivity|]. split; [reflexivity|].
  split; [apply prefix_nil|]. split; [left; reflexivity|].
  intros c' m' [<-|[<-|[<-|[]]]] P L K; [apply prefix_length in P| |]; cbn in *; try lia.
Qed.
Example ex_inline : exists more q, parses first_match ex_schema
  [[97%N]; [45%N;45%N;118%N;61%N;49%N]] ([] ++ SParse [] [118%N] [[97%N]] [118%N] [49%N] :: more) q.
Proof.
  destruct ex_distinct as [D DF].
  eapply (args_flag_inline ex_cmds ex_schema first_match D DF ex_compiles first_match_ok _ [] [[97%N]] true [118%N] [49%N] [] [[97%N]]).
  - apply ex_reaches.
  - apply text_one. reflexivity.
  - intros [E|[]]; discriminate.
  - apply first_scope_command; [apply ex_closed, ex_leads|reflexivity].
  - apply ex_found.
  - apply uo_inner. split; [apply ex_closed, ex_leads|]. split; [apply prefix_refl|]. intros q' _ P. apply prefix_length, P.
Qed.
Example ex_double_dash : exists params en, Forall2 (parameter ex_cmds [[97%N]]) [[45%N;45%N;102%N]] params /\
  ending ex_cmds [[97%N]] en /\
  parses first_match ex_schema [[97%N]; double_dash; [45%N;45%N;102%N]] ([] ++ params ++ en) [[97%N]].
Proof.
  destruct ex_distinct as [D DF].
  exact (args_double_dash ex_cmds ex_schema first_match _ [] [[97%N]] true _ D DF ex_compiles first_match_ok (ex_reaches _)).
Qed.

(** The other hypotheses about flags: within "a", "--f" is a flag to set, of the
    command above; within "a b" it is one to toggle, so that "--no-f" is as well,
    while "--no-v" names one that cannot be; "--x" is unknown, "-x" is short. *)
Example ex_flags : let a := [97%N] in let b := [98%N] in let f := [102%N] in let v := [118%N] in
  found ex_cmds [a] f [] MSet /\ found ex_cmds [a; b] f [a; b] MToggle /\ missing ex_cmds [a; b] (no_prefix ++ f) /\
  found ex_cmds [a; b] v [] MParse /\ missing ex_cmds [a; b] (no_prefix ++ v) /\ nameless ex_cmds [a; b] [120%N] /\
  short [dash; 120%N] /\ used_on ex_cmds [a; b] [] [a; b] /\
  (forall rest, reaches_arg ex_cmds (a :: b :: (double_dash ++ f) :: rest) [] [a; b] true (double_dash ++ f) rest).
Proof.
  assert (P : forall q, prefix q [[97%N]] -> length q <= 1) by (intros q H; apply prefix_length in H; exact H).
  cbv zeta. split; [|split; [|split; [|split; [|split; [|split; [|split; [|split]]]]]]].
  - exists (mkCommand [] [mkFlag [118%N] MParse; mkFlag [102%N] MSet]). split; [right; left; reflexivity|]. split; [reflexivity|].
    split; [apply prefix_nil|]. split; [right; left; reflexivity|].
    intros c' m' [<-|[<-|[<-|[]]]] H L K; [apply P in H| |]; cbn in *; try lia.
  - exists (mkCommand [[97%N]; [98%N]] [mkFlag [102%N] MToggle]). split; [left; reflexivity|]. split; [reflexivity|].
    split; [apply prefix_refl|]. split; [left; reflexivity|].
    intros c' m' [<-|[<-|[<-|[]]]] H L K; cbn in *; try lia.
  - intros c m [<-|[<-|[<-|[]]]] _ I; cbn in I; decompose [or] I; discriminate || contradiction.
  - exists (mkCommand [] [mkFlag [118%N] MParse; mkFlag [102%N] MSet]). split; [right; left; reflexivity|]. split; [reflexivity|].
    split; [apply prefix_nil|]. split; [left; reflexivity|].
    intros c' m' [<-|[<-|[<-|[]]]] _ L I; cbn in I; decompose [or] I; try discriminate; try contradiction; cbn in L; lia.
  - intros c m [<-|[<-|[<-|[]]]] _ I; cbn in I; decompose [or] I; discriminate || contradiction.
  - split.
    + intros c m [<-|[<-|[<-|[]]]] _ I; cbn in I; decompose [or] I; discriminate || contradiction.
    + intros name E. discriminate E.
  - exists 120%N, []. split; [reflexivity|discriminate].
  - apply uo_inner. split; [eexists; split; [left; reflexivity|reflexivity]|]. split; [apply prefix_refl|].
    intros q' _ H. apply prefix_length, H.
  - intros rest. unfold reaches_arg.
    apply (sts_more _ _ _ _ [] (mkStage [[97%N]] true true) ([98%N] :: (double_dash ++ [102%N]) :: rest) []).
    + apply (st_enter ex_cmds (first_scope ex_cmds) [] true [97%N]); [intros c x; discriminate|apply text_one; reflexivity|exact ex_leads].
    + apply (sts_more _ _ _ _ [] (mkStage [[97%N]; [98%N]] true true) ((double_dash ++ [102%N]) :: rest) []); [|apply sts_none].
      apply (st_enter ex_cmds (first_scope ex_cmds) [[97%N]] true [98%N]); [intros c x; discriminate|apply text_one; reflexivity|].
      eexists. split; [left; reflexivity|apply prefix_refl].
Qed.

(** ** Refuted *)

(** C43 is false in general: with only the command "a b" and its flag "f", the
    flag is accepted although neither "a" nor "b" was given.  No command is
    selected in the end. *)
Theorem args_innermost_refuted : exists cmds s args,
  distinct cmds /\ compiles cmds s /\
  (forall sev p, runs cmds innermost_scope args sev p -> sev = [SError (FlagUnknown [102%N])]) /\
  forall bs, searches bs -> parses bs s args [SSet [[97%N]; [98%N]] [102%N] [[97%N]; [98%N]] [102%N]] [].
Proof.
  pose (cmds := [mkCommand [[97%N]; [98%N]] [mkFlag [102%N] MSet]]).
  pose (args := [[45%N; 45%N; 102%N]]).
  assert (D : distinct cmds) by (repeat constructor; intros []).
  assert (DF : distinct_flags cmds) by (intros c [<-|[]]; repeat constructor; intros []).
  assert (NC : ~ is_command cmds []) by (intros (c & [<-|[]] & E); discriminate).
  assert (T : text [102%N]) by (apply text_one; reflexivity).
  assert (L : long [45%N; 45%N; 102%N] [102%N] None) by (apply (long_plain [102%N]); [exact T|intros [E|[]]; discriminate]).
  exists cmds, [mkDef (mkCommand [[97%N]; [98%N]] [mkFlag [102%N] MSet]) None], args. split; [exact D|].
  assert (K : compiles cmds [mkDef (mkCommand [[97%N]; [98%N]] [mkFlag [102%N] MSet]) None]).
  { exists (sort_layout cmds). split; [apply sort_layout_ok|reflexivity]. }
  split; [exact K|]. split.
  - intros sev p R.
    assert (R' : runs cmds innermost_scope args [SError (FlagUnknown [102%N])] []).
    { exists (mkStage [] true true), [SError (FlagUnknown [102%N])], []. split; [|split; [reflexivity|split; [apply en_none, NC|reflexivity]]].
      apply (sts_more _ _ _ _ [SError (FlagUnknown [102%N])] (mkStage [] true true) [] []); [|apply sts_none].
      eapply st_flag; [exact L|discriminate|reflexivity|]. apply fu_unknown. split.
      - intros c m [<-|[]] [r E]. discriminate.
      - intros n E. discriminate. }
    eapply runs_fun in R; [|exact D|exact DF| |exact R']; [symmetry; apply R|]. intros x y z -> ->. reflexivity.
  - intros bs B. apply (args_parses cmds); [exact D|exact DF|exact K|exact B|].
    exists (mkStage [] true true), [SSet [[97%N]; [98%N]] [102%N] [[97%N]; [98%N]] [102%N]], [].
    split; [|split; [reflexivity|split; [apply en_none, NC|reflexivity]]].
    apply (sts_more _ _ _ _ [SSet [[97%N]; [98%N]] [102%N] [[97%N]; [98%N]] [102%N]] (mkStage [] true true) [] []); [|apply sts_none].
    eapply (st_flag _ _ _ _ _ _ _ _ [[97%N]; [98%N]]); [exact L|discriminate| |].
    + left. split; [eexists; split; [left; reflexivity|reflexivity]|]. split; [apply prefix_nil|].
      intros b (c & [<-|[]] & <-) _. discriminate.
    + apply fu_set.
      * apply nm_plain. eexists. split; [left; reflexivity|]. split; [reflexivity|]. split; [apply prefix_refl|]. split; [left; reflexivity|].
        intros c' m' [<-|[]] _ Lt. cbn in Lt. lia.
      * apply uo_owner. intros q (c & [<-|[]] & <-) [r E]. discriminate.
Qed.
Print Assumptions args_innermost_refuted.

(** The documentation of the error says that short flags are given without
    their dash; "-x" is reported as "-x". *)
Theorem args_short_refuted : exists cmds s args x,
  distinct cmds /\ compiles cmds s /\ args = [dash :: x] /\
  forall bs, searches bs -> parses bs s args [SError (ShortsUnknown (dash :: x))] [].
Proof.
  exists [], [], [[dash; 120%N]], [120%N]. split; [constructor|].
  assert (K : compiles [] []) by (exists []; split; [apply (sort_layout_ok [])|reflexivity]).
  split; [exact K|]. split; [reflexivity|]. intros bs B. apply (args_parses []); [constructor|intros c []|exact K|exact B|].
  exists (mkStage [] true true), [SError (ShortsUnknown [dash; 120%N])], []. split.
  - apply (sts_more _ _ _ _ [SError (ShortsUnknown [dash; 120%N])] (mkStage [] true true) [] []); [|apply sts_none].
    apply st_short. exists 120%N, []. split; [reflexivity|discriminate].
  - split; [reflexivity|]. split; [apply en_none; intros (c & [] & _)|reflexivity].
Qed.
Print Assumptions args_short_refuted.
