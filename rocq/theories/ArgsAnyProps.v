(** Property C109: layouts in which commands or flags are given twice. *)
From Verif Require Import Base ArgsSpec ArgsAnySpec ArgsModel ArgsOrder ArgsProofs ArgsText ArgsParse ArgsLayout ArgsAny ArgsProps.
From Coq Require Import Lia.
Local Open Scope res_scope.

(** Compiling a layout never panics, whatever commands and flags it lists, how
    often, and in whatever order sorting leaves equal ones. *)
Theorem args_any_compiles : forall cmds cs, layout_sorted cmds cs -> exists s, link cs = Ok s.
Proof.
  intros cmds cs L. destruct (link_any cs) as (s & E & _); [eapply layout_paths, L|intros c; eapply layout_flags, L|].
  exists s. exact E.
Qed.
Print Assumptions args_any_compiles.

Lemma compiles_linked cmds s : compiles cmds s -> exists cs, layout_sorted cmds cs /\ linked cs s.
Proof.
  intros (cs & L & E). exists cs. split; [exact L|].
  destruct (link_any cs) as (s' & E' & C); [eapply layout_paths, L|intros c; eapply layout_flags, L|].
  rewrite E in E'. injection E' as <-. exact C.
Qed.
Lemma same_has a b q n m : same a b -> has_flag a q n m -> has_flag b q n m.
Proof.
  intros S (c & f & H & <- & Hf & En & Em). destruct (proj1 S c H) as (c' & H' & E & F). exists c', f.
  split; [exact H'|]. split; [exact E|]. split; [apply F, Hf|]. split; assumption.
Qed.
Lemma same_fits a b e : same a b -> fits a e -> fits b e.
Proof.
  intros S. destruct e; cbn; [trivial|apply same_command, S| | |];
    (intros (H1 & H2 & H3); split; [eapply same_has; eassumption|]; split; [eapply same_command; eassumption|exact H3]).
Qed.

(** For every layout, every argument vector and every report: parsing does not
    panic and returns; the reports are told of commands and flags of the layout
    only, each flag by a call of its mode; and if none breaks off, the command
    whose path was entered is selected, if there is one. *)
Theorem args_any_parse : forall cmds s bs args, compiles cmds s -> searches bs ->
  exists sev p, parses bs s args sev p /\ Forall (fits cmds) sev /\ Forall text p /\ (p = [] \/ leads cmds p).
Proof.
  intros cmds s bs args K B. destruct (compiles_linked cmds s K) as (cs & L & C).
  pose proof (same_sym _ _ (layout_same _ _ L)) as S.
  destruct (any_parse cs s C bs B args) as (ev & sev & p & F & Fi & T & Le & _ & P). exists sev, p.
  split; [exists ev; rewrite (li_info _ _ C); split; [exact F|exact P]|].
  split; [eapply Forall_impl; [intros e; apply same_fits, S|exact Fi]|]. split; [exact T|].
  destruct Le as [Le|Le]; [left; exact Le|right; eapply same_leads; eassumption].
Qed.
Print Assumptions args_any_parse.

(** Arguments without flags: the longest path of the layout they begin with is
    entered, the others are the parameters. *)
Theorem args_any_words : forall cmds s bs args, compiles cmds s -> searches bs -> Forall word args ->
  exists sev p more, parses bs s args sev p /\ args = p ++ more /\ flat_map given sev = more /\
    Forall text p /\ (p = [] \/ leads cmds p) /\
    match more with [] => True | x :: _ => ~ (text x /\ leads cmds (p ++ [x])) end.
Proof.
  intros cmds s bs args K B Wd. destruct (compiles_linked cmds s K) as (cs & L & C).
  pose proof (layout_same _ _ L) as S.
  destruct (any_parse cs s C bs B args) as (ev & sev & p & F & Fi & T & Le & W & P).
  destruct (W Wd) as (more & E & G & N). exists sev, p, more.
  split; [exists ev; rewrite (li_info _ _ C); split; [exact F|exact P]|].
  split; [exact E|]. split; [exact G|]. split; [exact T|].
  split; [destruct Le as [Le|Le]; [left; exact Le|right; eapply same_leads; [apply same_sym; exact S|exact Le]]|].
  destruct more as [|x more]; [exact I|]. intros [X Y]. apply N. split; [exact X|]. eapply same_leads; [exact S|exact Y].
Qed.
Print Assumptions args_any_words.

(** ** What is lost *)

Definition twice (a b : str) : list command := [mkCommand [] [mkFlag a MSet]; mkCommand [] [mkFlag b MSet]].
Lemma search_none bs c : searches bs -> c <> Eq -> bs [c] = None.
Proof.
  intros B N. assert (O : ordered [c]).
  { destruct c; [exists 0, 1, 0; reflexivity|exists 1, 0, 0; reflexivity|exists 0, 0, 1; reflexivity]. }
  pose proof (B _ O) as K. destruct (bs [c]) as [[|i]|]; [|destruct i; discriminate|reflexivity].
  cbn in K. injection K as K. contradiction.
Qed.
Lemma sorted_one {A} (cmp : A -> A -> comparison) x l : sorted_by cmp [x] l -> l = [x].
Proof. intros [P _]. apply Permutation_length_1_inv in P. exact P. Qed.
Lemma twice_orders a b cs : layout_sorted (twice a b) cs -> cs = twice a b \/ cs = twice b a.
Proof.
  intros (mid & F & P & _). inversion F as [|x y l l' H1 F1 E1 E2]; subst. inversion F1 as [|x y' l l'' H2 F2 E1 E2]; subst.
  inversion F2; subst. clear F F1 F2.
  assert (Q : forall n c, flags_sorted (mkCommand [] [mkFlag n MSet]) c -> c = mkCommand [] [mkFlag n MSet]).
  { intros n [q fl] [E S]. cbn in *. apply sorted_one in S. subst. reflexivity. }
  rewrite (Q _ _ H1), (Q _ _ H2) in P. apply Permutation_length_2_inv in P. exact P.
Qed.
(** If a command is given twice, with one flag each time, then one of the flags
    is not known: it is an error to use it. *)
Theorem args_twice_known_refuted : exists cmds, forall s bs, compiles cmds s -> searches bs ->
  exists name, has_flag cmds [] name MSet /\
    parses bs s [double_dash ++ name] [SError (FlagUnknown name); SParameter [] None] [].
Proof.
  set (a := [97%N]). set (b := [98%N]). exists (twice a b). intros s bs (cs & L & E) B.
  assert (K : exists x y, cs = twice x y /\ ((x = a /\ y = b) \/ (x = b /\ y = a))).
  { destruct (twice_orders _ _ _ L) as [-> | ->]; eexists _, _; (split; [reflexivity|]); [left|right]; split; reflexivity. }
  destruct K as (x & y & -> & K). exists y. split.
  { exists (mkCommand [] [mkFlag y MSet]), (mkFlag y MSet).
    split; [destruct K as [[-> ->]|[-> ->]]; cbn; tauto|]. repeat split. left. reflexivity. }
  assert (E' : link (twice x y) = Ok [mkDef (mkCommand [] [mkFlag x MSet]) None; mkDef (mkCommand [] [mkFlag y MSet]) (Some 0)]) by reflexivity.
  rewrite E' in E. injection E as <-. exists [EError (FlagUnknown y); EParameter 0 None].
  split; [repeat constructor; apply (sh_parameter _ 0 (mkCommand [] [mkFlag x MSet])); reflexivity|].
  assert (X : bs [str_cmp x y] = None).
  { apply search_none; [exact B|]. destruct K as [[-> ->]|[-> ->]]; discriminate. }
  intros H R h z. unfold parse, parse_cursor. cbn [tell].
  assert (P : parse_arg bs [mkDef (mkCommand [] [mkFlag x MSet]) None; mkDef (mkCommand [] [mkFlag y MSet]) (Some 0)]
      (mkState (Some (mkPos 0 0)) false false) (double_dash ++ y) None = Ok (mkState (Some (mkPos 0 0)) false false, Some (EError (FlagUnknown y)), false)).
  { destruct K as [[-> ->]|[-> ->]]; cbv in X |- *; rewrite X; reflexivity. }
  cbn [cursor_with hd_error]. rewrite P. cbn [bind tell_opt].
  destruct (h z (EError (FlagUnknown y))) as [z1 [r|]]; [reflexivity|]. cbn -[tell].
  cbn [tell_opt]. destruct (h z1 (EParameter 0 None)) as [z2 [r|]]; [reflexivity|]. cbn. left. exists 0, (mkCommand [] [mkFlag x MSet]).
  repeat split.
Qed.
Print Assumptions args_twice_known_refuted.

(** ** Example *)

(** A layout with a command given three times, and a flag given twice with
    different modes. *)
Definition any_cmds : list command :=
  let c := [99%N] in
  [mkCommand [c] [mkFlag c MSet; mkFlag c MParse]; mkCommand [] [mkFlag c MToggle]; mkCommand [c] []; mkCommand [c; c] []; mkCommand [c] []].
Definition any_schema : schema := match link (sort_layout any_cmds) with Ok s => s | _ => [] end.
Example args_any_example : compiles any_cmds any_schema /\ searches first_match /\ ~ distinct any_cmds /\ length any_schema = 5 /\
  parse first_match any_schema (fun (h : list event) e => (h ++ [e], @None unit)) []
    [[99%N]; double_dash ++ [99%N]; [99%N]; [99%N]]
  = Ok ([ESet (1, 0) 1 [99%N]; EParameter 4 (Some [99%N]); EParameter 4 None], Selected 4).
Proof.
  split; [exists (sort_layout any_cmds); split; [apply sort_layout_ok|vm_compute; reflexivity]|].
  split; [exact first_match_ok|]. split.
  { unfold distinct. cbn. intros N. inversion N as [|x l I _]. apply I. right. left. reflexivity. }
  split; vm_compute; reflexivity.
Qed.
