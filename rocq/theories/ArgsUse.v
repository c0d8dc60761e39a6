(** Consequences of the specification: selection, double dash, scopes. *)
From Verif Require Import Base ArgsSpec ArgsOrder ArgsText ArgsLayout.
From Coq Require Import Lia.

Section Selection.
  Context (cmds : list command) (sc : path -> path -> Prop).

  Lemma steps_word g arg rest ev gf : steps cmds sc g (arg :: rest) ev gf [] ->
    exists ev1 ev2 g' rest', step cmds sc g (arg :: rest) ev1 g' rest' /\ ev = ev1 ++ ev2 /\ steps cmds sc g' rest' ev2 gf [].
  Proof.
    intros H. inversion H as [|a1 a2 a3 a4 a5 a6 a7 a8 X Y]; subst. exists a3, a6, a4, a5. split; [exact X|]. split; [reflexivity|exact Y].
  Qed.
  Lemma steps_nil g ev gf : steps cmds sc g [] ev gf [] -> ev = [] /\ gf = g.
  Proof. intros H. inversion H as [|a1 a2 a3 a4 a5 a6 a7 a8 X Y]; subst; [split; reflexivity|]. inversion X. Qed.
  Lemma flag_given p a arg v r e r' : flag_use cmds p a arg v r e r' -> given e = [].
  Proof. intros []; reflexivity. Qed.
  Lemma parameter_given p x e : parameter cmds p x e -> given e = [x].
  Proof. intros []; reflexivity. Qed.
  Lemma ending_given p e : ending cmds p e -> flat_map given e = [].
  Proof. intros []; reflexivity. Qed.
  Lemma word_dec arg : word arg \/ ~ word arg.
  Proof.
    destruct arg as [|c [|x arg]]; [left; intros ? ?; discriminate|left; intros ? ?; discriminate|].
    destruct (N.eq_dec c dash) as [->|N]; [right; intros W; exact (W x arg eq_refl)|left; intros a b E; congruence].
  Qed.

  (** Every positional argument is an element of the path or a parameter. *)
  Lemma positional_ok g args ev gf : steps cmds sc g args ev gf [] ->
    exists ws more, positional cmds sc g args ws /\ entered gf = entered g ++ more /\ ws = more ++ flat_map given ev /\
      (selecting g = false -> more = []).
  Proof.
    intros H. remember [] as fin eqn:Ef. induction H as [g args|g args ev g' args' ev' g'' args'' St Sts IH].
    - subst. exists [], []. split; [apply po_none|]. split; [symmetry; apply app_nil_r|]. split; [reflexivity|]. reflexivity.
    - destruct (IH Ef) as (ws & more & P & E & W & M). rewrite flat_map_app.
      inversion St as [p sel rest|p sel arg rest U|p sel arg n v rest q e rest' L Dd Sc F|p sel arg rest K|p fl arg rest Wd T L|p fl arg rest e Wd N Pm|p fl arg rest e Wd Pm]; subst;
        cbn [entered selecting flagging] in *.
      + exists (more ++ flat_map given ev'), more. split; [eapply po_flag; [reflexivity| |exact St|exact P]; intros Q; exact (Q dash [] eq_refl)|].
        split; [exact E|]. split; [reflexivity|]. intros _. apply M. reflexivity.
      + exists (more ++ flat_map given ev'), more.
        split; [eapply po_flag; [reflexivity| |exact St|exact P]; destruct (unreadable_dashes _ U) as [x ->]; intros Q; exact (Q dash x eq_refl)|].
        split; [exact E|]. split; [reflexivity|exact M].
      + exists (more ++ flat_map given ev'), more.
        split; [eapply po_flag; [reflexivity| |exact St|exact P]; destruct (long_dashes _ _ _ L) as [x ->]; intros Q; exact (Q dash x eq_refl)|].
        split; [exact E|]. cbn [flat_map]. rewrite (flag_given _ _ _ _ _ _ _ F). split; [reflexivity|exact M].
      + exists (more ++ flat_map given ev'), more.
        split; [eapply po_flag; [reflexivity| |exact St|exact P]; destruct K as (c & x & -> & _); intros Q; exact (Q c x eq_refl)|].
        split; [exact E|]. split; [reflexivity|exact M].
      + exists (arg :: more ++ flat_map given ev'), (arg :: more). split; [eapply po_word; [exact Wd|exact St|exact P]|].
        split; [rewrite E, <- app_assoc; reflexivity|]. split; [reflexivity|discriminate].
      + assert (more = []) as -> by (apply M; reflexivity). exists (arg :: flat_map given ev'), [].
        split; [eapply po_word; [exact Wd|exact St|exact P]|]. split; [exact E|]. cbn [flat_map]. rewrite (parameter_given _ _ _ Pm).
        split; [reflexivity|discriminate].
      + assert (more = []) as -> by (apply M; reflexivity). exists (arg :: flat_map given ev'), [].
        split; [eapply po_word; [exact Wd|exact St|exact P]|]. split; [exact E|]. cbn [flat_map]. rewrite (parameter_given _ _ _ Pm).
        split; reflexivity.
  Qed.
  Lemma entered_leads g args ev gf : steps cmds sc g args ev gf [] ->
    Forall text (entered g) -> entered g = [] \/ leads cmds (entered g) ->
    Forall text (entered gf) /\ (entered gf = [] \/ leads cmds (entered gf)).
  Proof.
    intros H. remember [] as fin eqn:Ef in H. induction H as [g args|g args ev g' args' ev' g'' args'' St Sts IH]; intros T L; [split; assumption|].
    apply (IH Ef); inversion St as [p sel rest|p sel arg rest U|p sel arg n v rest q e rest' L1 Dd Sc F|p sel arg rest K|p fl arg rest Wd T1 L1|p fl arg rest e Wd N Pm|p fl arg rest e Wd Pm]; subst; try exact T; try exact L.
    - cbn. apply Forall_app. split; [exact T|constructor; [exact T1|constructor]].
    - right. exact L1.
  Qed.
  (** The first parameter is one that does not lead on. *)
  Lemma stops_right g args ev gf : steps cmds sc g args ev gf [] -> selecting g = true -> ~ In double_dash args ->
    (selecting gf = true -> flat_map given ev = []) /\
    match flat_map given ev with [] => True | x :: _ => ~ (text x /\ leads cmds (entered gf ++ [x])) end.
  Proof.
    intros H. remember [] as fin eqn:Ef in H.
    induction H as [g args|g args ev g' args' ev' g'' args'' St Sts IH]; intros S N; [|specialize (IH Ef)].
    - split; [reflexivity|exact I].
    - rewrite flat_map_app.
      assert (Sub : forall x, In x args' -> In x args).
      { inversion St as [p sel rest|p sel arg rest U|p sel arg n v rest q e rest' L1 Dd Sc F|p sel arg rest K|p fl arg rest Wd T1 L1|p fl arg rest e Wd N1 Pm|p fl arg rest e Wd Pm]; subst; intros x Hx; try (right; exact Hx).
        right. inversion F; subst; try exact Hx; right; exact Hx. }
      inversion St as [p sel rest|p sel arg rest U|p sel arg n v rest q e rest' L1 Dd Sc F|p sel arg rest K|p fl arg rest Wd T1 L1|p fl arg rest e Wd N1 Pm|p fl arg rest e Wd Pm]; subst.
      + exfalso. apply N. left. reflexivity.
      + apply IH; [exact S|]. intros X. exact (N (Sub _ X)).
      + cbn [flat_map]. rewrite (flag_given _ _ _ _ _ _ _ F). apply IH; [exact S|]. intros X. exact (N (Sub _ X)).
      + apply IH; [exact S|]. intros X. exact (N (Sub _ X)).
      + apply IH; [reflexivity|]. intros X. exact (N (Sub _ X)).
      + cbn [flat_map]. rewrite (parameter_given _ _ _ Pm).
        assert (Z : entered g'' = p /\ selecting g'' = false).
        { clear - Sts. remember (mkStage p false fl) as g0 eqn:Eg.
          assert (Q : entered g0 = p /\ selecting g0 = false) by (subst; split; reflexivity). clear Eg.
          induction Sts as [g args|g args ev g' args' ev' g'' args'' St Sts IH]; [exact Q|]. apply IH.
          inversion St; subst; cbn in *; try (destruct Q; discriminate); try exact Q. destruct Q as [-> _]. split; reflexivity. }
        destruct Z as [-> ->]. split; [discriminate|exact N1].
      + discriminate.
  Qed.
End Selection.

Section Words.
  Context (cmds : list command) (sc : path -> path -> Prop).
  (** Without flags, the positional arguments are the arguments. *)
  Lemma words_positional g args ws : Forall word args -> positional cmds sc g args ws -> ws = args.
  Proof.
    intros F P. induction P as [g|g arg rest ev g' rest' ws W St P IH|g arg rest ev g' rest' ws Fl W St P IH]; [reflexivity| |].
    - f_equal. assert (Wd : word arg) by (inversion F; assumption).
      assert (rest' = rest) as ->.
      { inversion St; subst; try reflexivity. 
        match goal with L : long arg _ _ |- _ => destruct (long_dashes _ _ _ L) as [x ->] end. destruct (Wd dash x eq_refl). }
      apply IH. inversion F; assumption.
    - exfalso. apply W. inversion F; assumption.
  Qed.
End Words.

(** ** Double dash *)

Lemma parameters_only cmds sc p post : exists ps, Forall2 (parameter cmds p) post ps /\
  steps cmds sc (mkStage p false false) post ps (mkStage p false false) [].
Proof.
  induction post as [|x post (ps & F & S)]; [exists []; split; [constructor|apply sts_none]|].
  assert (K : exists e, parameter cmds p x e).
  { assert (D : is_command cmds p \/ ~ is_command cmds p).
    { unfold is_command. clear. induction cmds as [|c l IH]; [right; intros (d & [] & _)|].
      destruct (path_cmp (c_path c) p) eqn:E; [left; exists c; split; [left; reflexivity|apply (g_eq _ good_path), E]| |];
        (destruct IH as [(d & H & K)|N]; [left; exists d; split; [right; exact H|exact K]|right; intros (d & [<-|H] & K)];
         [apply (g_eq _ good_path) in K; congruence|apply N; exists d; split; assumption]). }
    destruct D as [D|D]; eexists; [apply pm_command, D|apply pm_none, D]. }
  destruct K as [e K]. exists (e :: ps). split; [constructor; assumption|]. eapply (sts_more cmds sc _ _ [e]); [|exact S].
  apply st_parameter; [discriminate|exact K].
Qed.

(** ** Scopes *)

Lemma first_scope_command cmds p a : is_command cmds p -> (first_scope cmds p a <-> a = p).
Proof.
  intros K. split.
  - intros [(I1 & P1 & M1)|[N ->]]; [|reflexivity]. symmetry. apply (le_anti _ good_path); [apply prefix_le, P1|]. apply M1; [exact K|apply prefix_refl].
  - intros ->. left. split; [exact K|]. split; [apply prefix_refl|]. intros b _ P. apply prefix_le, P.
Qed.
Lemma leads_dec cmds p : leads cmds p \/ ~ leads cmds p.
Proof.
  unfold leads. induction cmds as [|c l IH]; [right; intros (d & [] & _)|].
  destruct (path_cmp (firstn (length p) (c_path c)) p) eqn:E;
    [left; exists c; split; [left; reflexivity|apply prefix_firstn, (g_eq _ good_path), E]| |];
    (destruct IH as [(d & H & K)|N]; [left; exists d; split; [right; exact H|exact K]|right; intros (d & [<-|H] & K)];
     [apply prefix_firstn, (g_eq _ good_path) in K; unfold path in *; congruence|apply N; exists d; split; assumption]).
Qed.
Lemma closed_scope cmds p a : closed cmds -> (first_scope cmds p a <-> a = p).
Proof.
  intros C. destruct (leads_dec cmds p) as [L|L].
  - apply first_scope_command, C, L.
  - split; [intros [(( c & H & <-) & P & _)|[_ E]]; [destruct L; exists c; split; assumption|exact E]|intros ->; right; split; [exact L|reflexivity]].
Qed.
