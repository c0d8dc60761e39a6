(** Layouts in which commands or flags are given twice: links, cursor and
    parser.  Nothing here assumes that paths or names are distinct. *)
From Verif Require Import Base ArgsSpec ArgsAnySpec ArgsModel ArgsOrder ArgsProofs ArgsText ArgsParse.
From Coq Require Import Lia.
Local Open Scope res_scope.

(** A linked layout. *)
Record linked (cs : list command) (s : schema) : Prop := {
  li_info : map d_info s = cs;
  li_sorted : ordered_paths (map c_path cs);
  li_flags : forall c, In c cs -> StronglySorted (fun x y => by_name x y <> Gt) (c_flags c);
  li_up : forall i d, nth_error s i = Some d -> up_ok (map c_path cs) i (d_up d) }.

Theorem link_any cs : StronglySorted (fun x y => by_path x y <> Gt) cs ->
  (forall c, In c cs -> StronglySorted (fun x y => by_name x y <> Gt) (c_flags c)) ->
  exists s, link cs = Ok s /\ linked cs s.
Proof.
  intros S F. unfold link.
  assert (S' : ordered_paths (map c_path cs)) by (apply sorted_map; exact S).
  destruct (link_loop_ok (map c_path cs) S' (map c_path cs) []) as (ups & E & L & U).
  { reflexivity. } { cbn. lia. } { intros [|j] o H; discriminate. }
  rewrite E. cbn [bind]. eexists. split; [reflexivity|]. rewrite map_length in L. split.
  - rewrite map_map. clear - L. revert ups L. induction cs as [|c cs IH]; intros [|u ups] L; try discriminate; [reflexivity|].
    cbn in *. f_equal. apply IH. lia.
  - exact S'.
  - exact F.
  - intros i d H. rewrite nth_error_map in H. destruct (nth_error (combine cs ups) i) as [[c up]|] eqn:Hc; [|discriminate].
    cbn in H. injection H as <-. cbn. apply nth_combine in Hc. apply U. apply Hc.
Qed.

Section Linked.
  Context (cs : list command) (s : schema) (C : linked cs s) (bs : bsearch) (B : searches bs).

  Lemma any_info i c : nth_error cs i = Some c -> info_at s i = Ok c.
  Proof using C.
    unfold info_at. rewrite <- (li_info _ _ C), nth_error_map. destruct (nth_error s i) as [d|]; cbn; intros H; [|discriminate].
    injection H as <-. reflexivity.
  Qed.
  Lemma any_up i c : nth_error cs i = Some c ->
    exists o, up_from s i = Ok o /\ match o with Some j => j < i /\ exists d, nth_error cs j = Some d | None => True end.
  Proof using C.
    intros H. unfold up_from. pose proof H as H'. rewrite <- (li_info _ _ C), nth_error_map in H'.
    destruct (nth_error s i) as [d|] eqn:E; cbn in H'; [|discriminate].
    exists (d_up d). split; [reflexivity|]. pose proof (li_up _ _ C i d E) as [U _]. destruct (d_up d) as [j|]; [|exact I].
    destruct U as [L _]. split; [exact L|]. destruct (nth_error cs j) eqn:Ej; [eauto|]. apply nth_error_None in Ej.
    assert (i < length cs) by (apply nth_error_Some; rewrite H; discriminate). lia.
  Qed.
  Lemma any_le i j c d : i <= j -> nth_error cs i = Some c -> nth_error cs j = Some d -> path_cmp (c_path c) (c_path d) <> Gt.
  Proof using C.
    intros L Hi Hj. destruct (Nat.eq_dec i j) as [->|N].
    - rewrite Hi in Hj. injection Hj as <-. rewrite (cmp_refl _ good_path). discriminate.
    - apply (sorted_nth _ _ (li_sorted _ _ C) i j (c_path c) (c_path d)); [lia| |]; apply map_nth_error; assumption.
  Qed.
  Lemma any_with : at_path cs (cursor_with s) [].
  Proof using C.
    unfold cursor_with, at_path. pose proof (li_info _ _ C) as E. destruct s as [|d s']; [split; [symmetry; exact E|reflexivity]|].
    rewrite <- E. cbn. split; [reflexivity|]. exists (d_info d). split; [reflexivity|]. split; [apply prefix_nil|]. intros; lia.
  Qed.
  Lemma any_key c p : at_path cs c p -> key s c = Ok p.
  Proof using C.
    destruct c as [v|]; cbn; [|intros [_ ->]; reflexivity].
    intros (L & cmd & H & P & _). rewrite (any_info _ _ H). cbn. rewrite L.
    rewrite (proj2 (Nat.leb_le _ _)) by (apply prefix_length, P). apply prefix_firstn in P. rewrite P. reflexivity.
  Qed.
  Lemma any_command c p : at_path cs c p ->
    (exists i cmd, cursor_command s c = Ok (Some i) /\ nth_error cs i = Some cmd /\ c_path cmd = p) \/
    (cursor_command s c = Ok None /\ ~ is_command cs p).
  Proof using C.
    destruct c as [v|]; cbn.
    2:{ intros [-> ->]. right. split; [reflexivity|]. intros (x & [] & _). }
    intros (L & cmd & H & P & M). rewrite (any_info _ _ H). cbn. rewrite L.
    destruct (Nat.leb_spec (length (c_path cmd)) (length p)) as [K|K].
    - left. exists (p_index v), cmd. split; [reflexivity|]. split; [exact H|]. symmetry. apply prefix_same; assumption.
    - right. split; [reflexivity|]. intros (x & Hx & E). apply In_nth_error in Hx. destruct Hx as [j Hj].
      assert (B1 : p_index v <= j). { apply (M j x Hj). rewrite E. apply prefix_refl. }
      assert (Q : c_path cmd = p).
      { apply (le_anti _ good_path); [rewrite <- E; exact (any_le _ _ _ _ B1 H Hj)|apply prefix_le, P]. }
      rewrite Q in K. lia.
  Qed.
  Lemma any_current c p i d : at_path cs c p -> nth_error cs i = Some d ->
    exists k e, current_or s c i = Ok k /\ nth_error cs k = Some e.
  Proof using C.
    intros A Hi. unfold current_or, command_or_up. destruct c as [v|]; cbn in *; [|exists i, d; split; [reflexivity|exact Hi]].
    destruct A as (_ & cmd & H & _). rewrite (any_info _ _ H). cbn [bind].
    destruct (length (c_path cmd) <=? p_level v); [exists (p_index v), cmd; split; [reflexivity|exact H]|].
    destruct (any_up _ _ H) as (o & Eo & U). rewrite Eo. cbn [bind].
    destruct o as [j|]; [|exists i, d; split; [reflexivity|exact Hi]]. destruct U as (_ & e & He). exists j, e. split; [reflexivity|exact He].
  Qed.

  Lemma any_back_up (p : path) (n : str) : forall cand c, nth_error cs cand = Some c -> prefix (p ++ [n]) (c_path c) ->
    exists i d, back_up s (p, n) cand = Ok i /\ nth_error cs i = Some d /\ prefix (p ++ [n]) (c_path d) /\
      forall j e, nth_error cs j = Some e -> prefix (p ++ [n]) (c_path e) -> i <= j.
  Proof using C.
    induction cand as [|before IH]; intros c H P; cbn [back_up].
    - exists 0, c. split; [reflexivity|]. split; [exact H|]. split; [exact P|]. intros; lia.
    - assert (exists b, nth_error cs before = Some b) as [b Hb].
      { destruct (nth_error cs before) eqn:E; [eauto|]. apply nth_error_None in E.
        assert (Datatypes.S before < length cs) by (apply nth_error_Some; rewrite H; discriminate). lia. }
      rewrite (any_info _ _ Hb). cbn [bind]. destruct (compare_prefix (c_path b) (p, n)) eqn:E; cbn [is_eq].
      { apply compare_prefix_eq in E. exact (IH b Hb E). }
      all: exists (Datatypes.S before), c; split; [reflexivity|]; split; [exact H|]; split; [exact P|];
        intros j e Hj Q; destruct (Nat.le_gt_cases (Datatypes.S before) j) as [X|X]; [exact X|]; exfalso;
        assert (R : prefix (p ++ [n]) (c_path b)); [|apply compare_prefix_eq in R; discriminate (eq_trans (eq_sym E) R)];
        apply (prefix_between _ _ (c_path c) P);
        [apply (le_trans _ good_path _ (c_path e)); [apply prefix_le, Q|apply (any_le j before e b); [lia|exact Hj|exact Hb]]
        |apply (any_le before (Datatypes.S before) b c); [lia|exact Hb|exact H]].
  Qed.
  Lemma any_enter c p n : at_path cs c p ->
    (exists c', enter bs s c n = Ok (Some c') /\ at_path cs (Some c') (p ++ [n])) \/
    (enter bs s c n = Ok None /\ ~ leads cs (p ++ [n])).
  Proof using B C.
    intros A. unfold enter. rewrite (any_key c p A). cbn [bind].
    assert (O : ordered (map (fun d => compare_prefix (c_path (d_info d)) (p, n)) s)).
    { replace (map (fun d => compare_prefix (c_path (d_info d)) (p, n)) s)
        with (map (fun e => compare_prefix e (p, n)) (map c_path cs)).
      2:{ rewrite <- (li_info _ _ C), !map_map. reflexivity. }
      apply (ordered_map le_path); [exact (li_sorted _ _ C)|]. intros x y L.
      rewrite !compare_prefix_spec. apply (rank_mono _ good_path). apply firstn_mono, L. }
    pose proof (B _ O) as K. destruct (bs _) as [cand|].
    - left. rewrite nth_error_map in K. destruct (nth_error s cand) as [d|] eqn:E; cbn in K; [|discriminate].
      injection K as K. apply compare_prefix_eq in K.
      assert (Hc : nth_error cs cand = Some (d_info d)). { rewrite <- (li_info _ _ C). apply map_nth_error, E. }
      destruct (any_back_up p n cand (d_info d) Hc K) as (i & e & E1 & E2 & E3 & E4). rewrite E1. cbn [bind].
      eexists. split; [reflexivity|]. cbn. split; [rewrite app_length; reflexivity|].
      exists e. split; [exact E2|]. split; [exact E3|exact E4].
    - right. split; [reflexivity|]. intros (x & Hx & P). apply K. apply compare_prefix_eq in P.
      rewrite <- (li_info _ _ C) in Hx. apply in_map_iff in Hx. destruct Hx as (d & <- & Hd).
      apply in_map_iff. exists d. split; [exact P|exact Hd].
  Qed.

  (** A flag found is one of a command of the layout. *)
  Definition any_flag (name : str) (r : option (nat * nat)) : Prop :=
    match r with
    | Some (i, v) => exists cmd f, nth_error cs i = Some cmd /\ nth_error (c_flags cmd) v = Some f /\ f_name f = name
    | None => True
    end.
  Lemma any_find_loop name : forall fuel o,
    match o with Some u => u < fuel /\ exists d, nth_error cs u = Some d | None => True end ->
    exists r, find_loop fuel bs s name o = Ok r /\ any_flag name r.
  Proof using B C.
    induction fuel as [|fuel IH]; intros [u|] K; cbn [find_loop]; try (exists None; split; [reflexivity|exact I]); [lia|].
    destruct K as (K1 & d & Hd). rewrite (any_info _ _ Hd). cbn [bind].
    assert (O : ordered (map (fun f => str_cmp (f_name f) name) (c_flags d))).
    { apply (ordered_map (fun x y => by_name x y <> Gt)); [exact (li_flags _ _ C d (nth_error_In _ _ Hd))|].
      intros x y L. apply (rank_mono _ good_str), L. }
    pose proof (B _ O) as F. destruct (bs _) as [v|].
    - rewrite nth_error_map in F. destruct (nth_error (c_flags d) v) as [f|] eqn:E; cbn in F; [|discriminate].
      injection F as F. apply (g_eq _ good_str) in F. exists (Some (u, v)). split; [reflexivity|].
      exists d, f. split; [exact Hd|]. split; [exact E|exact F].
    - destruct (any_up _ _ Hd) as (o & Eo & U). rewrite Eo. cbn [bind]. apply IH.
      destruct o as [w|]; [|exact I]. destruct U as [U0 U1]. split; [lia|exact U1].
  Qed.
  Lemma any_find_flag c p name : at_path cs c p -> exists r, find_flag bs s c name = Ok r /\ any_flag name r.
  Proof using B C.
    intros A. unfold find_flag. apply any_find_loop. destruct c as [v|]; cbn in *; [|exact I].
    destruct A as (_ & cmd & H & _). split; [|exists cmd; exact H].
    assert (X : p_index v < length cs) by (apply nth_error_Some; rewrite H; discriminate).
    rewrite <- (li_info _ _ C), map_length in X. lia.
  Qed.

  Lemma any_report c p x : at_path cs c p ->
    exists e se, report_parameter s c (Some x) = Ok (Some e) /\ shows cs e se /\ fits cs se /\ given se = [x].
  Proof using C.
    intros A. unfold report_parameter. destruct (any_command c p A) as [(i & cmd & E & H & P)|[E N]]; rewrite E; cbn [bind].
    - exists (EParameter i (Some x)), (SParameter p (Some x)). split; [reflexivity|]. split; [rewrite <- P; apply sh_parameter, H|].
      split; [|reflexivity]. exists cmd. split; [eapply nth_error_In, H|exact P].
    - exists (EError (ParameterUnexpected x)), (SError (ParameterUnexpected x)). split; [reflexivity|]. split; [apply sh_error|].
      split; [exact I|reflexivity].
  Qed.
  Lemma any_report_end c p : at_path cs c p ->
    exists e se, report_parameter s c None = Ok e /\ Forall2 (shows cs) (events e) se /\ Forall (fits cs) se /\ flat_map given se = [].
  Proof using C.
    intros A. unfold report_parameter. destruct (any_command c p A) as [(i & cmd & E & H & P)|[E N]]; rewrite E; cbn [bind].
    - exists (Some (EParameter i None)), [SParameter p None]. split; [reflexivity|].
      split; [constructor; [rewrite <- P; apply sh_parameter, H|constructor]|]. split; [|reflexivity].
      constructor; [|constructor]. exists cmd. split; [eapply nth_error_In, H|exact P].
    - exists None, []. split; [reflexivity|]. split; [constructor|]. split; [constructor|reflexivity].
  Qed.

  Lemma any_long st p name value next : at_path cs (s_cursor st) p ->
    exists e took se, parse_long bs s st next name value = Ok (st, Some e, took) /\ shows cs e se /\ fits cs se.
  Proof using B C.
    intros A. unfold parse_long. destruct (any_find_flag _ p name A) as (r & Er & Hr). rewrite Er. cbn [bind].
    assert (K : exists o, match r with
        | Some v => Ok (Some (v, None))
        | None => match strip_prefix no_prefix name with
                  | None => Ok None
                  | Some stripped => do found <- find_flag bs s (s_cursor st) stripped;
                      Ok (match found with Some v => Some (v, Some stripped) | None => None end)
                  end
        end = Ok o /\
        match o with
        | None => True
        | Some (i, v, t) => exists cmd f, nth_error cs i = Some cmd /\ nth_error (c_flags cmd) v = Some f /\
            name = match t with None => f_name f | Some _ => no_prefix ++ f_name f end
        end).
    { destruct r as [[i v]|].
      - eexists. split; [reflexivity|]. destruct Hr as (cmd & f & H1 & H2 & H3). exists cmd, f.
        split; [exact H1|]. split; [exact H2|]. symmetry. exact H3.
      - destruct (strip_prefix no_prefix name) as [stripped|] eqn:ES; [|eexists; split; [reflexivity|exact I]].
        apply strip_iff in ES. destruct (any_find_flag _ p stripped A) as (r2 & Er2 & Hr2). rewrite Er2. cbn [bind].
        destruct r2 as [[i v]|]; eexists; (split; [reflexivity|]); [|exact I].
        destruct Hr2 as (cmd & f & H1 & H2 & H3). exists cmd, f. split; [exact H1|]. split; [exact H2|]. rewrite H3. exact ES. }
    destruct K as (o & Eo & K). rewrite Eo. cbn [bind]. clear Eo.
    destruct o as [[[i v] t]|].
    2:{ eexists _, false, _. split; [reflexivity|]. split; [apply sh_error|exact I]. }
    destruct K as (cmd & f & H1 & H2 & H3). cbn [fst snd]. rewrite (any_info _ _ H1). cbn [bind]. rewrite H2.
    destruct (any_current (s_cursor st) p i cmd A H1) as (k & d & Ek & Hk). rewrite Ek. cbn [bind].
    assert (HF : forall m, f_mode f = m -> has_flag cs (c_path cmd) (f_name f) m).
    { intros m Em. exists cmd, f. split; [eapply nth_error_In, H1|]. split; [reflexivity|]. split; [eapply nth_error_In, H2|].
      split; [reflexivity|exact Em]. }
    assert (HC : is_command cs (c_path d)) by (exists d; split; [eapply nth_error_In, Hk|reflexivity]).
    assert (ER : forall e, exists se, shows cs (EError e) se /\ fits cs se) by (intros e; exists (SError e); split; [apply sh_error|exact I]).
    destruct (f_mode f) eqn:Em.
    - destruct t as [t|].
      + destruct (ER (FlagUnexpectedToggle name)) as (se & S1 & S2). eexists _, false, se. split; [reflexivity|]. split; assumption.
      + destruct value as [val|].
        * destruct (ER (FlagUnexpectedValue name val)) as (se & S1 & S2). eexists _, false, se. split; [reflexivity|]. split; assumption.
        * eexists _, false, _. split; [reflexivity|]. split; [apply sh_set; eassumption|]. split; [apply HF; reflexivity|]. split; assumption.
    - destruct value as [val|].
      + destruct (ER (FlagUnexpectedValue name val)) as (se & S1 & S2). exists (EError (FlagUnexpectedValue name val)), false, se.
        split; [destruct t; reflexivity|]. split; assumption.
      + exists (EToggle (i, v) k name (match t with None => true | Some _ => false end)), false,
          (SToggle (c_path cmd) (f_name f) (c_path d) name (match t with None => true | Some _ => false end)).
        split; [destruct t; reflexivity|]. split; [apply sh_toggle; assumption|]. split; [apply HF; reflexivity|]. split; [exact HC|].
        destruct t; exact H3.
    - destruct t as [t|].
      + destruct (ER (FlagUnexpectedToggle name)) as (se & S1 & S2). eexists _, false, se. split; [reflexivity|]. split; assumption.
      + destruct value as [val|].
        * eexists _, false, _. split; [reflexivity|]. split; [apply sh_parse; eassumption|]. split; [apply HF; reflexivity|]. split; assumption.
        * destruct next as [val|].
          -- eexists _, true, _. split; [reflexivity|]. split; [apply sh_parse; eassumption|]. split; [apply HF; reflexivity|]. split; assumption.
          -- destruct (ER (FlagNoValue name)) as (se & S1 & S2). eexists _, false, se. split; [reflexivity|]. split; assumption.
  Qed.

  (** Where the parser is. *)
  Definition any_at (st : state) (p : path) : Prop := at_path cs (s_cursor st) p /\ Forall text p.

  (** How a word is taken: as the next part of the path, or as a parameter. *)
  Definition takes (st : state) (p : path) (arg : str) (st' : state) (p' : path) (se : list sevent) : Prop :=
    (commands_finalized st = false /\ p' = p ++ [arg] /\ se = [] /\ commands_finalized st' = false) \/
    (p' = p /\ flat_map given se = [arg] /\ commands_finalized st' = true /\
     (commands_finalized st = false -> ~ (text arg /\ leads cs (p ++ [arg])))).

  Lemma any_arg st p arg next : any_at st p ->
    exists st' e took se p', parse_arg bs s st arg next = Ok (st', e, took) /\ any_at st' p' /\
      Forall2 (shows cs) (events e) se /\ Forall (fits cs) se /\
      (word arg -> took = false /\ takes st p arg st' p' se).
  Proof using B C.
    intros [A T]. unfold parse_arg.
    assert (PM : commands_finalized st = true -> exists st' e took se p', as_parameter s st arg = Ok (st', e, took) /\ any_at st' p' /\
        Forall2 (shows cs) (events e) se /\ Forall (fits cs) se /\ (word arg -> took = false /\ takes st p arg st' p' se)).
    { intros Ec. unfold as_parameter. destruct (any_report _ p arg A) as (e & se & Ee & Sh & Fi & Gi). rewrite Ee. cbn [bind].
      eexists _, _, false, [se], p. split; [reflexivity|]. split; [split; assumption|].
      split; [constructor; [exact Sh|constructor]|]. split; [constructor; [exact Fi|constructor]|]. intros _. split; [reflexivity|].
      right. split; [reflexivity|]. split; [cbn; rewrite Gi; reflexivity|]. split; [exact Ec|]. rewrite Ec. discriminate. }
    assert (OT : exists st' e took se p',
        (if negb (commands_finalized st)
         then parse_command bs s st arg (if negb (length (valid_front arg) =? length arg) then None else Some (valid_front arg))
         else as_parameter s st arg) = Ok (st', e, took) /\ any_at st' p' /\
        Forall2 (shows cs) (events e) se /\ Forall (fits cs) se /\ (word arg -> took = false /\ takes st p arg st' p' se)).
    { destruct (commands_finalized st) eqn:Ec; cbn [negb]; [apply PM; reflexivity|]. unfold parse_command.
      assert (K : exists o, match (if negb (length (valid_front arg) =? length arg) then None else Some (valid_front arg)) with
          | None => Ok None | Some v => enter bs s (s_cursor st) v end = Ok o /\
          match o with
          | Some c' => text arg /\ at_path cs (Some c') (p ++ [arg])
          | None => ~ (text arg /\ leads cs (p ++ [arg]))
          end).
      { pose proof (read_whole arg) as R. destruct (negb (length (valid_front arg) =? length arg)).
        - exists None. split; [reflexivity|]. intros [X _]. exact (R X).
        - destruct R as [R1 R2]. rewrite R2. destruct (any_enter (s_cursor st) p arg A) as [(c' & E & Ha)|[E N]]; rewrite E.
          + exists (Some c'). split; [reflexivity|]. split; assumption.
          + exists None. split; [reflexivity|]. intros [_ X]. exact (N X). }
      destruct K as (o & Eo & K). rewrite Eo. cbn [bind]. destruct o as [c'|].
      - destruct K as [Tx Ha]. eexists _, None, false, [], (p ++ [arg]). split; [reflexivity|].
        split; [split; [exact Ha|apply Forall_app; split; [exact T|constructor; [exact Tx|constructor]]]|].
        split; [constructor|]. split; [constructor|]. intros _. split; [reflexivity|]. left.
        rewrite Ec. repeat split; reflexivity.
      - destruct (any_report _ p arg A) as (e & se & Ee & Sh & Fi & Gi). rewrite Ee. cbn [bind].
        eexists _, _, false, [se], p. split; [reflexivity|]. split; [split; assumption|].
        split; [constructor; [exact Sh|constructor]|]. split; [constructor; [exact Fi|constructor]|]. intros _. split; [reflexivity|].
        right. split; [reflexivity|]. split; [cbn; rewrite Gi; reflexivity|]. split; [reflexivity|]. intros _. exact K. }
    destruct (commands_finalized st && flags_finalized st) eqn:E0.
    { apply Bool.andb_true_iff in E0. apply PM, E0. }
    cbv zeta. destruct (flags_finalized st) eqn:Ef; cbn [negb]; [exact OT|].
    assert (ER : forall e took, ~ word arg -> exists st' e' took' se p', Ok (st, Some (EError e), took) = Ok (st', e', took') /\ any_at st' p' /\
        Forall2 (shows cs) (events e') se /\ Forall (fits cs) se /\ (word arg -> took' = false /\ takes st p arg st' p' se)).
    { intros e took W. eexists _, _, took, [SError e], p. split; [reflexivity|]. split; [split; assumption|].
      split; [constructor; [apply sh_error|constructor]|]. split; [constructor; [exact I|constructor]|]. intros W'. exfalso. exact (W W'). }
    destruct (strip_prefix [dash; dash] (valid_front arg)) as [dd|] eqn:ES.
    - assert (W : ~ word arg).
      { apply strip_iff in ES. destruct (front_ok arg) as (tl & SE & _). intros W. apply (W dash (dd ++ tl)).
        rewrite SE, ES. reflexivity. }
      assert (LG : forall name value, exists st' e took se p', parse_long bs s st next name value = Ok (st', e, took) /\ any_at st' p' /\
          Forall2 (shows cs) (events e) se /\ Forall (fits cs) se /\ (word arg -> took = false /\ takes st p arg st' p' se)).
      { intros name value. destruct (any_long st p name value next A) as (e & took & se & E & Sh & Fi).
        eexists _, _, took, [se], p. split; [exact E|]. split; [split; assumption|].
        split; [constructor; [exact Sh|constructor]|]. split; [constructor; [exact Fi|constructor]|]. intros W'. exfalso. exact (W W'). }
      destruct (split_once equals dd) as [[before after]|]; cbv beta iota.
      + destruct before; apply LG.
      + destruct (negb (length (valid_front arg) =? length arg)); [apply ER; exact W|].
        destruct dd as [|c dd]; [|apply LG].
        eexists _, None, false, [], p. split; [reflexivity|]. split; [split; assumption|]. split; [constructor|]. split; [constructor|].
        intros W'. exfalso. exact (W W').
    - destruct arg as [|x [|y arg]]; try exact OT.
      destruct (N.eqb_spec x dash) as [->|N]; [|exact OT]. apply ER. intros W. exact (W y arg eq_refl).
  Qed.

  Theorem any_cursor : forall n args st p, length args <= n -> any_at st p ->
    exists ev sev st' p',
      Forall2 (shows cs) ev sev /\ Forall (fits cs) sev /\ any_at st' p' /\
      (Forall word args -> exists more mid, args = mid ++ more /\ p' = p ++ mid /\ flat_map given sev = more /\
         (commands_finalized st = true -> mid = []) /\
         (commands_finalized st = false -> match more with [] => True | x :: _ => ~ (text x /\ leads cs (p' ++ [x])) end)) /\
      forall H R (h : handler H R) x,
        match tell h x ev with
        | (x', Some r) => exists st'', parse_cursor bs s h x st args = Ok (x', Some r, st'')
        | (x', None) => parse_cursor bs s h x st args = Ok (x', None, st')
        end.
  Proof using B C.
    induction n as [|n IH]; intros args st p L A.
    - destruct args; [|cbn in L; lia].
      destruct (any_report_end _ _ (proj1 A)) as (e & se & E & F & Fi & Gi).
      exists (events e), se, st, p. split; [exact F|]. split; [exact Fi|]. split; [exact A|]. split.
      { intros _. exists [], []. split; [reflexivity|]. split; [symmetry; apply app_nil_r|]. split; [exact Gi|]. split; [reflexivity|]. intros _. exact I. }
      intros H R h x. cbn [parse_cursor]. rewrite E. cbn [bind]. rewrite tell_opt_tell.
      destruct (tell h x (events e)) as [x' [r|]]; [eexists|]; reflexivity.
    - destruct args as [|arg rest].
      { apply IH; [cbn; lia|exact A]. }
      destruct (any_arg st p arg (hd_error rest) A) as (st1 & e & took & se & p1 & E & A1 & F & Fi & W1).
      destruct (IH (if took : bool then tl rest else rest) st1 p1) as (ev & sev & st' & p' & F' & Fi' & A' & W2 & T).
      { cbn in L. destruct took; [destruct rest; cbn in *; lia|lia]. }
      { exact A1. }
      exists (events e ++ ev), (se ++ sev), st', p'.
      split; [apply Forall2_app; assumption|]. split; [apply Forall_app; split; assumption|].
      split; [exact A'|]. split.
      { intros W. inversion W as [|? ? Wa Wr]; subst. destruct (W1 Wa) as [-> K]. destruct (W2 Wr) as (more & mid & E1 & E2 & E3 & E4 & E5).
        destruct K as [(K1 & K2 & K3 & K4)|(K1 & K2 & K3 & K4)].
        - exists more, (arg :: mid). subst p1 se. split; [cbn; rewrite <- E1; reflexivity|]. split; [rewrite E2, <- app_assoc; reflexivity|].
          split; [exact E3|]. split; [rewrite K1; discriminate|]. intros _. apply E5, K4.
        - rewrite (E4 K3) in *. subst p1. cbn [app] in E1. rewrite app_nil_r in E2. subst p'.
          exists (arg :: more), []. split; [cbn; rewrite <- E1; reflexivity|]. split; [rewrite app_nil_r; reflexivity|].
          split; [rewrite flat_map_app, K2, E3; reflexivity|]. split; [reflexivity|exact K4]. }
      intros H R h x. rewrite tell_app. cbn [parse_cursor]. rewrite E. cbn [bind]. rewrite tell_opt_tell.
      destruct (tell h x (events e)) as [x1 [r|]]; [eexists; reflexivity|].
      replace (if took then match rest with [] => parse_cursor bs s h x1 st1 rest | _ :: rest' => parse_cursor bs s h x1 st1 rest' end
               else parse_cursor bs s h x1 st1 rest)
        with (parse_cursor bs s h x1 st1 (if took : bool then tl rest else rest)) by (destruct took; [destruct rest; reflexivity|reflexivity]).
      apply T.
  Qed.

  Theorem any_parse args : exists ev sev p,
    Forall2 (shows cs) ev sev /\ Forall (fits cs) sev /\ Forall text p /\ (p = [] \/ leads cs p) /\
    (Forall word args -> exists more, args = p ++ more /\ flat_map given sev = more /\
       match more with [] => True | x :: _ => ~ (text x /\ leads cs (p ++ [x])) end) /\
    forall H R (h : handler H R) x,
      match tell h x ev with
      | (x', Some r) => parse bs s h x args = Ok (x', Broken r)
      | (x', None) =>
          (exists i c, parse bs s h x args = Ok (x', Selected i) /\ nth_error cs i = Some c /\ c_path c = p) \/
          (parse bs s h x args = Ok (x', NotSelected) /\ ~ is_command cs p)
      end.
  Proof using B C.
    destruct (any_cursor (length args) args (mkState (cursor_with s) false false) [] (le_n _)) as (ev & sev & st' & p & F & Fi & A & W & T).
    { split; [exact any_with|constructor]. }
    exists ev, sev, p. split; [exact F|]. split; [exact Fi|]. split; [apply A|]. split.
    { destruct A as [A _]. destruct (s_cursor st') as [v|]; [|left; apply A]. right. destruct A as (_ & c & H & P & _).
      exists c. split; [eapply nth_error_In, H|exact P]. }
    split.
    { intros Wa. destruct (W Wa) as (more & mid & E1 & E2 & E3 & _ & E5). cbn [app] in E2. subst mid. exists more.
      split; [exact E1|]. split; [exact E3|]. apply E5. reflexivity. }
    intros H R h x. specialize (T H R h x). unfold parse. destruct (tell h x ev) as [x' [r|]].
    - destruct T as [st'' T]. rewrite T. reflexivity.
    - rewrite T. cbn [bind]. destruct (any_command _ _ (proj1 A)) as [(i & c & E & Hi & P)|[E N]]; rewrite E; cbn [bind].
      + left. exists i, c. split; [reflexivity|]. split; assumption.
      + right. split; [reflexivity|exact N].
  Qed.
End Linked.
