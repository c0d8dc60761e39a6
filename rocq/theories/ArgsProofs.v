(** Proofs about layouts and the cursor. *)
From Verif Require Import Base ArgsSpec ArgsModel ArgsOrder.
From Coq Require Import Lia.
Local Open Scope res_scope.

Definition le_path (a b : path) : Prop := path_cmp a b <> Gt.
Definition ordered_paths (ps : list path) : Prop := StronglySorted le_path ps.

(** ** Links *)

Definition up_ok (ps : list path) (i : nat) (o : option nat) : Prop :=
  match o with
  | Some j => j < i /\ forall pj pi, nth_error ps j = Some pj -> nth_error ps i = Some pi -> prefix pj pi
  | None => True
  end /\
  forall j pj pi, j < i -> nth_error ps j = Some pj -> nth_error ps i = Some pi -> prefix pj pi ->
    match o with Some k => j <= k | None => False end.

Lemma climb_ok ps ups p i : ordered_paths ps -> nth_error ps i = Some p -> length ups = i ->
  (forall j o, nth_error ups j = Some o -> up_ok ps j o) ->
  forall fuel o_up,
  match o_up with Some u => u < i /\ u < fuel | None => True end ->
  (forall j pj, j < i -> nth_error ps j = Some pj -> prefix pj p -> match o_up with Some u => j <= u | None => False end) ->
  exists o, climb fuel ps ups p o_up = Ok o /\ up_ok ps i o.
Proof.
  intros S Hp Hl U. induction fuel as [|fuel IH]; intros o_up B M.
  - destruct o_up as [u|]; [lia|]. exists None. split; [reflexivity|]. split; [exact I|].
    intros j pj pi L Hj Hi P. rewrite Hp in Hi. injection Hi as <-. apply (M j pj L Hj P).
  - destruct o_up as [u|]; cbn [climb].
    2:{ exists None. split; [reflexivity|]. split; [exact I|].
        intros j pj pi L Hj Hi P. rewrite Hp in Hi. injection Hi as <-. apply (M j pj L Hj P). }
    destruct B as [B1 B2].
    destruct (nth_error ps u) as [q|] eqn:Hq.
    2:{ apply nth_error_None in Hq. assert (i < length ps) by (apply nth_error_Some; rewrite Hp; discriminate). lia. }
    destruct (nth_error ups u) as [next|] eqn:Hn.
    2:{ apply nth_error_None in Hn. lia. }
    destruct (starts_with p q) eqn:E.
    + apply starts_with_prefix in E. exists (Some u). split; [reflexivity|]. split.
      * split; [exact B1|]. intros pj pi Hj Hi. rewrite Hq in Hj. rewrite Hp in Hi. injection Hj as <-. injection Hi as <-. exact E.
      * intros j pj pi L Hj Hi P. rewrite Hp in Hi. injection Hi as <-. exact (M j pj L Hj P).
    + pose proof (U u next Hn) as [K1 K2]. apply IH.
      * destruct next as [w|]; [|exact I]. destruct K1 as [K1 _]. lia.
      * intros j pj L Hj P. pose proof (M j pj L Hj P) as Le.
        destruct (Nat.eq_dec j u) as [->|N].
        { rewrite Hq in Hj. injection Hj as <-. apply starts_with_prefix in P. congruence. }
        assert (j < u) as Lt by lia. apply (K2 j pj q Lt Hj Hq).
        apply (prefix_between pj q p P).
        -- exact (sorted_nth _ _ S j u pj q Lt Hj Hq).
        -- exact (sorted_nth _ _ S u i q p B1 Hq Hp).
Qed.

Lemma link_loop_ok ps : ordered_paths ps -> forall todo ups, skipn (length ups) ps = todo ->
  length ups <= length ps ->
  (forall j o, nth_error ups j = Some o -> up_ok ps j o) ->
  exists ups', link_loop ps todo ups = Ok ups' /\ length ups' = length ps /\
    forall j o, nth_error ups' j = Some o -> up_ok ps j o.
Proof.
  intros S. induction todo as [|p todo IH]; intros ups E L U; cbn [link_loop].
  - exists ups. split; [reflexivity|]. split; [|exact U].
    apply (f_equal (@length path)) in E. rewrite skipn_length in E. cbn in E. lia.
  - assert (Hp : nth_error ps (length ups) = Some p).
    { rewrite <- (firstn_skipn (length ups) ps), E. rewrite nth_error_app2; rewrite firstn_length_le by lia; [|lia].
      rewrite Nat.sub_diag. reflexivity. }
    assert (L2 : length ups < length ps) by (apply nth_error_Some; rewrite Hp; discriminate).
    destruct (climb_ok ps ups p (length ups) S Hp eq_refl U (Datatypes.S (length ups))
                (match length ups with O => None | Datatypes.S i => Some i end)) as (o & Eo & Uo).
    { destruct (length ups); [exact I|lia]. }
    { intros j pj Lj _ _. destruct (length ups); lia. }
    rewrite Eo. cbn [bind]. apply IH.
    + rewrite app_length. cbn [length]. rewrite Nat.add_1_r.
      assert (Q : forall (l : list path) k, skipn (Datatypes.S k) l = tl (skipn k l)).
      { intros l k. revert l. induction k as [|k IHk]; intros [|x l]; cbn; try reflexivity. apply (IHk l). }
      rewrite Q, E. reflexivity.
    + rewrite app_length. cbn. lia.
    + intros j o' Hj. destruct (Nat.lt_ge_cases j (length ups)) as [Lj|Lj].
      * rewrite nth_error_app1 in Hj by exact Lj. apply U, Hj.
      * rewrite nth_error_app2 in Hj by exact Lj. destruct (j - length ups) as [|k] eqn:D; cbn in Hj.
        -- injection Hj as <-. replace j with (length ups) by lia. exact Uo.
        -- destruct k; discriminate.
Qed.

(** A compiled layout. *)
Record compiled (cs : list command) (s : schema) : Prop := {
  co_info : map d_info s = cs;
  co_sorted : ordered_paths (map c_path cs);
  co_distinct : distinct cs;
  co_flags : forall c, In c cs -> StronglySorted (fun x y => by_name x y <> Gt) (c_flags c);
  co_up : forall i d, nth_error s i = Some d -> up_ok (map c_path cs) i (d_up d) }.

Lemma sorted_map {A B} (f : A -> B) (R : B -> B -> Prop) l :
  StronglySorted (fun x y => R (f x) (f y)) l -> StronglySorted R (map f l).
Proof.
  induction 1 as [|x l S IH F]; cbn; constructor; [exact IH|].
  rewrite Forall_forall in *. intros y Hy. apply in_map_iff in Hy. destruct Hy as (z & <- & Hz). apply F, Hz.
Qed.

Lemma nth_combine {A B} (l : list A) (m : list B) i x y :
  nth_error (combine l m) i = Some (x, y) -> nth_error l i = Some x /\ nth_error m i = Some y.
Proof.
  revert m i. induction l as [|a l IH]; intros [|b m] i H; try (destruct i; discriminate).
  destruct i as [|i]; cbn in *; [injection H as -> ->; split; reflexivity|apply IH, H].
Qed.

Theorem link_ok cs : StronglySorted (fun x y => by_path x y <> Gt) cs -> distinct cs ->
  (forall c, In c cs -> StronglySorted (fun x y => by_name x y <> Gt) (c_flags c)) ->
  exists s, link cs = Ok s /\ compiled cs s.
Proof.
  intros S D F. unfold link.
  assert (S' : ordered_paths (map c_path cs)) by (apply sorted_map; exact S).
  destruct (link_loop_ok (map c_path cs) S' (map c_path cs) []) as (ups & E & L & U).
  { reflexivity. } { cbn. lia. } { intros [|j] o H; discriminate. }
  rewrite E. cbn [bind]. eexists. split; [reflexivity|]. rewrite map_length in L. split.
  - rewrite map_map. clear - L. revert ups L. induction cs as [|c cs IH]; intros [|u ups] L; try discriminate; [reflexivity|].
    cbn in *. f_equal. apply IH. lia.
  - exact S'.
  - exact D.
  - exact F.
  - intros i d H. rewrite nth_error_map in H. destruct (nth_error (combine cs ups) i) as [[c up]|] eqn:Hc; [|discriminate].
    cbn in H. injection H as <-. cbn. apply nth_combine in Hc. apply U. apply Hc.
Qed.

(** ** Cursor *)

Section Compiled.
  Context (cs : list command) (s : schema) (C : compiled cs s).

  Lemma at_info i c : nth_error cs i = Some c -> info_at s i = Ok c.
  Proof.
    unfold info_at. rewrite <- (co_info _ _ C), nth_error_map. destruct (nth_error s i) as [d|]; cbn; intros H; [|discriminate].
    injection H as <-. reflexivity.
  Qed.
  Lemma at_up i c : nth_error cs i = Some c -> exists o, up_from s i = Ok o /\ up_ok (map c_path cs) i o.
  Proof.
    unfold up_from. rewrite <- (co_info _ _ C) at 1. rewrite nth_error_map. destruct (nth_error s i) as [d|] eqn:E; cbn; intros H; [|discriminate].
    exists (d_up d). split; [reflexivity|]. exact (co_up _ _ C i d E).
  Qed.
  Lemma lt_of_index i j c d : i < j -> nth_error cs i = Some c -> nth_error cs j = Some d ->
    path_cmp (c_path c) (c_path d) <> Gt /\ c_path c <> c_path d.
  Proof.
    intros L Hi Hj. split.
    - apply (sorted_nth _ _ (co_sorted _ _ C) i j (c_path c) (c_path d) L); apply map_nth_error; assumption.
    - intros E. pose proof (nodup_nth c_path cs (co_distinct _ _ C) i j c d Hi Hj E). lia.
  Qed.
  Lemma index_of_le i j c d : nth_error cs i = Some c -> nth_error cs j = Some d ->
    path_cmp (c_path c) (c_path d) <> Gt -> i <= j.
  Proof.
    intros Hi Hj H. destruct (Nat.le_gt_cases i j) as [L|L]; [exact L|].
    destruct (lt_of_index j i d c L Hj Hi) as [K1 K2]. exfalso. apply K2. apply (le_anti _ good_path); assumption.
  Qed.

  (** The cursor is at the first command at or below [p]. *)
  Definition at_path (c : option position) (p : path) : Prop :=
    match c with
    | None => cs = [] /\ p = []
    | Some v => p_level v = length p /\ exists cmd, nth_error cs (p_index v) = Some cmd /\ prefix p (c_path cmd) /\
        forall j d, nth_error cs j = Some d -> prefix p (c_path d) -> p_index v <= j
    end.

  Lemma with_ok : at_path (cursor_with s) [].
  Proof.
    unfold cursor_with, at_path. pose proof (co_info _ _ C) as E. destruct s as [|d s']; [split; [symmetry; exact E|reflexivity]|].
    rewrite <- E. cbn. split; [reflexivity|]. exists (d_info d). split; [reflexivity|]. split; [apply prefix_nil|]. intros; lia.
  Qed.
  Lemma key_ok c p : at_path c p -> key s c = Ok p.
  Proof.
    destruct c as [v|]; cbn; [|intros [_ ->]; reflexivity].
    intros (L & cmd & H & P & _). rewrite (at_info _ _ H). cbn. rewrite L.
    rewrite (proj2 (Nat.leb_le _ _)) by (apply prefix_length, P). apply prefix_firstn in P. rewrite P. reflexivity.
  Qed.
  Lemma command_ok c p : at_path c p ->
    (exists i cmd, cursor_command s c = Ok (Some i) /\ nth_error cs i = Some cmd /\ c_path cmd = p) \/
    (cursor_command s c = Ok None /\ ~ is_command cs p).
  Proof.
    destruct c as [v|]; cbn.
    2:{ intros [-> ->]. right. split; [reflexivity|]. intros (x & [] & _). }
    intros (L & cmd & H & P & M). rewrite (at_info _ _ H). cbn. rewrite L.
    destruct (Nat.leb_spec (length (c_path cmd)) (length p)) as [K|K].
    - left. exists (p_index v), cmd. split; [reflexivity|]. split; [exact H|]. symmetry. apply prefix_same; assumption.
    - right. split; [reflexivity|]. intros (x & Hx & E). apply In_nth_error in Hx. destruct Hx as [j Hj].
      assert (B1 : p_index v <= j). { apply (M j x Hj). rewrite E. apply prefix_refl. }
      assert (B2 : j <= p_index v). { apply (index_of_le j (p_index v) x cmd Hj H). rewrite E. apply prefix_le, P. }
      replace j with (p_index v) in Hj by lia. rewrite H in Hj. injection Hj as <-. rewrite E in K. lia.
  Qed.
  (** The command of the context of a flag. *)
  Lemma up_ok_command c p : at_path c p ->
    (exists i cmd, command_or_up s c = Ok (Some i) /\ nth_error cs i = Some cmd /\ innermost cs p (c_path cmd)) \/
    (command_or_up s c = Ok None /\ forall q, is_command cs q -> ~ prefix q p).
  Proof.
    destruct c as [v|]; cbn.
    2:{ intros [-> ->]. right. split; [reflexivity|]. intros q (x & [] & _). }
    intros (L & cmd & H & P & M). rewrite (at_info _ _ H). cbn. rewrite L.
    destruct (Nat.leb_spec (length (c_path cmd)) (length p)) as [K|K].
    - left. exists (p_index v), cmd. split; [reflexivity|]. split; [exact H|].
      pose proof (prefix_same _ _ P K) as E. subst p. split; [|split].
      + exists cmd. split; [eapply nth_error_In, H|reflexivity].
      + apply prefix_refl.
      + intros q' _ Q. apply prefix_length, Q.
    - destruct (at_up _ _ H) as (o & Eo & U1 & U2). rewrite Eo.
      assert (Z : forall q, is_command cs q -> prefix q p -> exists j d, nth_error cs j = Some d /\ c_path d = q /\ j < p_index v).
      { intros q (d & Hd & <-) Q. apply In_nth_error in Hd. destruct Hd as [j Hj]. exists j, d. split; [exact Hj|]. split; [reflexivity|].
        assert (B : j <= p_index v). { apply (index_of_le j (p_index v) d cmd Hj H). apply prefix_le. eapply prefix_trans; eassumption. }
        destruct (Nat.eq_dec j (p_index v)) as [->|N]; [|lia]. rewrite H in Hj. injection Hj as <-. apply prefix_length in Q. lia. }
      destruct o as [j|].
      + left. destruct U1 as [Lt U1].
        assert (exists d, nth_error cs j = Some d) as [d Hd].
        { destruct (nth_error cs j) eqn:E; [eauto|]. apply nth_error_None in E.
          assert (p_index v < length cs) by (apply nth_error_Some; rewrite H; discriminate). lia. }
        exists j, d. split; [reflexivity|]. split; [exact Hd|].
        assert (Pd : prefix (c_path d) (c_path cmd)). { apply U1; apply map_nth_error; assumption. }
        assert (Q : prefix (c_path d) p).
        { apply (prefix_shorter _ _ _ Pd P). destruct (Nat.le_gt_cases (length (c_path d)) (length p)) as [X|X]; [exact X|].
          assert (Y : prefix p (c_path d)) by (apply (prefix_shorter _ _ _ P Pd); lia).
          specialize (M j d Hd Y). lia. }
        split; [exists d; split; [eapply nth_error_In, Hd|reflexivity]|]. split; [exact Q|].
        intros q' I' Q'. destruct (Z q' I' Q') as (k & e & Hk & <- & Lk).
        assert (B : k <= j).
        { apply (U2 k (c_path e) (c_path cmd) Lk); [apply map_nth_error, Hk|apply map_nth_error, H|]. eapply prefix_trans; eassumption. }
        destruct (Nat.le_gt_cases (length (c_path e)) (length (c_path d))) as [X|X]; [exact X|]. exfalso.
        assert (Y : prefix (c_path d) (c_path e)) by (apply (prefix_shorter _ _ p Q Q'); lia).
        pose proof (index_of_le j k d e Hd Hk (prefix_le _ _ Y)). replace k with j in Hk by lia.
        rewrite Hd in Hk. injection Hk as <-. lia.
      + right. split; [reflexivity|]. intros q I' Q'. destruct (Z q I' Q') as (k & e & Hk & <- & Lk).
        apply (U2 k (c_path e) (c_path cmd) Lk); [apply map_nth_error, Hk|apply map_nth_error, H|]. eapply prefix_trans; eassumption.
  Qed.

  (** Entering a command. *)
  Lemma search_ordered (p : path) (n : str) : ordered (map (fun d => compare_prefix (c_path (d_info d)) (p, n)) s).
  Proof.
    replace (map (fun d => compare_prefix (c_path (d_info d)) (p, n)) s)
      with (map (fun e => compare_prefix e (p, n)) (map c_path cs)).
    2:{ rewrite <- (co_info _ _ C), !map_map. reflexivity. }
    apply (ordered_map le_path); [exact (co_sorted _ _ C)|]. intros x y L.
    rewrite !compare_prefix_spec. apply (rank_mono _ good_path). apply firstn_mono, L.
  Qed.
  Lemma back_up_ok (p : path) (n : str) : forall cand c, nth_error cs cand = Some c -> prefix (p ++ [n]) (c_path c) ->
    exists i d, back_up s (p, n) cand = Ok i /\ nth_error cs i = Some d /\ prefix (p ++ [n]) (c_path d) /\
      forall j e, nth_error cs j = Some e -> prefix (p ++ [n]) (c_path e) -> i <= j.
  Proof.
    induction cand as [|before IH]; intros c H P; cbn [back_up].
    - exists 0, c. split; [reflexivity|]. split; [exact H|]. split; [exact P|]. intros; lia.
    - assert (exists b, nth_error cs before = Some b) as [b Hb].
      { destruct (nth_error cs before) eqn:E; [eauto|]. apply nth_error_None in E.
        assert (Datatypes.S before < length cs) by (apply nth_error_Some; rewrite H; discriminate). lia. }
      rewrite (at_info _ _ Hb). cbn [bind]. destruct (compare_prefix (c_path b) (p, n)) eqn:E; cbn [is_eq].
      { apply compare_prefix_eq in E. exact (IH b Hb E). }
      all: exists (Datatypes.S before), c; split; [reflexivity|]; split; [exact H|]; split; [exact P|];
        intros j e Hj Q; destruct (Nat.le_gt_cases (Datatypes.S before) j) as [X|X]; [exact X|]; exfalso;
        assert (R : prefix (p ++ [n]) (c_path b)); [|apply compare_prefix_eq in R; discriminate (eq_trans (eq_sym E) R)];
        destruct (Nat.eq_dec j before) as [->|N]; [rewrite Hb in Hj; injection Hj as <-; exact Q|];
        apply (prefix_between _ _ (c_path c) P);
        [apply (le_trans _ good_path _ (c_path e)); [apply prefix_le, Q|apply (lt_of_index j before e b); [lia|exact Hj|exact Hb]]
        |apply (lt_of_index before (Datatypes.S before) b c); [lia|exact Hb|exact H]].
  Qed.
  Lemma enter_ok bs c p n : searches bs -> at_path c p ->
    (exists c', enter bs s c n = Ok (Some c') /\ at_path (Some c') (p ++ [n])) \/
    (enter bs s c n = Ok None /\ ~ leads cs (p ++ [n])).
  Proof.
    intros B A. unfold enter. rewrite (key_ok c p A). cbn [bind].
    pose proof (B _ (search_ordered p n)) as K. destruct (bs _) as [cand|].
    - left. rewrite nth_error_map in K. destruct (nth_error s cand) as [d|] eqn:E; cbn in K; [|discriminate].
      injection K as K. apply compare_prefix_eq in K.
      assert (Hc : nth_error cs cand = Some (d_info d)). { rewrite <- (co_info _ _ C). apply map_nth_error, E. }
      destruct (back_up_ok p n cand (d_info d) Hc K) as (i & e & E1 & E2 & E3 & E4). rewrite E1. cbn [bind].
      eexists. split; [reflexivity|]. cbn. split; [rewrite app_length; reflexivity|].
      exists e. split; [exact E2|]. split; [exact E3|exact E4].
    - right. split; [reflexivity|]. intros (x & Hx & P). apply K. apply compare_prefix_eq in P.
      rewrite <- (co_info _ _ C) in Hx. apply in_map_iff in Hx. destruct Hx as (d & <- & Hd).
      apply in_map_iff. exists d. split; [exact P|exact Hd].
  Qed.

  (** Finding a flag. *)
  Lemma flags_search bs cmd name : searches bs -> In cmd cs ->
    match bs (map (fun f => str_cmp (f_name f) name) (c_flags cmd)) with
    | Some v => exists m, nth_error (c_flags cmd) v = Some (mkFlag name m)
    | None => forall m, ~ In (mkFlag name m) (c_flags cmd)
    end.
  Proof.
    intros B Hc.
    assert (O : ordered (map (fun f => str_cmp (f_name f) name) (c_flags cmd))).
    { apply (ordered_map (fun x y => by_name x y <> Gt)); [exact (co_flags _ _ C cmd Hc)|]. intros x y L. apply (rank_mono _ good_str), L. }
    pose proof (B _ O) as K. destruct (bs _) as [v|].
    - rewrite nth_error_map in K. destruct (nth_error (c_flags cmd) v) as [[nm m]|] eqn:E; cbn in K; [|discriminate].
      injection K as K. apply (g_eq _ good_str) in K. subst nm. exists m. reflexivity.
    - intros m Hm. apply K. apply in_map_iff. exists (mkFlag name m). split; [|exact Hm]. apply (cmp_refl _ good_str).
  Qed.
  Definition flag_result (a : path) (name : str) (r : option (nat * nat)) : Prop :=
    match r with
    | Some (i, v) => exists cmd m, nth_error cs i = Some cmd /\ nth_error (c_flags cmd) v = Some (mkFlag name m) /\
        found cs a name (c_path cmd) m
    | None => missing cs a name
    end.
  Lemma find_loop_ok bs name i a : searches bs -> nth_error cs i = Some a ->
    forall fuel o, match o with Some u => u <= i /\ u < fuel /\ exists d, nth_error cs u = Some d /\ prefix (c_path d) (c_path a) | None => True end ->
    (forall j d m, nth_error cs j = Some d -> prefix (c_path d) (c_path a) ->
       match o with Some u => u < j | None => True end -> ~ In (mkFlag name m) (c_flags d)) ->
    exists r, find_loop fuel bs s name o = Ok r /\ flag_result (c_path a) name r.
  Proof.
    intros B Ha. induction fuel as [|fuel IH]; intros o K N.
    - destruct o as [u|]; [lia|]. exists None. split; [reflexivity|]. intros c m Hc P. apply In_nth_error in Hc. destruct Hc as [j Hj]. exact (N j c m Hj P I).
    - destruct o as [u|]; cbn [find_loop].
      2:{ exists None. split; [reflexivity|]. intros c m Hc P. apply In_nth_error in Hc. destruct Hc as [j Hj]. exact (N j c m Hj P I). }
      destruct K as (K1 & K2 & d & Hd & Pd). rewrite (at_info _ _ Hd). cbn [bind].
      pose proof (flags_search bs d name B (nth_error_In _ _ Hd)) as F. destruct (bs _) as [v|].
      + destruct F as [m F]. exists (Some (u, v)). split; [reflexivity|]. exists d, m. split; [exact Hd|]. split; [exact F|].
        exists d. split; [eapply nth_error_In, Hd|]. split; [reflexivity|]. split; [exact Pd|]. split; [eapply nth_error_In, F|].
        intros c' m' Hc' P' L'. apply In_nth_error in Hc'. destruct Hc' as [j Hj]. apply (N j c' m' Hj P').
        assert (X : prefix (c_path d) (c_path c')) by (apply (prefix_shorter _ _ _ Pd P'); lia).
        pose proof (index_of_le u j d c' Hd Hj (prefix_le _ _ X)).
        destruct (Nat.eq_dec u j) as [->|]; [|lia]. rewrite Hd in Hj. injection Hj as <-. lia.
      + destruct (at_up _ _ Hd) as (o & Eo & U1 & U2). rewrite Eo. cbn [bind]. apply IH.
        * destruct o as [w|]; [|exact I]. destruct U1 as [U0 U1]. split; [lia|]. split; [lia|].
          assert (exists e, nth_error cs w = Some e) as [e He].
          { destruct (nth_error cs w) eqn:E; [eauto|]. apply nth_error_None in E.
            assert (u < length cs) by (apply nth_error_Some; rewrite Hd; discriminate). lia. }
          exists e. split; [exact He|]. eapply prefix_trans; [|exact Pd]. apply U1; apply map_nth_error; assumption.
        * intros j e m Hj Pj Lo. destruct (Nat.lt_trichotomy j u) as [X|[->|X]].
          -- exfalso. assert (Y : prefix (c_path e) (c_path d)).
             { apply (prefix_between _ _ _ Pj); [apply (lt_of_index j u e d X Hj Hd)|].
               apply prefix_le, Pd. }
             pose proof (U2 j (c_path e) (c_path d) X (map_nth_error _ _ _ Hj) (map_nth_error _ _ _ Hd) Y) as Z.
             destruct o as [w|]; [lia|exact Z].
          -- rewrite Hd in Hj. injection Hj as <-. apply F.
          -- exact (N j e m Hj Pj X).
  Qed.
  Lemma find_flag_ok bs c p : searches bs -> at_path c p ->
    exists a, first_scope cs p a /\
      forall name, exists r, find_flag bs s c name = Ok r /\ flag_result a name r.
  Proof.
    intros B A. destruct c as [v|]; cbn in A.
    - destruct A as (L & cmd & H & P & M). exists (c_path cmd). split.
      + left. split; [exists cmd; split; [eapply nth_error_In, H|reflexivity]|]. split; [exact P|].
        intros b (d & Hd & <-) Q. apply In_nth_error in Hd. destruct Hd as [j Hj]. pose proof (M j d Hj Q) as X.
        destruct (Nat.eq_dec (p_index v) j) as [E|E].
        * subst j. rewrite H in Hj. injection Hj as <-. rewrite (cmp_refl _ good_path). discriminate.
        * apply (lt_of_index (p_index v) j cmd d); [lia|exact H|exact Hj].
      + intros name. unfold find_flag. cbn [option_map]. apply (find_loop_ok bs name (p_index v) cmd B H).
        * split; [lia|]. split; [|exists cmd; split; [exact H|apply prefix_refl]].
          assert (X : p_index v < length cs) by (apply nth_error_Some; rewrite H; discriminate).
          rewrite <- (co_info _ _ C), map_length in X. lia.
        * intros j d m Hj Pj Lj. exfalso. pose proof (index_of_le j (p_index v) d cmd Hj H (prefix_le _ _ Pj)). lia.
    - destruct A as [A ->]. exists []. split; [right; split; [|reflexivity]; intros (x & Hx & _); rewrite A in Hx; exact Hx|].
      intros name. exists None. split; [reflexivity|]. intros x m Hx. rewrite A in Hx. destruct Hx.
  Qed.
End Compiled.
