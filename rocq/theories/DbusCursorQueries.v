(** What a cursor reports at each index, and where it moves. *)
From Coq Require Import Ascii.
From Verif Require Import Base DbusSigModel DbusSpec DbusSigAnnot DbusSigProofs DbusSigRefine DbusSigSpec DbusSigTheory DbusObs DbusCursorProofs.
Local Open Scope N_scope.
Local Open Scope res_scope.

Lemma len_pos t : 1 <= len t.
Proof. unfold len. destruct t; cbn [print]; rewrite size_cons; lia. Qed.
Lemma len_cont t : is_container t = true -> 2 <= len t.
Proof.
  destruct t; try discriminate; intros _; rewrite ?len_array, ?len_maybe, ?len_struct, ?len_dict;
    try pose proof (len_pos t); lia.
Qed.

(** The index of the container an occurrence is in. *)
Definition container_of (fs : list frame) : option N :=
  match fs with [] => None | _ :: fs => Some (size (prefix fs)) end.
Definition step_of (fs : list frame) (u : ty) : option N :=
  match fs with
  | FArray :: _ | FMaybe :: _ => None
  | _ => Some (size (prefix fs) + len u)
  end.

Lemma occurs_parent t f fs u : occurs t (f :: fs) u ->
  exists v, occurs t fs v /\ ty_el v = con_el f /\ is_container v = true.
Proof.
  intros H; inversion H; subst; eexists; (split; [eassumption|split; reflexivity]).
Qed.
Lemma prefix_pos f fs : 0 < size (prefix (f :: fs)).
Proof. rewrite prefix_cons. lia. Qed.
Lemma prefix_foff f fs : size (prefix (f :: fs)) - foff (f :: fs) = size (prefix fs) /\
  foff (f :: fs) <= size (prefix (f :: fs)) /\ 0 < foff (f :: fs).
Proof. rewrite prefix_cons. cbn [foff]. lia. Qed.

Section Q.
Context (t : ty) (s : Sig) (Hs : is_sig t s).

Lemma start_node fs u : occurs t fs u ->
  exists k n, node_at s (size (prefix fs)) = Ok (Some n) /\ obs n u (node_id k) /\
    (fs <> [] -> n_offset n = foff fs /\ n_position n = fpos fs).
Proof.
  destruct Hs as [k r Hk Hr ->]. intros H. destruct (node_start k Hk t r Hr fs u H) as [n [E [R F]]].
  exists k, n. split; [exact E|]. split; [apply rootlike_obs, R|exact F].
Qed.
Lemma start_offset fs u : occurs t fs u -> offset_at (mkCursor s (size (prefix fs))) (size (prefix fs)) = Ok (Some (foff fs)).
Proof.
  intros H. unfold offset_at, mapr. cbn [c_sig]. destruct fs as [|f fs]; [reflexivity|].
  pose proof (prefix_pos f fs). rewrite (proj2 (N.eqb_neq _ _)) by lia.
  destruct (start_node _ _ H) as [k [n [E [O F]]]]. rewrite E. cbn [bind option_map].
  rewrite (proj1 (F ltac:(discriminate))). reflexivity.
Qed.

Lemma start_element fs u : occurs t fs u -> element_at (mkCursor s (size (prefix fs))) (size (prefix fs)) = Ok (Some (ty_el u)).
Proof.
  intros H. unfold element_at, mapr. cbn [c_sig]. destruct (start_node _ _ H) as [k [n [E [O _]]]].
  rewrite E. cbn [bind option_map]. rewrite (o_el _ _ _ O). reflexivity.
Qed.
Lemma element_at_sig i j x : element_at (mkCursor s i) x = element_at (mkCursor s j) x.
Proof. reflexivity. Qed.

Lemma start_length fs u : occurs t fs u -> c_length (mkCursor s (size (prefix fs))) = Ok (Some (len u)).
Proof.
  intros H. unfold c_length, length_at, mapr. cbn [c_sig c_idx]. destruct (start_node _ _ H) as [k [n [E [O _]]]].
  rewrite E. cbn [bind option_map]. rewrite (o_len _ _ _ O). reflexivity.
Qed.
Lemma start_position fs u : occurs t fs u -> c_position (mkCursor s (size (prefix fs))) = Ok (Some (fpos fs)).
Proof.
  intros H. unfold c_position, position_at, mapr. cbn [c_sig c_idx]. destruct fs as [|f fs]; [reflexivity|].
  pose proof (prefix_pos f fs). rewrite (proj2 (N.eqb_neq _ _)) by lia.
  destruct (start_node _ _ H) as [k [n [E [O F]]]]. rewrite E. cbn [bind option_map].
  rewrite (proj2 (F ltac:(discriminate))). reflexivity.
Qed.
Lemma start_flags fs u : occurs t fs u -> exists k f,
  flags_at (mkCursor s (size (prefix fs))) (size (prefix fs)) = Ok (Some f) /\
  (exists n, n_flags n = f /\ obs n u (node_id k)).
Proof.
  intros H. destruct (start_node _ _ H) as [k [n [E [O _]]]]. exists k, (n_flags n).
  unfold flags_at, mapr. cbn [c_sig]. rewrite E. split; [reflexivity|]. exists n. split; [reflexivity|exact O].
Qed.
Lemma start_dva fs u : occurs t fs u -> c_dvar_alignment_exp (mkCursor s (size (prefix fs))) = Ok (Some (dvar_align u)).
Proof.
  intros H. unfold c_dvar_alignment_exp, mapr. cbn [c_idx]. destruct (start_flags _ _ H) as [k [f [E [n [<- O]]]]].
  rewrite E. cbn [bind option_map]. rewrite (o_dva _ _ _ O). reflexivity.
Qed.
Lemma start_gva fs u : occurs t fs u -> c_gvar_alignment_exp (mkCursor s (size (prefix fs))) = Ok (Some (gvar_align u)).
Proof.
  intros H. unfold c_gvar_alignment_exp, mapr. cbn [c_idx]. destruct (start_flags _ _ H) as [k [f [E [n [<- O]]]]].
  rewrite E. cbn [bind option_map]. rewrite (o_gva _ _ _ O). reflexivity.
Qed.
Lemma start_down fs u : occurs t fs u ->
  idx_down (mkCursor s (size (prefix fs))) = Ok (if is_container u then Some (size (prefix fs) + 1) else None).
Proof.
  intros H. unfold idx_down. cbn [c_idx]. destruct (start_flags _ _ H) as [k [f [E [n [<- O]]]]].
  rewrite E. cbn [bind]. rewrite (o_open _ _ _ O). reflexivity.
Qed.
Lemma start_up fs u : occurs t fs u -> idx_up (mkCursor s (size (prefix fs))) = Ok (container_of fs).
Proof.
  intros H. unfold idx_up. cbn [c_idx]. rewrite (start_offset _ _ H). cbn [bind].
  destruct fs as [|f fs]; [reflexivity|]. destruct (prefix_foff f fs) as [A [B C]].
  rewrite (proj2 (N.ltb_lt _ _)) by exact C. unfold strict_sub. rewrite (proj2 (N.leb_le _ _)) by exact B.
  cbn [bind container_of]. rewrite A. reflexivity.
Qed.
Lemma start_step fs u : occurs t fs u -> idx_step (mkCursor s (size (prefix fs))) = Ok (step_of fs u).
Proof.
  intros H. unfold idx_step. cbn [c_idx]. rewrite (start_offset _ _ H). cbn [bind].
  destruct (start_flags _ _ H) as [k [f' [E [n [<- O]]]]]. rewrite E. cbn [unwrap bind].
  pose proof (start_length _ _ H) as L. unfold c_length in L. cbn [c_idx] in L. rewrite L. cbn [unwrap bind].
  destruct fs as [|f fs].
  - cbn [foff]. unfold strict_sub. rewrite N.leb_refl by lia. cbn [bind].
    rewrite N.sub_diag. change 0 with (size (prefix [])) at 1. rewrite (start_element [] u H). reflexivity.
  - destruct (prefix_foff f fs) as [A [B C]].
    unfold strict_sub. rewrite (proj2 (N.leb_le _ _)) by exact B. cbn [bind]. rewrite A.
    destruct (occurs_parent _ _ _ _ H) as [v [Hv [Ev _]]].
    rewrite (element_at_sig _ (size (prefix fs))), (start_element _ _ Hv). cbn [unwrap bind].
    rewrite (proj2 (N.eqb_neq _ _)) by lia. rewrite Ev, (o_close _ _ _ O). destruct f; reflexivity.
Qed.

(** At the end of a struct or dict. *)
Definition close_idx (fs : list frame) (u : ty) : N := size (prefix fs) + len u - 1.
Lemma close_at fs u : occurs t fs u -> unbound u ->
  exists nid, node_at s (close_idx fs u) = Ok (Some (close_node nid (ty_closer u) (ty_members u))).
Proof.
  destruct Hs as [k r Hk Hr ->]. intros H U. exists (node_id k). apply (node_close k Hk t r Hr fs u H U).
Qed.
Lemma unbound_len u : unbound u -> len u = 2 + lens (ty_members u).
Proof.
  destruct u; intros []; cbn [ty_members]; rewrite ?len_struct, ?len_dict, ?lens_cons; cbn [lens];
    change (len (TBasic _)) with 1; lia.
Qed.
Lemma close_nz fs u : unbound u -> close_idx fs u <> 0.
Proof. intros U. unfold close_idx. rewrite (unbound_len u U). lia. Qed.
Lemma close_offset fs u : occurs t fs u -> unbound u ->
  offset_at (mkCursor s (close_idx fs u)) (close_idx fs u) = Ok (Some (len u - 1)).
Proof.
  intros H U. unfold offset_at, mapr. cbn [c_sig]. rewrite (proj2 (N.eqb_neq _ _)) by apply close_nz, U.
  destruct (close_at _ _ H U) as [nid ->]. cbn [bind option_map close_node n_offset].
  rewrite (unbound_len u U). do 2 f_equal. lia.
Qed.
Lemma close_queries fs u : occurs t fs u -> unbound u ->
  let c := mkCursor s (close_idx fs u) in
  c_element c = Ok (Some (ty_closer u)) /\ c_length c = Ok (Some 1) /\
  c_position c = Ok (Some (size (ty_members u))) /\
  idx_up c = Ok (Some (size (prefix fs))) /\ idx_down c = Ok None /\ idx_step c = Ok None /\
  c_dvar_alignment_exp c = Ok (Some 0) /\ c_gvar_alignment_exp c = Ok (Some 0).
Proof.
  intros H U c. destruct (close_at _ _ H U) as [nid E].
  pose proof (close_offset _ _ H U) as EO. pose proof (close_nz fs u U) as NZ.
  assert (S : strict_sub (close_idx fs u) (len u - 1) = Ok (size (prefix fs))).
  { unfold strict_sub, close_idx. rewrite (unbound_len u U), (proj2 (N.leb_le _ _)) by lia. f_equal. lia. }
  assert (P : 0 < len u - 1) by (rewrite (unbound_len u U); lia).
  unfold c_element, element_at, c_length, length_at, c_position, position_at, idx_up, idx_down, idx_step,
    c_dvar_alignment_exp, c_gvar_alignment_exp, flags_at, mapr, c. cbn [c_sig c_idx].
  rewrite E, EO. cbn [bind option_map unwrap].
  rewrite (proj2 (N.eqb_neq _ _)) by exact NZ. rewrite (proj2 (N.ltb_lt _ _)) by exact P. rewrite S.
  cbn [bind unwrap]. 
  pose proof (start_element _ _ H) as EE. unfold element_at, mapr in EE. cbn [c_sig] in EE.
  unfold element_at, length_at, mapr. cbn [c_sig]. rewrite E, EE.
  cbn [bind option_map unwrap close_node n_flags n_element n_position n_length]. unfold n_element.
  cbn [n_flags f_element f_close f_open f_dvar_alignment_exp f_gvar_alignment_exp].
  rewrite (proj2 (N.eqb_neq _ _)) by lia.
  repeat split. destruct u; try destruct U; reflexivity.
Qed.

(** Past the end. *)
Lemma past_node i : len t <= i -> node_at s i = Ok None.
Proof. destruct Hs as [k r Hk Hr ->]. apply (node_past k Hk t r Hr). Qed.
Lemma past_queries i : len t <= i ->
  let c := mkCursor s i in
  c_element c = Ok None /\ c_length c = Ok None /\ c_position c = Ok None /\
  idx_up c = Ok None /\ idx_down c = Ok None /\ idx_step c = Ok None /\
  c_dvar_alignment_exp c = Ok None /\ c_gvar_alignment_exp c = Ok None /\ c_sub c = Ok None.
Proof.
  intros H c. pose proof (past_node i H) as E. pose proof (len_pos t).
  unfold c_element, element_at, c_length, length_at, c_position, position_at, idx_up, idx_down, idx_step,
    c_dvar_alignment_exp, c_gvar_alignment_exp, offset_at, flags_at, mapr, c_sub, sig_at, c. cbn [c_sig c_idx].
  rewrite E. rewrite (proj2 (N.eqb_neq _ _)) by lia. cbn [bind option_map]. repeat split.
Qed.

(** The text. *)
Lemma element_text i : exists e, element_at (mkCursor s i) i = Ok e /\
  option_map e_code e = nth_error (print t) (N.to_nat i).
Proof.
  destruct Hs as [k r Hk Hr ->]. unfold element_at, mapr. cbn [c_sig].
  rewrite (node_at_ok k Hk t r Hr). cbn [bind]. eexists. split; [reflexivity|].
  rewrite <- (codes_ns k t r Hr). clear. generalize (r :: body (node_id k) t), (N.to_nat i). clear.
  induction l as [|a l IH]; intros [|j]; cbn [nth_error map option_map]; [reflexivity..|apply IH].
Qed.

(** Moving. *)
Lemma sig_len_ok : exists m, 1 <= m /\ (s_kind s = node8 -> m = 1) /\ (s_kind s = node64 -> m = 6) /\ sig_len s = Ok (m * len t).
Proof.
  destruct Hs as [k r Hk Hr ->]. exists (size_coeff k). cbn [s_kind].
  rewrite (len_ok k Hk t r Hr), N.mul_comm.
  destruct Hk as [-> | ->]; (split; [cbn; lia|]); repeat split; discriminate.
Qed.

Lemma idx_cases i :
  len t <= i \/
  (exists fs u, occurs t fs u /\ i = size (prefix fs)) \/
  (exists fs u, occurs t fs u /\ unbound u /\ i = close_idx fs u).
Proof.
  destruct (N.le_gt_cases (len t) i) as [H|H]; [left; exact H|right].
  destruct (occ_total t i H) as [fs [u [O [E|[U E]]]]]; [left|right]; exists fs, u; repeat split; auto.
  unfold close_idx. lia.
Qed.
Lemma occ_frames_bound fs u : occurs t fs u -> size (prefix fs) < len t.
Proof. intros H. pose proof (occ_bound t fs u H). pose proof (len_pos u). lia. Qed.

(** Moves other than to the next element stay within the text. *)
Lemma move_bound i m o : i <= len t -> idx_of (mkCursor s i) m = Ok o -> m <> Next ->
  match o with Some j => j <= len t | None => True end.
Proof.
  intros Hi E Hm. destruct o as [j|]; [|exact I]. destruct m; [congruence|..]; cbn [idx_of] in E.
  - unfold idx_prev in E. cbn [c_idx] in E. destruct (0 <? i); inversion E; subst. lia.
  - destruct (idx_cases i) as [H|[[fs [u [O ->]]]|[fs [u [O [U ->]]]]]].
    + destruct (past_queries i H) as [_ [_ [_ [_ [_ [S _]]]]]]. congruence.
    + rewrite (start_step _ _ O) in E. pose proof (occ_bound t fs u O).
      assert (j = size (prefix fs) + len u) by (destruct fs as [|[] fs]; cbn [step_of] in E; congruence). lia.
    + destruct (close_queries _ _ O U) as [_ [_ [_ [_ [_ [S _]]]]]]. congruence.
  - destruct (idx_cases i) as [H|[[fs [u [O ->]]]|[fs [u [O [U ->]]]]]].
    + destruct (past_queries i H) as [_ [_ [_ [_ [S _]]]]]. congruence.
    + rewrite (start_down _ _ O) in E. pose proof (occ_bound t fs u O).
      destruct (is_container u) eqn:C; [|congruence]. assert (j = size (prefix fs) + 1) by congruence.
      pose proof (len_cont u C). lia.
    + destruct (close_queries _ _ O U) as [_ [_ [_ [_ [S _]]]]]. congruence.
  - destruct (idx_cases i) as [H|[[fs [u [O ->]]]|[fs [u [O [U ->]]]]]].
    + destruct (past_queries i H) as [_ [_ [_ [S _]]]]. congruence.
    + rewrite (start_up _ _ O) in E. destruct fs as [|f fs]; cbn [container_of] in E; [congruence|].
      assert (j = size (prefix fs)) by congruence.
      destruct (occurs_parent _ _ _ _ O) as [v [Ov _]]. pose proof (occ_frames_bound _ _ Ov). lia.
    + destruct (close_queries _ _ O U) as [_ [_ [_ [S _]]]]. pose proof (occ_frames_bound _ _ O).
      assert (j = size (prefix fs)) by congruence. lia.
Qed.
Lemma idx_of_ok i m : exists o, idx_of (mkCursor s i) m = Ok o.
Proof.
  destruct m; cbn [idx_of].
  - unfold idx_next. cbn [c_sig]. destruct sig_len_ok as [m [_ [_ [_ ->]]]]. cbn [bind]. eexists. reflexivity.
  - eexists. reflexivity.
  - destruct (idx_cases i) as [H|[[fs [u [O ->]]]|[fs [u [O [U ->]]]]]].
    + destruct (past_queries i H) as [_ [_ [_ [_ [_ [S _]]]]]]. eexists. exact S.
    + eexists. apply (start_step _ _ O).
    + destruct (close_queries _ _ O U) as [_ [_ [_ [_ [_ [S _]]]]]]. eexists. exact S.
  - destruct (idx_cases i) as [H|[[fs [u [O ->]]]|[fs [u [O [U ->]]]]]].
    + destruct (past_queries i H) as [_ [_ [_ [_ [S _]]]]]. eexists. exact S.
    + eexists. apply (start_down _ _ O).
    + destruct (close_queries _ _ O U) as [_ [_ [_ [_ [S _]]]]]. eexists. exact S.
  - destruct (idx_cases i) as [H|[[fs [u [O ->]]]|[fs [u [O [U ->]]]]]].
    + destruct (past_queries i H) as [_ [_ [_ [S _]]]]. eexists. exact S.
    + eexists. apply (start_up _ _ O).
    + destruct (close_queries _ _ O U) as [_ [_ [_ [S _]]]]. eexists. exact S.
Qed.
(** No sequence of moves panics, from any index, and none leads past the end
    that the signature claims. *)
Lemma moves_ok ms : forall i, exists j, do_moves (mkCursor s i) ms = Ok (mkCursor s j) /\
  (forall l, sig_len s = Ok l -> i <= l -> j <= l) /\
  (i <= len t -> (s_kind s = node8 \/ ~ In Next ms) -> j <= len t).
Proof.
  induction ms as [|m ms IH]; intros i; cbn [do_moves].
  - exists i. split; [reflexivity|]. split; auto.
  - destruct (idx_of_ok i m) as [o E]. unfold do_move. rewrite E. cbn [bind].
    destruct sig_len_ok as [c [C1 [C8 [C64 EL]]]].
    assert (B : (forall l, sig_len s = Ok l -> i <= l -> match o with Some j => j <= l | None => True end) /\
                (i <= len t -> s_kind s = node8 \/ m <> Next -> match o with Some j => j <= len t | None => True end)).
    { destruct m; cbn [idx_of] in E.
      - unfold idx_next in E. cbn [c_sig c_idx] in E. rewrite EL in E. cbn [bind] in E.
        assert (Eo : o = if i <? c * len t then Some (i + 1) else None) by congruence. subst o.
        destruct (N.ltb_spec i (c * len t)) as [L|L]; [|split; auto]. split.
        + intros l El Hl. assert (l = c * len t) by congruence. lia.
        + intros Hi [H8|Hn]; [|congruence]. rewrite (C8 H8) in L. lia.
      - unfold idx_prev in E. cbn [c_idx] in E. destruct (0 <? i); inversion E; subst; (split; [intros; lia || exact I|intros; lia || exact I]).
      - split.
        + intros l El Hl. destruct (N.le_gt_cases i (len t)) as [L|L].
          * pose proof (move_bound i Step o L E ltac:(discriminate)) as B. destruct o; [|exact I].
            assert (l = c * len t) by congruence. nia.
          * destruct (past_queries i ltac:(lia)) as [_ [_ [_ [_ [_ [S _]]]]]].
            assert (o = None) by congruence. subst. exact I.
        + intros Hi _. apply (move_bound i Step o Hi E ltac:(discriminate)).
      - split.
        + intros l El Hl. destruct (N.le_gt_cases i (len t)) as [L|L].
          * pose proof (move_bound i Down o L E ltac:(discriminate)) as B. destruct o; [|exact I].
            assert (l = c * len t) by congruence. nia.
          * destruct (past_queries i ltac:(lia)) as [_ [_ [_ [_ [S _]]]]].
            assert (o = None) by congruence. subst. exact I.
        + intros Hi _. apply (move_bound i Down o Hi E ltac:(discriminate)).
      - split.
        + intros l El Hl. destruct (N.le_gt_cases i (len t)) as [L|L].
          * pose proof (move_bound i Up o L E ltac:(discriminate)) as B. destruct o; [|exact I].
            assert (l = c * len t) by congruence. nia.
          * destruct (past_queries i ltac:(lia)) as [_ [_ [_ [S _]]]].
            assert (o = None) by congruence. subst. exact I.
        + intros Hi _. apply (move_bound i Up o Hi E ltac:(discriminate)). }
    destruct B as [B1 B2]. destruct o as [j|]; cbn [maybe_move]; unfold move_to; cbn [c_sig].
    + destruct (IH j) as [j' [E' [F1 F2]]]. exists j'. split; [exact E'|]. split.
      * intros l El Hl. apply (F1 l El). apply (B1 l El Hl).
      * intros Hi Hn. apply F2; [apply B2; [exact Hi|]|]; (destruct Hn as [Hn|Hn]; [left; exact Hn|right]).
        -- intros ->. apply Hn. left. reflexivity.
        -- intros HI. apply Hn. right. exact HI.
    + destruct (IH i) as [j' [E' [F1 F2]]]. exists j'. split; [exact E'|]. split; [exact F1|].
      intros Hi Hn. apply F2; [exact Hi|]. destruct Hn as [Hn|Hn]; [left; exact Hn|right].
      intros HI. apply Hn. right. exact HI.
Qed.
End Q.

(** Two signatures of the same type cannot be told apart by the queries. *)
Lemma element_same t s1 s2 i j x : is_sig t s1 -> is_sig t s2 ->
  element_at (mkCursor s1 i) x = element_at (mkCursor s2 j) x.
Proof.
  intros H1 H2. rewrite (element_at_sig s1 i x), (element_at_sig s2 j x).
  destruct (idx_cases t x) as [H|[[fs [u [O ->]]]|[fs [u [O [U ->]]]]]].
  - destruct (past_queries t s1 H1 x H) as [A _], (past_queries t s2 H2 x H) as [B _].
    unfold c_element in A, B. cbn [c_idx] in A, B. congruence.
  - rewrite (start_element t s1 H1 _ _ O), (start_element t s2 H2 _ _ O). reflexivity.
  - destruct (close_queries t s1 H1 _ _ O U) as [A _], (close_queries t s2 H2 _ _ O U) as [B _].
    unfold c_element in A, B. cbn [c_idx] in A, B. congruence.
Qed.
Lemma is_sig_same t s1 s2 : is_sig t s1 -> is_sig t s2 -> same_queries s1 s2.
Proof.
  intros H1 H2 i c1 c2.
  assert (EU : idx_up c1 = idx_up c2 /\ idx_down c1 = idx_down c2 /\ idx_step c1 = idx_step c2 /\
    c_length c1 = c_length c2 /\ c_position c1 = c_position c2 /\
    c_dvar_alignment_exp c1 = c_dvar_alignment_exp c2 /\ c_gvar_alignment_exp c1 = c_gvar_alignment_exp c2).
  { unfold c1, c2. destruct (idx_cases t i) as [H|[[fs [u [O ->]]]|[fs [u [O [U ->]]]]]].
    - destruct (past_queries t s1 H1 i H) as [A1 [A2 [A3 [A4 [A5 [A6 [A7 [A8 A9]]]]]]]].
      destruct (past_queries t s2 H2 i H) as [B1 [B2 [B3 [B4 [B5 [B6 [B7 [B8 B9]]]]]]]].
      repeat split; congruence.
    - rewrite (start_up t s1 H1 _ _ O), (start_down t s1 H1 _ _ O), (start_step t s1 H1 _ _ O),
        (start_length t s1 H1 _ _ O), (start_position t s1 H1 _ _ O), (start_dva t s1 H1 _ _ O), (start_gva t s1 H1 _ _ O).
      rewrite (start_up t s2 H2 _ _ O), (start_down t s2 H2 _ _ O), (start_step t s2 H2 _ _ O),
        (start_length t s2 H2 _ _ O), (start_position t s2 H2 _ _ O), (start_dva t s2 H2 _ _ O), (start_gva t s2 H2 _ _ O).
      repeat split.
    - destruct (close_queries t s1 H1 _ _ O U) as [A1 [A2 [A3 [A4 [A5 [A6 [A7 A8]]]]]]].
      destruct (close_queries t s2 H2 _ _ O U) as [B1 [B2 [B3 [B4 [B5 [B6 [B7 B8]]]]]]].
      repeat split; congruence. }
  destruct EU as [E1 [E2 [E3 [E4 [E5 [E6 E7]]]]]].
  split; [apply (element_same t); assumption|]. do 5 (split; [assumption|]).
  split; [|split; [|split; assumption]].
  - unfold c_up. rewrite E1. destruct (idx_up c2) as [[x|]| |]; try reflexivity. cbn [bind].
    apply (element_same t); assumption.
  - unfold c_down. rewrite E2. destruct (idx_down c2) as [[x|]| |]; try reflexivity. cbn [bind].
    apply (element_same t); assumption.
Qed.
